(** Fields, messages and the whole input. *)
Require Import Verif.Bits Verif.Varint Verif.DynSlots Verif.Dyn Verif.Schema Verif.Archive Verif.Decode Verif.Encode Verif.DynWire.
Require Import Verif.DynSlotsProofs Verif.DecodeSafe Verif.WellTyped Verif.DynView Verif.DynEncode1 Verif.DynDecode Verif.DynDecode1 Verif.DynAgree Verif.DynDecode2.

Lemma Forall2_nth_l {A B} (R : A -> B -> Prop) l l' : Forall2 R l l' -> forall i x, nth_error l i = Some x -> exists y, nth_error l' i = Some y /\ R x y.
Proof. induction 1 as [|a b l l' H _ IH]; intros [|i] x Hx; try discriminate; [injection Hx as <-; exists b; split; [reflexivity|exact H]|apply IH; exact Hx]. Qed.
Lemma Forall2_intro_nth {A B} (R : A -> B -> Prop) l : forall l', length l = length l' -> (forall i x y, nth_error l i = Some x -> nth_error l' i = Some y -> R x y) -> Forall2 R l l'.
Proof.
  induction l as [|a l IH]; intros [|b l'] Hl H; try discriminate; [constructor|]. constructor; [apply (H O); reflexivity|]. apply IH; [injection Hl as Hl; exact Hl|]. intros i x y Hx Hy. apply (H (S i)); assumption.
Qed.
Lemma Forall2_len {A B} (R : A -> B -> Prop) l l' : Forall2 R l l' -> length l = length l'.
Proof. induction 1; cbn; congruence. Qed.
Lemma Forall2_nth_both {A B} (R : A -> B -> Prop) l l' : Forall2 R l l' -> forall i x y, nth_error l i = Some x -> nth_error l' i = Some y -> R x y.
Proof. intros H i x y Hx Hy. destruct (Forall2_nth_l _ _ _ H _ _ Hx) as (y' & Hy' & K). congruence. Qed.

Section Sim.
  Context (W : list wtype) (utf8_ok : bytes -> bool) (maxd : Z).
  Notation E := (env_of W).
  Hypothesis HW : wtypes_ok W.
  Hypothesis Hread : readable W.
  Hypothesis Hutf8 : utf8_ok [] = true.

  Lemma wty_readable ty : readable_type W (wty W ty).
  Proof.
    unfold wty. destruct (nth_in_or_default ty W (WType [] 0 false)) as [K| ->].
    - unfold readable in Hread. rewrite Forall_forall in Hread. auto.
    - split; [constructor|discriminate].
  Qed.
  Lemma field_facts ty f l : In (f, l) (w_fields (wty W ty)) ->
    wfield_ok f /\ (forall o, w_oneof f = Some o -> w_rep f = None) /\ (l_slot l < w_slots (wty W ty))%nat /\ (w_rep f = None -> 1 <= l_ordinal l) /\ readable_field W f.
  Proof.
    intros Hin. destruct (wtype_layout _ (wty_ok W ty HW)) as [_ H]. rewrite Forall_forall in H. destruct (H _ Hin) as (A & B & C & D). cbn [fst snd] in *.
    destruct (wty_readable ty) as [R _]. rewrite Forall_forall in R. specialize (R _ Hin). auto.
  Qed.
  Lemma member_in ty b x : In b (members_of (w_fields (wty W ty))) -> In x (mfields b) -> In x (w_fields (wty W ty)).
  Proof. intros Hb Hx. rewrite <- (members_fields (w_fields (wty W ty))). apply in_flat_map. eauto. Qed.

  (** ** New messages *)
  Lemma default_self f : wfield_ok f -> w_rep f = None -> w_explicit f = false -> is_default (w_elem f) (w_default f) (w_default f) = true.
  Proof.
    intros (_ & _ & Hm & Hd) Hr Hx. destruct (Hd Hx) as [Hi Hb]. unfold w_default. rewrite Hi, Hb. destruct (w_elem f) as [t| |[] []|c|u vw|ty d] eqn:He; try reflexivity. specialize (Hm _ _ eq_refl Hr). congruence.
  Qed.
  Lemma zero_at n l : slot_at (repeat zero_slot n) l = zero_slot.
  Proof. unfold slot_at. destruct (Nat.lt_ge_cases (l_slot l) n) as [H|H]; [apply nth_repeat|rewrite nth_overflow; [reflexivity|rewrite repeat_length; lia]]. Qed.
  Lemma new_agree ty : agree W ty (new_slots W ty) (default_msg E ty).
  Proof.
    unfold default_msg. constructor; [apply repeat_length|]. rewrite desc_env. cbn [m_fields desc_of_wtype]. rewrite map_map.
    assert (H : forall b, In b (members_of (w_fields (wty W ty))) -> same_member W (agree W) (new_slots W ty) b (field_default (member_field b))).
    { intros b Hb. destruct b as [f l|o g].
      - apply SmOne. unfold new_slots. rewrite zero_at. destruct (field_facts ty f l (member_in _ _ _ Hb (or_introl eq_refl))) as (Hf & _ & _ & Ho & _). cbn [member_field field_default].
        destruct (w_rep f) as [p|] eqn:Hr.
        + destruct (w_elem f) as [t| |is64 fl|c|u vw|ty' d] eqn:He;
            try (eapply SoScalars; [exact Hr|rewrite He; reflexivity| |reflexivity|apply Forall_nil]; unfold several, value, dyn_of, is_rep; cbn [y_kind]; rewrite Hr, He; reflexivity).
          eapply (SoMsgs _ _ _ _ _ _ _ _ []); [exact Hr|exact He| |reflexivity|apply Forall2_nil]. unfold value, dyn_of, is_rep. cbn [y_kind]. rewrite Hr, He. reflexivity.
        + assert (Hz : has_value (dyn_of f) l zero_slot = false) by (apply has_cleared; auto). destruct (w_explicit f) eqn:Hx; [apply SoAbsent; auto|]. apply SoDefault; auto. apply default_self; auto.
      - apply SmNone. intros f l Hin. unfold new_slots. rewrite zero_at. destruct (field_facts ty f l (member_in _ _ _ Hb Hin)) as (_ & Hr & _ & Ho & _).
        pose proof (members_wf (w_fields (wty W ty))) as Hw. rewrite Forall_forall in Hw. specialize (Hw _ Hb). destruct Hw as [_ Hw]. rewrite Forall_forall in Hw. specialize (Hw _ Hin). cbn in Hw. specialize (Hr _ Hw). apply has_cleared; auto. }
    revert H. generalize (members_of (w_fields (wty W ty))) as ms. induction ms as [|b ms IH]; intros H; cbn [map]; constructor; [apply H; left; reflexivity|apply IH; intros; apply H; right; assumption].
  Qed.

  (** ** Messages *)
  Section Rec.
    Variables (f : nat) (drec : @drecT zip) (rec : @recT zip).
    Definition Rm (ty : nat) (x : list slot * zip) (y : val * zip) : Prop := snd x = snd y /\ agree W ty (fst x) (fst y).
    Hypothesis Hrec : forall mode ty m vs depth z, (length (za z) < f)%nat -> agree W ty m (VMsg vs []) -> simr (Rm ty) (drec mode ty m depth z) (rec mode ty vs [] depth z).
    Hypothesis Hsafe : rec_safe f rec.

    Lemma agree_shape ty m v : agree W ty m v -> v = VMsg (msg_fields v) [] /\ msg_unk v = [].
    Proof. intros H. destruct H. split; reflexivity. Qed.
    Lemma dmsg_sim ty m v depth z : agree W ty m v -> (length (za z) < f)%nat -> simr (Rm ty) (ddec_msg maxd drec ty m depth z) (dec_msg zops E maxd rec ty v depth z).
    Proof.
      intros Ha Hz. unfold ddec_msg, dec_msg. destruct (scope_ok maxd depth); cbn [negb]; [|cbn; eauto]. rewrite desc_env. cbn [m_entry desc_of_wtype andb bind].
      destruct (agree_shape _ _ _ Ha) as [Hv ->]. apply Hrec; [exact Hz|]. rewrite <- Hv. exact Ha.
    Qed.
    Lemma dsized_sim ty m v depth z : agree W ty m v -> (length (za z) < f)%nat -> simr (Rm ty) (ddec_sized zops maxd drec ty m depth z) (dec_sized zops E maxd rec ty v depth z).
    Proof.
      intros Ha Hz. unfold ddec_sized, dec_sized. rewrite desc_env. cbn [m_entry desc_of_wtype]. pose proof (z_varint_safe VU32 z) as Hv. cbn [a_varint zops]. destruct (z_varint VU32 z) as [[len z1]|err| | |]; cbn in Hv; try contradiction; cbn [bind]; [|cbn; eauto].
      rewrite andb_false_r. destruct Hv as [Hs Hl]. destruct (len <? a_avail zops z1).
      - cbn [a_split zops]. unfold z_split. eapply simr_bind; [apply dmsg_sim; [exact Ha|cbn [za]; rewrite firstn_length; lia]|]. intros [m' z'] [v' z''] [_ H]. cbn in *. eexists. split; [reflexivity|]. split; auto.
      - destruct (len =? a_avail zops z1); [|cbn; eauto]. apply dmsg_sim; [exact Ha|lia].
    Qed.
    Definition Re (ty : nat) (x : list slot * zip) (y : val * zip) : Prop := snd x = snd y /\ exists m0, agree W ty m0 (fst y) /\ complete W ty m0 = Ok (fst x).
    Lemma complete_ok ty m : exists m', complete W ty m = Ok m'.
    Proof. unfold complete. destruct (wty_readable ty) as [_ H]. destruct (w_entry (wty W ty)); [|eauto]. destruct (H eq_refl) as (f0 & l & -> & _). eauto. Qed.
    Lemma complete_plain ty m : w_entry (wty W ty) = false -> complete W ty m = Ok m.
    Proof. unfold complete. intros ->. reflexivity. Qed.
    Lemma dmessage_sim ty delim m v tag depth z : agree W ty m v -> (length (za z) < f)%nat -> (w_entry (wty W ty) = true -> delim = false) ->
      simr (Re ty) (ddec_message zops W maxd drec ty delim m tag depth z) (dec_message zops E maxd rec ty delim v tag depth z).
    Proof.
      intros Ha Hz He. unfold ddec_message, dec_message. destruct delim; cbn [negb andb].
      - destruct (tag_type tag =? WT_SGROUP) eqn:Ht; cbn [negb]; [|cbn; eauto]. unfold ddec_group, dec_group. destruct (scope_ok maxd depth); [|cbn; eauto].
        destruct (agree_shape _ _ _ Ha) as [Hv ->]. eapply simr_weaken; [apply Hrec; [exact Hz|rewrite <- Hv; exact Ha]|]. intros [m' z'] [v' z''] [H1 H2]. split; [exact H1|]. exists m'. split; [exact H2|].
        cbn [fst]. apply complete_plain. destruct (w_entry (wty W ty)); [specialize (He eq_refl); discriminate|reflexivity].
      - destruct (tag_type tag =? WT_LEN) eqn:Ht; cbn [negb]; [|cbn; eauto].
        pose proof (dsized_sim ty m v depth z Ha Hz) as H. destruct (dec_sized zops E maxd rec ty v depth z) as [[v' z']|err| | |]; cbn in H |- *; try exact I.
        + destruct H as ([m' z1] & -> & H1 & H2). cbn [bind]. destruct (complete_ok ty m') as [m2 Hm2]. rewrite Hm2. cbn [bind]. eexists. split; [reflexivity|]. split; [exact H1|]. exists m'. split; [exact H2|exact Hm2].
        + destruct H as [e' ->]. cbn. eauto.
    Qed.

    (** ** A field of its own *)
    Definition Rf (fl : wfield) (l : layout) (x : slot * zip) (y : list val * list (Z * bytes) * zip) : Prop := exists vs, y = (vs, [], snd x) /\ same_one W (agree W) fl l (fst x) vs.
    Lemma value_scalar e v tag depth z : scalar e = true -> dec_value zops E utf8_ok maxd rec e v tag depth z = dec_scalar zops utf8_ok e tag z.
    Proof. destruct e; try discriminate; reflexivity. Qed.
    Lemma num_wt e : packable e = true -> elem_wt e =? WT_LEN = false.
    Proof. destruct e as [| |[] |  | |]; try discriminate; reflexivity. Qed.

    Lemma done_message_sim fl ty delim tag depth cur cur' z : w_elem fl = EMsg ty delim -> readable_field W fl -> (length (za z) < f)%nat ->
      Forall2 (fun m v => exists m0, agree W ty m0 v /\ complete W ty m0 = Ok m) cur cur' ->
      simr (fun x y => exists vs, y = (vs, [], snd x) /\ Forall2 (fun m v => exists m0, agree W ty m0 v /\ complete W ty m0 = Ok m) (fst x) vs /\ suf z (snd x))
        (done_message zops W maxd drec ty delim tag depth cur z) (dec_one zops E utf8_ok maxd rec UNone (EMsg ty delim) tag depth cur' [] z).
    Proof.
      intros He Hr Hz HI. assert (Hd : w_entry (wty W ty) = true -> delim = false) by (intros K; destruct Hr as [_ Hr]; apply (Hr _ _ He K)).
      unfold done_message, dec_one. cbn [elem_default]. pose proof (dmessage_sim ty delim _ _ tag depth z (new_agree ty) Hz Hd) as H.
      pose proof (dec_value_safe E utf8_ok maxd f rec Hsafe (EMsg ty delim) (default_msg E ty) tag depth z Hz) as Hs. cbn [dec_value] in Hs |- *.
      destruct (dec_message zops E maxd rec ty delim (default_msg E ty) tag depth z) as [[v z1]|err| | |]; cbn in H, Hs |- *; try exact I.
      - destruct H as ([m z2] & -> & H1 & H2). cbn in H1, H2 |- *. subst z2. eexists. split; [reflexivity|]. exists (cur' ++ [v]). split; [reflexivity|]. split; [|exact Hs]. cbn. apply Forall2_app; [exact HI|]. constructor; [exact H2|constructor].
      - destruct H as [e' ->]. cbn. eauto.
    Qed.

    Lemma dfield_sim fl l s cur tag depth z : wfield_ok fl -> (w_rep fl = None -> 1 <= l_ordinal l) -> readable_field W fl -> same_one W (agree W) fl l s cur -> (length (za z) < f)%nat ->
      simr (Rf fl l) (ddec_field zops W utf8_ok maxd drec f fl l tag depth s z) (dec_field zops E utf8_ok maxd rec f UNone (member_field (MOne fl l)) tag depth cur [] z).
    Proof.
      intros Hf Ho Hr Hs Hz. destruct (w_rep fl) as [p|] eqn:Hp.
      - (* repeated *)
        cbn [member_field]. rewrite Hp. unfold dec_field.
        destruct (scalar (w_elem fl)) eqn:Hsc.
        + assert (Hsev : several fl l s = Ok cur /\ scal_inv (w_elem fl) cur).
          { inversion Hs as [? ? ?|? ? ? ? ?|? ? ? ?|p' vs H1 H2 H3 H0 H4|p' ty d ms vs H1 H2 H3 H0 H4]; subst; try congruence; [|rewrite H2 in Hsc; discriminate]. split; [exact H3|]. split; [eapply several_kind; eauto|exact H4]. }
          destruct Hsev as [Hsev Hinv].
          assert (Fin : forall d g, simr (same_list (w_elem fl)) d g -> simr (Rf fl l) ('(ws, a1) <- d ;; Ok (elems_slot (w_elem fl) ws, a1)) g).
          { intros d g H. destruct g as [[[vs u] z']|err| | |]; cbn in H |- *; auto.
            - destruct H as ([ws z1] & -> & H1 & H2). injection H1 as -> -> ->. cbn. eexists. split; [reflexivity|]. exists ws. split; [reflexivity|]. destruct H2 as [K1 K2]. cbn [fst] in *. eapply SoScalars; [exact Hp|exact Hsc|eapply elems_several; eauto|reflexivity|exact K2].
            - destruct H as [e' ->]. cbn. eauto. }
          destruct (packable (w_elem fl)) eqn:Hpk; cbn [andb].
          * assert (Hd : ddec_field zops W utf8_ok maxd drec f fl l tag depth s z =
              ('(ws, a1) <- (if tag_type tag =? elem_wt (w_elem fl) then dunpacked zops maxd (done_scalar zops utf8_ok (w_elem fl) tag) f tag depth cur z
                 else if tag_type tag =? WT_LEN then dpacked zops (w_elem fl) cur z else Err BadMessage) ;; Ok (elems_slot (w_elem fl) ws, a1))).
            { unfold ddec_field. rewrite Hp, Hsev. destruct (w_elem fl); try discriminate Hpk; reflexivity. }
            rewrite Hd. apply Fin. pose proof (num_wt _ Hpk) as Hw. destruct (tag_type tag =? WT_LEN) eqn:Hl.
            -- apply Z.eqb_eq in Hl. rewrite Hl, Z.eqb_sym, Hw. apply dpacked_sim; auto.
            -- destruct (tag_type tag =? elem_wt (w_elem fl)) eqn:Ht; [apply dunpacked_sim; auto|]. unfold dec_unpacked. rewrite Ht. cbn. eauto.
          * destruct (w_elem fl) as [t| |is64 fl'|c|u vw|ty d] eqn:He; try discriminate Hpk; [|discriminate Hsc].
            assert (Hd : ddec_field zops W utf8_ok maxd drec f fl l tag depth s z = ('(ws, a1) <- dunpacked zops maxd (done_scalar zops utf8_ok (EBytes u vw) tag) f tag depth cur z ;; Ok (elems_slot (EBytes u vw) ws, a1))).
            { unfold ddec_field. rewrite Hp, He, Hsev. reflexivity. }
            rewrite Hd. apply Fin. destruct (tag_type tag =? elem_wt (EBytes u vw)) eqn:Ht; [apply dunpacked_sim; auto|].
            unfold dec_unpacked. rewrite Ht. cbn [negb simr]. eapply dunpacked_wrong; [exact Hz|]. unfold done_scalar, ddec_scalar. cbn [elem_wt] in Ht. rewrite Ht. reflexivity.
        + destruct (w_elem fl) as [t| |is64 fl'|c|u vw|ty d] eqn:He; try discriminate Hsc. cbn [packable andb].
          inversion Hs as [? ? ?|? ? ? ? ?|? ? ? ?|p' vs H1 H2 H3 H0 H4|p' ty' d' ms vs H1 H2 H3 H0 H4]; subst; try congruence; try (rewrite He in H2; discriminate H2). rewrite He in H2. injection H2 as <- <-.
          unfold ddec_field. rewrite He, Hp, H3.
          assert (Fin : forall x g, simr (fun x y => exists vs, y = (vs, [], snd x) /\ Forall2 (fun m v => exists m0, agree W ty m0 v /\ complete W ty m0 = Ok m) (fst x) vs) x g ->
             simr (Rf fl l) ('(y, a1) <- x ;; Ok ((zlen y, CMsgs y), a1)) g).
          { intros x g H. destruct g as [[[vs u] z']|err| | |]; cbn in H |- *; auto.
            - destruct H as ([ws z1] & -> & vs' & H5 & H6). injection H5 as -> -> ->. cbn in H6 |- *. eexists. split; [reflexivity|]. exists vs'. split; [reflexivity|]. cbn [fst]. eapply SoMsgs; [exact Hp|exact He| |reflexivity|exact H6].
              unfold value, dyn_of, is_rep. cbn [y_kind fst snd]. rewrite Hp, He. cbn [kind_of]. unfold zlen. destruct ws as [|w ws]; [reflexivity|]. cbn [length]. destruct (Z.eqb_spec (Z.of_nat (S (length ws))) 0); [lia|]. rewrite Nat2Z.id. change (S (length ws)) with (length (w :: ws)). rewrite firstn_all. reflexivity.
            - destruct H as [e' ->]. cbn. eauto. }
          apply Fin. unfold dec_unpacked. destruct (tag_type tag =? elem_wt (EMsg ty d)) eqn:Ht; cbn [negb].
          * unfold dunpacked. destruct (count_loop zops maxd f f depth tag z) as [n|err| | |]; cbn [bind]; try exact I; [|cbn; eauto].
            refine (delems_sim utf8_ok (Forall2 (fun m v => exists m0, agree W ty m0 v /\ complete W ty m0 = Ok m)) f _ _ n _ _ _ _ Hz H4). intros c c' x Hx HI. eapply done_message_sim; eauto.
          * cbn [simr]. eapply dunpacked_wrong; [exact Hz|]. unfold done_message, ddec_message. cbn [elem_wt] in Ht. destruct d; cbn [negb andb]; rewrite Ht; reflexivity.
      - (* singular *)
        cbn [member_field]. rewrite Hp. specialize (Ho eq_refl). destruct (scalar (w_elem fl)) eqn:Hsc.
        + assert (Hd : ddec_field zops W utf8_ok maxd drec f fl l tag depth s z = ('(v, a1) <- ddec_scalar zops utf8_ok (w_elem fl) tag z ;; Ok (if valid (w_elem fl) v then store fl l v s else s, a1))).
          { unfold ddec_field. rewrite Hp. destruct (w_elem fl); try reflexivity; discriminate. }
          rewrite Hd, ddec_scalar_eq by assumption. clear Hd.
          destruct (dec_scalar zops utf8_ok (w_elem fl) tag z) as [[v z1]|err| | |] eqn:D.
          2: { destruct (w_explicit fl); unfold dec_field; rewrite value_scalar, D by exact Hsc; cbn; eauto. }
          2-4: destruct (w_explicit fl); unfold dec_field; rewrite value_scalar, D by exact Hsc; exact I.
          cbn [bind]. pose proof (enum_val_kind _ _ (dec_scalar_kind _ _ _ _ _ _ D)) as Kv.
          assert (St : simr (Rf fl l) (Ok (store fl l (enum_val (w_elem fl) v) s, z1)) (Ok ([enum_val (w_elem fl) v], [], z1))).
          { eexists. split; [reflexivity|]. eexists. split; [reflexivity|]. apply store_same; auto. }
          destruct (elem_closed (w_elem fl)) eqn:Hc.
          * destruct Hr as [Hr _]. destruct (Hr Hc) as [_ Hx]. rewrite (Hx Hp). unfold dec_field. rewrite value_scalar, D by exact Hsc. cbn [bind].
            destruct (w_elem fl) as [t| |is64 fl'|[c|]|u vw|ty d] eqn:He; try discriminate Hc.
            assert (Hev : enum_val (EEnum (Some c)) v = VInt (to_enum (int_of v))) by (destruct v; cbn in Kv; try contradiction; reflexivity).
            replace (valid (EEnum (Some c)) (enum_val (EEnum (Some c)) v)) with (enum_valid (Some c) (to_enum (int_of v))) by (rewrite Hev; reflexivity).
            destruct (enum_valid (Some c) (to_enum (int_of v))); [exact St|]. rewrite unknown_none. cbn. eexists. split; [reflexivity|]. eexists. split; [reflexivity|]. exact Hs.
          * replace (valid (w_elem fl) (enum_val (w_elem fl) v)) with true by (destruct (w_elem fl) as [| | |[|]| |]; try reflexivity; discriminate Hc).
            destruct (w_explicit fl); unfold dec_field; rewrite value_scalar, D by exact Hsc; cbn [bind]; destruct (w_elem fl) as [| | |[|]| |]; try exact St; discriminate Hc.
        + destruct (w_elem fl) as [t| |is64 fl'|c|u vw|ty d] eqn:He; try discriminate Hsc.
          assert (Hx : w_explicit fl = true) by (destruct Hf as (_ & _ & Hm & _); apply (Hm _ _ He Hp)). rewrite Hx. unfold dec_field, ddec_field. rewrite He, Hp. cbn [dec_value].
          assert (Hne : w_entry (wty W ty) = false) by (destruct (w_entry (wty W ty)) eqn:K; [|reflexivity]; destruct Hr as [_ Hr]; destruct (Hr _ _ He K); congruence).
          assert (Hst : exists m, (if has_value (dyn_of fl) l s then match value (dyn_of fl) l s with FMsg m => Ok m | _ => UB end else Ok (new_slots W ty)) = Ok m /\ agree W ty m (start_val E (EMsg ty d) cur)).
          { inversion Hs as [H1 H2 H3|v H1 H2 H3 H4|v H1 H2 H3|p' vs H1 H2 H3 H0 H4|p' ty' d' ms vs H1 H2 H3 H0 H4]; subst; try congruence.
            - rewrite H2. eexists. split; [reflexivity|]. apply new_agree.
            - rewrite H2. destruct H3 as [v K1 K2|ty' d' m v K1 K2 K3]; [rewrite He in K1; discriminate|]. rewrite He in K1. injection K1 as <- <-. rewrite K2. eexists. split; [reflexivity|]. exact K3. }
          destruct Hst as (m & -> & Ha). cbn [bind]. pose proof (dmessage_sim ty d m _ tag depth z Ha Hz (fun K => ltac:(congruence))) as H.
          destruct (dec_message zops E maxd rec ty d (start_val E (EMsg ty d) cur) tag depth z) as [[v z1]|err| | |]; cbn in H |- *; try exact I; [|destruct H as [e' ->]; cbn; eauto].
          destruct H as ([m1 z2] & -> & H1 & m0 & H2 & H3). cbn in H1, H2, H3 |- *. subst z2. rewrite complete_plain in H3 by exact Hne. injection H3 as ->. eexists. split; [reflexivity|]. eexists. split; [reflexivity|]. cbn [fst].
          apply SoHeld; [exact Hp|apply has_stored; exact Hp|]. eapply HeldMsg; [exact He| |exact H2]. unfold value. rewrite has_stored by exact Hp. unfold dyn_of, is_rep. cbn [y_kind snd]. rewrite Hp, He. reflexivity.
    Qed.
  End Rec.
End Sim.
