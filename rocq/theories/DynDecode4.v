(** Alternatives of oneofs, unknown fields and the decoding loop. *)
Require Import Verif.Bits Verif.Varint Verif.DynSlots Verif.Dyn Verif.Schema Verif.Archive Verif.Decode Verif.Encode Verif.DynWire.
Require Import Verif.DynSlotsProofs Verif.DecodeSafe Verif.WellTyped Verif.DynView Verif.DynEncode1 Verif.DynDecode Verif.DynDecode1 Verif.DynAgree Verif.DynDecode2 Verif.DynDecode3.

Section Sim.
  Context (W : list wtype) (utf8_ok : bytes -> bool) (maxd : Z).
  Notation E := (env_of W).
  Hypothesis HW : wtypes_ok W.
  Hypothesis Hread : readable W.
  Hypothesis Hutf8 : utf8_ok [] = true.

  Lemma same_member_ext rec m m' b vs : (forall x, In x (mfields b) -> slot_at m' (snd x) = slot_at m (snd x)) -> same_member W rec m b vs -> same_member W rec m' b vs.
  Proof.
    intros H K. destruct K as [f l vs K|o g K|o g i f l v K1 K2 K3].
    - assert (Hs : slot_at m' l = slot_at m l) by (apply (H (f, l)); left; reflexivity). apply SmOne. rewrite Hs. exact K.
    - apply SmNone. intros f l Hin. assert (Hs : slot_at m' l = slot_at m l) by (apply (H (f, l)); exact Hin). rewrite Hs. eauto.
    - assert (Hs : slot_at m' l = slot_at m l) by (apply (H (f, l)); eapply nth_error_In; eauto). eapply SmAlt; [exact K1|rewrite Hs; exact K2|rewrite Hs; exact K3].
  Qed.
  (** A member and its slot are replaced. *)
  Lemma agree_put ty m vs j b f l s cur : agree W ty m (VMsg vs []) -> nth_error (members_of (w_fields (wty W ty))) j = Some b -> In (f, l) (mfields b) ->
    same_member W (agree W) (put m (l_slot l) s) b cur -> agree W ty (put m (l_slot l) s) (VMsg (set_nth j cur vs) []).
  Proof.
    intros Ha Hj Hin Hnew. inversion Ha as [? ? ? Hlen Hms]; subst. pose proof (Forall2_len _ _ _ Hms) as Hl. assert (Hjl : (j < length vs)%nat) by (rewrite <- Hl; apply nth_error_Some; congruence).
    constructor; [rewrite put_length; exact Hlen|]. apply Forall2_intro_nth; [rewrite set_nth_len by exact Hjl; exact Hl|]. intros i b' c Hi Hc. rewrite set_nth_at in Hc by exact Hjl. destruct (Nat.eqb_spec i j) as [->|Hne].
    - injection Hc as <-. rewrite Hj in Hi. injection Hi as <-. exact Hnew.
    - eapply same_member_ext; [|exact (Forall2_nth_both _ _ _ Hms _ _ _ Hi Hc)]. intros x Hx. apply put_other.
      exact (fop_index apart _ apart_sym (slots_apart _ (wty_ok W ty HW)) _ _ _ _ (fun K => Hne (eq_sym K)) Hj Hi _ _ Hin Hx).
  Qed.
  Lemma slot_put m l s : (l_slot l < length m)%nat -> slot_at (put m (l_slot l) s) l = s.
  Proof. apply put_same. Qed.

  Section Rec.
    Variables (f : nat) (drec : @drecT zip) (rec : @recT zip).
    Hypothesis Hrec : forall mode ty m vs depth z, (length (za z) < f)%nat -> agree W ty m (VMsg vs []) -> simr (Rm W ty) (drec mode ty m depth z) (rec mode ty vs [] depth z).
    Hypothesis Hsafe : rec_safe f rec.

    (** ** Alternatives *)
    Definition Ra (fl : wfield) (l : layout) (i : nat) (x : slot * zip) (y : list val * list (Z * bytes) * zip) : Prop :=
      exists v, y = ([VAlt i v], [], snd x) /\ has_value (dyn_of fl) l (fst x) = true /\ held (agree W) fl l (fst x) v.
    Lemma dalt_sim ty o g i fl l m cur tag depth z : In (MGroup o g) (members_of (w_fields (wty W ty))) -> nth_error g i = Some (fl, l) ->
      same_member W (agree W) m (MGroup o g) cur -> (length (za z) < f)%nat ->
      simr (Ra fl l i) (ddec_field zops W utf8_ok maxd drec f fl l tag depth (slot_at m l) z) (dec_oneof zops E utf8_ok maxd rec UNone i (tag_number tag) (w_elem fl) tag depth cur [] z).
    Proof.
      intros Hb Hi Hs Hz. assert (Hin : In (fl, l) g) by (eapply nth_error_In; eauto).
      destruct (field_facts W HW Hread ty fl l (member_in W ty _ _ Hb Hin)) as (Hf & Hr & _ & Ho & Hrd).
      pose proof (members_wf (w_fields (wty W ty))) as Hw. rewrite Forall_forall in Hw. specialize (Hw _ Hb). destruct Hw as [_ Hw]. rewrite Forall_forall in Hw. specialize (Hw _ Hin). cbn in Hw.
      pose proof (Hr _ Hw) as Hp. assert (Hx : w_explicit fl = true) by (destruct Hf as (_ & Hf & _); eauto). specialize (Ho Hp).
      unfold dec_oneof. destruct (scalar (w_elem fl)) eqn:Hsc.
      - assert (Hd : ddec_field zops W utf8_ok maxd drec f fl l tag depth (slot_at m l) z = ('(v, a1) <- ddec_scalar zops utf8_ok (w_elem fl) tag z ;; Ok (if valid (w_elem fl) v then store fl l v (slot_at m l) else slot_at m l, a1))).
        { unfold ddec_field. rewrite Hp. destruct (w_elem fl); try reflexivity; discriminate. }
        rewrite Hd, ddec_scalar_eq by assumption. clear Hd. rewrite value_scalar by exact Hsc.
        destruct (dec_scalar zops utf8_ok (w_elem fl) tag z) as [[v z1]|err| | |] eqn:D; cbn [bind]; try exact I; [|cbn; eauto].
        pose proof (enum_val_kind _ _ (dec_scalar_kind _ _ _ _ _ _ D)) as Kv.
        assert (Hc : elem_closed (w_elem fl) = false). { destruct (elem_closed (w_elem fl)) eqn:K; [|reflexivity]. destruct Hrd as [Hrd _]. destruct (Hrd K). congruence. }
        replace (valid (w_elem fl) (enum_val (w_elem fl) v)) with true by (destruct (w_elem fl) as [| | |[|]| |]; try reflexivity; discriminate Hc).
        assert (St : simr (Ra fl l i) (Ok (store fl l (enum_val (w_elem fl) v) (slot_at m l), z1)) (Ok ([VAlt i (enum_val (w_elem fl) v)], [], z1))).
        { eexists. split; [reflexivity|]. eexists. split; [reflexivity|]. unfold store. rewrite Hx. cbn [orb fst]. split; [apply has_stored; exact Hp|]. apply HeldScalar; [exact Hsc|apply single_of; auto]. }
        destruct (w_elem fl) as [| | |[|]| |]; try exact St; discriminate.
      - destruct (w_elem fl) as [t| |is64 fl'|c|u vw|ty' d] eqn:He; try discriminate Hsc. unfold ddec_field. rewrite He, Hp. cbn [dec_value].
        assert (Hne : w_entry (wty W ty') = false) by (destruct (w_entry (wty W ty')) eqn:K; [|reflexivity]; destruct Hrd as [_ Hrd]; destruct (Hrd _ _ He K); congruence).
        set (active := match cur with VAlt j v :: _ => if Nat.eqb i j then [v] else [] | _ => [] end).
        assert (Hst : exists m0, (if has_value (dyn_of fl) l (slot_at m l) then match value (dyn_of fl) l (slot_at m l) with FMsg m => Ok m | _ => UB end else Ok (new_slots W ty')) = Ok m0 /\ agree W ty' m0 (start_val E (EMsg ty' d) active)).
        { inversion Hs as [|? ? Hno|? ? i' f' l' v' K1 K2 K3]; subst.
          - rewrite (Hno _ _ Hin). eexists. split; [reflexivity|]. apply new_agree; assumption.
          - destruct (Nat.eq_dec i i') as [<-|Hii].
            + rewrite Hi in K1. injection K1 as <- <-. rewrite K2. destruct K3 as [v' K1 K3|ty0 d' m0 v' K1 K3 K4]; [rewrite He in K1; discriminate|]. rewrite He in K1. injection K1 as <- <-. rewrite K3. eexists. split; [reflexivity|].
              subst active. rewrite Nat.eqb_refl. exact K4.
            + assert (Hv : has_value (dyn_of fl) l (slot_at m l) = false).
              { pose proof (group_slots _ _ _ (wty_ok W ty HW) Hb) as Gs. destruct (fop_index _ _ (fun a b Hab => conj (eq_sym (proj1 Hab)) (fun q => proj2 Hab (eq_sym q))) Gs _ _ _ _ Hii Hi K1) as [S1 S2]. cbn [snd] in S1, S2.
                assert (Hin' : In (f', l') g) by (eapply nth_error_In; eauto).
                destruct (field_facts W HW Hread ty f' l' (member_in W ty _ _ Hb Hin')) as (_ & Hr' & _).
                pose proof (members_wf (w_fields (wty W ty))) as Hw'. rewrite Forall_forall in Hw'. specialize (Hw' _ Hb). destruct Hw' as [_ Hw']. rewrite Forall_forall in Hw'. specialize (Hw' _ Hin'). cbn in Hw'.
                pose proof (Hr' _ Hw') as Hp'. unfold slot_at in *. rewrite S1. unfold has_value, has_word, repeated, dyn_of, is_rep in K2 |- *. cbn [y_kind] in *. rewrite Hp' in K2. rewrite Hp.
                assert (Hk : forall e, repeated_kind (kind_of e false) = false) by (intros []; reflexivity). rewrite !Hk in *. apply Z.eqb_eq in K2. apply Z.eqb_neq. congruence. }
              rewrite Hv. eexists. split; [reflexivity|]. subst active. destruct (Nat.eqb_spec i i') as [|_]; [congruence|]. apply new_agree; assumption. }
        destruct Hst as (m0 & -> & Ha). cbn [bind]. pose proof (dmessage_sim W utf8_ok maxd Hread f drec rec Hrec ty' d m0 _ tag depth z Ha Hz (fun K => ltac:(congruence))) as H.
        destruct (dec_message zops E maxd rec ty' d (start_val E (EMsg ty' d) active) tag depth z) as [[v z1]|err| | |]; cbn in H |- *; try exact I; [|destruct H as [e' ->]; cbn; eauto].
        destruct H as ([m1 z2] & -> & H1 & m2 & H2 & H3). cbn in H1, H2, H3 |- *. subst z2. rewrite complete_plain in H3 by exact Hne. injection H3 as ->. eexists. split; [reflexivity|]. eexists. split; [reflexivity|]. cbn [fst].
        split; [apply has_stored; exact Hp|]. eapply HeldMsg; [exact He| |exact H2]. unfold value. rewrite has_stored by exact Hp. unfold dyn_of, is_rep. cbn [y_kind snd]. rewrite Hp, He. reflexivity.
    Qed.

    (** ** Unknown fields *)
    Lemma skip_empty depth tag z : za z = [] -> (0 < f)%nat -> exists e, skip_one zops maxd f depth tag z = Err e.
    Proof.
      intros Hz Hf. unfold skip_one, do_skip_field. destruct (tag =? 0); [eauto|]. cbn [a_skip_varint a_varint a_skip zops].
      assert (Hvar : exists e, z_skip_varint z = Err e). { unfold z_skip_varint. rewrite Hz. cbn. eauto. }
      assert (Hskip : forall n, 0 < n -> exists e, z_skip n z = Err e). { intros n Hn. unfold z_skip. rewrite Hz. change (zlen []) with 0. destruct (Z.ltb_spec 0 n); [eauto|lia]. }
      assert (Hv : exists e, z_varint VU32 z = Err e).
      { pose proof (z_varint_safe VU32 z) as K. destruct (z_varint VU32 z) as [[x z']|e| | |]; cbn in K; try contradiction; [|eauto]. destruct K as [_ K]. cbn in K. rewrite Hz in K. cbn in K. lia. }
      destruct (_ =? WT_VARINT); [exact Hvar|]. destruct (_ =? WT_LEN); [destruct Hv as [e ->]; cbn; eauto|]. destruct (_ =? WT_I64); [apply Hskip; lia|].
      destruct (_ =? WT_SGROUP).
      - unfold do_skip_group. destruct (scope_ok maxd depth); [|eauto]. destruct f as [|n]; [lia|]. cbn [skip_group_loop a_avail zops]. rewrite Hz. cbn. eauto.
      - destruct (_ =? WT_I32); [apply Hskip; lia|eauto].
    Qed.

    Definition Rt (ty : nat) (x : list slot * zip) (y : list (list val) * list (Z * bytes) * zip) : Prop := exists vs, y = (vs, [], snd x) /\ agree W ty (fst x) (VMsg vs []).
    Lemma by_tag_sim ty tag depth m vs z : agree W ty m (VMsg vs []) -> (length (za z) < f)%nat ->
      simr (Rt ty) (ddec_by_tag zops W utf8_ok maxd drec f ty tag depth m z) (dec_by_tag zops E utf8_ok maxd rec f ty tag depth vs [] z).
    Proof.
      intros Ha Hz. unfold ddec_by_tag, dec_by_tag. destruct (tag_number tag =? 0); [cbn; eauto|]. rewrite desc_env. pose proof (lookup_type (tag_number tag) (wty W ty)) as Hl.
      destruct (by_number (tag_number tag) (wty W ty)) as [[fl l]|].
      - destruct Hl as (j & b & -> & Hj & Hfind). change (m_unk (desc_of_wtype (wty W ty))) with UNone.
        assert (Hbin : In b (members_of (w_fields (wty W ty)))) by (eapply nth_error_In; eauto).
        pose proof (find_some _ _ Hfind) as [Hin _].
        assert (Hlt : (l_slot l < length m)%nat). { inversion Ha; subst. destruct (field_facts W HW Hread ty fl l (member_in W ty _ _ Hbin Hin)) as (_ & _ & K & _). congruence. }
        assert (Hcur : same_member W (agree W) m b (nth j vs [])).
        { inversion Ha as [? ? ? Hlen Hms]; subst. destruct (Forall2_nth_l _ _ _ Hms _ _ Hj) as (c & Hc & K). rewrite (nth_error_nth _ _ _ Hc). exact K. }
        destruct b as [f0 l0|o g].
        + cbn [mfields find] in Hfind. destruct (numbered (tag_number tag) (f0, l0)); [|discriminate]. injection Hfind as -> ->.
          destruct (field_facts W HW Hread ty fl l (member_in W ty _ _ Hbin Hin)) as (Hf & _ & _ & Ho & Hr). inversion Hcur as [? ? ? Hone| |]; subst.
          eapply simr_bind; [apply (dfield_sim W utf8_ok maxd HW Hread Hutf8 f drec rec Hrec Hsafe fl l (slot_at m l)); assumption|].
          intros [s z1] y (c & -> & Hs). cbn [fst snd] in *. eexists. split; [reflexivity|]. eexists. split; [reflexivity|]. eapply agree_put; [exact Ha|exact Hj|exact Hin|]. apply SmOne. cbn [fst]. rewrite slot_put by exact Hlt. exact Hs.
        + cbn [mfields] in Hfind, Hin. destruct (find_alt_at _ _ 0 _ _ Hfind) as (i & Hi & Hn). cbn [member_field dec_field]. change (map (fun fl0 => (w_num (fst fl0), w_elem (fst fl0))) g) with (alts_of g). rewrite Hi. cbn [Nat.add].
          eapply simr_bind; [apply (dalt_sim ty o g i fl l m); eassumption|]. intros [s z1] y (v & -> & Hh & Hs). cbn [fst snd] in *. eexists. split; [reflexivity|]. eexists. split; [reflexivity|]. eapply agree_put; [exact Ha|exact Hj|exact Hin|].
          eapply SmAlt; [exact Hn|rewrite slot_put by exact Hlt; exact Hh|rewrite slot_put by exact Hlt; exact Hs].
      - rewrite Hl. change (m_unk (desc_of_wtype (wty W ty))) with UNone. cbn [a_avail zops]. destruct (Z.ltb_spec 0 (zlen (za z))) as [Hav|Hav].
        + unfold skip_field. destruct (skip_one zops maxd f depth tag z) as [z1|err| | |]; cbn; eauto. eexists. split; [reflexivity|]. eexists. split; [reflexivity|]. exact Ha.
        + destruct (skip_empty depth tag z) as [e ->]; [|lia|cbn; eauto]. unfold zlen in Hav. destruct (za z); [reflexivity|cbn in Hav; lia].
    Qed.
  End Rec.

  Lemma env_safe : safe_env E.
  Proof.
    intros ty. rewrite desc_env. cbn [m_unk m_fields desc_of_wtype]. apply Forall_forall. intros x Hx. apply in_map_iff in Hx. destruct Hx as (b & <- & Hb). destruct b as [fl l|o g]; cbn [member_field field_safe]; [congruence|].
    apply Forall_forall. intros a Ha. apply in_map_iff in Ha. destruct Ha as ([fl l] & <- & Hin). cbn [snd fst]. destruct (elem_closed (w_elem fl)) eqn:Hc; [|reflexivity].
    destruct (field_facts W HW Hread ty fl l (member_in W ty _ _ Hb Hin)) as (_ & _ & _ & _ & Hr & _). destruct (Hr Hc) as [K _].
    pose proof (members_wf (w_fields (wty W ty))) as Hw. rewrite Forall_forall in Hw. specialize (Hw _ Hb). destruct Hw as [_ Hw]. rewrite Forall_forall in Hw. specialize (Hw _ Hin). cbn in Hw. congruence.
  Qed.

  Lemma loop_sim n : forall mode ty m vs depth z, (length (za z) < n)%nat -> agree W ty m (VMsg vs []) ->
    simr (Rm W ty) (ddec_loop zops W utf8_ok maxd n mode ty m depth z) (dec_loop zops E utf8_ok maxd n mode ty vs [] depth z).
  Proof.
    induction n as [|n IH]; intros mode ty m vs depth z Hz Ha; [lia|]. cbn [ddec_loop dec_loop]. destruct (a_avail zops z <=? 0).
    { destruct mode; [cbn; eauto|]. destruct (_ =? 0); [|cbn; eauto]. eexists. split; [reflexivity|]. split; [reflexivity|exact Ha]. }
    pose proof (z_tag_safe z) as Ht. cbn [a_tag zops]. destruct (z_tag z) as [[tag z1]|err| | |]; cbn in Ht; try contradiction; cbn [bind]; [|cbn; eauto]. destruct Ht as [H1 H2].
    destruct (match mode with Some _ => _ | None => _ end); [eexists; split; [reflexivity|]; split; [reflexivity|exact Ha]|].
    destruct (Z.eqb_spec tag 0) as [->|Hne]; [cbn; eauto|]. destruct (H2 Hne) as [_ H3].
    pose proof (dec_loop_safe E utf8_ok maxd env_safe n) as Hsafe.
    eapply simr_bind.
    - apply simr_oe; [apply (by_tag_sim n (ddec_loop zops W utf8_ok maxd n) (dec_loop zops E utf8_ok maxd n) IH Hsafe); [exact Ha|lia]|].
      apply (dec_by_tag_safe E utf8_ok maxd n _ Hsafe); [exact env_safe|lia].
    - intros [m1 z2] y ((c & -> & Hc) & Hs). cbn [fst snd] in *. pose proof (suf_len _ _ Hs). apply IH; [lia|exact Hc].
  Qed.

  Theorem read_same ty bs :
    match decode_bytes E utf8_ok maxd ty (default_msg E ty) bs with
    | Ok v => exists m, dyn_read W utf8_ok maxd ty bs = Ok m /\ agree W ty m v
    | Err _ => exists e, dyn_read W utf8_ok maxd ty bs = Err e
    | UB | Exn | NoFuel => False
    end.
  Proof.
    unfold decode_bytes, dyn_read, decode, ddecode. set (n := S (length bs)). assert (Hz : (length (za (Zip [] bs)) < n)%nat) by (cbn; lia).
    pose proof (dmsg_sim W maxd n _ _ (loop_sim n) ty (new_slots W ty) (default_msg E ty) 0 (Zip [] bs) (new_agree W utf8_ok HW Hread ty) Hz) as H.
    pose proof (dec_msg_safe E maxd n _ (dec_loop_safe E utf8_ok maxd env_safe n) ty (default_msg E ty) 0 (Zip [] bs) Hz) as Hs.
    destruct (dec_msg zops E maxd (dec_loop zops E utf8_ok maxd n) ty (default_msg E ty) 0 (Zip [] bs)) as [[v z1]|err| | |]; cbn in H, Hs |- *; try contradiction.
    - destruct H as ([m z2] & -> & _ & H). cbn. eauto.
    - destruct H as [e ->]. cbn. eauto.
  Qed.
End Sim.
