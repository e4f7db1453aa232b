(** Decoding of values through an archive that satisfies the laws agrees with
    decoding through the reference archive. *)
Require Import Verif.Bits Verif.Varint Verif.VarintSpec Verif.VarintFacts.
Require Import Verif.Schema Verif.Archive Verif.Decode Verif.DecodeSafe Verif.DecodeSpec1 Verif.SimLaws Verif.SimSkip.
Local Open Scope nat_scope.

Section Value.
  Context {A : Type} (AR : aops A) (T : bytes) (E : env) (utf8_ok : bytes -> bool) (maxd : Z).
  Context (St : bool -> nat -> nat -> A -> Prop) (Tg : bool -> Z -> nat -> nat -> A -> Prop)
          (Ln : bool -> nat -> nat -> A -> Prop) (L : laws AR T St Tg Ln).
  Notation zz := (zz T). Notation slice := (slice T).
  Let sta := st_avail AR T St Tg Ln L. Let stl := st_lim AR T St Tg Ln L.
  Let stp := st_pos AR T St Tg Ln L.
  Let tgs := tg_st AR T St Tg Ln L. Let lns := ln_st AR T St Tg Ln L.

  (** Same value and end; or an overrun, after which the reference run fails. *)
  Definition rel {X} (P : A -> Prop) (x : bool) (lim p : nat) (rz : res (X * zip)) (ra : res (X * A)) : Prop :=
    match ra with
    | Ok (v, a') => (exists q, p <= q /\ q <= lim /\ rz = Ok (v, zz lim q) /\ St x lim q a') \/
                    ((a_avail AR a' < 0)%Z /\ P a' /\ bad x BadMessage rz)
    | Err e => bad x e rz
    | _ => False
    end.
  Definition reld {X} (x : bool) (lim p : nat) (rz : res (X * zip)) (ra : res (X * A)) : Prop :=
    match ra with
    | Ok (v, a') => (exists q, p <= q /\ q <= lim /\ rz = Ok (v, zz lim q) /\ St x lim q a') \/
                    ((a_avail AR a' < 0)%Z /\ badd x BadMessage rz)
    | Err e => badd x e rz
    | _ => False
    end.

  Lemma bad_badd {X} x e (r : res (X * zip)) : bad x e r -> badd x e r.
  Proof. destruct x; cbn; auto. Qed.
  Lemma rel_reld {X} P x lim p (rz : res (X * zip)) ra : rel P x lim p rz ra -> reld x lim p rz ra.
  Proof.
    destruct ra as [[v a']|e| | |]; cbn; auto; [|apply bad_badd].
    intros [H|(H1 & _ & H2)]; [auto|right; split; auto]. apply bad_badd; auto.
  Qed.
  Lemma rel_pos {X} P x lim p q (rz : res (X * zip)) ra : p <= q -> rel P x lim q rz ra -> rel P x lim p rz ra.
  Proof.
    intros H. destruct ra as [[v a']|e| | |]; cbn; auto.
    intros [(r & ? & ? & ? & ?)|K]; [left; exists r; repeat split; auto; lia|auto].
  Qed.
  Lemma rel_imp {X} (P Q : A -> Prop) x lim p (rz : res (X * zip)) ra :
    (forall a, P a -> Q a) -> rel P x lim p rz ra -> rel Q x lim p rz ra.
  Proof.
    intros H. destruct ra as [[v a']|e| | |]; cbn; auto.
    intros [K|(K1 & K2 & K3)]; [auto|right; auto].
  Qed.

  Definition safe_over (a' : A) : Prop := exists lim q, St false lim q a'.
  (** Readers that do not check the limit leave a state where nothing can be read. *)
  Definition soft (e : elem) : bool :=
    match e with EFix _ _ => true | EBytes _ v => a_padded AR && v | _ => false end.
  Definition okov (x : bool) (e : elem) (a' : A) : Prop := soft e = false -> x = false /\ safe_over a'.

  Lemma over_avail x lim q a : St x lim q a -> lim < q -> (a_avail AR a < 0)%Z.
  Proof. intros H K. rewrite (sta _ _ _ _ H). lia. Qed.

  (** Reading a value by a parser of the varint family. *)
  Lemma parsed_rel (pf : bytes -> pres) (P : A -> Prop) x lim p r :
    lim <= length T ->
    (forall m w k, pf m = POk w k -> 1 <= k <= length m) ->
    match pf (slice p lim) with
    | POk w k => exists a', r = Ok (w, a') /\ St x lim (p + k) a'
    | _ => r = Err BadMessage \/ (x = false /\ exists w q a', r = Ok (w, a') /\ p < q /\ lim < q /\ St false lim q a')
    end ->
    (forall a', x = false -> safe_over a' -> P a') ->
    rel P x lim p ('(v, z1) <- z_parse (pf (za (zz lim p))) (zz lim p) (Err BadMessage) (fun v z' => Ok (v, z')) ;; Ok (VInt v, z1))
      ('(v, a1) <- r ;; Ok (VInt v, a1)).
  Proof.
    intros Hl Hlen K HP. cbn [za SimLaws.zz]. destruct (pf (slice p lim)) as [| |w k] eqn:F; cbn [z_parse bind].
    1, 2: destruct K as [->|(-> & w & q & a' & -> & Hq & Hq' & K)]; cbn [bind];
      [apply bad_err|cbn; right; split; [eapply over_avail; eauto|]; split; [apply HP; [auto|do 2 eexists; eauto]|eauto]].
    destruct K as (a' & -> & K). apply Hlen in F. rewrite slice_len in F by lia. cbn. left.
    exists (p + k). repeat split; [lia|lia|rewrite zz_adv by lia; reflexivity|auto].
  Qed.

  Lemma varint_law x tag t lim p a : Tg x tag lim p a ->
    match parse_varint t (slice p lim) with
    | POk w k => exists a', a_varint AR t a = Ok (w, a') /\ St x lim (p + k) a'
    | _ => a_varint AR t a = Err BadMessage \/
           (x = false /\ exists w q a', a_varint AR t a = Ok (w, a') /\ p < q /\ lim < q /\ St false lim q a')
    end.
  Proof.
    intros HT. pose proof (l_varint _ _ _ _ _ L x tag t lim p a HT) as K.
    destruct (parse_varint t (slice p lim)).
    1, 2: destruct K as [K|(-> & w & q & a' & ? & ? & ? & ?)]; [auto|right; split; auto; exists w, q, a'; repeat split; auto].
    destruct K as (a' & ? & ?). exists a'. split; auto.
  Qed.

  (** What a length prefix leads to. *)
  Inductive len_case (x : bool) (lim p : nat) (a : A) : Prop :=
  | LenErr : a_varint AR VU32 a = Err BadMessage -> z_varint VU32 (zz lim p) = Err BadMessage -> len_case x lim p a
  | LenOver len q a1 : a_varint AR VU32 a = Ok (len, a1) -> z_varint VU32 (zz lim p) = Err BadMessage ->
      (0 <= len)%Z -> x = false -> p < q -> lim < q -> Ln false lim q a1 -> len_case x lim p a
  | LenOk len k a1 : a_varint AR VU32 a = Ok (len, a1) -> z_varint VU32 (zz lim p) = Ok (len, zz lim (p + k)) ->
      (0 <= len)%Z -> 1 <= k -> p + k <= lim -> Ln x lim (p + k) a1 -> len_case x lim p a.

  Lemma len_cases x tag lim p a : Tg x tag lim p a -> len_case x lim p a.
  Proof.
    intros HT. pose proof (l_varint _ _ _ _ _ L x tag VU32 lim p a HT) as K.
    pose proof (stl _ _ _ _ (tgs _ _ _ _ _ HT)) as Hl.
    destruct (parse_varint VU32 (slice p lim)) as [| |w k] eqn:F.
    1, 2: destruct K as [K|(-> & w & q & a' & Hv & ? & ? & ?)];
      [apply LenErr; [auto|unfold z_varint; cbn [za SimLaws.zz]; rewrite F; reflexivity]
      |apply (LenOver false lim p a w q a'); auto; [unfold z_varint; cbn [za SimLaws.zz]; rewrite F; reflexivity|eapply (l_u32 _ _ _ _ _ L); eauto]].
    destruct K as (a' & Hv & K). assert (F' := F). apply parse_varint_len in F'. rewrite slice_len in F' by lia.
    apply (LenOk x lim p a w k a'); auto; try lia.
    - unfold z_varint. cbn [za SimLaws.zz]. rewrite F. cbn [z_parse]. rewrite zz_adv by lia. reflexivity.
    - eapply (l_u32 _ _ _ _ _ L); eauto.
  Qed.

  Lemma z_take_zz lim p n : p <= lim -> lim <= length T -> z_take n (zz lim p) =
    if p + n <=? lim then Ok (slice p (p + n), zz lim (p + n)) else Err BadMessage.
  Proof.
    intros H K. unfold z_take. cbn [za SimLaws.zz]. rewrite slice_len by lia.
    destruct (Nat.leb_spec (p + n) lim).
    - replace (n <=? lim - p) with true by (symmetry; apply Nat.leb_le; lia).
      rewrite slice_firstn, zz_adv by lia. reflexivity.
    - replace (n <=? lim - p) with false by (symmetry; apply Nat.leb_gt; lia). reflexivity.
  Qed.

  Lemma dec_bytes_rel x utf8 view tag lim p a : Tg x tag lim p a -> p <= lim \/ x = false ->
    a_padded AR && view && utf8 = false ->
    rel (okov x (EBytes utf8 view)) x lim p (dec_bytes zops utf8_ok utf8 view (zz lim p)) (dec_bytes AR utf8_ok utf8 view a).
  Proof.
    intros HT Hpx Hv. unfold dec_bytes. cbn [a_padded a_varint a_packed zops andb].
    pose proof (stl _ _ _ _ (tgs _ _ _ _ _ HT)) as Hl.
    destruct (len_cases _ _ _ _ _ HT) as [H1 H2|len q a1 H1 H2 H0 -> Hq Hq' HL|len k a1 H1 H2 H0 Hk Hk' HL];
      rewrite H1, H2; cbn [bind].
    - apply bad_err.
    - destruct (a_padded AR && view) eqn:Hpv.
      + cbn in Hv. subst utf8. cbn [andb].
        pose proof (l_view _ _ _ _ _ L false len lim q a1 ltac:(destruct (a_padded AR); auto) (lns _ _ _ _ HL) H0) as K.
        replace (q + Z.to_nat len <=? lim) with false in K by (symmetry; apply Nat.leb_gt; lia).
        destruct (a_view AR len a1) as [[b|] a2]; cbn [snd] in K; cbn; right; (split; [auto|]); (split; [intros Hs; cbn in Hs; congruence|eauto]).
      + destruct (Z.eqb_spec len 0).
        * destruct (utf8 && negb (utf8_ok [])); cbn; [eauto|]. right. split; [eapply over_avail; [apply lns; eauto|auto]|].
          split; [|eauto]. intros _. split; [reflexivity|]. do 2 eexists. apply lns; eauto.
        * pose proof (l_packed _ _ _ _ _ L false len 1 lim q a1 (lns _ _ _ _ HL) H0 ltac:(lia) ltac:(lia)) as K.
          replace (q + Z.to_nat len * 1 <=? lim) with false in K by (symmetry; apply Nat.leb_gt; lia).
          rewrite K. cbn. eauto.
    - assert (Hz : forall P, P (z_take (Z.to_nat len * 1) (zz lim (p + k))) ->
        P (if p + k + Z.to_nat len <=? lim then Ok (slice (p + k) (p + k + Z.to_nat len), zz lim (p + k + Z.to_nat len)) else Err BadMessage)).
      { intros P HP. rewrite z_take_zz in HP by lia. rewrite Nat.mul_1_r in HP. exact HP. }
      destruct (a_padded AR && view) eqn:Hpv.
      + cbn in Hv. subst utf8. cbn [andb].
        pose proof (l_view _ _ _ _ _ L x len lim (p + k) a1 ltac:(destruct (a_padded AR); auto) (lns _ _ _ _ HL) H0) as K.
        destruct (Z.eqb_spec len 0) as [->|Hnz].
        * replace (p + k + Z.to_nat 0 <=? lim) with true in K by (symmetry; apply Nat.leb_le; lia).
          destruct K as (a2 & -> & K). cbn. left. exists (p + k). repeat split; auto; try lia.
          -- rewrite slice_nil by lia. reflexivity.
          -- replace (p + k) with (p + k + Z.to_nat 0) by lia. exact K.
        * rewrite z_take_zz by lia. rewrite Nat.mul_1_r.
          destruct (Nat.leb_spec (p + k + Z.to_nat len) lim).
          -- destruct K as (a2 & -> & K). cbn. left. exists (p + k + Z.to_nat len). repeat split; auto; lia.
          -- destruct (a_view AR len a1) as [[b|] a2]; cbn [snd] in K; cbn; right; (split; [auto|]); (split; [intros Hs; cbn in Hs; congruence|]); destruct x; cbn; eauto.
      + destruct (Z.eqb_spec len 0).
        * destruct (utf8 && negb (utf8_ok [])); [apply bad_err|]. cbn. left. exists (p + k). repeat split; auto; lia.
        * pose proof (l_packed _ _ _ _ _ L x len 1 lim (p + k) a1 (lns _ _ _ _ HL) H0 ltac:(lia) ltac:(lia)) as K.
          rewrite z_take_zz by lia. rewrite Nat.mul_1_r in *.
          destruct (Nat.leb_spec (p + k + Z.to_nat len) lim).
          -- destruct K as (a2 & -> & K). cbn [bind]. destruct (utf8 && negb _); [apply bad_err|]. cbn. left.
             exists (p + k + Z.to_nat len). repeat split; auto; lia.
          -- rewrite K. apply bad_err.
  Qed.

  Lemma dec_scalar_rel x e tag lim p a : Tg x tag lim p a -> (forall ty d, e <> EMsg ty d) ->
    (forall u v, e = EBytes u v -> a_padded AR && v && u = false) ->
    rel (okov x e) x lim p (dec_scalar zops utf8_ok e tag (zz lim p)) (dec_scalar AR utf8_ok e tag a).
  Proof.
    intros HT Hm Hv. pose proof (stl _ _ _ _ (tgs _ _ _ _ _ HT)) as Hl. unfold dec_scalar.
    destruct (negb _); [apply bad_err|]. destruct e as [t| |is64 s|c|u v|ty d].
    - cbn [a_varint zops]. unfold z_varint. apply parsed_rel; [auto|apply parse_varint_len|apply (varint_law _ tag); auto|].
      intros a' Hx Ha _; auto.
    - cbn [a_bool zops]. unfold z_bool. apply parsed_rel; [auto|apply parse_bool_len|apply (l_bool _ _ _ _ _ L _ tag); auto|].
      intros a' Hx Ha _; auto.
    - cbn [a_fixed zops]. assert (Hs : 1 <= fix_size is64 <= 8) by (destruct is64; cbn; lia).
      destruct (l_fixed _ _ _ _ _ L x tag (fix_size is64) lim p a HT ltac:(lia)) as (b & a1 & Hf & K). rewrite Hf. cbn [bind].
      destruct (Nat.leb_spec (p + fix_size is64) lim).
      + destruct K as [-> K]. rewrite z_take_zz by lia.
        replace (p + fix_size is64 <=? lim) with true by (symmetry; apply Nat.leb_le; lia).
        cbn. left. exists (p + fix_size is64). repeat split; auto; lia.
      + assert (Hz : z_take (fix_size is64) (zz lim p) = Err BadMessage).
        { unfold z_take. cbn [za SimLaws.zz]. rewrite slice_len by lia.
          replace (fix_size is64 <=? lim - p) with false by (symmetry; apply Nat.leb_gt; lia). reflexivity. }
        rewrite Hz. cbn. right. split; [auto|]. split; [intros Hso; discriminate|]. destruct x; cbn; eauto.
    - cbn [a_varint zops]. unfold z_varint. apply parsed_rel; [auto|apply parse_varint_len|apply (varint_law _ tag); auto|].
      intros a' Hx Ha _; auto.
    - apply (dec_bytes_rel _ _ _ tag); auto. destruct x; [left|auto]. apply (l_exact _ _ _ _ _ L _ _ a). apply tgs with tag; auto.
    - exfalso; eapply Hm; reflexivity.
  Qed.

  (** ** Messages *)
  Section Rec.
    Variables (f : nat) (recz : @recT zip) (reca : @recT A).
    Hypothesis Hrec : forall x mode ty fs unk depth lim p a, St x lim p a -> p <= lim -> length T - p < f ->
      rel (fun a' => mode <> None /\ x = false /\ safe_over a') x lim p (recz mode ty fs unk depth (zz lim p)) (reca mode ty fs unk depth a).
    Hypothesis Hover : forall mode ty fs unk depth a, (a_avail AR a < 0)%Z -> 0 < f ->
      reca mode ty fs unk depth a = Err BadMessage.
    Hypothesis Hempty : forall num ty fs unk depth z, za z = [] -> 0 < f -> is_err (recz (Some num) ty fs unk depth z).

    Lemma dec_msg_rel x ty cur depth lim p a : Ln x lim p a -> p <= lim -> length T - p < f ->
      rel (fun _ => False) x lim p (dec_msg zops E maxd recz ty cur depth (zz lim p)) (dec_msg AR E maxd reca ty cur depth a).
    Proof.
      intros HL Hp Hf. pose proof (lns _ _ _ _ HL) as HS. pose proof (stl _ _ _ _ HS) as Hl. unfold dec_msg.
      destruct (negb _); [apply bad_err|].
      cbn [a_avail a_byte0 zops]. rewrite (sta _ _ _ _ HS), zz_avail by lia.
      assert (Hr : rel (fun _ => False) x lim p (recz None ty (msg_fields cur) (msg_unk cur) (depth + 1)%Z (zz lim p))
                                   (reca None ty (msg_fields cur) (msg_unk cur) (depth + 1)%Z a)).
      { eapply rel_imp; [|apply Hrec; auto]. cbn. tauto. }
      destruct (m_entry (desc_of E ty)); cbn [andb]; [|exact Hr].
      destruct (Z.ltb_spec 0 (Z.of_nat lim - Z.of_nat p)); [|exact Hr].
      rewrite (l_byte0 _ _ _ _ _ L _ _ _ _ HL ltac:(lia)). cbn [za SimLaws.zz].
      destruct (slice p lim) as [|b t] eqn:K.
      { apply (f_equal (@length Z)) in K. rewrite slice_len in K by lia. cbn in K. lia. }
      assert (Hb : b = nth p T 0%Z).
      { pose proof (slice_nth T p lim 0 ltac:(lia) Hl) as Hn. rewrite K, Nat.add_0_r in Hn. exact Hn. }
      subst b. cbn [bind]. destruct (tag_number (nth p T 0%Z) =? 1)%Z; cbn [bind]; [|apply bad_err].
      unfold SimLaws.zz in Hr. rewrite K in Hr. unfold SimLaws.zz. rewrite K. exact Hr.
    Qed.

    Lemma dec_sized_rel x ty cur tag depth lim p a : Tg x tag lim p a -> length T - p < f ->
      rel (fun _ => False) x lim p (dec_sized zops E maxd recz ty cur depth (zz lim p)) (dec_sized AR E maxd reca ty cur depth a).
    Proof.
      intros HT Hf. pose proof (stl _ _ _ _ (tgs _ _ _ _ _ HT)) as Hl.
      pose proof (stp _ _ _ _ (tgs _ _ _ _ _ HT)) as Hp. unfold dec_sized. cbn [a_varint a_avail a_split zops].
      destruct (len_cases _ _ _ _ _ HT) as [H1 H2|len q a1 H1 H2 H0 -> Hq Hq' HL|len k a1 H1 H2 H0 Hk Hk' HL];
        rewrite H1, H2; cbn [bind].
      - apply bad_err.
      - destruct (_ && _); [cbn; eauto|]. rewrite (sta _ _ _ _ (lns _ _ _ _ HL)).
        replace (len <? _)%Z with false by lia. replace (len =? _)%Z with false by lia. cbn; eauto.
      - destruct (_ && _); [apply bad_err|]. rewrite (sta _ _ _ _ (lns _ _ _ _ HL)), zz_avail by lia.
        destruct (Z.ltb_spec len (Z.of_nat lim - Z.of_nat (p + k))).
        + destruct (l_split _ _ _ _ _ L x len lim (p + k) a1 HL H0 ltac:(lia)) as [Hs1 Hs2].
          unfold z_split. rewrite zz_sub, zz_adv by lia.
          destruct (a_split AR len a1) as [sub rest]; cbn [fst snd] in *.
          pose proof (dec_msg_rel x ty cur depth _ _ sub Hs1 ltac:(lia) ltac:(lia)) as Hm.
          destruct (dec_msg AR E maxd reca ty cur depth sub) as [[v a2]|e| | |]; cbn [rel bind] in *; try tauto.
          * destruct Hm as [(q & ? & ? & -> & ?)|Hm]; [|tauto]. cbn. left. exists (p + k + Z.to_nat len).
            repeat split; auto; lia.
          * destruct x; cbn [bad] in *; [rewrite Hm; reflexivity|apply is_err_bind; auto].
        + destruct (Z.eqb_spec len (Z.of_nat lim - Z.of_nat (p + k))); [|apply bad_err].
          apply rel_pos with (p + k); [lia|]. apply dec_msg_rel; auto; lia.
    Qed.

    Lemma dec_value_rel x e cur tag depth lim p a : Tg x tag lim p a -> length T - p < f ->
      (forall u v, e = EBytes u v -> a_padded AR && v && u = false) ->
      rel (okov x e) x lim p (dec_value zops E utf8_ok maxd recz e cur tag depth (zz lim p))
                     (dec_value AR E utf8_ok maxd reca e cur tag depth a).
    Proof.
      intros HT Hf Hv. pose proof (tgs _ _ _ _ _ HT) as HS. pose proof (stl _ _ _ _ HS) as Hl.
      destruct e as [t| |is64 s|c|u v|ty d].
      1-5: apply dec_scalar_rel; auto; intros; discriminate.
      cbn [dec_value]. unfold dec_message. destruct (negb _); [apply bad_err|]. destruct d.
      - unfold dec_group. destruct (scope_ok _ _); [|apply bad_err].
        destruct (Nat.le_gt_cases p lim).
        + eapply rel_imp; [|apply Hrec; auto]. cbn. intros a' [_ Ha] _; auto.
        + rewrite Hover; [|rewrite (sta _ _ _ _ HS); lia|lia].
          destruct x; [exfalso; pose proof (l_exact _ _ _ _ _ L _ _ _ HS); lia|].
          cbn [rel bad]. apply Hempty; [|lia]. cbn [za SimLaws.zz]. apply slice_nil. lia.
      - eapply rel_imp; [|apply (dec_sized_rel x ty cur tag); auto]. cbn; tauto.
    Qed.
  End Rec.
End Value.
