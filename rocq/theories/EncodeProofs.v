(** The encoder computes the specification of EncodeSpec.v. *)
Require Import Verif.Bits Verif.Varint Verif.VarintSpec Verif.VarintFacts.
Require Import Verif.Schema Verif.Archive Verif.Decode Verif.DecodeSafe Verif.Encode Verif.WellTyped Verif.EncodeSpec.

(** ** Tags and lengths *)
Lemma make_tag_sum num wt : 0 <= num < 2 ^ 29 -> 0 <= wt < 8 -> make_tag num wt = 8 * num + wt.
Proof.
  intros Hn Hw. unfold make_tag. rewrite Z.shiftl_mul_pow2 by lia. change (2 ^ 3) with 8.
  unfold wrapU. rewrite Z.mod_small by lia.
  rewrite <- Z.lxor_lor, <- Z.add_nocarry_lxor; [lia| |].
  all: apply Z.bits_inj'; intros j Hj; rewrite Z.land_spec, Z.bits_0; replace (num * 8) with (Z.shiftl num 3) by (rewrite Z.shiftl_mul_pow2 by lia; lia);
    rewrite Z.shiftl_spec by lia; destruct (Z_lt_le_dec j 3) as [H|H];
    [rewrite (Z.testbit_neg_r num) by lia; reflexivity|];
    replace wt with (wt mod 2 ^ 3) by (apply Z.mod_small; lia); rewrite Z.mod_pow2_bits_high by lia; apply andb_false_r.
Qed.

Lemma vint_spec n : 0 <= n -> is_varint (vint n) /\ b128 (vint n) = n /\ zlen (vint n) = varint_size_u n.
Proof.
  intros Hn. apply pack_loop_spec. split; [exact Hn|]. rewrite Z2Nat.id by apply Z.log2_nonneg.
  destruct (Z.eq_dec n 0) as [->|Hnz]; [apply Z.pow_pos_nonneg; cbn; lia|].
  pose proof (Z.log2_spec n ltac:(lia)) as [_ H]. eapply Z.lt_le_trans; [exact H|].
  apply Z.pow_le_mono_r; [lia|]. pose proof (Z.log2_nonneg n). lia.
Qed.

Lemma varint_unique a : forall b, is_varint a -> is_varint b -> b128 a = b128 b -> length a = length b -> a = b.
Proof.
  induction a as [|x a IH]; intros [|y b]; cbn [length]; try lia; [intros []|]. intros Ha Hb Hv Hl.
  cbn [b128] in Hv. destruct a as [|x' a], b as [|y' b]; cbn [length] in *; try lia.
  - cbn in *. f_equal. lia.
  - cbn [is_varint] in Ha, Hb. destruct Ha as [Ha1 Ha2], Hb as [Hb1 Hb2].
    assert (x mod 128 = y mod 128 /\ b128 (x' :: a) = b128 (y' :: b)) as [H1 H2] by lia.
    f_equal; [lia|]. apply IH; auto.
Qed.

Lemma pack_small t n : is_zigzag t = false -> 0 <= n < 2 ^ enc_bits t -> pack_varint t n = vint n.
Proof.
  intros Ht Hn. destruct (pack_varint_spec t n) as (A & B & C). destruct (vint_spec n ltac:(lia)) as (A' & B' & C').
  rewrite pack_value_nonzigzag, Z.mod_small in B, C by auto. apply varint_unique; auto; [congruence|].
  unfold zlen in *. lia.
Qed.

Lemma zlen_vint n : 0 <= n -> zlen (vint n) = varint_size_u n.
Proof. intros Hn. apply vint_spec. exact Hn. Qed.

Lemma tag_size_eq num wt : 0 <= num < 2 ^ 29 -> 0 <= wt < 8 -> zlen (tagb num wt) = tag_size num.
Proof.
  intros Hn Hw. unfold tagb, tag_size. rewrite zlen_vint by lia. rewrite Z.shiftl_mul_pow2 by lia. unfold wrapU.
  rewrite Z.mod_small by lia. change (2 ^ 3) with 8.
  assert (K : forall a, 0 <= a -> 0 < Z.lor a 1).
  { intros a Ha. assert (0 <= Z.lor a 1) by (apply Z.lor_nonneg; lia). assert (Z.lor a 1 <> 0); [|lia].
    intros K. apply Z.lor_eq_0_iff in K. lia. }
  unfold varint_size_u, bit_width. destruct (Z.leb_spec (Z.lor (8 * num + wt) 1) 0); [specialize (K (8 * num + wt)); lia|].
  destruct (Z.leb_spec (Z.lor (num * 8) 1) 0); [specialize (K (num * 8)); lia|].
  rewrite !Z.log2_lor by lia. change (Z.log2 1) with 0. rewrite !Z.max_l by apply Z.log2_nonneg.
  destruct (Z.eq_dec num 0) as [->|Hnz].
  - change (8 * 0 + wt) with wt. change (0 * 8) with 0. change (Z.log2 0) with 0.
    assert (Z.log2 wt < 3) by (destruct (Z.eq_dec wt 0); [subst; cbn; lia|apply Z.log2_lt_pow2; lia]).
    pose proof (Z.log2_nonneg wt). lia.
  - replace (Z.log2 (8 * num + wt)) with (Z.log2 (num * 8)); [reflexivity|].
    change 8 with (2 ^ 3). rewrite Z.log2_mul_pow2 by lia. symmetry. apply Z.log2_unique; [pose proof (Z.log2_nonneg num); lia|].
    pose proof (Z.log2_spec num ltac:(lia)) as [L1 L2]. rewrite Z.pow_succ_r in L2 by apply Z.log2_nonneg.
    pose proof (Z.log2_nonneg num).
    rewrite Z.pow_succ_r by lia. rewrite Z.pow_add_r by lia. change (2 ^ 3) with 8. lia.
Qed.

Lemma wtag_bytes num wt : 0 <= num < 2 ^ 29 -> 0 <= wt < 8 -> wop_bytes (wtag num wt) = tagb num wt.
Proof.
  intros Hn Hw. cbn [wop_bytes wtag]. rewrite make_tag_sum by auto. apply pack_small; [reflexivity|]. cbn [enc_bits vbits]. lia.
Qed.

Lemma flat_app a b : flat (a ++ b) = flat a ++ flat b.
Proof. unfold flat. rewrite map_app, concat_app. reflexivity. Qed.
Lemma flat_cons a b : flat (a :: b) = wop_bytes a ++ flat b.
Proof. reflexivity. Qed.

Lemma le_bytes_len n : forall z, length (le_bytes n z) = n.
Proof. induction n; intros; cbn; auto. Qed.

Lemma wt_range e : 0 <= elem_wt e < 8.
Proof. destruct e as [| |[|]| | |? [|]]; cbn [elem_wt]; unfold WT_VARINT, WT_I64, WT_I32, WT_LEN, WT_SGROUP; lia. Qed.

(** Field numbers of a member; legal ones are 1 .. 2^29-1. *)
Definition nums (f : field) : list Z := match f with Field n _ _ => [n] | Oneof alts => map fst alts end.
Definition legal_numbers (E : env) : Prop :=
  forall ty f n, In f (m_fields (desc_of E ty)) -> In n (nums f) -> 1 <= n < 2 ^ 29.

Section EncodeProofs.
  Context (E : env) (u8 : bytes -> bool).
  Notation wt := (wt E u8).
  Notation cell := (cell E u8).
  Notation cells := (cells E u8).
  Notation elems := (elems E u8).

  Lemma elems_forall e vs : elems e vs -> Forall (wt e) vs.
  Proof. induction vs; intros H; inversion H; subst; constructor; auto. Qed.

  (** Typing of nested messages. *)
  Lemma wt_delim ty d d' v : wt (EMsg ty d) v -> wt (EMsg ty d') v.
  Proof. inversion 1; subst; constructor; auto. Qed.

  Lemma cell_sub f c ty' v' : cell f c -> sub_msg f c ty' v' -> wt (EMsg ty' false) v'.
  Proof.
    intros Hc Hs. inversion Hs; subst; inversion Hc; subst;
      repeat match goal with H : elems _ _ |- _ => apply elems_forall in H; rewrite Forall_forall in H
                       | H : In _ [] |- _ => destruct H | H : In _ [_] |- _ => destruct H as [->|[]] end; cbn [loosen] in *; eauto using wt_delim.
    match goal with A : nth_error _ _ = _, B : nth_error _ _ = _ |- _ => rewrite A in B; injection B as <- <- end. eauto using wt_delim.
  Qed.

  Lemma cells_in fds fs f c : cells fds fs -> In (f, c) (combine fds fs) -> cell f c.
  Proof.
    revert fs. induction fds as [|g fds IH]; intros fs H; inversion H; subst; cbn; [intros []|].
    intros [[= <- <-]|Hin]; [assumption|eauto].
  Qed.

  Lemma wt_sub ty v f c ty' v' : wt (EMsg ty false) v -> holds E ty v f c -> sub_msg f c ty' v' -> wt (EMsg ty' false) v'.
  Proof.
    intros Hw Hh Hs. inversion Hw; subst. unfold holds in Hh. cbn [msg_fields] in Hh. eapply cell_sub; [|exact Hs]. eapply cells_in; eauto.
  Qed.

  (** ** Sizes *)
  Lemma i32_i64 z : in_vtype VI32 z -> in_vtype VI64 z.
  Proof. cbn. unfold fits_s. lia. Qed.

  Lemma scalar_size_eq e v : wt e v -> scalar e = true -> scalar_size e v = zlen (enc_scalar e v).
  Proof.
    intros Hw Hs. inversion Hw; subst; cbn [scalar] in Hs; try discriminate; cbn [scalar_size enc_scalar].
    - symmetry. apply encode_size_pack. assumption.
    - reflexivity.
    - unfold zlen. rewrite le_bytes_len. reflexivity.
    - symmetry. apply encode_size_pack. apply i32_i64. assumption.
    - unfold len_size. rewrite zlen_app, zlen_vint by apply zlen_nonneg. reflexivity.
  Qed.

  Lemma loosen_wt ex e v : wt (loosen ex e) v -> enc_scalar (loosen ex e) v = enc_scalar e v /\ scalar_size (loosen ex e) v = scalar_size e v.
  Proof. destruct e as [| | |[|]| |]; cbn; auto; destruct ex; auto. Qed.

  Lemma sum_sizes_eq e vs : Forall (wt e) vs -> scalar e = true -> sum_sizes e vs = zlen (concat (map (enc_scalar e) vs)).
  Proof.
    intros Hw Hs. induction Hw as [|v vs Hv Hvs IH]; [reflexivity|]. cbn [sum_sizes map concat]. rewrite zlen_app, IH, scalar_size_eq; auto.
  Qed.

  Lemma sum_const e vs k : (forall v, wt e v -> zlen (enc_scalar e v) = k) -> Forall (wt e) vs ->
    zlen (concat (map (enc_scalar e) vs)) = zlen vs * k.
  Proof.
    intros Hk Hw. induction Hw as [|v vs Hv Hvs IH]; [reflexivity|]. cbn [map concat]. rewrite zlen_app, IH, zlen_cons, Hk by auto. lia.
  Qed.
  Lemma fix_len is64 fl v : wt (EFix is64 fl) v -> zlen (enc_scalar (EFix is64 fl) v) = Z.of_nat (fix_size is64).
  Proof. inversion 1; subst. cbn [enc_scalar]. unfold zlen. rewrite le_bytes_len. reflexivity. Qed.
  Lemma bool_len v : wt EBool v -> zlen (enc_scalar EBool v) = 1.
  Proof. inversion 1; subst. reflexivity. Qed.

  Lemma packed_scalar e : packable e = true -> scalar e = true.
  Proof. destruct e; auto. Qed.

  Section Rec.
    Variables (srec : nat -> val -> szr) (body : nat -> val -> bytes).

    Lemma sz_elem_eq num e v : 1 <= num < 2 ^ 29 -> wt e v ->
      (forall ty d, e = EMsg ty d -> fst (srec ty v) = zlen (body ty v)) ->
      fst (sz_elem srec num e v) = zlen (enc_elem body num e v).
    Proof.
      intros Hn Hw Hr.
      destruct (scalar e) eqn:Hs.
      { assert (sz_elem srec num e v = (tag_size num + scalar_size e v, []) /\ enc_elem body num e v = tagb num (elem_wt e) ++ enc_scalar e v) as [-> ->]
          by (destruct e; try discriminate; auto).
        rewrite zlen_app, scalar_size_eq by auto. cbn [fst]. rewrite tag_size_eq; [reflexivity|lia|]. apply wt_range. }
      destruct e; try discriminate. specialize (Hr _ _ eq_refl). cbn [sz_elem enc_elem].
      destruct (srec ty v) as [s c]. cbn [fst] in Hr. destruct delim; cbn [fst].
      - rewrite !zlen_app, !tag_size_eq by (try lia; unfold WT_LEN, WT_SGROUP, WT_EGROUP; lia). lia.
      - rewrite !zlen_app, tag_size_eq by (try lia; unfold WT_LEN, WT_SGROUP, WT_EGROUP; lia). subst s. unfold len_size. rewrite zlen_vint by apply zlen_nonneg. lia.
    Qed.

    Lemma sz_list_eq num e vs : 1 <= num < 2 ^ 29 -> Forall (wt e) vs ->
      (forall ty d v, e = EMsg ty d -> In v vs -> fst (srec ty v) = zlen (body ty v)) ->
      fst (sz_list srec num e vs) = zlen (concat (map (enc_elem body num e) vs)).
    Proof.
      intros Hn Hw. induction Hw as [|v vs Hv Hvs IH]; intros Hr; [reflexivity|]. cbn [sz_list map concat].
      unfold add_sz. cbn [fst]. rewrite zlen_app, IH, sz_elem_eq; auto.
      - intros. eapply Hr; eauto. left; reflexivity.
      - intros. eapply Hr; eauto. right; auto.
    Qed.

    Lemma sz_field_eq f vs : (forall n, In n (nums f) -> 1 <= n < 2 ^ 29) -> cell f vs ->
      (forall ty v, sub_msg f vs ty v -> fst (srec ty v) = zlen (body ty v)) ->
      fst (sz_field srec f vs) = zlen (enc_field body f vs).
    Proof.
      intros Hn Hc Hr. inversion Hc; subst; cbn [nums] in Hn; try specialize (Hn num (or_introl eq_refl)).
      - cbn [sz_field enc_field].
        assert (K : fst (sz_list srec num (loosen ex e) [v]) = fst (sz_list srec num e [v]) /\ enc_elem body num (loosen ex e) v = enc_elem body num e v).
        { destruct e as [| | |[|]| |]; try (split; reflexivity). destruct ex; split; reflexivity. }
        destruct K as [<- K]. rewrite sz_list_eq; [cbn [map concat]; rewrite K; reflexivity|auto|auto|].
        intros ty d0 w He [->|[]]. apply Hr. destruct e as [| | |[|]| |]; cbn in He; try discriminate; [destruct ex; discriminate|].
        injection He as -> ->. constructor. left; reflexivity.
      - reflexivity.
      - cbn [sz_field enc_field]. rewrite sz_list_eq; auto. intros ty d w -> Hi. apply Hr. constructor. auto.
      - match goal with H : elems _ _ |- _ => apply elems_forall in H; rename H into Hvs end.
        assert (Hl : fst (sz_list srec num e vs) = zlen (concat (map (enc_elem body num e) vs))).
        { apply sz_list_eq; auto. intros ty d w -> Hi. apply Hr. constructor. auto. }
        cbn [sz_field enc_field]. destruct pk; cbn [andb]; [|exact Hl]. destruct (packable e) eqn:Hp; [|exact Hl].
        unfold enc_packed. rewrite !zlen_app, zlen_vint by apply zlen_nonneg. rewrite tag_size_eq by (try lia; unfold WT_LEN, WT_SGROUP, WT_EGROUP; lia).
        destruct e; try discriminate; cbn [fst]; unfold len_size.
        + rewrite sum_sizes_eq by auto. lia.
        + rewrite (sum_const EBool vs 1 bool_len) by auto. replace (zlen vs * 1) with (zlen vs) by lia. lia.
        + rewrite (sum_const _ vs _ (fix_len is64 fl)) by auto. lia.
        + rewrite sum_sizes_eq by auto. lia.
      - match goal with H : elems _ _ |- _ => apply elems_forall in H; rename H into Hvs end.
        cbn [sz_field enc_field]. apply sz_list_eq; auto. intros ty d w -> Hi. apply Hr. constructor. auto.
      - reflexivity.
      - cbn [sz_field enc_field]. match goal with H : nth_error _ _ = _ |- _ => rename H into Hj end. rewrite Hj.
        apply sz_elem_eq; auto.
        + apply Hn. apply nth_error_In in Hj. apply (in_map fst) in Hj. exact Hj.
        + intros ty d ->. apply Hr. econstructor; eauto.
    Qed.

    Lemma sz_fields_eq fds : forall fs, (forall f n, In f fds -> In n (nums f) -> 1 <= n < 2 ^ 29) -> cells fds fs ->
      (forall f c ty v, In (f, c) (combine fds fs) -> sub_msg f c ty v -> fst (srec ty v) = zlen (body ty v)) ->
      fst (sz_fields srec fds fs) = zlen (enc_fields body fds fs).
    Proof.
      induction fds as [|f fds IH]; intros fs Hn Hc Hr; inversion Hc; subst; [reflexivity|]. cbn [sz_fields enc_fields].
      unfold add_sz. cbn [fst]. rewrite zlen_app, IH; auto.
      - destruct (omit f c); [reflexivity|]. rewrite sz_field_eq; auto.
        + intros n. apply Hn. left; reflexivity.
        + intros ty v. apply Hr. left; reflexivity.
      - intros g n Hg. apply Hn. right; auto.
      - intros g c' ty v Hg. apply Hr. right; auto.
    Qed.
  End Rec.

  Hypothesis Hlegal : legal_numbers E.

  Lemma unk_size_eq k u : unk_size k u = zlen (enc_unknown k u).
  Proof.
    assert (H : fold_right (fun p s => zlen (snd p) + s) 0 u = zlen (concat (map snd u))).
    { induction u as [|[n b] u IH]; [reflexivity|]. cbn [fold_right map concat snd]. rewrite zlen_app, IH. reflexivity. }
    destruct k; cbn; auto.
  Qed.

  (** The size pass computes the number of bytes of the specification. *)
  Theorem size_eq ty v : wt (EMsg ty false) v -> fst (sz_msg E ty v) = zlen (enc_msg E ty v).
  Proof.
    revert ty v. apply (nested_ind_msg E (fun ty v => wt (EMsg ty false) v -> fst (sz_msg E ty v) = zlen (enc_msg E ty v))).
    intros ty v IH Hw. pose proof Hw as Hw'. inversion Hw; subst. cbn [sz_msg enc_msg]. unfold holds in IH. cbn [msg_fields] in IH.
    pose proof (sz_fields_eq (fun ty' v' => sz_msg E ty' v') (fun ty' v' => enc_msg E ty' v') (m_fields (desc_of E ty)) fs) as K.
    destruct (sz_fields (fun ty' v' => sz_msg E ty' v') (m_fields (desc_of E ty)) fs) as [s c] eqn:Es. cbn [fst] in *.
    rewrite zlen_app, <- unk_size_eq, K; auto.
    - intros f n. apply Hlegal.
    - intros f c0 ty' v' Hin Hs. eapply IH; eauto. eapply cell_sub; [|exact Hs]. eapply cells_in; eauto.
  Qed.
End EncodeProofs.
