(** Consequences for packing, parsing and the bool parser. *)
Require Import Verif.Bits Verif.Varint Verif.VarintSpec.
Require Export Verif.VarintProofs.

(** ** Locality: the parser does not depend on bytes after those it consumed *)
Lemma shift_mix_app ty m rest : shift_mix ty m <> PUB -> shift_mix ty (m ++ rest) = shift_mix ty m.
Proof.
  unfold shift_mix.
  do 4 (destruct m as [|? m]; [cbn [next]; congruence|]; cbn [next app];
        match goal with |- context [if ?c then _ else _] => destruct c end; [reflexivity|]).
  destruct ty.
  - destruct m as [|? m]; [cbn [next]; congruence|]; cbn [next app].
    match goal with |- context [if ?c then _ else _] => destruct c end; [reflexivity|]. unfold sm_64.
    do 4 (destruct m as [|? m]; [cbn [next]; congruence|]; cbn [next app];
        match goal with |- context [if ?c then _ else _] => destruct c end; [reflexivity|]).
    unfold sm_last. destruct m as [|? m]; [cbn [next]; congruence|reflexivity].
  - destruct m as [|? m]; [cbn [next]; congruence|]; cbn [next app].
    match goal with |- context [if ?c then _ else _] => destruct c end; [reflexivity|]. unfold sm_i32.
    do 4 (destruct m as [|? m]; [cbn [next]; congruence|]; cbn [next app];
        match goal with |- context [if ?c then _ else _] => destruct c end; [reflexivity|]).
    unfold sm_last. destruct m as [|? m]; [cbn [next]; congruence|reflexivity].
  - destruct m as [|? m]; [cbn [next]; congruence|]; cbn [next app].
    match goal with |- context [if ?c then _ else _] => destruct c end; [reflexivity|].
    unfold sm_last. destruct m as [|? m]; [cbn [next]; congruence|reflexivity].
  - unfold sm_last. destruct m as [|? m]; [cbn [next]; congruence|reflexivity].
Qed.

Lemma is_varint_all_bytes bs : is_varint bs -> all_bytes bs.
Proof.
  induction bs as [|b t IH]; [intros []|]. destruct t as [|b' t'].
  - cbn; intros; constructor; [unfold is_byte; lia|constructor].
  - intros [H1 H2]. constructor; [unfold is_byte; lia|apply IH, H2].
Qed.

(** The parser on one terminated varint followed by anything. *)
Lemma shift_mix_varint ty bs rest :
  is_varint bs -> (length bs <= sm_max ty)%nat ->
  exists v, shift_mix ty (bs ++ rest) = POk v (length bs) /\
    v mod 2 ^ sm_bits ty = sm_expected ty bs mod 2 ^ sm_bits ty.
Proof.
  intros Hv Hl. pose proof (shift_mix_spec ty bs (is_varint_all_bytes _ Hv)) as H.
  unfold pres_matches in H.
  pose proof (scan_is_varint _ _ [] Hv Hl) as Hs. rewrite app_nil_r in Hs. rewrite Hs in H.
  destruct H as (v & E & Ev). rewrite firstn_all in Ev. exists v. split; [|exact Ev].
  rewrite shift_mix_app; [exact E|congruence].
Qed.

(** ** Packing *)
Lemma pack_value_nonzigzag t v : is_zigzag t = false -> pack_value t v = v mod 2 ^ enc_bits t.
Proof. unfold pack_value; intros ->; reflexivity. Qed.

Lemma lxor_ones w a : 0 <= w -> 0 <= a < 2 ^ w -> Z.lxor a (2 ^ w - 1) = 2 ^ w - 1 - a.
Proof.
  intros Hw Ha.
  replace (2 ^ w - 1 - a) with (wrapU w (Z.lnot a)).
  - apply Z.bits_inj'; intros j Hj. rewrite Z.lxor_spec.
    replace (2 ^ w - 1) with (Z.ones w) by (rewrite Z.ones_equiv; lia).
    destruct (Z_lt_le_dec j w).
    + rewrite Z.ones_spec_low by lia. rewrite wrapU_bits, Z.lnot_spec by lia. apply xorb_true_r.
    + rewrite Z.ones_spec_high by lia. rewrite (small_bits a w) by lia.
      rewrite (small_bits _ w); [reflexivity| |lia]. apply wrapU_range; lia.
  - unfold wrapU, Z.lnot, Z.pred. rewrite <- (Z_mod_plus_full _ 1). rewrite Z.mod_small; lia.
Qed.

Lemma pack_value_zigzag t v : is_zigzag t = true -> in_vtype t v -> pack_value t v = zz v.
Proof.
  intros Hz Hv. unfold pack_value. rewrite Hz.
  assert (Hw : 0 < enc_bits t) by (destruct t; cbn; lia).
  assert (Hs : fits_s (enc_bits t) v) by (destruct t; try discriminate; exact Hv).
  clear Hv. set (w := enc_bits t) in *. clearbody w.
  unfold fits_s in Hs. pose proof (pow2_succ w Hw).
  assert (0 < 2 ^ (w - 1)) by (apply Z.pow_pos_nonneg; lia).
  unfold zz, wrapU. rewrite Z.shiftl_mul_pow2, Z.shiftr_div_pow2 by lia. change (2 ^ 1) with 2.
  destruct (Z.ltb_spec v 0).
  - replace (v / 2 ^ (w - 1)) with (-1) by nia.
    replace (v mod 2 ^ w) with (v + 2 ^ w) by (rewrite <- (Z_mod_plus_full v 1), Z.mod_small; lia).
    replace ((v + 2 ^ w) * 2 mod 2 ^ w) with (2 * v + 2 ^ w)
      by (replace ((v + 2 ^ w) * 2) with (2 * v + 2 ^ w + 1 * 2 ^ w) by lia;
          rewrite Z_mod_plus_full, Z.mod_small; lia).
    replace (-1 mod 2 ^ w) with (2 ^ w - 1)
      by (rewrite <- (Z_mod_plus_full (-1) 1), Z.mod_small; lia).
    rewrite lxor_ones; lia.
  - rewrite (Z.div_small v) by lia. rewrite Zmod_0_l, Z.lxor_0_r.
    rewrite (Z.mod_small v) by lia. rewrite Z.mod_small; lia.
Qed.

Lemma pack_value_range t v : fits_u 64 (pack_value t v).
Proof.
  assert (H : forall w a b, 0 <= w -> fits_u w a -> fits_u w b -> fits_u w (Z.lxor a b)).
  { intros w a b Hw Ha Hb. split; [apply Z.lxor_nonneg; unfold fits_u in *; lia|].
    replace (Z.lxor a b) with (wrapU w (Z.lxor a b)); [apply wrapU_range; auto|].
    apply Z.bits_inj'; intros j Hj. destruct (Z_lt_le_dec j w).
    - apply wrapU_bits; lia.
    - rewrite Z.lxor_spec, (small_bits a w), (small_bits b w) by (auto; lia).
      apply (small_bits _ w); [apply wrapU_range; auto|lia]. }
  assert (K : forall x, fits_u (enc_bits t) x -> fits_u 64 x).
  { intros x [? ?]. split; [auto|]. destruct t; cbn [enc_bits vbits] in *; lia. }
  unfold pack_value. assert (0 <= enc_bits t) by (destruct t; cbn; lia).
  apply K. destruct (is_zigzag t).
  - apply H; auto using wrapU_range.
  - auto using wrapU_range.
Qed.

Lemma byte_lor v : 0 <= v -> Z.lor (Z.land v 127) 128 = v mod 128 + 128.
Proof.
  intros. change 127 with (Z.ones 7). rewrite Z.land_ones by lia. change (2 ^ 7) with 128.
  pose proof (Z.mod_pos_bound v 128 ltac:(lia)). set (a := v mod 128) in *. clearbody a.
  replace (a + 128) with (Z.lor a 128); [reflexivity|].
  rewrite <- Z.lxor_lor.
  - rewrite <- Z.add_nocarry_lxor; [reflexivity|].
    apply Z.bits_inj'; intros j Hj. rewrite Z.land_spec, Z.bits_0. change 128 with (2 ^ 7).
    rewrite Z.pow2_bits_eqb by lia. destruct (Z.eqb_spec 7 j) as [<-|].
    + rewrite (small_bits a 7) by lia. reflexivity.
    + apply andb_false_r.
  - apply Z.bits_inj'; intros j Hj. rewrite Z.land_spec, Z.bits_0. change 128 with (2 ^ 7).
    rewrite Z.pow2_bits_eqb by lia. destruct (Z.eqb_spec 7 j) as [<-|].
    + rewrite (small_bits a 7) by lia. reflexivity.
    + apply andb_false_r.
Qed.

Lemma varint_size_small v : 0 <= v < 128 -> varint_size_u v = 1.
Proof.
  intros. unfold varint_size_u, bit_width.
  assert (0 < Z.lor v 1) by (assert (0 <= Z.lor v 1) by (apply Z.lor_nonneg; lia);
     assert (Z.lor v 1 <> 0) by (rewrite Z.lor_eq_0_iff; lia); lia).
  destruct (Z.leb_spec (Z.lor v 1) 0); [lia|].
  rewrite Z.log2_lor by lia. change (Z.log2 1) with 0.
  assert (Z.log2 v < 7) by (destruct (Z.eq_dec v 0) as [->|]; [cbn; lia|]; apply Z.log2_lt_pow2; lia).
  pose proof (Z.log2_nonneg v). lia.
Qed.

Lemma varint_size_step v : 128 <= v -> varint_size_u v = 1 + varint_size_u (v / 128).
Proof.
  intros. unfold varint_size_u, bit_width.
  assert (K : forall x, 0 < x -> (Z.lor x 1 <=? 0) = false).
  { intros x Hx. assert (0 <= Z.lor x 1) by (apply Z.lor_nonneg; lia).
    assert (Z.lor x 1 <> 0) by (rewrite Z.lor_eq_0_iff; lia). lia. }
  rewrite !K by lia. rewrite !Z.log2_lor by lia. change (Z.log2 1) with 0.
  assert (E : Z.log2 (v / 128) = Z.log2 v - 7).
  { change 128 with (2 ^ 7). rewrite <- Z.shiftr_div_pow2, Z.log2_shiftr by lia.
    assert (7 <= Z.log2 v) by (apply Z.log2_le_pow2; lia). lia. }
  rewrite E. assert (7 <= Z.log2 v) by (apply Z.log2_le_pow2; lia).
  rewrite !Z.max_l by lia. lia.
Qed.

Lemma pack_loop_spec f v :
  0 <= v < 2 ^ (7 * (Z.of_nat f + 1)) ->
  is_varint (pack_loop f v) /\ b128 (pack_loop f v) = v /\ zlen (pack_loop f v) = varint_size_u v.
Proof.
  revert v; induction f as [|f IH]; intros v Hv.
  - change (7 * (Z.of_nat 0 + 1)) with 7 in Hv. change (2 ^ 7) with 128 in Hv. cbn [pack_loop].
    change 255 with (Z.ones 8). rewrite Z.land_ones by lia. change (2 ^ 8) with 256.
    rewrite (Z.mod_small v 256) by lia.
    cbn [is_varint b128]. change (zlen [v]) with 1. rewrite (varint_size_small v) by lia. lia.
  - cbn [pack_loop]. destruct (Z.leb_spec 128 v).
    + rewrite byte_lor by lia. rewrite Z.shiftr_div_pow2 by lia. change (2 ^ 7) with 128.
      destruct (IH (v / 128)) as (I1 & I2 & I3).
      { replace (7 * (Z.of_nat (S f) + 1)) with (7 + 7 * (Z.of_nat f + 1)) in Hv by lia.
        rewrite Z.pow_add_r in Hv by lia. change (2 ^ 7) with 128 in Hv. lia. }
      split; [|split].
      * cbn [is_varint]. destruct (pack_loop f (v / 128)); [destruct I1|]. split; [lia|exact I1].
      * cbn [b128]. rewrite I2. lia.
      * rewrite zlen_cons, I3. symmetry; apply varint_size_step; auto.
    + cbn [is_varint b128]. change (zlen [v]) with 1. rewrite (varint_size_small v) by lia. lia.
Qed.

Lemma pack_varint_spec t v :
  is_varint (pack_varint t v) /\ b128 (pack_varint t v) = pack_value t v /\
  zlen (pack_varint t v) = varint_size_u (pack_value t v).
Proof.
  apply pack_loop_spec. pose proof (pack_value_range t v) as [H1 H2].
  split; [auto|]. eapply Z.lt_trans; [exact H2|]. reflexivity.
Qed.

Lemma varint_size_u_bounds k u : 0 <= u < 2 ^ (7 * k) -> 1 <= k -> 1 <= varint_size_u u <= k.
Proof.
  intros Hu Hk. unfold varint_size_u, bit_width.
  assert (0 < Z.lor u 1) by (assert (0 <= Z.lor u 1) by (apply Z.lor_nonneg; lia);
     assert (Z.lor u 1 <> 0) by (rewrite Z.lor_eq_0_iff; lia); lia).
  destruct (Z.leb_spec (Z.lor u 1) 0); [lia|].
  rewrite Z.log2_lor by lia. change (Z.log2 1) with 0.
  assert (Z.log2 u < 7 * k) by (destruct (Z.eq_dec u 0) as [->|]; [change (Z.log2 0) with 0; lia|]; apply Z.log2_lt_pow2; lia).
  pose proof (Z.log2_nonneg u). lia.
Qed.

Lemma pack_varint_len t v : 1 <= zlen (pack_varint t v) <= 10.
Proof.
  destruct (pack_varint_spec t v) as (_ & _ & ->). apply varint_size_u_bounds; [|lia].
  pose proof (pack_value_range t v) as [H1 H2]. split; [auto|].
  eapply Z.lt_trans; [exact H2|reflexivity].
Qed.

(** 32-bit unsigned and zigzag values take at most five bytes. *)
Lemma pack_varint_len32 t v : enc_bits t = 32 -> in_vtype t v -> 1 <= zlen (pack_varint t v) <= 5.
Proof.
  intros Ht Hv. destruct (pack_varint_spec t v) as (_ & _ & ->). apply varint_size_u_bounds; [|lia].
  assert (0 <= pack_value t v < 2 ^ 32); [|change (2 ^ (7 * 5)) with (8 * 2 ^ 32); lia].
  destruct (is_zigzag t) eqn:Z.
  - rewrite pack_value_zigzag by auto. apply zz_range; [lia|]. destruct t; try discriminate; exact Hv.
  - rewrite pack_value_nonzigzag by auto. rewrite Ht. apply Z.mod_pos_bound. reflexivity.
Qed.

(** encode_size agrees with the number of bytes written. *)
Lemma encode_size_pack t v : in_vtype t v -> zlen (pack_varint t v) = encode_size t v.
Proof.
  intros Hv. destruct (pack_varint_spec t v) as (_ & _ & ->). unfold encode_size.
  destruct (is_zigzag t) eqn:Hz.
  - f_equal. unfold pack_value, zigzag_size_arg. rewrite Hz.
    assert (Hw : 0 < enc_bits t) by (destruct t; cbn; lia). set (w := enc_bits t) in *. clearbody w.
    apply Z.bits_inj'; intros j Hj. rewrite Z.lxor_spec. destruct (Z_lt_le_dec j w).
    + rewrite !wrapU_bits by lia. rewrite Z.lxor_spec, wrapS_bits by lia. f_equal.
      destruct (Z.eq_dec j 0) as [->|].
      * rewrite !Z.shiftl_spec_low by lia; reflexivity.
      * rewrite !Z.shiftl_spec by lia. apply wrapU_bits; lia.
    + assert (K : forall x, Z.testbit (wrapU w x) j = false)
        by (intros x; apply (small_bits _ w); [apply wrapU_range; lia|lia]).
      rewrite !K. reflexivity.
  - rewrite pack_value_nonzigzag by auto. reflexivity.
Qed.

(** ** Parsing back *)
Lemma finish_varint_spec t res :
  finish_varint t res =
  if is_zigzag t then cast_vtype t (unzz (res mod 2 ^ 64)) else cast_vtype t res.
Proof.
  unfold finish_varint. destruct (is_zigzag t) eqn:Hz; [|reflexivity].
  fold (wrapU 64 res). set (u := wrapU 64 res).
  assert (Hu : 0 <= u < 2 ^ 64) by (apply wrapU_range; lia).
  change 1 with (Z.ones 1) at 2. rewrite Z.land_ones by lia. change (2 ^ 1) with 2.
  rewrite Z.shiftr_div_pow2 by lia. change (2 ^ 1) with 2.
  unfold unzz. rewrite Zmod_even. destruct (Z.even u).
  - cbn [Z.opp]. change (wrapU 64 0) with 0. rewrite Z.lxor_0_r. reflexivity.
  - change (wrapU 64 (Z.opp 1)) with (2 ^ 64 - 1). rewrite (lxor_ones 64) by lia.
    assert (E : (2 ^ 64 - 1 - u / 2) mod 2 ^ 64 = (- (u / 2) - 1) mod 2 ^ 64).
    { rewrite <- (Z_mod_plus_full (- (u / 2) - 1) 1). f_equal. lia. }
    destruct t; try discriminate; cbn [cast_vtype]; apply wrapS_congr; [|exact E].
    revert E; apply mod_pow2_weaken; lia.
Qed.

(** Meaning of a varint of base-128 value [u] for each type.  For sint32 the
    library applies zigzag before truncating. *)
Definition meaning (t : vtype) (u : Z) : Z :=
  match t with
  | VI32 => wrapS 32 u
  | VI64 => wrapS 64 u
  | VU32 => u mod 2 ^ 32
  | VU64 => u mod 2 ^ 64
  | VS32 => wrapS 32 (unzz u)
  | VS64 => unzz (u mod 2 ^ 64)
  end.

Lemma unzz_mod32 a b : a mod 2 ^ 35 = b mod 2 ^ 35 -> unzz a mod 2 ^ 32 = unzz b mod 2 ^ 32.
Proof.
  intros H. apply (mod_pow2_weaken _ _ 35 33) in H; [|lia].
  assert (K : forall x, unzz x mod 2 ^ 32 = unzz (x mod 2 ^ 33) mod 2 ^ 32).
  { intros x. unfold unzz.
    assert (Z.even x = Z.even (x mod 2 ^ 33)).
    { rewrite (Z.div_mod x (2 ^ 33)) at 1 by lia. rewrite Z.even_add, Z.even_mul.
      change (Z.even (2 ^ 33)) with true. cbn [orb]. destruct (Z.even (x mod 2 ^ 33)); reflexivity. }
    rewrite H0. assert (E : x / 2 = x mod 2 ^ 33 / 2 + (x / 2 ^ 33) * 2 ^ 32).
    { rewrite (Z.div_mod x (2 ^ 33)) at 1 by lia. change (2 ^ 33) with (2 ^ 32 * 2).
      replace (2 ^ 32 * 2 * (x / (2 ^ 32 * 2)) + x mod (2 ^ 32 * 2))
        with (x mod (2 ^ 32 * 2) + (2 ^ 32 * (x / (2 ^ 32 * 2))) * 2) by ring.
      rewrite Z.div_add by lia. ring. }
    rewrite E. destruct (Z.even (x mod 2 ^ 33)).
    - apply Z_mod_plus_full.
    - replace (- (x mod 2 ^ 33 / 2 + x / 2 ^ 33 * 2 ^ 32) - 1)
        with (- (x mod 2 ^ 33 / 2) - 1 + (- (x / 2 ^ 33)) * 2 ^ 32) by ring.
      apply Z_mod_plus_full. }
  rewrite (K a), (K b), H. reflexivity.
Qed.

Lemma finish_varint_meaning t res u :
  res mod 2 ^ sm_bits (smtype_of t) = u mod 2 ^ sm_bits (smtype_of t) ->
  finish_varint t res = meaning t u.
Proof.
  intros H. rewrite finish_varint_spec.
  destruct t; cbn [is_zigzag smtype_of sm_bits cast_vtype meaning] in *.
  - apply wrapS_congr. revert H; apply mod_pow2_weaken; lia.
  - apply wrapS_congr, H.
  - unfold wrapU. revert H; apply mod_pow2_weaken; lia.
  - exact H.
  - apply wrapS_congr. apply unzz_mod32. rewrite <- H.
    apply (mod_pow2_weaken _ _ 64 35); [lia|]. apply Z.mod_mod; lia.
  - rewrite H. apply wrapS_id; [lia|]. apply zz_range; [lia|].
    pose proof (Z.mod_pos_bound u (2 ^ 64) ltac:(lia)). rewrite zz_unzz; lia.
Qed.

(** The integer reader on arbitrary bytes. *)
Lemma parse_varint_spec t m : all_bytes m ->
  parse_varint t m =
  match scan (sm_max (smtype_of t)) m with
  | Short => PUB
  | TooLong => PUnterm
  | Found n => POk (meaning t (b128 (firstn n m))) n
  end.
Proof.
  intros Hm. unfold parse_varint. pose proof (shift_mix_spec (smtype_of t) m Hm) as H.
  unfold pres_matches in H. destruct (scan (sm_max (smtype_of t)) m) as [| |n].
  - rewrite H; reflexivity.
  - rewrite H; reflexivity.
  - destruct H as (v & -> & Hv). f_equal. apply finish_varint_meaning. rewrite Hv.
    destruct t; reflexivity.
Qed.

Lemma parse_varint_varint t bs rest : is_varint bs -> (length bs <= sm_max (smtype_of t))%nat ->
  parse_varint t (bs ++ rest) = POk (meaning t (b128 bs)) (length bs).
Proof.
  intros Hv Hl. unfold parse_varint.
  destruct (shift_mix_varint (smtype_of t) bs rest Hv Hl) as (v & -> & Ev).
  f_equal. apply finish_varint_meaning. rewrite Ev. destruct t; reflexivity.
Qed.

Lemma meaning_pack t v : in_vtype t v -> meaning t (pack_value t v) = v.
Proof.
  intros Hv. destruct t; cbn [in_vtype] in Hv.
  - rewrite pack_value_nonzigzag by reflexivity. cbn [meaning enc_bits].
    rewrite <- (wrapS_id 32 v) at 2 by (auto; lia). apply wrapS_congr.
    apply (mod_pow2_weaken _ _ 64 32); [lia|]. apply Z.mod_mod; lia.
  - rewrite pack_value_nonzigzag by reflexivity. cbn [meaning enc_bits vbits].
    rewrite <- (wrapS_id 64 v) at 2 by (auto; lia). apply wrapS_congr. apply Z.mod_mod; lia.
  - rewrite pack_value_nonzigzag by reflexivity. cbn [meaning enc_bits vbits].
    rewrite Z.mod_mod by lia. apply Z.mod_small, Hv.
  - rewrite pack_value_nonzigzag by reflexivity. cbn [meaning enc_bits vbits].
    rewrite Z.mod_mod by lia. apply Z.mod_small, Hv.
  - rewrite pack_value_zigzag by (auto; reflexivity). cbn [meaning]. rewrite unzz_zz. apply wrapS_id; [lia|auto].
  - rewrite pack_value_zigzag by (auto; reflexivity). cbn [meaning].
    rewrite Z.mod_small; [apply unzz_zz|]. apply zz_range; [lia|auto].
Qed.

Lemma pack_varint_sm_max t v : in_vtype t v -> (length (pack_varint t v) <= sm_max (smtype_of t))%nat.
Proof.
  intros Hv. pose proof (pack_varint_len t v) as H. unfold zlen in H.
  destruct t; cbn [smtype_of sm_max]; try lia.
  pose proof (pack_varint_len32 VU32 v eq_refl Hv) as H'. unfold zlen in H'. lia.
Qed.

Lemma parse_pack t v rest : in_vtype t v ->
  parse_varint t (pack_varint t v ++ rest) = POk v (length (pack_varint t v)).
Proof.
  intros Hv. destruct (pack_varint_spec t v) as (H1 & H2 & _).
  rewrite parse_varint_varint; auto using pack_varint_sm_max.
  rewrite H2, meaning_pack; auto.
Qed.

(** ** Bool *)
Lemma lor_128 a : 0 <= a < 128 -> Z.lor a 128 = a + 128.
Proof.
  intros. pose proof (byte_lor a ltac:(lia)) as H0. change 127 with (Z.ones 7) in H0.
  rewrite Z.land_ones in H0 by lia. change (2 ^ 7) with 128 in H0. rewrite (Z.mod_small a 128) in H0 by lia. exact H0.
Qed.

Lemma lor_range7 a b : 0 <= a < 128 -> 0 <= b < 128 -> 0 <= Z.lor a b < 128.
Proof.
  intros Ha Hb. split; [apply Z.lor_nonneg; lia|].
  destruct (Z_lt_le_dec (Z.lor a b) 128) as [|K]; [auto|exfalso].
  change 128 with (2 ^ 7) in *. apply Z.log2_le_pow2 in K; [|lia].
  rewrite Z.log2_lor in K by lia.
  assert (Z.log2 a < 7) by (destruct (Z.eq_dec a 0) as [->|]; [cbn; lia|]; apply Z.log2_lt_pow2; lia).
  assert (Z.log2 b < 7) by (destruct (Z.eq_dec b 0) as [->|]; [cbn; lia|]; apply Z.log2_lt_pow2; lia).
  lia.
Qed.

Lemma land128_byte x : is_byte x -> (Z.land x 128 =? 0) = (x <? 128).
Proof.
  intros Hx. pose proof (land128 x Hx) as H. rewrite <- H. f_equal.
  unfold sext8. destruct (x <? 128); [reflexivity|].
  apply Z.bits_inj'; intros j Hj. rewrite !Z.land_spec. change 128 with (2 ^ 7).
  rewrite Z.pow2_bits_eqb by lia. destruct (Z.eqb_spec 7 j) as [<-|]; [|rewrite !andb_false_r; reflexivity].
  rewrite !andb_true_r. rewrite <- (Z.mod_pow2_bits_low (x - 256) 8) by lia.
  replace (x - 256) with (x + (-1) * 2 ^ 8) by lia.
  rewrite Z_mod_plus_full. rewrite Z.mod_pow2_bits_low by lia. reflexivity.
Qed.

(** One accumulation step: [(byte - 0x80) | next]. *)
Lemma lor_byte acc b : 0 <= acc < 128 -> is_byte b ->
  is_byte (Z.lor acc b) /\ (Z.lor acc b <? 128) = (b <? 128) /\
  (128 <= b -> Z.lor acc b - 128 = Z.lor acc (b - 128)).
Proof.
  unfold is_byte; intros Ha Hb. destruct (Z.ltb_spec b 128).
  - pose proof (lor_range7 acc b Ha ltac:(lia)). split; [lia|]. split; [lia|lia].
  - pose proof (lor_range7 acc (b - 128) Ha ltac:(lia)).
    assert (E : Z.lor acc b = Z.lor acc (b - 128) + 128).
    { replace b with (Z.lor (b - 128) 128) at 1 by (rewrite lor_128; lia).
      rewrite Z.lor_assoc, lor_128 by auto. reflexivity. }
    split; [lia|]. split; [lia|lia].
Qed.

Lemma mod_mul_zero a X M : 0 <= a < 128 -> 0 < M ->
  ((a + 128 * X) mod (128 * M) =? 0) = (a =? 0) && (X mod M =? 0).
Proof.
  intros. rewrite Z.rem_mul_r by lia.
  replace ((a + 128 * X) mod 128) with a by lia.
  replace ((a + 128 * X) / 128) with X by lia.
  pose proof (Z.mod_pos_bound X M). lia.
Qed.

Lemma parse_bool_loop_spec left : forall n acc b m,
  0 <= acc < 128 -> is_byte b -> all_bytes m ->
  parse_bool_loop left (S n) (Z.lor acc b) m =
  match scan (S (S left)) (b :: m) with
  | Short => PUB
  | TooLong => PUnterm
  | Found k => POk (if (acc =? 0) && (b128 (firstn k (b :: m)) mod 2 ^ (7 * (Z.of_nat left + 1) + 1) =? 0) then 0 else 1) (n + k)
  end.
Proof.
  induction left as [|l IH]; intros n acc b m Ha Hb Hm;
    destruct (lor_byte acc b Ha Hb) as (L1 & L2 & L3).
  - cbn [parse_bool_loop]. rewrite land128_byte, L2 by auto. cbn [scan].
    destruct (Z.ltb_spec b 128).
    + cbn [firstn b128]. replace (n + 1)%nat with (S n) by lia. f_equal.
      change (2 ^ (7 * (Z.of_nat 0 + 1) + 1)) with 256. unfold is_byte in Hb.
      replace ((b mod 128 + 128 * 0) mod 256) with b by lia.
      pose proof (Z.lor_eq_0_iff acc b).
      destruct (Z.eqb_spec (Z.lor acc b) 0); destruct (Z.eqb_spec acc 0); destruct (Z.eqb_spec b 0); cbn; lia.
    + destruct m as [|b' m]; [reflexivity|]. cbn [next].
      inversion Hm as [|? ? Hb' Hm']; subst.
      rewrite L3 by auto.
      assert (Hacc : 0 <= Z.lor acc (b - 128) < 128) by (apply lor_range7; unfold is_byte in *; lia).
      assert (E129 : Z.land b' 129 = (if 128 <=? b' then 128 else 0) + (if Z.testbit b' 0 then 1 else 0)).
      { change 129 with (Z.lor 128 1). rewrite Z.land_lor_distr_r.
        assert (A : Z.land b' 128 = if 128 <=? b' then 128 else 0).
        { apply Z.bits_inj'; intros i Hi. rewrite Z.land_spec. change 128 with (2 ^ 7) at 1.
          rewrite Z.pow2_bits_eqb by lia. destruct (Z.eqb_spec 7 i) as [<-|].
          - rewrite andb_true_r, byte_bit7 by auto. destruct (128 <=? b'); reflexivity.
          - rewrite andb_false_r. destruct (128 <=? b'); [|symmetry; apply Z.bits_0].
            change 128 with (2 ^ 7). rewrite Z.pow2_bits_false by lia. reflexivity. }
        assert (B : Z.land b' 1 = if Z.testbit b' 0 then 1 else 0).
        { change 1 with (Z.ones 1) at 1. rewrite Z.land_ones by lia. change (2 ^ 1) with 2.
          rewrite Zmod_odd, Z.bit0_odd. reflexivity. }
        rewrite A, B. destruct (128 <=? b'), (Z.testbit b' 0); reflexivity. }
      assert (HB : is_byte (Z.land b' 129)) by (rewrite E129; unfold is_byte; destruct (128 <=? b'), (Z.testbit b' 0); lia).
      destruct (lor_byte _ _ Hacc HB) as (M1 & M2 & _).
      rewrite land128_byte, M2 by auto. rewrite E129.
      assert (X : ((if 128 <=? b' then 128 else 0) + (if Z.testbit b' 0 then 1 else 0) <? 128) = (b' <? 128)).
      { destruct (Z.leb_spec 128 b'); destruct (Z.testbit b' 0); lia. }
      rewrite X. destruct (Z.ltb_spec b' 128); [|reflexivity].
      replace (n + 2)%nat with (S (S n)) by lia. f_equal. cbn [firstn b128].
      change (2 ^ (7 * (Z.of_nat 0 + 1) + 1)) with (128 * 2).
      unfold is_byte in *. rewrite mod_mul_zero by lia.
      replace (128 <=? b') with false by lia.
      replace ((b' mod 128 + 128 * 0) mod 2) with (b' mod 2) by lia.
      rewrite Zmod_odd, <- Z.bit0_odd. replace (b mod 128) with (b - 128) by lia. cbn [Z.add].
      pose proof (Z.lor_eq_0_iff acc (b - 128)). 
      pose proof (Z.lor_eq_0_iff (Z.lor acc (b - 128)) (if Z.testbit b' 0 then 1 else 0)).
      destruct (Z.testbit b' 0);
      destruct (Z.eqb_spec acc 0); destruct (Z.eqb_spec (b - 128) 0);
      match goal with |- context [?x =? 0] => destruct (Z.eqb_spec x 0) end; cbn; lia.
  - cbn [parse_bool_loop]. rewrite land128_byte, L2 by auto. 
    change (scan (S (S (S l))) (b :: m)) with (if b <? 128 then Found 1 else
       match scan (S (S l)) m with Found n => Found (S n) | r => r end).
    destruct (Z.ltb_spec b 128).
    + cbn [firstn b128]. replace (n + 1)%nat with (S n) by lia. f_equal.
      unfold is_byte in Hb. rewrite Z.mod_small.
      2: { split; [lia|]. apply Z.lt_le_trans with (2 ^ 7); [change (2 ^ 7) with 128; lia|]. apply Z.pow_le_mono_r; lia. }
      replace (b mod 128 + 128 * 0) with b by lia.
      pose proof (Z.lor_eq_0_iff acc b).
      destruct (Z.eqb_spec (Z.lor acc b) 0); destruct (Z.eqb_spec acc 0); destruct (Z.eqb_spec b 0); cbn; lia.
    + destruct m as [|b' m]; [reflexivity|]. cbn [next].
      inversion Hm as [|? ? Hb' Hm']; subst. rewrite L3 by auto.
      assert (Hacc : 0 <= Z.lor acc (b - 128) < 128) by (apply lor_range7; unfold is_byte in *; lia).
      rewrite IH by auto.
      destruct (scan (S (S l)) (b' :: m)) as [| |k]; [reflexivity|reflexivity|].
      replace (S n + k)%nat with (n + S k)%nat by lia. f_equal.
      rewrite firstn_cons. cbn [b128].
      replace (7 * (Z.of_nat (S l) + 1) + 1) with (7 + (7 * (Z.of_nat l + 1) + 1)) by lia.
      rewrite (Z.pow_add_r 2 7) by lia. change (2 ^ 7) with 128. unfold is_byte in Hb.
      rewrite mod_mul_zero by (lia || apply Z.pow_pos_nonneg; lia).
      replace (b mod 128) with (b - 128) by lia.
      pose proof (Z.lor_eq_0_iff acc (b - 128)).
      destruct (Z.eqb_spec (Z.lor acc (b - 128)) 0); destruct (Z.eqb_spec acc 0); destruct (Z.eqb_spec (b - 128) 0);
        cbn [andb]; lia || reflexivity.
Qed.

Lemma parse_bool_spec m : all_bytes m ->
  parse_bool m =
  match scan 10 m with
  | Short => PUB
  | TooLong => PUnterm
  | Found n => POk (if b128 (firstn n m) mod 2 ^ 64 =? 0 then 0 else 1) n
  end.
Proof.
  intros Hm. unfold parse_bool. destruct m as [|b m]; [reflexivity|]. cbn [next].
  inversion Hm as [|? ? Hb Hm']; subst.
  destruct (Z.eqb_spec b 0) as [->|]; [reflexivity|]. destruct (Z.eqb_spec b 1) as [->|]; [reflexivity|].
  cbn [orb]. pose proof (parse_bool_loop_spec 8 0 0 b m ltac:(lia) Hb Hm') as H.
  rewrite Z.lor_0_l in H. rewrite H. reflexivity.
Qed.

Lemma parse_bool_loop_app left n byte m rest :
  parse_bool_loop left n byte m <> PUB ->
  parse_bool_loop left n byte (m ++ rest) = parse_bool_loop left n byte m.
Proof.
  revert n byte m; induction left as [|l IH]; intros n byte m; cbn [parse_bool_loop];
    destruct (Z.land byte 128 =? 0); try reflexivity; destruct m as [|b m]; cbn [next app]; try congruence; auto.
Qed.

Lemma parse_bool_app m rest : parse_bool m <> PUB -> parse_bool (m ++ rest) = parse_bool m.
Proof.
  unfold parse_bool. destruct m as [|b m]; cbn [next app]; [congruence|].
  destruct ((b =? 0) || (b =? 1)); [reflexivity|]. apply parse_bool_loop_app.
Qed.

Lemma parse_varint_app t m rest : parse_varint t m <> PUB -> parse_varint t (m ++ rest) = parse_varint t m.
Proof.
  unfold parse_varint. intros H.
  rewrite shift_mix_app; [reflexivity|]. destruct (shift_mix (smtype_of t) m); congruence.
Qed.

(** Number of bytes consumed: at least one and at most the available ones. *)
Lemma scan_app max m rest : scan max m <> Short -> scan max (m ++ rest) = scan max m.
Proof.
  revert m; induction max as [|k IH]; intros m; cbn [scan]; [reflexivity|].
  destruct m as [|b t]; [congruence|]. cbn [app]. destruct (b <? 128); [reflexivity|].
  intros H. rewrite IH; [reflexivity|]. destruct (scan k t); congruence.
Qed.
