(** Bytes and machine integers.

    Bytes are integers [Z] in the range 0..255 ([is_byte]); machine integers
    are [Z] values, and C++ casts are the explicit wrap functions below. *)
Require Export ZArith List Lia Bool ZifyBool ZifyNat ZifyN.
Export ListNotations.
Open Scope Z_scope.

Ltac Zify.zify_post_hook ::= Z.div_mod_to_equations.

Definition is_byte (b : Z) : Prop := 0 <= b < 256.
Definition bytes := list Z.
Definition all_bytes (bs : bytes) : Prop := Forall is_byte bs.

(** Length of a list as a [Z] (C++ [size()] results and pointer differences). *)
Definition zlen {A} (l : list A) : Z := Z.of_nat (length l).

(** Cast to an unsigned integer type of [w] bits: C++20 [static_cast<uintW_t>]. *)
Definition wrapU (w : Z) (x : Z) : Z := x mod 2 ^ w.

(** Cast to a signed integer type of [w] bits: C++20 [static_cast<intW_t>]
    (two's complement is mandated since C++20). *)
Definition wrapS (w : Z) (x : Z) : Z :=
  let u := x mod 2 ^ w in if u <? 2 ^ (w - 1) then u else u - 2 ^ w.

Definition fits_u (w x : Z) : Prop := 0 <= x < 2 ^ w.
Definition fits_s (w x : Z) : Prop := - 2 ^ (w - 1) <= x < 2 ^ (w - 1).

Lemma wrapU_id w x : fits_u w x -> wrapU w x = x.
Proof. unfold wrapU, fits_u; intros; apply Z.mod_small; auto. Qed.

Lemma wrapU_range w x : 0 <= w -> fits_u w (wrapU w x).
Proof. intros; unfold wrapU, fits_u; apply Z.mod_pos_bound; apply Z.pow_pos_nonneg; lia. Qed.

Lemma pow2_succ w : 0 < w -> 2 ^ w = 2 * 2 ^ (w - 1).
Proof. intros; rewrite <- Z.pow_succ_r by lia; f_equal; lia. Qed.

Lemma wrapS_range w x : 0 < w -> fits_s w (wrapS w x).
Proof.
  intros H; unfold wrapS, fits_s.
  pose proof (Z.mod_pos_bound x (2 ^ w) ltac:(apply Z.pow_pos_nonneg; lia)).
  pose proof (pow2_succ w H).
  destruct (Z.ltb_spec (x mod 2 ^ w) (2 ^ (w - 1))); lia.
Qed.

Lemma wrapS_mod w x : 0 < w -> wrapS w x mod 2 ^ w = x mod 2 ^ w.
Proof.
  intros H; unfold wrapS.
  assert (0 < 2 ^ w) by (apply Z.pow_pos_nonneg; lia).
  destruct (x mod 2 ^ w <? 2 ^ (w - 1)).
  - apply Z.mod_mod; lia.
  - replace (x mod 2 ^ w - 2 ^ w) with (x mod 2 ^ w + (-1) * 2 ^ w) by lia.
    rewrite Z_mod_plus_full. apply Z.mod_mod; lia.
Qed.

Lemma wrapS_id w x : 0 < w -> fits_s w x -> wrapS w x = x.
Proof.
  intros H Hx; unfold wrapS, fits_s in *.
  pose proof (pow2_succ w H).
  assert (0 < 2 ^ (w - 1)) by (apply Z.pow_pos_nonneg; lia).
  destruct (Z_lt_le_dec x 0).
  - replace (x mod 2 ^ w) with (x + 2 ^ w).
    + destruct (Z.ltb_spec (x + 2 ^ w) (2 ^ (w - 1))); lia.
    + rewrite <- (Z_mod_plus_full x 1). rewrite Z.mod_small; lia.
  - rewrite Z.mod_small by lia. destruct (Z.ltb_spec x (2 ^ (w - 1))); lia.
Qed.

(** Two integers equal modulo 2^w wrap to the same signed value. *)
Lemma wrapS_congr w x y : x mod 2 ^ w = y mod 2 ^ w -> wrapS w x = wrapS w y.
Proof. unfold wrapS; intros ->; reflexivity. Qed.

Lemma mod_pow2_weaken a b w v :
  0 <= v <= w -> a mod 2 ^ w = b mod 2 ^ w -> a mod 2 ^ v = b mod 2 ^ v.
Proof.
  intros Hv H.
  assert (E : 2 ^ w = 2 ^ v * 2 ^ (w - v)) by (rewrite <- Z.pow_add_r by lia; f_equal; lia).
  assert (0 < 2 ^ v) by (apply Z.pow_pos_nonneg; lia).
  assert (0 < 2 ^ (w - v)) by (apply Z.pow_pos_nonneg; lia).
  assert (forall z, (z mod 2 ^ w) mod 2 ^ v = z mod 2 ^ v) as K.
  { intros z. rewrite E, Z.rem_mul_r by lia.
    rewrite (Z.mul_comm (2 ^ v)), Z_mod_plus_full, Z.mod_mod; lia. }
  rewrite <- (K a), <- (K b), H; reflexivity.
Qed.

(** Bitwise reasoning *)
Lemma mod_pow2_bits a b w :
  0 <= w -> (forall j, 0 <= j < w -> Z.testbit a j = Z.testbit b j) ->
  a mod 2 ^ w = b mod 2 ^ w.
Proof.
  intros Hw H. apply Z.bits_inj'; intros j Hj.
  destruct (Z_lt_le_dec j w).
  - rewrite !Z.mod_pow2_bits_low by lia; apply H; lia.
  - rewrite !Z.mod_pow2_bits_high by lia; reflexivity.
Qed.

Lemma wrapU_bits w x j : 0 <= j < w -> Z.testbit (wrapU w x) j = Z.testbit x j.
Proof. intros; unfold wrapU; apply Z.mod_pow2_bits_low; lia. Qed.

Lemma wrapS_bits w x j : 0 <= j < w -> Z.testbit (wrapS w x) j = Z.testbit x j.
Proof.
  intros. rewrite <- (Z.mod_pow2_bits_low _ w) by lia.
  rewrite wrapS_mod by lia. apply Z.mod_pow2_bits_low; lia.
Qed.

(** [int8_t] view of a byte, sign extended. *)
Definition sext8 (b : Z) : Z := if b <? 128 then b else b - 256.

Lemma byte_high_bits b m : is_byte b -> 8 <= m -> Z.testbit b m = false.
Proof.
  intros [H1 H2] Hm. destruct (Z.eq_dec b 0) as [->|]; [apply Z.bits_0|].
  apply Z.bits_above_log2; [lia|].
  assert (Z.log2 b < 8) by (apply Z.log2_lt_pow2; lia). lia.
Qed.

Lemma byte_bit7 b : is_byte b -> Z.testbit b 7 = (128 <=? b).
Proof.
  intros [H1 H2]. rewrite Z.testbit_odd, Z.shiftr_div_pow2 by lia.
  change (2 ^ 7) with 128.
  destruct (Z.leb_spec 128 b).
  - replace (b / 128) with 1 by lia. reflexivity.
  - rewrite Z.div_small by lia; reflexivity.
Qed.

Lemma small_bits a k m : 0 <= a < 2 ^ k -> 0 <= k <= m -> Z.testbit a m = false.
Proof.
  intros [H1 H2] Hm. destruct (Z.eq_dec a 0) as [->|]; [apply Z.bits_0|].
  apply Z.bits_above_log2; [lia|].
  assert (Z.log2 a < k) by (apply Z.log2_lt_pow2; lia). lia.
Qed.

Lemma sext8_bits b m : is_byte b -> 0 <= m ->
  Z.testbit (sext8 b) m = if m <? 7 then Z.testbit b m else (128 <=? b).
Proof.
  intros Hb Hm. unfold sext8. pose proof Hb as [H1 H2].
  destruct (Z.ltb_spec b 128).
  - destruct (Z.ltb_spec m 7); [reflexivity|].
    rewrite (small_bits b 7 m) by lia. symmetry; lia.
  - assert (E : 128 <=? b = true) by lia. rewrite E.
    destruct (Z.ltb_spec m 7).
    + rewrite <- (Z.mod_pow2_bits_low (b - 256) 8) by lia.
      replace (b - 256) with (b + (-1) * 2 ^ 8) by lia.
      rewrite Z_mod_plus_full. apply Z.mod_pow2_bits_low; lia.
    + replace (b - 256) with (Z.lnot (255 - b)) by (unfold Z.lnot; lia).
      rewrite Z.lnot_spec by lia. rewrite (small_bits (255 - b) 7 m) by lia. reflexivity.
Qed.

Lemma sext8_nonneg b : is_byte b -> (0 <=? sext8 b) = (b <? 128).
Proof. unfold sext8, is_byte; intros; destruct (Z.ltb_spec b 128); lia. Qed.

(** Sign of a value is its bit [w-1] when it fits in [w] bits. *)
Lemma fits_s_sign w x : 0 < w -> fits_s w x -> (0 <=? x) = negb (Z.testbit x (w - 1)).
Proof.
  intros Hw [H1 H2]. destruct (Z.leb_spec 0 x).
  - rewrite (small_bits x (w - 1)) by lia; reflexivity.
  - replace x with (Z.lnot (- x - 1)) by (unfold Z.lnot; lia).
    rewrite Z.lnot_spec by lia. rewrite (small_bits (- x - 1) (w - 1)) by lia. reflexivity.
Qed.

Lemma zlen_nil {A} : zlen (@nil A) = 0. Proof. reflexivity. Qed.
Lemma zlen_cons {A} (a : A) l : zlen (a :: l) = 1 + zlen l.
Proof. unfold zlen; cbn [length]; lia. Qed.
Lemma zlen_app {A} (a b : list A) : zlen (a ++ b) = zlen a + zlen b.
Proof. unfold zlen; rewrite app_length; lia. Qed.
Lemma zlen_nonneg {A} (a : list A) : 0 <= zlen a.
Proof. unfold zlen; lia. Qed.
