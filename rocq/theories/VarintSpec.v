(** Specification of base-128 varints, independent of the parser's bit tricks. *)
Require Import Verif.Bits.

(** Little-endian base-128 value of a byte sequence: the high bit of each byte is ignored. *)
Fixpoint b128 (bs : bytes) : Z :=
  match bs with
  | [] => 0
  | b :: t => b mod 128 + 128 * b128 t
  end.

(** Scan for the first byte below 128 among at most [max] bytes. *)
Inductive scan_result := Short | TooLong | Found (n : nat).

Fixpoint scan (max : nat) (m : bytes) : scan_result :=
  match max with
  | O => TooLong
  | S k =>
      match m with
      | [] => Short
      | b :: t =>
          if b <? 128 then Found 1
          else match scan k t with Found n => Found (S n) | r => r end
      end
  end.

(** A byte sequence that is one varint: all bytes but the last are >= 128, the last is below. *)
Fixpoint is_varint (bs : bytes) : Prop :=
  match bs with
  | [] => False
  | [b] => 0 <= b < 128
  | b :: t => 128 <= b < 256 /\ is_varint t
  end.

Lemma scan_found max m n :
  all_bytes m -> scan max m = Found n ->
  (n <= length m)%nat /\ (1 <= n <= max)%nat /\ is_varint (firstn n m).
Proof.
  revert m n; induction max as [|k IH]; intros m n Hm; cbn [scan]; [discriminate|].
  destruct m as [|b t]; [discriminate|].
  inversion Hm as [|? ? Hb Ht]; subst; unfold is_byte in Hb.
  destruct (Z.ltb_spec b 128) as [Hlt|Hge].
  - intros [= <-]. cbn [length firstn is_varint]. lia.
  - destruct (scan k t) as [| |n'] eqn:E; try discriminate.
    intros [= <-]. specialize (IH t n' Ht E). destruct IH as (I1 & I2 & I3).
    cbn [length firstn]. split; [lia|]. split; [lia|].
    destruct n' as [|n'']; [lia|]. destruct t as [|b' t']; [cbn in I3; tauto|].
    cbn [firstn] in *. cbn [is_varint] in *. split; [lia|exact I3].
Qed.

Lemma scan_is_varint max bs rest :
  is_varint bs -> (length bs <= max)%nat -> scan max (bs ++ rest) = Found (length bs).
Proof.
  revert max; induction bs as [|b t IH]; intros max Hv Hl; [destruct Hv|].
  destruct max as [|k]; [cbn in Hl; lia|].
  cbn [app scan]. destruct t as [|b' t'].
  - cbn in Hv. destruct (Z.ltb_spec b 128); [reflexivity|lia].
  - cbn [is_varint] in Hv. destruct Hv as [Hb Ht].
    destruct (Z.ltb_spec b 128); [lia|].
    rewrite IH; [reflexivity|exact Ht|cbn [length] in *; lia].
Qed.

Lemma scan_toolong max m :
  scan max m = TooLong -> (max <= length m)%nat /\ Forall (fun b => 128 <= b) (firstn max m).
Proof.
  revert m; induction max as [|k IH]; intros m; cbn [scan].
  - intros _. split; [lia|constructor].
  - destruct m as [|b t]; [discriminate|].
    destruct (Z.ltb_spec b 128) as [|Hge]; [discriminate|].
    destruct (scan k t) eqn:E; try discriminate. intros _.
    destruct (IH t E) as [I1 I2]. cbn [length firstn]. split; [lia|].
    constructor; [lia|assumption].
Qed.

Lemma scan_short max m :
  scan max m = Short -> (length m < max)%nat /\ Forall (fun b => 128 <= b) m.
Proof.
  revert m; induction max as [|k IH]; intros m; cbn [scan]; [discriminate|].
  destruct m as [|b t].
  - intros _. split; [cbn; lia|constructor].
  - destruct (Z.ltb_spec b 128) as [|Hge]; [discriminate|].
    destruct (scan k t) eqn:E; try discriminate. intros _.
    destruct (IH t E) as [I1 I2]. cbn [length]. split; [lia|].
    constructor; [lia|assumption].
Qed.

Lemma b128_nonneg bs : 0 <= b128 bs.
Proof. induction bs; cbn [b128]; lia. Qed.

Lemma b128_bound bs : b128 bs < 2 ^ (7 * zlen bs).
Proof.
  induction bs as [|b t IH]; [cbn; lia|].
  rewrite zlen_cons. cbn [b128].
  replace (7 * (1 + zlen t)) with (7 + 7 * zlen t) by lia.
  pose proof (zlen_nonneg t).
  rewrite Z.pow_add_r by lia. change (2 ^ 7) with 128.
  pose proof (Z.mod_pos_bound b 128). lia.
Qed.

Lemma b128_bits_cons b t j :
  Z.testbit (b128 (b :: t)) j = if j <? 7 then Z.testbit b j else Z.testbit (b128 t) (j - 7).
Proof.
  destruct (Z_lt_le_dec j 0) as [Hn|Hj].
  { rewrite !(Z.testbit_neg_r _ j) by lia. destruct (Z.ltb_spec j 7); [reflexivity|lia]. }
  cbn [b128]. destruct (Z.ltb_spec j 7).
  - rewrite <- (Z.mod_pow2_bits_low _ 7) by lia. rewrite <- (Z.mod_pow2_bits_low b 7) by lia.
    f_equal. change (2 ^ 7) with 128. lia.
  - replace j with (j - 7 + 7) at 1 by lia. rewrite <- Z.div_pow2_bits by lia.
    f_equal. change (2 ^ 7) with 128. lia.
Qed.

(** Zigzag maps, written arithmetically. *)
Definition zz (v : Z) : Z := if v <? 0 then - 2 * v - 1 else 2 * v.
Definition unzz (u : Z) : Z := if Z.even u then u / 2 else - (u / 2) - 1.

Lemma unzz_zz v : unzz (zz v) = v.
Proof.
  unfold unzz, zz. destruct (Z.ltb_spec v 0).
  - replace (Z.even (-2 * v - 1)) with false; [lia|].
    rewrite Z.even_sub, Z.even_mul. reflexivity.
  - rewrite Z.even_mul. cbn [Z.even orb]. lia.
Qed.

Lemma zz_unzz u : 0 <= u -> zz (unzz u) = u.
Proof.
  intros. unfold unzz, zz. pose proof (Zmod_even u) as E.
  destruct (Z.even u).
  - destruct (Z.ltb_spec (u / 2) 0); lia.
  - destruct (Z.ltb_spec (- (u / 2) - 1) 0); lia.
Qed.

Lemma zz_range w v : 0 < w -> (fits_s w v <-> 0 <= zz v < 2 ^ w).
Proof.
  intros Hw. unfold zz, fits_s. pose proof (pow2_succ w Hw).
  destruct (Z.ltb_spec v 0); lia.
Qed.
