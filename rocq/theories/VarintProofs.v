(** Proofs about the varint model. *)
Require Import Verif.Bits Verif.Varint Verif.VarintSpec.

(** Maximal number of bytes accepted by each parser instantiation, and the
    number of low bits of the result that are meaningful. *)
Definition sm_max (ty : smtype) : nat :=
  match ty with SM64 | SMI32 => 10 | SMU32 => 6 | SMTAG => 5 end.

Lemma shl_byte_range n b ones : fits_s 64 (shl_byte n b ones).
Proof. apply wrapS_range; lia. Qed.

(** Bit [j] of the contribution of byte [b] at index [n] of a varint. *)
Definition term (n b j : Z) : bool :=
  if j <? 7 * n then true else if j - 7 * n <? 7 then Z.testbit b (j - 7 * n) else (128 <=? b).

Fixpoint terms (n : Z) (bs : bytes) (j : Z) : bool :=
  match bs with [] => true | b :: t => term n b j && terms (n + 1) t j end.

Lemma terms_spec bs n j : is_varint bs -> 0 <= n -> 0 <= j ->
  terms n bs j = if j <? 7 * n then true else Z.testbit (b128 bs) (j - 7 * n).
Proof.
  revert n; induction bs as [|b t IH]; intros n Hv Hn Hj; [destruct Hv|].
  cbn [terms]. rewrite b128_bits_cons. unfold term.
  destruct t as [|b' t'].
  - cbn in Hv. cbn [terms b128]. rewrite Z.bits_0, andb_true_r.
    replace (128 <=? b) with false by lia. reflexivity.
  - cbn [is_varint] in Hv. destruct Hv as [Hb Ht]. rewrite IH by (auto; lia).
    replace (128 <=? b) with true by lia.
    destruct (Z.ltb_spec j (7 * n)).
    + destruct (Z.ltb_spec j (7 * (n + 1))); [reflexivity|lia].
    + destruct (Z.ltb_spec (j - 7 * n) 7).
      * destruct (Z.ltb_spec j (7 * (n + 1))); [apply andb_true_r|lia].
      * destruct (Z.ltb_spec j (7 * (n + 1))); [lia|]. cbn [andb]. f_equal; lia.
Qed.

Lemma shl_byte_bits n b b0 j :
  1 <= n <= 8 -> is_byte b -> is_byte b0 -> 128 <= b0 -> 0 <= j < 64 ->
  Z.testbit (shl_byte n (sext8 b) (sext8 b0)) j = term n b j.
Proof.
  intros Hn Hb Hb0 H0 Hj. unfold shl_byte, term.
  rewrite wrapS_bits, Z.lor_spec, wrapU_bits by lia.
  rewrite Z.shiftr_spec by lia.
  destruct (Z.ltb_spec j (7 * n)).
  - rewrite Z.shiftl_spec_low by lia. cbn [orb].
    rewrite wrapU_bits, sext8_bits by (auto; lia).
    destruct (Z.ltb_spec (j + (64 - 7 * n)) 7); [lia|]. lia.
  - rewrite Z.shiftl_spec by lia. rewrite wrapU_bits, sext8_bits by (auto; lia).
    rewrite (small_bits (wrapU 64 (sext8 b0)) 64) ; [apply orb_false_r| |lia].
    apply wrapU_range; lia.
Qed.

Lemma sext8_term b j : is_byte b -> 0 <= j -> Z.testbit (sext8 b) j = term 0 b j.
Proof.
  intros. rewrite sext8_bits by auto. unfold term. rewrite Z.mul_0_r, Z.sub_0_r.
  destruct (Z.ltb_spec j 0); [lia|]. reflexivity.
Qed.

Lemma shl_byte_sign n b b0 :
  1 <= n <= 8 -> is_byte b -> is_byte b0 -> 128 <= b0 ->
  (0 <=? shl_byte n (sext8 b) (sext8 b0)) = (b <? 128).
Proof.
  intros. rewrite (fits_s_sign 64) by (lia || apply shl_byte_range).
  rewrite shl_byte_bits by (auto; lia). unfold term. change (64 - 1) with 63.
  destruct (Z.ltb_spec 63 (7 * n)); [lia|].
  destruct (Z.ltb_spec (63 - 7 * n) 7); lia.
Qed.

Lemma leb_land_nonneg a b : (0 <=? Z.land a b) = (0 <=? a) || (0 <=? b).
Proof.
  pose proof (Z.land_nonneg a b) as H.
  destruct (Z.leb_spec 0 (Z.land a b)); destruct (Z.leb_spec 0 a); destruct (Z.leb_spec 0 b); cbn; try reflexivity; lia.
Qed.

Lemma land128 b : is_byte b -> (Z.land (sext8 b) 128 =? 0) = (b <? 128).
Proof.
  intros Hb. change 128 with (2 ^ 7) at 1.
  assert (E : Z.land (sext8 b) (2 ^ 7) = if 128 <=? b then 128 else 0).
  { apply Z.bits_inj'; intros i Hi. rewrite Z.land_spec.
    destruct (Z.eq_dec i 7) as [->|Hne].
    - rewrite Z.pow2_bits_true, andb_true_r, sext8_bits by (auto; lia). cbn.
      destruct (128 <=? b); reflexivity.
    - rewrite Z.pow2_bits_false, andb_false_r by lia.
      destruct (128 <=? b); [|symmetry; apply Z.bits_0].
      change 128 with (2 ^ 7). rewrite Z.pow2_bits_false by lia. reflexivity. }
  rewrite E. destruct (Z.leb_spec 128 b); destruct (Z.ltb_spec b 128); lia || reflexivity.
Qed.

Lemma land1 b : is_byte b -> (Z.land (sext8 b) 1 =? 0) = negb (Z.testbit b 0).
Proof.
  intros Hb. change 1 with (Z.ones 1). rewrite Z.land_ones by lia. change (2 ^ 1) with 2.
  replace (sext8 b mod 2) with (b mod 2) by (unfold sext8; destruct (b <? 128); lia).
  rewrite Zmod_odd, Z.bit0_odd. destruct (Z.odd b); reflexivity.
Qed.

Lemma sext8_eq1 b : is_byte b -> (sext8 b =? 1) = (b =? 1).
Proof. unfold is_byte, sext8; intros; destruct (Z.ltb_spec b 128); lia. Qed.

Lemma xor63_bits r j : 0 <= j < 64 ->
  Z.testbit (wrapS 64 (Z.lxor r (wrapS 64 (Z.shiftl 1 63)))) j =
  if j =? 63 then negb (Z.testbit r j) else Z.testbit r j.
Proof.
  intros. rewrite wrapS_bits, Z.lxor_spec, wrapS_bits by lia.
  rewrite Z.shiftl_1_l. rewrite Z.pow2_bits_eqb by lia.
  destruct (Z.eqb_spec j 63) as [->|].
  - cbn. destruct (Z.testbit r 63); reflexivity.
  - replace (63 =? j) with false by lia. apply xorb_false_r.
Qed.

(** What the tag parser really computes on a five byte tag: the fifth byte is
    ignored and bits 28..31 come out set. *)
Definition tag_value (bs : bytes) : Z :=
  if (length bs <=? 4)%nat then b128 bs else b128 (firstn 4 bs) + 15 * 2 ^ 28.

Definition sm_bits (ty : smtype) : Z :=
  match ty with SM64 => 64 | SMI32 | SMU32 => 35 | SMTAG => 32 end.

Definition sm_expected (ty : smtype) (bs : bytes) : Z :=
  match ty with SMTAG => tag_value bs | _ => b128 bs end.

Definition pres_matches (ty : smtype) (m : bytes) (r : pres) : Prop :=
  match scan (sm_max ty) m with
  | Short => r = PUB
  | TooLong => r = PUnterm
  | Found n => exists v, r = POk v n /\
       v mod 2 ^ sm_bits ty = sm_expected ty (firstn n m) mod 2 ^ sm_bits ty
  end.


Lemma terms_b128 bs j : is_varint bs -> 0 <= j -> Z.testbit (b128 bs) j = terms 0 bs j.
Proof.
  intros. rewrite terms_spec by (auto; lia). rewrite Z.mul_0_r, Z.sub_0_r.
  destruct (Z.ltb_spec j 0); [lia|reflexivity].
Qed.

Ltac andb_ac :=
  apply eq_true_iff_eq; rewrite ?andb_true_iff; tauto.

Ltac open_bytes :=
  unfold all_bytes in *; match goal with H : Forall is_byte (_ :: _) |- _ => inversion H; subst; clear H end.

Ltac signs :=
  repeat (first [ rewrite leb_land_nonneg | rewrite shl_byte_sign by (auto; lia) | rewrite sext8_nonneg by auto
        | rewrite land128 by auto | rewrite land1 by auto | rewrite sext8_eq1 by auto ]).

Ltac known :=
  repeat match goal with H : 128 <= ?b |- context [?b <? 128] => replace (b <? 128) with false by lia end;
  cbn [orb andb negb].

Ltac solve_varint := cbn [is_varint]; unfold is_byte in *; lia.

Ltac to_terms :=
  let j := fresh "j" in let Hj := fresh "Hj" in
  eexists; split; [reflexivity|]; apply mod_pow2_bits; [cbn; lia|];
  unfold sm_expected, tag_value, done2; cbn [length firstn Nat.leb]; intros j Hj; cbn [sm_bits] in Hj;
  rewrite ?Z.land_spec, ?xor63_bits, ?Z.land_spec, ?sext8_term by (auto; lia);
  rewrite ?shl_byte_bits by (auto; lia).

Ltac fin :=
  to_terms; rewrite terms_b128 by (solve_varint || lia); cbn [terms];
  repeat match goal with |- context [?a + 1] => let x := eval cbv in (a + 1) in change (a + 1) with x end;
  rewrite ?andb_true_r; andb_ac.

Ltac one m :=
  let b := fresh "b" in
  destruct m as [|b m]; [reflexivity|]; open_bytes;
  cbn [next scan]; signs; known; destruct (Z.ltb_spec b 128); [fin|].

Lemma term_low n b j : j < 7 * n -> term n b j = true.
Proof. intros; unfold term; destruct (Z.ltb_spec j (7 * n)); [reflexivity|lia]. Qed.

Lemma term9 b j : 0 <= j < 64 -> term 9 b j = (j <? 63) || Z.testbit b 0.
Proof.
  intros; unfold term. change (7 * 9) with 63. destruct (Z.ltb_spec j 63); [reflexivity|].
  replace j with 63 by lia. reflexivity.
Qed.

Lemma term63 n b : 0 <= n <= 8 -> 128 <= b -> term n b 63 = true.
Proof.
  intros; unfold term. destruct (Z.ltb_spec 63 (7 * n)); [lia|].
  destruct (Z.ltb_spec (63 - 7 * n) 7); lia.
Qed.

Ltac consts := repeat match goal with |- context [?a + 1] => let x := eval cbv in (a + 1) in change (a + 1) with x end.

Lemma shift_mix_spec_64 m : all_bytes m -> pres_matches SM64 m (shift_mix SM64 m).
Proof.
  intros Hm. unfold pres_matches, shift_mix, sm_64, sm_last. cbn [sm_max].
  do 9 one m.
  destruct m as [|b9 m]; [reflexivity|]; open_bytes. cbn [next scan]. signs; known.
  destruct (Z.ltb_spec b9 128); cbn [negb].
  2: { destruct (Z.eqb_spec b9 1); [lia|]. reflexivity. }
  destruct (Z.eqb_spec b9 1) as [->|].
  - to_terms. rewrite terms_b128 by (solve_varint || lia). cbn [terms]. consts.
    rewrite term9 by lia. change (Z.testbit 1 0) with true. rewrite orb_true_r.
    rewrite ?andb_true_r. andb_ac.
  - destruct (Z.testbit b9 0) eqn:E; cbn [negb andb].
    + to_terms. rewrite terms_b128 by (solve_varint || lia). cbn [terms]. consts.
      rewrite term9 by lia. rewrite E, orb_true_r. rewrite ?andb_true_r. andb_ac.
    + to_terms. rewrite terms_b128 by (solve_varint || lia). cbn [terms]. consts.
      rewrite term9 by lia. rewrite E, orb_false_r.
      destruct (Z.eqb_spec j 63) as [->|].
      * rewrite ?term63 by lia. reflexivity.
      * replace (j <? 63) with true by lia. rewrite ?andb_true_r. andb_ac.
Qed.

Ltac fin_low := to_terms; rewrite terms_b128 by (solve_varint || lia); cbn [terms]; consts;
  repeat match goal with |- context [term ?n ?b ?j] => 
     let t := eval cbv in (5 <=? n) in match t with true => rewrite (term_low n b j) by lia end end;
  rewrite ?andb_true_r; andb_ac.

Lemma shift_mix_spec_i32 m : all_bytes m -> pres_matches SMI32 m (shift_mix SMI32 m).
Proof.
  intros Hm. unfold pres_matches, shift_mix, sm_i32, sm_last. cbn [sm_max].
  do 5 one m.
  do 4 (let b := fresh "b" in destruct m as [|b m]; [reflexivity|]; open_bytes;
    cbn [next scan]; signs; known; destruct (Z.ltb_spec b 128); [fin_low|]).
  destruct m as [|b9 m]; [reflexivity|]; open_bytes. cbn [next scan]. signs; known.
  destruct (Z.ltb_spec b9 128); cbn [negb].
  2: { destruct (Z.eqb_spec b9 1); [lia|]. reflexivity. }
  destruct (Z.eqb_spec b9 1) as [->|]; fin_low.
Qed.

Lemma shift_mix_spec_u32 m : all_bytes m -> pres_matches SMU32 m (shift_mix SMU32 m).
Proof.
  intros Hm. unfold pres_matches, shift_mix, sm_last. cbn [sm_max].
  do 5 one m.
  destruct m as [|b9 m]; [reflexivity|]; open_bytes. cbn [next scan]. signs; known.
  destruct (Z.ltb_spec b9 128); cbn [negb].
  2: { destruct (Z.eqb_spec b9 1); [lia|]. reflexivity. }
  destruct (Z.eqb_spec b9 1) as [->|]; fin_low.
Qed.

Lemma tag_value_5 b0 b1 b2 b3 b4 : tag_value [b0; b1; b2; b3; b4] = b128 [b0; b1; b2; b3; 15].
Proof. unfold tag_value; cbn [length Nat.leb firstn b128]. change (2 ^ 28) with (128 * 128 * 128 * 128). change (15 mod 128) with 15. ring. Qed.

Lemma term4_15 j : 0 <= j < 32 -> term 4 15 j = true.
Proof.
  intros; unfold term. change (7 * 4) with 28. destruct (Z.ltb_spec j 28); [reflexivity|].
  assert (j = 28 \/ j = 29 \/ j = 30 \/ j = 31) as [-> | [-> | [-> | ->]]] by lia; reflexivity.
Qed.

Lemma shift_mix_spec_tag m : all_bytes m -> pres_matches SMTAG m (shift_mix SMTAG m).
Proof.
  intros Hm. unfold pres_matches, shift_mix, sm_last. cbn [sm_max].
  do 4 one m.
  destruct m as [|b9 m]; [reflexivity|]; open_bytes. cbn [next scan]. signs; known.
  destruct (Z.ltb_spec b9 128); cbn [negb].
  2: { destruct (Z.eqb_spec b9 1); [lia|]. reflexivity. }
  destruct (Z.eqb_spec b9 1) as [->|]; (eexists; split; [reflexivity|]);
    cbn [sm_expected firstn]; rewrite tag_value_5; (apply mod_pow2_bits; [cbn; lia|]);
    unfold done2; cbn [sm_bits]; intros j Hj;
    rewrite ?Z.land_spec, ?sext8_term by (auto; lia);
    rewrite ?shl_byte_bits by (auto; lia);
    (rewrite terms_b128; [|solve_varint|lia]); cbn [terms]; consts; rewrite term4_15 by lia;
    rewrite ?andb_true_r; andb_ac.
Qed.

Lemma shift_mix_spec ty m : all_bytes m -> pres_matches ty m (shift_mix ty m).
Proof.
  destruct ty; [apply shift_mix_spec_64|apply shift_mix_spec_i32|apply shift_mix_spec_u32|apply shift_mix_spec_tag].
Qed.

