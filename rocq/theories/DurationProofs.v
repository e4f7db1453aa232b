(** Proofs about the Duration text codec. *)
Require Import Verif.Bits Verif.TextNum Verif.Duration.
Open Scope Z_scope.

(** ** Specification *)

(** The Duration values the JSON mapping allows. *)
Definition valid_duration (seconds nanos : Z) : Prop :=
  -315576000000 <= seconds <= 315576000000 /\ -999999999 <= nanos <= 999999999 /\
  ~ (seconds > 0 /\ nanos < 0) /\ ~ (seconds < 0 /\ nanos > 0).

(** A text [sign digits s] or [sign digits . digits s] with one to nine
    fraction digits and the seconds and nanos it denotes. *)
Inductive duration_text : list Z -> Z -> Z -> Prop :=
| DT (neg : bool) (ds fs : list Z) :
    ds <> [] -> Forall is_digit ds -> Forall is_digit fs -> zlen fs <= 9 ->
    duration_text ((if neg then [45] else []) ++ ds ++ (match fs with [] => [] | _ => 46 :: fs end) ++ [115])
      ((if neg then -1 else 1) * dec_val ds)
      ((if neg then -1 else 1) * (dec_val fs * 10 ^ (9 - zlen fs))).

(** ** Fractions *)

Lemma write_3_fixed v : 0 <= v < 1000 -> write_3_digits v = fixed_digits 3 v.
Proof. intros. unfold write_3_digits, fixed_digits. cbn [app]. replace (v / 10 / 10 mod 10) with (v / 100) by lia. reflexivity. Qed.

Lemma dec_val_app s t : Forall is_digit t -> dec_val (s ++ t) = dec_val s * 10 ^ zlen t + dec_val t.
Proof.
  intros H. induction t as [|c t IH] using rev_ind.
  - rewrite app_nil_r. change (10 ^ zlen (@nil Z)) with 1. change (dec_val []) with 0. lia.
  - apply Forall_app in H. destruct H as [H _]. rewrite app_assoc, !dec_val_snoc, IH by auto.
    replace (zlen (t ++ [c])) with (zlen t + 1) by (unfold zlen; rewrite app_length; cbn [length]; lia).
    rewrite Z.pow_add_r by (unfold zlen; lia). change (10 ^ 1) with 10. ring.
Qed.

Lemma write_3_digits_ok v : 0 <= v < 1000 ->
  Forall is_digit (write_3_digits v) /\ zlen (write_3_digits v) = 3 /\ dec_val (write_3_digits v) = v.
Proof.
  intros H. rewrite write_3_fixed by auto. repeat split.
  - apply fixed_digits_digits.
  - apply (fixed_digits_val 3). change (10 ^ Z.of_nat 3) with 1000. lia.
Qed.

Lemma nanos_digits_ok n : 0 < n < 1000000000 ->
  Forall is_digit (nanos_digits n) /\ nanos_digits n <> [] /\ 3 <= zlen (nanos_digits n) <= 9 /\
  dec_val (nanos_digits n) * 10 ^ (9 - zlen (nanos_digits n)) = n.
Proof.
  intros H. unfold nanos_digits. cbv zeta.
  destruct (write_3_digits_ok (n / 1000000) ltac:(lia)) as (A1 & A2 & A3).
  destruct (write_3_digits_ok (n / 1000 mod 1000) ltac:(lia)) as (B1 & B2 & B3).
  destruct (write_3_digits_ok (n mod 1000) ltac:(lia)) as (C1 & C2 & C3).
  assert (L : forall (u v : list Z), zlen (u ++ v) = zlen u + zlen v) by (intros; unfold zlen; rewrite app_length; lia).
  assert (N : forall t, write_3_digits (n / 1000000) ++ t <> []) by (intros; discriminate).
  destruct (Z.eqb_spec (n mod 1000) 0) as [E1|E1]; cbn [negb]; [destruct (Z.eqb_spec (n / 1000 mod 1000) 0) as [E2|E2]; cbn [negb]|].
  - rewrite app_nil_r, A2, A3. split; [auto|split; [discriminate|split; [lia|]]].
    change (10 ^ (9 - 3)) with 1000000. lia.
  - rewrite L, A2, B2. split; [apply Forall_app; auto|split; [apply N|split; [lia|]]].
    rewrite dec_val_app, A3, B3, B2 by auto. change (10 ^ 3) with 1000. change (10 ^ (9 - (3 + 3))) with 1000. lia.
  - rewrite !L, A2, B2, C2. split; [repeat (apply Forall_app; split); auto|split; [apply N|split; [lia|]]].
    rewrite !dec_val_app, A3, B3, C3, L, B2, C2 by (auto; apply Forall_app; auto).
    change (10 ^ (3 + 3)) with 1000000. change (10 ^ 3) with 1000. change (10 ^ (9 - (3 + (3 + 3)))) with 1. lia.
Qed.

(** ** Formatting *)

Lemma has_same_sign_spec x y : has_same_sign x y = true <-> ~ (x > 0 /\ y < 0) /\ ~ (x < 0 /\ y > 0).
Proof. unfold has_same_sign. destruct (Z.gtb_spec x 0), (Z.gtb_spec y 0); cbn [Bool.eqb]; lia. Qed.

Lemma duration_encode_cases s n :
  (valid_duration s n /\ duration_encode s n <> None) \/ (~ valid_duration s n /\ duration_encode s n = None).
Proof.
  unfold duration_encode. pose proof (has_same_sign_spec s n) as H.
  destruct (_ || _) eqn:E; [right|left].
  - split; auto. unfold valid_duration. intros (A & B & C & D).
    assert (K : has_same_sign s n = true) by (apply H; lia). rewrite K in E. cbn [negb] in E. clear H K. lia.
  - split; [|discriminate]. unfold valid_duration.
    apply orb_false_iff in E. destruct E as [E K]. apply negb_false_iff, H in K. clear H. lia.
Qed.

Lemma duration_encode_text s n t : duration_encode s n = Some t -> duration_text t s n.
Proof.
  intros H. destruct (duration_encode_cases s n) as [[V _]|[_ F]]; [|congruence].
  unfold duration_encode in H. destruct (_ || _) eqn:E; [discriminate|]. injection H as <-.
  destruct V as (V1 & V2 & V3 & V4).
  set (neg := (n <? 0) || (s <? 0)).
  assert (A1 : wrapU 64 (if s <? 0 then - s else s) = Z.abs s).
  { rewrite wrapU_id; unfold fits_u; change (2 ^ 64) with 18446744073709551616; destruct (Z.ltb_spec s 0); lia. }
  assert (A2 : wrapU 32 (if n <? 0 then - n else n) = Z.abs n).
  { rewrite wrapU_id; unfold fits_u; change (2 ^ 32) with 4294967296; destruct (Z.ltb_spec n 0); lia. }
  rewrite A1, A2. unfold u64_to_chars.
  set (fs := if negb (n =? 0) then nanos_digits (Z.abs n) else []).
  replace (if negb (n =? 0) then 46 :: nanos_digits (Z.abs n) else []) with (match fs with [] => [] | _ => 46 :: fs end).
  2: { subst fs. destruct (Z.eqb_spec n 0) as [N0|N0]; cbn [negb]; reflexivity. }
  assert (F : Forall is_digit fs /\ zlen fs <= 9 /\ dec_val fs * 10 ^ (9 - zlen fs) = Z.abs n).
  { subst fs. destruct (Z.eqb_spec n 0) as [->|N0]; cbn [negb].
    - repeat split; auto. unfold zlen; cbn [length]; lia.
    - destruct (nanos_digits_ok (Z.abs n) ltac:(lia)) as (K1 & _ & K2 & K3). repeat split; auto; lia. }
  destruct F as (F1 & F2 & F3).
  assert (D : dec_val (dec_digits 20 (Z.abs s)) = Z.abs s).
  { apply dec_digits_val. change (10 ^ Z.of_nat 20) with 100000000000000000000. lia. }
  replace s with ((if neg then -1 else 1) * dec_val (dec_digits 20 (Z.abs s))) at 2.
  2: { rewrite D. subst neg. destruct (Z.ltb_spec n 0), (Z.ltb_spec s 0); cbn [orb]; lia. }
  replace n with ((if neg then -1 else 1) * (dec_val fs * 10 ^ (9 - zlen fs))) at 1.
  2: { rewrite F3. subst neg. destruct (Z.ltb_spec n 0), (Z.ltb_spec s 0); cbn [orb]; lia. }
  apply DT; auto.
  - apply dec_digits_nonnil; lia.
  - apply dec_digits_digits; lia.
Qed.

Lemma duration_encode_len s n t : duration_encode s n = Some t -> zlen t <= 24.
Proof.
  intros H. destruct (duration_encode_cases s n) as [[V _]|[_ F]]; [|congruence].
  unfold duration_encode in H. destruct (_ || _) eqn:E; [discriminate|]. injection H as <-.
  destruct V as (V1 & V2 & V3 & V4).
  assert (A1 : wrapU 64 (if s <? 0 then - s else s) = Z.abs s).
  { rewrite wrapU_id; unfold fits_u; change (2 ^ 64) with 18446744073709551616; destruct (Z.ltb_spec s 0); lia. }
  assert (A2 : wrapU 32 (if n <? 0 then - n else n) = Z.abs n).
  { rewrite wrapU_id; unfold fits_u; change (2 ^ 32) with 4294967296; destruct (Z.ltb_spec n 0); lia. }
  rewrite A1, A2.
  assert (L : forall (u v : list Z), zlen (u ++ v) = zlen u + zlen v) by (intros; unfold zlen; rewrite app_length; lia).
  rewrite !L.
  assert (B1 : zlen (u64_to_chars (Z.abs s)) <= 12).
  { unfold u64_to_chars, zlen. pose proof (dec_digits_len 20 12 (Z.abs s)) as K. change (10 ^ Z.of_nat 12) with 1000000000000 in K.
    specialize (K ltac:(lia) ltac:(lia)). lia. }
  assert (B2 : zlen (if negb (n =? 0) then 46 :: nanos_digits (Z.abs n) else []) <= 10).
  { destruct (Z.eqb_spec n 0); cbn [negb]; [unfold zlen; cbn [length]; lia|].
    destruct (nanos_digits_ok (Z.abs n) ltac:(lia)) as (_ & _ & K & _). unfold zlen in *. cbn [length]. lia. }
  assert (B3 : zlen (if (n <? 0) || (s <? 0) then [45] else []) <= 1) by (clear; destruct ((n <? 0) || (s <? 0)); unfold zlen; cbn [length]; lia).
  change (zlen [115]) with 1. lia.
Qed.

(** ** Parsing *)

Lemma split_point_none ds : Forall is_digit ds -> split_point ds = (ds, None).
Proof.
  induction 1 as [|c s Hc Hs IH]; auto. cbn [split_point]. unfold is_digit in Hc. replace (c =? 46) with false by lia. rewrite IH. reflexivity.
Qed.

Lemma split_point_some ds r : Forall is_digit ds -> split_point (ds ++ 46 :: r) = (ds, Some r).
Proof.
  induction 1 as [|c s Hc Hs IH]; auto. cbn [app split_point]. unfold is_digit in Hc. replace (c =? 46) with false by lia. rewrite IH. reflexivity.
Qed.

Lemma split_point_inv s : forall a b, split_point s = (a, b) ->
  s = a ++ match b with None => [] | Some r => 46 :: r end.
Proof.
  induction s as [|c s IH]; intros a b H; cbn [split_point] in H.
  - injection H as <- <-. reflexivity.
  - destruct (Z.eqb_spec c 46) as [->|]; [injection H as <- <-; reflexivity|].
    destruct (split_point s) as [a' b'] eqn:E. injection H as <- <-. cbn [app]. rewrite <- (IH a' b' eq_refl). reflexivity.
Qed.

Lemma scale10_spec k : forall v, 0 <= v * 10 ^ Z.of_nat k < 2 ^ 31 -> scale10 k v = v * 10 ^ Z.of_nat k.
Proof.
  induction k as [|k IH]; intros v Hv; cbn [scale10].
  - change (10 ^ Z.of_nat 0) with 1. lia.
  - replace (Z.of_nat (S k)) with (Z.of_nat k + 1) in * by lia. rewrite Z.pow_add_r in * by lia. change (10 ^ 1) with 10 in *.
    assert (0 < 10 ^ Z.of_nat k) by (apply Z.pow_pos_nonneg; lia).
    rewrite wrapS_id; [rewrite IH; [lia|]; [lia] | lia |]. unfold fits_s. change (2 ^ (32 - 1)) with (2 ^ 31). nia.
Qed.

Lemma dec_val_small fs : Forall is_digit fs -> zlen fs <= 9 ->
  0 <= dec_val fs < 1000000000 /\ 0 <= dec_val fs * 10 ^ (9 - zlen fs) <= 999999999.
Proof.
  intros H L. pose proof (dec_val_bound fs H) as B. assert (0 <= zlen fs) by (unfold zlen; lia).
  assert (P : 10 ^ zlen fs * 10 ^ (9 - zlen fs) = 1000000000).
  { rewrite <- Z.pow_add_r by lia. replace (zlen fs + (9 - zlen fs)) with 9 by lia. reflexivity. }
  assert (0 < 10 ^ (9 - zlen fs)) by (apply Z.pow_pos_nonneg; lia).
  assert (0 < 10 ^ zlen fs) by (apply Z.pow_pos_nonneg; lia). nia.
Qed.

(** The parser accepts exactly the Duration texts whose seconds are in range, and
    returns the value they denote. *)
Lemma duration_decode_spec t s n :
  duration_decode t = Some (s, n) <-> duration_text t s n /\ -315576000000 <= s <= 315576000000.
Proof.
  split.
  - unfold duration_decode. intros H. destruct (rev t) as [|c r] eqn:R; [discriminate|].
    destruct (Z.eqb_spec c 115) as [->|]; cbn [negb] in H; [|discriminate].
    assert (T : t = rev r ++ [115]).
    { rewrite <- (rev_involutive t), R. reflexivity. }
    set (neg := match rev r with c :: _ => c =? 45 | [] => false end) in *.
    set (s1 := if neg then tl (rev r) else rev r) in *.
    assert (T2 : rev r = (if neg then [45] else []) ++ s1).
    { subst s1 neg. destruct (rev r) as [|c r']; auto. destruct (Z.eqb_spec c 45) as [->|]; reflexivity. }
    destruct (split_point s1) as [ds pt] eqn:SP. apply split_point_inv in SP.
    destruct (u64_all ds) as [us|] eqn:U; [|discriminate].
    unfold u64_all in U. apply from_chars_all_spec in U. destruct U as (ds' & N1 & D1 & Rg & [[-> ->]|(K & _)]); [|discriminate].
    change (2 ^ 64 - 1) with 18446744073709551615 in Rg.
    destruct ((wrapS 64 (dec_val ds') >? 315576000000) || (wrapS 64 (dec_val ds') <? 0)) eqn:Sg; [discriminate|].
    assert (W : wrapS 64 (dec_val ds') = dec_val ds').
    { unfold wrapS in *. change (2 ^ 64) with 18446744073709551616 in *. change (2 ^ (64 - 1)) with 9223372036854775808 in *.
      rewrite Z.mod_small in * by lia. destruct (Z.ltb_spec (dec_val ds') 9223372036854775808); lia. }
    rewrite W in *.
    assert (F : exists fs, pt = match fs with [] => None | _ => Some fs end /\ Forall is_digit fs /\ zlen fs <= 9 /\
       (if neg then Some (- dec_val ds', - (dec_val fs * 10 ^ (9 - zlen fs))) else Some (dec_val ds', dec_val fs * 10 ^ (9 - zlen fs))) = Some (s, n)).
    { destruct pt as [fs|].
      - destruct (match fs with c :: _ => c =? 45 | [] => false end || (9 <? zlen fs)) eqn:G; [discriminate|].
        apply orb_false_iff in G. destruct G as [G1 G2].
        destruct (i32_all fs) as [v|] eqn:I; [|discriminate].
        unfold i32_all in I. apply from_chars_all_spec in I. destruct I as (fs' & N2 & D2 & Rg2 & [[-> ->]|(_ & -> & _)]).
        2: { change (45 =? 45) with true in G1. discriminate. }
        exists fs'. destruct fs' as [|f0 fs']; [contradiction|]. repeat split; auto; [lia|].
        destruct (dec_val_small (f0 :: fs') D2 ltac:(lia)) as [B1 B2].
        assert (LL : Z.of_nat (9 - length (f0 :: fs')) = 9 - zlen (f0 :: fs')) by (unfold zlen in *; lia).
        rewrite scale10_spec in H; rewrite LL in *; [exact H|]. change (2 ^ 31) with 2147483648. lia.
      - exists []. split; [reflexivity|split; [constructor|split; [unfold zlen; cbn [length]; lia|exact H]]]. }
    destruct F as (fs & -> & D2 & L2 & H').
    split; [|destruct neg; injection H' as <- <-; lia].
    rewrite T, T2, SP.
    replace (match match fs with [] => None | _ :: _ => Some fs end with Some r0 => 46 :: r0 | None => [] end)
      with (match fs with [] => [] | _ => 46 :: fs end) by (destruct fs; reflexivity).
    rewrite <- !app_assoc.
    assert (Es : s = (if neg then -1 else 1) * dec_val ds') by (clearbody neg; destruct neg; injection H' as H1 H2; lia).
    assert (En : n = (if neg then -1 else 1) * (dec_val fs * 10 ^ (9 - zlen fs))) by (clear - H'; revert H'; generalize (dec_val fs * 10 ^ (9 - zlen fs)); intros z H'; destruct neg; injection H' as H1 H2; lia).
    rewrite Es, En.
    apply DT; auto.
  - intros [H Hs]. inversion H as [neg ds fs N1 D1 D2 L2 E1 E2 E3]. subst t s n.
    pose proof (dec_val_bound ds D1) as B0. unfold duration_decode.
    set (ft := match fs with [] => [] | _ => 46 :: fs end).
    rewrite (app_assoc ds), (app_assoc (if neg then [45] else [])), rev_app_distr.
    change (rev [115] ++ ?x) with (115 :: x). cbv iota.
    change (negb (115 =? 115)) with false. cbv iota. rewrite rev_involutive.
    assert (Hn : (match (if neg then [45] else []) ++ ds ++ ft with c :: _ => c =? 45 | [] => false end) = neg).
    { destruct neg; auto. cbn [app]. destruct ds as [|d ds]; [contradiction|]. inversion D1 as [|? ? Hd _]. unfold is_digit in Hd. cbn [app]. lia. }
    rewrite Hn.
    assert (Ht : (if neg then tl ((if neg then [45] else []) ++ ds ++ ft) else (if neg then [45] else []) ++ ds ++ ft) = ds ++ ft) by (destruct neg; reflexivity).
    rewrite Ht.
    assert (Sp : split_point (ds ++ ft) = (ds, match fs with [] => None | _ => Some fs end)).
    { subst ft. destruct fs; [rewrite app_nil_r; apply split_point_none; auto | apply split_point_some; auto]. }
    rewrite Sp.
    assert (Ds : 0 <= dec_val ds <= 315576000000) by (destruct neg; lia).
    assert (U : u64_all ds = Some (dec_val ds)).
    { apply from_chars_all_spec. exists ds. change (2 ^ 64 - 1) with 18446744073709551615. repeat split; auto; lia. }
    rewrite U.
    rewrite wrapS_id by (unfold fits_s; change (2 ^ (64 - 1)) with 9223372036854775808; lia).
    replace ((dec_val ds >? 315576000000) || (dec_val ds <? 0)) with false by lia.
    destruct (dec_val_small fs D2 L2) as [B1 B2].
    assert (Nn : match match fs with [] => None | _ :: _ => Some fs end with
      | None => Some 0
      | Some nanos_str => if match nanos_str with c :: _ => c =? 45 | [] => false end || (9 <? zlen nanos_str) then None
         else match i32_all nanos_str with None => None | Some v => Some (scale10 (9 - length nanos_str) v) end end
      = Some (dec_val fs * 10 ^ (9 - zlen fs))).
    { destruct fs as [|f0 fs]; [reflexivity|].
      assert (Hf : f0 =? 45 = false) by (inversion D2 as [|? ? Hd _]; unfold is_digit in Hd; lia).
      rewrite Hf. replace (9 <? zlen (f0 :: fs)) with false by lia. cbn [orb].
      assert (I : i32_all (f0 :: fs) = Some (dec_val (f0 :: fs))).
      { apply from_chars_all_spec. exists (f0 :: fs). change (2 ^ 31) with 2147483648. repeat split; auto; try lia; discriminate. }
      rewrite I. assert (LL : Z.of_nat (9 - length (f0 :: fs)) = 9 - zlen (f0 :: fs)) by (unfold zlen in *; lia).
      rewrite scale10_spec; rewrite LL; [reflexivity|]. change (2 ^ 31) with 2147483648. lia. }
    rewrite Nn. destruct neg; do 2 f_equal; lia.
Qed.

Lemma duration_text_valid t s n : duration_text t s n -> -315576000000 <= s <= 315576000000 -> valid_duration s n.
Proof.
  intros H Hs. inversion H as [neg ds fs N1 D1 D2 L2 E1 E2 E3]. subst.
  destruct (dec_val_small fs D2 L2) as [B1 B2]. pose proof (dec_val_bound ds D1). unfold valid_duration. destruct neg; lia.
Qed.

Lemma duration_roundtrip s n t : duration_encode s n = Some t -> duration_decode t = Some (s, n).
Proof.
  intros H. apply duration_decode_spec. split; [apply duration_encode_text; auto|].
  destruct (duration_encode_cases s n) as [[V _]|[_ F]]; [|congruence]. destruct V; auto.
Qed.

Lemma duration_encode_fits s n t : duration_encode s n = Some t -> zlen t <= duration_max_encode_size.
Proof. intros H. apply duration_encode_len in H. unfold duration_max_encode_size. lia. Qed.
