(** Proofs about the Timestamp text codec. *)
Require Import Verif.Bits Verif.TextNum Verif.Duration Verif.DurationProofs Verif.Calendar Verif.CalendarProofs Verif.Timestamp.
Open Scope Z_scope.

(** ** Specification *)

(** The Timestamp values the JSON mapping allows: the years 0001 to 9999. *)
Definition valid_timestamp (seconds nanos : Z) : Prop :=
  1 <= year_of (civil_from_days (seconds / 86400)) <= 9999 /\ 0 <= nanos <= 999999999.

(** A time-of-day field as the parser takes it: two digits, or [-0]. *)
Definition time_field (w : list Z) (v : Z) : Prop :=
  (zlen w = 2 /\ Forall is_digit w /\ v = dec_val w) \/ (w = [45; 48] /\ v = 0).

(** A fraction as the parser takes it: nothing, a point and one to nine digits,
    or a point, a minus sign and one to eight zeros. *)
Definition fraction (f : list Z) (n : Z) : Prop :=
  (f = [] /\ n = 0) \/
  (exists fs, f = 46 :: fs /\ 1 <= zlen fs <= 9 /\ Forall is_digit fs /\ n = dec_val fs * 10 ^ (9 - zlen fs)) \/
  (exists k, (1 <= k <= 8)%nat /\ f = 46 :: 45 :: repeat 48 k /\ n = 0).

(** The layout [YYYY-MM-DDThh:mm:ss(fraction)Z]. *)
Definition layout (yy mm dd hh mn ss f : list Z) : list Z :=
  yy ++ [45] ++ mm ++ [45] ++ dd ++ [84] ++ hh ++ [58] ++ mn ++ [58] ++ ss ++ f ++ [90].

(** The texts accepted, with the instant they denote. *)
Definition timestamp_text (t : list Z) (seconds nanos : Z) : Prop :=
  exists yy mm dd hh mn ss f h m s,
    t = layout yy mm dd hh mn ss f /\
    zlen yy = 4 /\ Forall is_digit yy /\ zlen mm = 2 /\ Forall is_digit mm /\ zlen dd = 2 /\ Forall is_digit dd /\
    1 <= dec_val yy /\ valid_date (dec_val yy, dec_val mm, dec_val dd) /\
    time_field hh h /\ time_field mn m /\ time_field ss s /\ h <= 23 /\ m <= 59 /\ s <= 59 /\
    civil_from_days (seconds / 86400) = (dec_val yy, dec_val mm, dec_val dd) /\
    seconds mod 86400 = h * 3600 + m * 60 + s /\
    fraction f nanos.

(** The texts RFC 3339 allows: digits only. *)
Definition strict_text (t : list Z) : Prop :=
  exists yy mm dd hh mn ss fs,
    t = layout yy mm dd hh mn ss (match fs with [] => [] | _ => 46 :: fs end) /\
    Forall is_digit (yy ++ mm ++ dd ++ hh ++ mn ++ ss ++ fs) /\
    zlen yy = 4 /\ zlen mm = 2 /\ zlen dd = 2 /\ zlen hh = 2 /\ zlen mn = 2 /\ zlen ss = 2 /\ zlen fs <= 9.

(** ** Fields *)

Lemma parse_sep_spec s w sep v r :
  parse_sep s w sep = Some (v, r) <->
  exists f, s = f ++ (if sep =? 0 then [] else [sep]) ++ r /\ length f = w /\ i32_all f = Some v.
Proof.
  unfold parse_sep. split.
  - destruct (Z.ltb_spec (zlen s) (Z.of_nat w)) as [L|L]; [discriminate|].
    destruct (i32_all (firstn w s)) as [v0|] eqn:E; [|discriminate].
    assert (Lf : length (firstn w s) = w) by (rewrite firstn_length; unfold zlen in L; lia).
    destruct (Z.eqb_spec sep 0) as [->|N]; cbn [negb].
    + intros H. injection H as <- <-. exists (firstn w s). repeat split; auto.
      cbn [app]. symmetry. apply firstn_skipn.
    + destruct (skipn w s) as [|c r'] eqn:K; [discriminate|].
      destruct (Z.eqb_spec c sep) as [->|]; [|discriminate]. intros H. injection H as <- <-.
      exists (firstn w s). repeat split; auto. cbn [app]. rewrite <- K. symmetry. apply firstn_skipn.
  - intros (f & -> & L & E).
    assert (A1 : zlen (f ++ (if sep =? 0 then [] else [sep]) ++ r) <? Z.of_nat w = false).
    { unfold zlen. rewrite app_length. lia. }
    rewrite A1.
    assert (A2 : firstn w (f ++ (if sep =? 0 then [] else [sep]) ++ r) = f).
    { rewrite firstn_app, L, Nat.sub_diag. cbn [firstn]. rewrite app_nil_r, <- L. apply firstn_all. }
    assert (A3 : skipn w (f ++ (if sep =? 0 then [] else [sep]) ++ r) = (if sep =? 0 then [] else [sep]) ++ r).
    { rewrite skipn_app, L, Nat.sub_diag. cbn [skipn]. rewrite <- L at 1. rewrite skipn_all. reflexivity. }
    rewrite A2, A3, E. destruct (Z.eqb_spec sep 0) as [->|N]; cbn [negb app]; auto. rewrite Z.eqb_refl. reflexivity.
Qed.

Lemma i32_digits f : Forall is_digit f -> 1 <= zlen f <= 9 -> i32_all f = Some (dec_val f).
Proof.
  intros H L. apply from_chars_all_spec. exists f. change (2 ^ 31) with 2147483648.
  destruct (dec_val_small f H ltac:(lia)) as [B _]. repeat split; auto; try lia.
  destruct f; [unfold zlen in L; cbn [length] in L; lia|discriminate].
Qed.

Lemma i32_inv f v : i32_all f = Some v ->
  (Forall is_digit f /\ v = dec_val f /\ f <> []) \/ (exists ds, ds <> [] /\ Forall is_digit ds /\ f = 45 :: ds /\ v = - dec_val ds).
Proof.
  intros H. apply from_chars_all_spec in H. destruct H as (ds & N & D & _ & [[-> ->]|(_ & -> & ->)]); [left|right]; auto.
  exists ds; auto.
Qed.

(** A positive number has digits only. *)
Lemma i32_pos f v : i32_all f = Some v -> 0 < v -> Forall is_digit f /\ v = dec_val f.
Proof.
  intros H P. destruct (i32_inv f v H) as [(A & B & _)|(ds & _ & D & _ & ->)]; auto.
  pose proof (dec_val_bound ds D). lia.
Qed.

Lemma dec_val_zero ds : Forall is_digit ds -> dec_val ds = 0 -> ds = repeat 48 (length ds).
Proof.
  intros H. induction ds as [|c ds IH] using rev_ind; auto. intros E.
  apply Forall_app in H. destruct H as [H1 H2]. inversion H2 as [|? ? Hc _]; subst. unfold is_digit in Hc.
  rewrite dec_val_snoc in E. pose proof (dec_val_bound ds H1).
  rewrite app_length. cbn [length]. rewrite Nat.add_1_r. cbn [repeat].
  rewrite repeat_cons. rewrite <- IH by (auto; lia). f_equal. f_equal. lia.
Qed.

Lemma time_field_i32 f v : length f = 2%nat -> i32_all f = Some v -> 0 <= v -> time_field f v.
Proof.
  intros L H P. destruct (i32_inv f v H) as [(A & B & _)|(ds & N & D & -> & ->)].
  - left. unfold zlen. repeat split; auto. lia.
  - right. pose proof (dec_val_bound ds D). assert (E : dec_val ds = 0) by lia.
    apply dec_val_zero in E; auto. cbn [length] in L. assert (L1 : length ds = 1%nat) by lia. rewrite L1 in E. rewrite E.
    split; reflexivity.
Qed.

Lemma time_field_parse f v : time_field f v -> length f = 2%nat /\ i32_all f = Some v /\ 0 <= v.
Proof.
  intros [(L & D & ->)|(-> & ->)].
  - pose proof (dec_val_bound f D). repeat split; [unfold zlen in L; lia | apply i32_digits; auto; lia | lia].
  - repeat split; lia.
Qed.

Lemma dec_val_repeat k : dec_val (repeat 48 k) = 0.
Proof.
  induction k as [|k IH]; [reflexivity|]. cbn [repeat]. rewrite repeat_cons, dec_val_snoc, IH. lia.
Qed.

Lemma Forall_repeat_digit k : Forall is_digit (repeat 48 k).
Proof. induction k; cbn [repeat]; auto. apply Forall_cons; auto. unfold is_digit; lia. Qed.

Lemma fraction_parse f n : parse_fractional_nanos f = Some n <-> fraction f n.
Proof.
  unfold parse_fractional_nanos, fraction. split.
  - destruct f as [|c fs]; [intros H; injection H as <-; left; auto|].
    destruct (Z.eqb_spec c 46) as [->|]; cbn [negb]; [|discriminate].
    destruct (Z.eqb_spec (zlen fs) 0) as [|N0]; cbn [orb]; [discriminate|].
    destruct (Z.ltb_spec 9 (zlen fs)) as [|L]; [discriminate|].
    assert (L0 : 0 <= zlen fs) by (unfold zlen; lia).
    destruct (i32_all fs) as [v|] eqn:I; [|discriminate].
    destruct (Z.ltb_spec v 0) as [|P]; [discriminate|]. intros H. assert (En : n = scale10 (9 - length fs) v) by congruence. clear H. subst n. right.
    destruct (i32_inv fs v I) as [(A & -> & _)|(ds & N & D & -> & ->)].
    + left. exists fs. destruct (dec_val_small fs A L) as [B1 B2].
      assert (LL : Z.of_nat (9 - length fs) = 9 - zlen fs) by (unfold zlen in *; lia).
      split; auto. split; [lia|]. split; auto.
      rewrite scale10_spec by (rewrite LL; change (2 ^ 31) with 2147483648; lia). rewrite LL. reflexivity.
    + right. pose proof (dec_val_bound ds D). assert (E : dec_val ds = 0) by lia.
      pose proof (dec_val_zero ds D E) as R. exists (length ds). unfold zlen in *. cbn [length] in *.
      split; [destruct ds; [contradiction|cbn [length] in *; lia]|]. split; [rewrite R at 1; reflexivity|].
      rewrite E. rewrite scale10_spec; [lia|]. change (-0) with 0. rewrite Z.mul_0_l. change (2 ^ 31) with 2147483648. lia.
  - intros [[-> ->]|[(fs & -> & L & D & ->)|(k & K & -> & ->)]]; [reflexivity| |].
    + change (negb (46 =? 46)) with false. cbv iota.
      replace (zlen fs =? 0) with false by lia. replace (9 <? zlen fs) with false by lia. cbn [orb].
      rewrite i32_digits by auto. destruct (dec_val_small fs D ltac:(lia)) as [B1 B2].
      replace (dec_val fs <? 0) with false by lia.
      assert (LL : Z.of_nat (9 - length fs) = 9 - zlen fs) by (unfold zlen in *; lia).
      rewrite scale10_spec by (rewrite LL; change (2 ^ 31) with 2147483648; lia). rewrite LL. reflexivity.
    + change (negb (46 =? 46)) with false. cbv iota.
      assert (LZ : zlen (45 :: repeat 48 k) = Z.of_nat k + 1) by (unfold zlen; cbn [length]; rewrite repeat_length; lia).
      rewrite LZ. replace (Z.of_nat k + 1 =? 0) with false by lia. replace (9 <? Z.of_nat k + 1) with false by lia. cbn [orb].
      assert (I : i32_all (45 :: repeat 48 k) = Some 0).
      { apply from_chars_all_spec. exists (repeat 48 k). change (2 ^ 31) with 2147483648.
        split; [destruct k; [lia|discriminate]|]. split; [apply Forall_repeat_digit|]. split; [lia|].
        right. rewrite dec_val_repeat. auto. }
      rewrite I. change (0 <? 0) with false. cbv iota. rewrite scale10_spec; [f_equal; lia|]. rewrite Z.mul_0_l. change (2 ^ 31) with 2147483648. lia.
Qed.

(** ** Parsing *)

Lemma validate_spec yy mm dd hh mn ss : validate_datetime yy mm dd hh mn ss = true <->
  0 < yy /\ 0 < mm <= 12 /\ 0 < dd <= 31 /\ 0 <= hh <= 23 /\ 0 <= mn <= 59 /\ 0 <= ss <= 59.
Proof.
  unfold validate_datetime.
  destruct ((yy <=? 0) || (mm <=? 0) || (dd <=? 0) || (hh <? 0) || (mn <? 0) || (ss <? 0)) eqn:A.
  - split; [discriminate|]. intros K. exfalso. lia.
  - destruct ((mm >? 12) || (dd >? 31) || (hh >? 23) || (mn >? 59) || (ss >? 59)) eqn:B.
    + split; [discriminate|]. intros K. exfalso. lia.
    + split; [|reflexivity]. intros _. lia.
Qed.

Lemma day_seconds q r : 0 <= r < 86400 -> (q * 86400 + r) / 86400 = q /\ (q * 86400 + r) mod 86400 = r.
Proof. lia. Qed.

Lemma parse_datetime_spec s yy mm dd hh mn ss r :
  parse_datetime s = Some (yy, mm, dd, hh, mn, ss, r) <->
  exists a b c d e f, s = a ++ [45] ++ b ++ [45] ++ c ++ [84] ++ d ++ [58] ++ e ++ [58] ++ f ++ r /\
    length a = 4%nat /\ length b = 2%nat /\ length c = 2%nat /\ length d = 2%nat /\ length e = 2%nat /\ length f = 2%nat /\
    i32_all a = Some yy /\ i32_all b = Some mm /\ i32_all c = Some dd /\
    i32_all d = Some hh /\ i32_all e = Some mn /\ i32_all f = Some ss.
Proof.
  unfold parse_datetime. split.
  - intros H.
    destruct (parse_sep s 4 45) as [[v1 s1]|] eqn:P1; [|discriminate]. apply parse_sep_spec in P1. destruct P1 as (a & -> & La & Ia).
    destruct (parse_sep s1 2 45) as [[v2 s2]|] eqn:P2; [|discriminate]. apply parse_sep_spec in P2. destruct P2 as (b & -> & Lb & Ib).
    destruct (parse_sep s2 2 84) as [[v3 s3]|] eqn:P3; [|discriminate]. apply parse_sep_spec in P3. destruct P3 as (c & -> & Lc & Ic).
    destruct (parse_sep s3 2 58) as [[v4 s4]|] eqn:P4; [|discriminate]. apply parse_sep_spec in P4. destruct P4 as (d & -> & Ld & Id).
    destruct (parse_sep s4 2 58) as [[v5 s5]|] eqn:P5; [|discriminate]. apply parse_sep_spec in P5. destruct P5 as (e & -> & Le & Ie).
    destruct (parse_sep s5 2 0) as [[v6 s6]|] eqn:P6; [|discriminate]. apply parse_sep_spec in P6. destruct P6 as (f & -> & Lf & If).
    injection H as <- <- <- <- <- <- <-. exists a, b, c, d, e, f. split; [reflexivity|]. repeat split; auto.
  - intros (a & b & c & d & e & f & -> & La & Lb & Lc & Ld & Le & Lf & Ia & Ib & Ic & Id & Ie & If).
    assert (P : forall w v t sep r0, length w = t -> i32_all w = Some v -> sep <> 0 -> parse_sep (w ++ [sep] ++ r0) t sep = Some (v, r0)).
    { intros w v t sep r0 L I N. apply parse_sep_spec. exists w. replace (sep =? 0) with false by lia. auto. }
    rewrite (P a yy 4%nat 45) by (auto; lia). rewrite (P b mm 2%nat 45) by (auto; lia). rewrite (P c dd 2%nat 84) by (auto; lia).
    rewrite (P d hh 2%nat 58) by (auto; lia). rewrite (P e mn 2%nat 58) by (auto; lia).
    assert (P6 : parse_sep (f ++ r) 2 0 = Some (ss, r)) by (apply parse_sep_spec; exists f; auto).
    rewrite P6. reflexivity.
Qed.

Lemma timestamp_decode_spec t s n : timestamp_decode t = Some (s, n) <-> timestamp_text t s n.
Proof.
  split.
  - unfold timestamp_decode. intros H. destruct (rev t) as [|c r] eqn:R; [discriminate|].
    destruct (Z.eqb_spec c 90) as [->|]; cbn [negb] in H; [|discriminate].
    assert (T : t = rev r ++ [90]) by (rewrite <- (rev_involutive t), R; reflexivity).
    destruct (parse_datetime (rev r)) as [[[[[[[yy mm] dd] hh] mn] ss] rest]|] eqn:P; [|discriminate].
    apply parse_datetime_spec in P.
    destruct P as (a & b & c & d & e & f & E & La & Lb & Lc & Ld & Le & Lf & Ia & Ib & Ic & Id & Ie & If).
    destruct (validate_datetime yy mm dd hh mn ss) eqn:V; cbn [negb] in H; [|discriminate]. apply validate_spec in V.
    destruct (ymd_ok (yy, mm, dd)) eqn:O; cbn [negb] in H; [|discriminate]. apply ymd_ok_spec in O.
    destruct (parse_fractional_nanos rest) as [fn|] eqn:F; [|discriminate]. apply fraction_parse in F.
    assert (Es : s = days_from_civil (yy, mm, dd) * 86400 + hh * 3600 + mn * 60 + ss) by congruence.
    assert (En : n = fn) by congruence. clear H. subst s n.
    destruct (i32_pos a yy Ia ltac:(lia)) as [Da Ea]. destruct (i32_pos b mm Ib ltac:(lia)) as [Db Eb].
    destruct (i32_pos c dd Ic ltac:(lia)) as [Dc Ec].
    destruct (day_seconds (days_from_civil (yy, mm, dd)) (hh * 3600 + mn * 60 + ss) ltac:(lia)) as [Q1 Q2].
    exists a, b, c, d, e, f, rest, hh, mn, ss.
    rewrite <- Ea, <- Eb, <- Ec.
    split; [unfold layout; rewrite T, E; rewrite <- !app_assoc; reflexivity|].
    unfold zlen. rewrite La, Lb, Lc.
    repeat (split; [solve [auto | lia | apply time_field_i32; auto; lia]|]).
    split; [|split; auto].
    + replace (days_from_civil (yy, mm, dd) * 86400 + hh * 3600 + mn * 60 + ss)
        with (days_from_civil (yy, mm, dd) * 86400 + (hh * 3600 + mn * 60 + ss)) by lia.
      rewrite Q1. apply civil_days; auto.
    + replace (days_from_civil (yy, mm, dd) * 86400 + hh * 3600 + mn * 60 + ss)
        with (days_from_civil (yy, mm, dd) * 86400 + (hh * 3600 + mn * 60 + ss)) by lia.
      rewrite Q2. reflexivity.
  - intros (a & b & c & d & e & f & fr & h & m & sc & -> & La & Da & Lb & Db & Lc & Dc & Y1 & V & Th & Tm & Ts & Hh & Hm & Hs & C & M & F).
    unfold timestamp_decode, layout.
    replace (a ++ [45] ++ b ++ [45] ++ c ++ [84] ++ d ++ [58] ++ e ++ [58] ++ f ++ fr ++ [90])
      with ((a ++ [45] ++ b ++ [45] ++ c ++ [84] ++ d ++ [58] ++ e ++ [58] ++ f ++ fr) ++ [90]) by (rewrite <- !app_assoc; reflexivity).
    rewrite rev_app_distr. change (rev [90] ++ ?x) with (90 :: x). cbv iota. change (negb (90 =? 90)) with false. cbv iota.
    rewrite rev_involutive.
    destruct (time_field_parse d h Th) as (Ld & Id & Ph). destruct (time_field_parse e m Tm) as (Le & Ie & Pm).
    destruct (time_field_parse f sc Ts) as (Lf & If & Ps).
    assert (P : parse_datetime (a ++ [45] ++ b ++ [45] ++ c ++ [84] ++ d ++ [58] ++ e ++ [58] ++ f ++ fr)
      = Some (dec_val a, dec_val b, dec_val c, h, m, sc, fr)).
    { apply parse_datetime_spec. exists a, b, c, d, e, f. unfold zlen in *.
      split; [reflexivity|]. repeat (split; [lia || auto|]); repeat split; auto; apply i32_digits; auto; unfold zlen; lia. }
    rewrite P.
    assert (V2 := V). unfold valid_date in V2. pose proof (month_days_le (dec_val a) (dec_val b)).
    assert (Va : validate_datetime (dec_val a) (dec_val b) (dec_val c) h m sc = true) by (apply validate_spec; lia).
    rewrite Va. apply ymd_ok_spec in V. rewrite V. cbn [negb]. apply fraction_parse in F. rewrite F.
    do 2 f_equal.
    assert (D : days_from_civil (dec_val a, dec_val b, dec_val c) = s / 86400) by (rewrite <- C; apply days_civil).
    rewrite D. lia.
Qed.

Lemma timestamp_text_valid t s n : timestamp_text t s n -> valid_timestamp s n.
Proof.
  intros (a & b & c & d & e & f & fr & h & m & sc & -> & La & Da & Lb & Db & Lc & Dc & Y1 & V & Th & Tm & Ts & Hh & Hm & Hs & C & M & F).
  unfold valid_timestamp. rewrite C. cbn [year_of]. pose proof (dec_val_bound a Da) as B. rewrite La in B. change (10 ^ 4) with 10000 in B.
  split; [lia|]. destruct F as [[_ ->]|[(fs & _ & L & D & ->)|(k & _ & _ & ->)]]; [lia| |lia].
  destruct (dec_val_small fs D ltac:(lia)); lia.
Qed.

(** ** Formatting *)

Lemma chars2_fixed v sep : 0 <= v < 100 -> chars2 v sep = fixed_digits 2 v ++ [sep].
Proof. intros. unfold chars2, fixed_digits. cbn [app]. replace (v / 10 mod 10) with (v / 10) by lia. reflexivity. Qed.

Lemma chars4_fixed v sep : 0 <= v < 10000 -> chars4 v sep = fixed_digits 4 v ++ [sep].
Proof.
  intros. unfold chars4, fixed_digits. cbn [app].
  replace (v / 10 / 10 / 10 mod 10) with (v / 1000) by lia. replace (v / 10 / 10 mod 10) with (v / 100 mod 10) by lia. reflexivity.
Qed.

Lemma seconds_range s : (-62135596800 <= s <= 253402300799) <-> 1 <= year_of (civil_from_days (s / 86400)) <= 9999.
Proof. rewrite year_range. lia. Qed.

Lemma timestamp_encode_cases s n :
  (valid_timestamp s n /\ timestamp_encode s n <> None) \/ (~ valid_timestamp s n /\ timestamp_encode s n = None).
Proof.
  unfold timestamp_encode, valid_timestamp. rewrite <- seconds_range.
  destruct ((n >? 999999999) || (n <? 0)) eqn:A; [right; split; [lia|auto]|].
  destruct ((s <? -62135596800) || (s >? 253402300799)) eqn:B; [right; split; [lia|auto]|].
  left. split; [lia|]. destruct (civil_from_days (s / 86400)) as [[y m] d]. discriminate.
Qed.

(** The text written: canonical fields, and a fraction only if needed. *)
Lemma timestamp_encode_form s n t : timestamp_encode s n = Some t ->
  exists y m d fs, civil_from_days (s / 86400) = (y, m, d) /\ 1 <= y <= 9999 /\
    t = layout (fixed_digits 4 y) (fixed_digits 2 m) (fixed_digits 2 d)
          (fixed_digits 2 (s mod 86400 / 3600)) (fixed_digits 2 (s mod 86400 / 60 mod 60)) (fixed_digits 2 (s mod 60))
          (match fs with [] => [] | _ => 46 :: fs end) /\
    Forall is_digit fs /\ (zlen fs = 0 \/ zlen fs = 3 \/ zlen fs = 6 \/ zlen fs = 9) /\
    dec_val fs * 10 ^ (9 - zlen fs) = n.
Proof.
  intros H. destruct (timestamp_encode_cases s n) as [[V _]|[_ F]]; [|congruence].
  unfold timestamp_encode in H. destruct (_ || _) eqn:A; [discriminate|]. destruct (_ || _) eqn:B in H; [discriminate|].
  destruct V as [V1 V2]. pose proof (civil_valid (s / 86400)) as CV.
  destruct (civil_from_days (s / 86400)) as [[y m] d] eqn:C. cbn [year_of] in V1.
  unfold valid_date in CV. pose proof (month_days_le y m) as ML.
  assert (R60 : s mod 86400 mod 60 = s mod 60) by (clear; lia).
  rewrite R60 in H.
  rewrite (chars4_fixed y) in H by lia. rewrite (chars2_fixed m) in H by lia. rewrite (chars2_fixed d) in H by lia.
  rewrite (chars2_fixed (s mod 86400 / 3600)) in H by (clear; lia). rewrite (chars2_fixed (s mod 86400 / 60 mod 60)) in H by (clear; lia).
  rewrite !(chars2_fixed (s mod 60)) in H by (clear; lia).
  assert (Ht : forall x, Some x = Some t -> t = x) by congruence.
  destruct (Z.gtb_spec n 0) as [P|P].
  - destruct (nanos_digits_ok n ltac:(lia)) as (K1 & K2 & K3 & K4).
    exists y, m, d, (nanos_digits n). split; [reflexivity|]. split; [lia|]. split; [|split; [auto|split; [|auto]]].
    + apply Ht in H. rewrite H. unfold layout, chars9. replace (match nanos_digits n with [] => [] | _ => 46 :: nanos_digits n end) with (46 :: nanos_digits n) by reflexivity.
      rewrite <- !app_assoc. reflexivity.
    + right. unfold nanos_digits. cbv zeta. destruct (n mod 1000 =? 0); cbn [negb]; [destruct (n / 1000 mod 1000 =? 0); cbn [negb]|];
        unfold write_3_digits, zlen; cbn [app length]; lia.
  - exists y, m, d, []. split; [reflexivity|]. split; [lia|]. split; [|split; [constructor|split; [left; reflexivity|]]].
    + apply Ht in H. rewrite H. unfold layout. rewrite <- !app_assoc. reflexivity.
    + change (dec_val []) with 0. lia.
Qed.

Lemma fixed2 v : 0 <= v < 100 -> zlen (fixed_digits 2 v) = 2 /\ Forall is_digit (fixed_digits 2 v) /\ dec_val (fixed_digits 2 v) = v.
Proof.
  intros. unfold zlen. rewrite fixed_digits_len. repeat split; [apply fixed_digits_digits|].
  apply (fixed_digits_val 2). change (10 ^ Z.of_nat 2) with 100. lia.
Qed.

Lemma timestamp_encode_text s n t : timestamp_encode s n = Some t -> timestamp_text t s n.
Proof.
  intros H. apply timestamp_encode_form in H. destruct H as (y & m & d & fs & C & Y & -> & D & L & N).
  pose proof (civil_valid (s / 86400)) as CV. rewrite C in CV. assert (CV' := CV). unfold valid_date in CV'.
  pose proof (month_days_le y m) as ML.
  assert (E4 : dec_val (fixed_digits 4 y) = y) by (apply (fixed_digits_val 4); change (10 ^ Z.of_nat 4) with 10000; lia).
  destruct (fixed2 m ltac:(lia)) as (M1 & M2 & M3). destruct (fixed2 d ltac:(lia)) as (D1 & D2 & D3).
  destruct (fixed2 (s mod 86400 / 3600) ltac:(clear; lia)) as (H1 & H2 & H3).
  destruct (fixed2 (s mod 86400 / 60 mod 60) ltac:(clear; lia)) as (I1 & I2 & I3).
  destruct (fixed2 (s mod 60) ltac:(clear; lia)) as (S1 & S2 & S3).
  do 7 eexists. exists (s mod 86400 / 3600), (s mod 86400 / 60 mod 60), (s mod 60).
  split; [reflexivity|]. rewrite E4, M3, D3.
  split; [unfold zlen; rewrite fixed_digits_len; reflexivity|]. split; [apply fixed_digits_digits|].
  split; [auto|]. split; [auto|]. split; [auto|]. split; [auto|]. split; [lia|]. split; [auto|].
  split; [left; auto|]. split; [left; auto|]. split; [left; auto|].
  split; [clear; lia|]. split; [clear; lia|]. split; [clear; lia|]. split; [auto|].
  split; [clear; lia|].
  destruct fs as [|f0 fs]; [left; split; [auto|change (dec_val []) with 0 in N; lia]|].
  right; left. exists (f0 :: fs). split; auto. split; [unfold zlen in *; cbn [length] in *; lia|]. auto.
Qed.

Lemma timestamp_encode_strict s n t : timestamp_encode s n = Some t -> strict_text t /\ zlen t <= 30.
Proof.
  intros H. apply timestamp_encode_form in H. destruct H as (y & m & d & fs & C & Y & -> & D & L & N). split.
  - do 6 eexists. exists fs. split; [reflexivity|]. unfold zlen in *. rewrite !fixed_digits_len.
    split; [do 6 (apply Forall_app; split; [apply fixed_digits_digits|]); auto|]. lia.
  - unfold layout, zlen in *. rewrite !app_length, !fixed_digits_len. cbn [length].
    destruct fs; cbn [length] in *; lia.
Qed.

Lemma timestamp_roundtrip s n t : timestamp_encode s n = Some t -> timestamp_decode t = Some (s, n).
Proof. intros H. apply timestamp_decode_spec, timestamp_encode_text; auto. Qed.

Lemma timestamp_encode_fits s n t : timestamp_encode s n = Some t -> zlen t <= timestamp_max_encode_size.
Proof. intros H. apply timestamp_encode_strict in H. unfold timestamp_max_encode_size. lia. Qed.
