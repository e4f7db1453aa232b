(** The calendar model numbers the days of the Gregorian calendar. *)
Require Import Verif.Bits Verif.Calendar.
Open Scope Z_scope.

(** ** Specification of the calendar *)

Definition leap_year (y : Z) : Prop := y mod 4 = 0 /\ (y mod 100 <> 0 \/ y mod 400 = 0).

(** Number of days in each month of the Gregorian calendar. *)
Definition month_days (y m : Z) : Z :=
  match m with
  | 1 => 31 | 2 => if leapb y then 29 else 28 | 3 => 31 | 4 => 30 | 5 => 31 | 6 => 30
  | 7 => 31 | 8 => 31 | 9 => 30 | 10 => 31 | 11 => 30 | 12 => 31 | _ => 0
  end.

Definition valid_date (dt : date) : Prop :=
  let '(y, m, d) := dt in 1 <= m <= 12 /\ 1 <= d <= month_days y m.

(** The day after. *)
Definition next_date (dt : date) : date :=
  let '(y, m, d) := dt in
  if d <? month_days y m then (y, m, d + 1)
  else if m <? 12 then (y, m + 1, 1) else (y + 1, 1, 1).

Lemma leapb_spec y : leapb y = true <-> leap_year y.
Proof. unfold leapb, leap_year. lia. Qed.

(** ** Finite checks over one 400-year era *)

Fixpoint all_from (n : nat) (z : Z) (p : Z -> bool) : bool :=
  match n with O => true | S n' => if p z then all_from n' (z + 1) p else false end.

Lemma all_from_spec n : forall z p, all_from n z p = true -> forall v, z <= v < z + Z.of_nat n -> p v = true.
Proof.
  induction n; intros z p H v Hv; [lia|]. cbn [all_from] in H. destruct (p z) eqn:E; [|discriminate].
  destruct (Z.eqb_spec v z) as [->|]; auto. apply (IHn (z + 1) p H). lia.
Qed.

Definition all_upto (n : Z) (p : Z -> bool) : bool := all_from (Z.to_nat n) 0 p.

Lemma all_upto_spec n p : all_upto n p = true -> forall v, 0 <= v < n -> p v = true.
Proof. intros H v Hv. apply (all_from_spec _ _ _ H). lia. Qed.

Definition date_eqb (a b : date) : bool :=
  let '(y, m, d) := a in let '(y', m', d') := b in (y =? y') && (m =? m') && (d =? d').

Lemma date_eqb_spec a b : date_eqb a b = true -> a = b.
Proof. destruct a as [[y m] d], b as [[y' m'] d']. unfold date_eqb. intros. f_equal; [f_equal|]; lia. Qed.

Definition valid_dateb (dt : date) : bool :=
  let '(y, m, d) := dt in (1 <=? m) && (m <=? 12) && (1 <=? d) && (d <=? month_days y m).

Lemma valid_dateb_spec dt : valid_dateb dt = true <-> valid_date dt.
Proof. destruct dt as [[y m] d]. unfold valid_dateb, valid_date. lia. Qed.

(** Day [r] of the era starting on 0000-03-01. *)
Definition era_day (r : Z) : date := civil_from_days (r - 719468).

Definition era_check (r : Z) : bool :=
  let dt := era_day r in
  valid_dateb dt && date_eqb (era_day (r + 1)) (next_date dt) &&
  (days_from_civil dt =? r - 719468) &&
  (let '(y, _, _) := dt in
   (0 <=? y) && (y <=? 400) && Bool.eqb (y =? 0) (r <? 306) && Bool.eqb (y =? 400) (146037 <=? r)).

(** Days before year [y] of an era and the expression civil_from_days divides by 365. *)
Definition ys (y : Z) : Z := 365 * y + y / 4 - y / 100.
Definition yg (r : Z) : Z := r - r / 1460 + r / 36524 - r / 146096.

Lemma yg_step r : yg r <= yg (r + 1).
Proof. unfold yg. lia. Qed.

Lemma yg_mono r s : r <= s -> yg r <= yg s.
Proof.
  intros H. replace s with (r + Z.of_nat (Z.to_nat (s - r))) by lia. clear H.
  induction (Z.to_nat (s - r)) as [|n IH]; [replace (r + Z.of_nat 0) with r by lia; lia|].
  pose proof (yg_step (r + Z.of_nat n)). replace (r + Z.of_nat (S n)) with (r + Z.of_nat n + 1) by lia. lia.
Qed.

(** First day of the year after year [y]. *)
Definition ye (y : Z) : Z := ys (y + 1) + (if y =? 399 then 1 else 0).

Definition year_check (y : Z) : bool :=
  (365 * y <=? yg (ys y)) && (yg (ye y - 1) <? 365 * (y + 1)) &&
  (ye y - ys y =? (if leapb (y + 1) then 366 else 365)) && ((y =? 399) || (ys (y + 1) =? ye y)).

Lemma year_check_all y : 0 <= y < 400 -> year_check y = true.
Proof. apply (all_upto_spec 400 year_check). vm_compute. reflexivity. Qed.

Lemma year_facts y : 0 <= y < 400 ->
  365 * y <= yg (ys y) /\ yg (ye y - 1) < 365 * (y + 1) /\
  ye y - ys y = (if leapb (y + 1) then 366 else 365).
Proof. intros H. pose proof (year_check_all y H) as C. unfold year_check in C. rewrite !andb_true_iff in C. lia. Qed.

Lemma year_unique y r : 0 <= y < 400 -> ys y <= r < ye y -> yg r / 365 = y.
Proof.
  intros Hy Hr. destruct (year_facts y Hy) as (A & B & _).
  pose proof (yg_mono (ys y) r ltac:(lia)). pose proof (yg_mono r (ye y - 1) ltac:(lia)).
  generalize dependent (yg r). intros. lia.
Qed.

Lemma year_exists r : 0 <= r < 146097 -> exists y, 0 <= y < 400 /\ ys y <= r < ye y.
Proof.
  intros H. set (y := yg r / 365).
  assert (L : yg 0 <= yg r) by (apply yg_mono; lia). assert (U : yg r <= yg 146096) by (apply yg_mono; lia).
  change (yg 0) with 0 in L. change (yg 146096) with 145999 in U.
  assert (Hy : 0 <= y < 400) by (subst y; lia). exists y. split; [exact Hy|].
  assert (Y : 365 * y <= yg r < 365 * (y + 1)) by (subst y; lia). clearbody y. split.
  - destruct (Z_lt_le_dec r (ys y)) as [G|G]; [exfalso|exact G].
    assert (0 < y) by (destruct (Z.eq_dec y 0) as [-> |]; [change (ys 0) with 0 in G; lia|lia]).
    destruct (year_facts (y - 1) ltac:(lia)) as (_ & B & _). unfold ye in B.
    replace (y - 1 + 1) with y in B by lia. replace (y - 1 =? 399) with false in B by lia.
    pose proof (yg_mono r (ys y + 0 - 1) ltac:(lia)). lia.
  - destruct (Z_lt_le_dec r (ye y)) as [G|G]; [exact G|exfalso].
    destruct (Z.eq_dec y 399) as [-> |]; [change (ye 399) with 146097 in G; lia|].
    destruct (year_facts (y + 1) ltac:(lia)) as (A & _ & _). unfold ye in G.
    replace (y =? 399) with false in G by lia. pose proof (yg_mono (ys (y + 1)) r ltac:(lia)). lia.
Qed.

(** Month and day of a day of the year starting on 1 March. *)
Definition md (doy : Z) : Z * Z :=
  let mp := (5 * doy + 2) / 153 in
  (if mp <? 10 then mp + 3 else mp - 9, doy - (153 * mp + 2) / 5 + 1).

Lemma era_day_eq y r : 0 <= y < 400 -> ys y <= r < ye y ->
  era_day r = (y + (if fst (md (r - ys y)) <=? 2 then 1 else 0), fst (md (r - ys y)), snd (md (r - ys y))).
Proof.
  intros Hy Hr. pose proof (year_unique y r Hy Hr) as U.
  assert (R : 0 <= r < 146097).
  { unfold ye, ys in Hr. destruct (y =? 399) eqn:?; lia. }
  unfold era_day, civil_from_days. cbv zeta. replace (r - 719468 + 719468) with r by lia.
  rewrite (Z.div_small r), (Z.mod_small r) by lia. fold (yg r). rewrite U. fold (ys y).
  replace (y + 0 * 400) with y by lia. reflexivity.
Qed.

(** [leapb] of the year of February. *)
Definition mlen (b : bool) (m : Z) : Z := month_days (if b then 4 else 1) m.

Lemma month_days_mlen y m : month_days y m = mlen (leapb y) m.
Proof. unfold mlen, month_days. change (leapb 4) with true. change (leapb 1) with false. destruct (leapb y); reflexivity. Qed.

(** One day of the year. *)
Definition doy_check (b : bool) (doy : Z) : bool :=
  let '(m, d) := md doy in
  (1 <=? m) && (m <=? 12) && (1 <=? d) && (d <=? mlen b m) &&
  ((153 * (if m >? 2 then m - 3 else m + 9) + 2) / 5 + d - 1 =? doy) &&
  Bool.eqb (m <=? 2) (306 <=? doy) &&
  (if doy <? (if b then 365 else 364) then
     let '(m', d') := md (doy + 1) in
     if d <? mlen b m then (m' =? m) && (d' =? d + 1)
     else if m <? 12 then (m' =? m + 1) && (d' =? 1) && Bool.eqb (m' <=? 2) (m <=? 2) else (m' =? 1) && (d' =? 1)
   else (m =? 2) && (d =? mlen b 2)).

Lemma doy_check_all (b : bool) doy : 0 <= doy < (if b then 366 else 365) -> doy_check b doy = true.
Proof.
  destruct b.
  - apply (all_upto_spec 366 (doy_check true)). vm_compute. reflexivity.
  - apply (all_upto_spec 365 (doy_check false)). vm_compute. reflexivity.
Qed.

(** Only the month length of February depends on the year. *)
Lemma mlen_other (b b' : bool) m : m <> 2 -> mlen b m = mlen b' m.
Proof.
  intros H. unfold mlen, month_days. destruct m as [|p|p]; try reflexivity.
  repeat (destruct p as [p|p|]; try reflexivity). lia.
Qed.

Lemma era_check_all r : 0 <= r < 146097 -> era_check r = true.
Proof.
  intros H. destruct (year_exists r H) as (y & Hy & Hr). destruct (year_facts y Hy) as (_ & _ & Hl).
  unfold era_check. rewrite (era_day_eq y r Hy Hr). set (doy := r - ys y).
  assert (Hd : 0 <= doy < (if leapb (y + 1) then 366 else 365)) by (subst doy; destruct (leapb (y + 1)); lia).
  pose proof (doy_check_all _ doy Hd) as C. unfold doy_check in C.
  destruct (md doy) as [m d] eqn:Em. cbn [fst snd]. rewrite !andb_true_iff in C.
  destruct C as [[[[[[C1 C2] C3] C4] C5] C6] C7]. apply eqb_prop in C6.
  set (Y := y + (if m <=? 2 then 1 else 0)).
  assert (EL : month_days Y m = mlen (leapb (y + 1)) m).
  { rewrite month_days_mlen. subst Y. destruct (m <=? 2) eqn:M; [reflexivity|apply mlen_other; lia]. }
  assert (V : valid_dateb (Y, m, d) = true) by (unfold valid_dateb; rewrite EL; lia).
  assert (YS : ys y = 365 * y + y / 4 - y / 100) by reflexivity.
  assert (N : era_day (r + 1) = next_date (Y, m, d)).
  { unfold next_date. rewrite EL. destruct (Z_lt_le_dec (r + 1) (ye y)) as [G|G].
    - rewrite (era_day_eq y (r + 1) Hy) by lia. replace (r + 1 - ys y) with (doy + 1) by (subst doy; lia).
      replace (doy <? (if leapb (y + 1) then 365 else 364)) with true in C7
        by (subst doy; destruct (leapb (y + 1)); lia).
      destruct (md (doy + 1)) as [m' d']. cbn [fst snd]. subst Y.
      destruct (d <? mlen (leapb (y + 1)) m).
      + assert (m' = m) by lia. assert (d' = d + 1) by lia. subst m' d'. reflexivity.
      + destruct (m <? 12) eqn:M12.
        * rewrite !andb_true_iff in C7. destruct C7 as [[X1 X2] X3]. apply eqb_prop in X3.
          assert (m' = m + 1) by lia. assert (d' = 1) by lia. subst m' d'. rewrite X3. reflexivity.
        * assert (m' = 1) by lia. assert (d' = 1) by lia. subst m' d'. cbn [Z.leb Z.compare Pos.compare Pos.compare_cont].
          replace (m <=? 2) with false by lia. replace (y + 0 + 1) with (y + 1) by lia. reflexivity.
    - assert (R1 : r + 1 = ye y) by lia.
      replace (doy <? (if leapb (y + 1) then 365 else 364)) with false in C7
        by (subst doy; destruct (leapb (y + 1)); lia).
      assert (m = 2) by lia. assert (d = mlen (leapb (y + 1)) 2) by lia. subst m d. clear C1 C2 C3 C4 C5 C6 C7 V EL.
      rewrite Z.ltb_irrefl. change (2 <? 12) with true. cbv iota. subst Y. change (2 <=? 2) with true. cbv iota.
      change (2 + 1) with 3.
      destruct (Z.eq_dec y 399) as [-> |].
      + rewrite R1. vm_compute. reflexivity.
      + assert (ye y = ys (y + 1)) by (unfold ye; replace (y =? 399) with false by lia; lia).
        destruct (year_facts (y + 1) ltac:(lia)) as (_ & _ & Hl1).
        rewrite (era_day_eq (y + 1) (r + 1)) by (try lia; destruct (leapb (y + 1 + 1)); lia).
        replace (r + 1 - ys (y + 1)) with 0 by lia. change (md 0) with (3, 1). cbn [fst snd].
        change (3 <=? 2) with false. cbv iota. replace (y + 1 + 0) with (y + 1) by lia. reflexivity. }
  rewrite V, N. replace (date_eqb (next_date (Y, m, d)) (next_date (Y, m, d))) with true
    by (destruct (next_date (Y, m, d)) as [[u v] w]; unfold date_eqb; lia).
  cbn [andb]. apply andb_true_iff. split.
  - apply Z.eqb_eq. unfold days_from_civil. cbv zeta.
    assert (EY : (if m <=? 2 then Y - 1 else Y) = y) by (subst Y; destruct (m <=? 2); lia).
    rewrite EY. rewrite (Z.div_small y), (Z.mod_small y) by lia. apply Z.eqb_eq in C5.
    replace (y * 365 + y / 4 - y / 100) with (ys y) by (unfold ys; lia).
    subst doy. generalize dependent ((153 * (if m >? 2 then m - 3 else m + 9) + 2) / 5). intros. lia.
  - assert (Y0 : y = 0 -> ys y = 0) by (intros ->; reflexivity).
    assert (Y1 : 1 <= y -> 365 <= ys y) by (unfold ys; lia).
    assert (Y2 : y = 399 -> ys y = 145731) by (intros ->; reflexivity).
    assert (Y3 : y < 399 -> ys y + doy < 145731).
    { intros G. assert (ye y <= 145731); [|subst doy; lia]. unfold ye. replace (y =? 399) with false by lia.
      unfold ys. lia. }
    subst Y doy. destruct (m <=? 2) eqn:M; symmetry in C6; rewrite !andb_true_iff;
      (split; [split; [split|]|]); try lia; apply eqb_true_iff; lia.
Qed.

(** Every month and day of a year. *)
Definition mdate_check (b : bool) (k : Z) : bool :=
  let m := k / 31 + 1 in let d := k mod 31 + 1 in
  if d <=? mlen b m then
    let doy := (153 * (if m >? 2 then m - 3 else m + 9) + 2) / 5 + d - 1 in
    (0 <=? doy) && (doy <? (if b || negb (m <=? 2) then 366 else 365)) && Bool.eqb (m <=? 2) (306 <=? doy) &&
    (fst (md doy) =? m) && (snd (md doy) =? d)
  else true.

Lemma mdate_check_all (b : bool) k : 0 <= k < 372 -> mdate_check b k = true.
Proof. destruct b; [apply (all_upto_spec 372 (mdate_check true))|apply (all_upto_spec 372 (mdate_check false))]; vm_compute; reflexivity. Qed.

(** ** Shifting by whole eras *)

Definition add_years (n : Z) (dt : date) : date := let '(y, m, d) := dt in (y + n, m, d).

Lemma civil_shift z e : civil_from_days (z + e * 146097) = add_years (e * 400) (civil_from_days z).
Proof.
  unfold civil_from_days, add_years. cbv zeta.
  replace ((z + e * 146097 + 719468) / 146097) with ((z + 719468) / 146097 + e)
    by (replace (z + e * 146097 + 719468) with (z + 719468 + e * 146097) by lia; rewrite Z.div_add by lia; lia).
  replace ((z + e * 146097 + 719468) mod 146097) with ((z + 719468) mod 146097)
    by (replace (z + e * 146097 + 719468) with (z + 719468 + e * 146097) by lia; rewrite Z.mod_add by lia; lia).
  f_equal. f_equal. lia.
Qed.

Lemma leapb_shift y e : leapb (y + e * 400) = leapb y.
Proof. unfold leapb. f_equal; [|f_equal; [f_equal|]]; lia. Qed.

Lemma month_days_shift y e m : month_days (y + e * 400) m = month_days y m.
Proof. unfold month_days. rewrite leapb_shift. reflexivity. Qed.

Lemma valid_shift dt e : valid_date (add_years (e * 400) dt) <-> valid_date dt.
Proof. destruct dt as [[y m] d]. unfold valid_date, add_years. rewrite month_days_shift. tauto. Qed.

Lemma next_shift dt e : next_date (add_years (e * 400) dt) = add_years (e * 400) (next_date dt).
Proof.
  destruct dt as [[y m] d]. unfold next_date, add_years. rewrite month_days_shift.
  destruct (d <? month_days y m); auto. destruct (m <? 12); auto. f_equal; f_equal; lia.
Qed.

Lemma days_shift dt e : days_from_civil (add_years (e * 400) dt) = days_from_civil dt + e * 146097.
Proof.
  destruct dt as [[y m] d]. unfold days_from_civil, add_years. cbv zeta.
  set (y' := if m <=? 2 then y - 1 else y).
  replace (if m <=? 2 then y + e * 400 - 1 else y + e * 400) with (y' + e * 400) by (subst y'; destruct (m <=? 2); lia).
  rewrite Z.div_add, Z.mod_add by lia. lia.
Qed.

(** Each day number as a day of an era. *)
Lemma era_split z : exists e r, 0 <= r < 146097 /\ z = r - 719468 + e * 146097.
Proof. exists ((z + 719468) / 146097), ((z + 719468) mod 146097). lia. Qed.

Lemma civil_valid z : valid_date (civil_from_days z).
Proof.
  destruct (era_split z) as (e & r & Hr & ->). rewrite civil_shift, valid_shift.
  pose proof (era_check_all r Hr) as H. unfold era_check in H. apply valid_dateb_spec. unfold era_day in H.
  apply andb_true_iff in H. destruct H as [H _]. apply andb_true_iff in H. destruct H as [H _].
  apply andb_true_iff in H. tauto.
Qed.

Lemma civil_next z : civil_from_days (z + 1) = next_date (civil_from_days z).
Proof.
  destruct (era_split z) as (e & r & Hr & ->).
  replace (r - 719468 + e * 146097 + 1) with (r + 1 - 719468 + e * 146097) by lia. rewrite !civil_shift, next_shift. f_equal.
  pose proof (era_check_all r Hr) as H. unfold era_check in H.
  apply andb_true_iff in H. destruct H as [H _]. apply andb_true_iff in H. destruct H as [H _].
  apply andb_true_iff in H. apply date_eqb_spec. exact (proj2 H).
Qed.

Lemma days_civil z : days_from_civil (civil_from_days z) = z.
Proof.
  destruct (era_split z) as (e & r & Hr & ->). rewrite civil_shift, days_shift.
  pose proof (era_check_all r Hr) as H. unfold era_check in H.
  apply andb_true_iff in H. destruct H as [H _]. apply andb_true_iff in H. destruct H as [_ H].
  apply Z.eqb_eq in H. unfold era_day in H. lia.
Qed.

Lemma month_days_le y m : month_days y m <= 31.
Proof.
  unfold month_days. destruct m as [|p|p]; try lia.
  repeat (destruct p as [p|p|]; try lia); try (destruct (leapb y); lia).
Qed.

Lemma civil_days dt : valid_date dt -> civil_from_days (days_from_civil dt) = dt.
Proof.
  intros H. destruct dt as [[y m] d]. unfold valid_date in H. pose proof (month_days_le y m) as L31.
  set (y' := if m <=? 2 then y - 1 else y).
  pose proof (mdate_check_all (leapb y) ((m - 1) * 31 + (d - 1)) ltac:(lia)) as C. unfold mdate_check in C. cbv zeta in C.
  replace (((m - 1) * 31 + (d - 1)) / 31 + 1) with m in C by lia.
  replace (((m - 1) * 31 + (d - 1)) mod 31 + 1) with d in C by lia.
  rewrite <- month_days_mlen in C. replace (d <=? month_days y m) with true in C by lia.
  unfold days_from_civil. cbv zeta. fold y'.
  set (doy := (153 * (if m >? 2 then m - 3 else m + 9) + 2) / 5 + d - 1) in *. clearbody doy.
  rewrite !andb_true_iff in C. destruct C as [[[[C1 C2] C3] C4] C5]. apply eqb_prop in C3.
  set (w := y' mod 400). set (e := y' / 400). assert (Hw : 0 <= w < 400) by (subst w; lia).
  assert (Ew : y' = w + e * 400) by (subst w e; lia).
  replace (w * 365 + w / 4 - w / 100) with (ys w) by (unfold ys; lia).
  destruct (year_facts w Hw) as (_ & _ & Hl).
  assert (Hr : ys w <= ys w + doy < ye w).
  { destruct (m <=? 2) eqn:M.
    - assert (EL : leapb (w + 1) = leapb y).
      { replace y with (w + 1 + e * 400) by (subst y'; lia). symmetry. apply leapb_shift. }
      rewrite EL in Hl. destruct (leapb y); cbn [orb negb] in C2; lia.
    - destruct (leapb (w + 1)); lia. }
  replace (e * 146097 + (ys w + doy) - 719468) with (ys w + doy - 719468 + e * 146097) by lia.
  rewrite civil_shift. fold (era_day (ys w + doy)). rewrite (era_day_eq w _ Hw Hr).
  replace (ys w + doy - ys w) with doy by lia. apply Z.eqb_eq in C4. apply Z.eqb_eq in C5. rewrite C4, C5.
  cbn [add_years]. f_equal. f_equal. rewrite Z.add_shuffle0, <- Ew. subst y'. destruct (m <=? 2); lia.
Qed.

Definition year_of (dt : date) : Z := let '(y, _, _) := dt in y.

(** The days of the years 1 to 9999. *)
Lemma year_range z : 1 <= year_of (civil_from_days z) <= 9999 <-> -719162 <= z <= 2932896.
Proof.
  destruct (era_split z) as (e & r & Hr & ->). rewrite civil_shift.
  pose proof (era_check_all r Hr) as H. unfold era_check, era_day in H.
  apply andb_true_iff in H. destruct H as [_ H].
  destruct (civil_from_days (r - 719468)) as [[y m] d]. cbn [add_years year_of].
  rewrite !andb_true_iff in H. destruct H as [[[H1 H2] H3] H4].
  apply eqb_prop in H3. apply eqb_prop in H4. lia.
Qed.

Lemma last_day_month y m : 1 <= m <= 12 -> last_day y m = month_days y m.
Proof.
  intros H. assert (M : m = 1 \/ m = 2 \/ m = 3 \/ m = 4 \/ m = 5 \/ m = 6 \/ m = 7 \/ m = 8 \/ m = 9 \/ m = 10 \/ m = 11 \/ m = 12) by lia.
  repeat (destruct M as [-> | M]; [reflexivity|]). subst; reflexivity.
Qed.

Lemma ymd_ok_spec dt : ymd_ok dt = true <-> valid_date dt.
Proof.
  destruct dt as [[y m] d]. unfold ymd_ok, valid_date. split; intros H.
  - assert (1 <= m <= 12) by lia. rewrite last_day_month in H by auto. lia.
  - destruct H as [H1 H2]. rewrite last_day_month by auto. lia.
Qed.
