(** Decimal numbers in text: the part of the C++ library that the JSON codecs
    rely on ([std::from_chars], [glz::to_chars], fixed-width digits).  These are
    library functions, modelled by their documented behaviour. *)
Require Import Verif.Bits.
Open Scope Z_scope.

Definition is_digit (c : Z) : Prop := 48 <= c <= 57.
Definition digitb (c : Z) : bool := (48 <=? c) && (c <=? 57).

(** Value of a digit string. *)
Fixpoint dec_val_from (acc : Z) (s : list Z) : Z :=
  match s with [] => acc | c :: s' => dec_val_from (acc * 10 + (c - 48)) s' end.
Definition dec_val (s : list Z) : Z := dec_val_from 0 s.

(** The longest prefix of digits. *)
Fixpoint take_digits (s : list Z) : list Z :=
  match s with c :: s' => if digitb c then c :: take_digits s' else [] | [] => [] end.

(** [std::from_chars] in base 10 for an integer type with range [lo..hi]: an
    optional minus sign if the type is signed, then the longest run of digits.
    [Some (v, k)]: [ec == errc{}], value [v], [ptr - first == k];
    [None]: [ec != errc{}] (no digits, or out of range). *)
Definition from_chars (sg : bool) (lo hi : Z) (s : list Z) : option (Z * Z) :=
  let neg := match s with c :: _ => sg && (c =? 45) | [] => false end in
  let t := if neg then tl s else s in
  match take_digits t with
  | [] => None
  | ds =>
    let v := if neg then - dec_val ds else dec_val ds in
    if (lo <=? v) && (v <=? hi) then Some (v, zlen ds + (if neg then 1 else 0)) else None
  end.

(** [r.ec == std::errc() && r.ptr == end] *)
Definition from_chars_all (sg : bool) (lo hi : Z) (s : list Z) : option Z :=
  match from_chars sg lo hi s with
  | Some (v, k) => if k =? zlen s then Some v else None
  | None => None
  end.

Definition u64_all := from_chars_all false 0 (2 ^ 64 - 1).
Definition i32_all := from_chars_all true (- 2 ^ 31) (2 ^ 31 - 1).

(** The digits of [v] in exactly [n] positions. *)
Fixpoint fixed_digits (n : nat) (v : Z) : list Z :=
  match n with O => [] | S n' => fixed_digits n' (v / 10) ++ [48 + v mod 10] end.

(** [glz::to_chars] for unsigned integers: no leading zeros.  The fuel is the
    number of digits a [uint64_t] can need. *)
Fixpoint dec_digits (fuel : nat) (v : Z) : list Z :=
  match fuel with
  | O => []
  | S f => if v <? 10 then [48 + v] else dec_digits f (v / 10) ++ [48 + v mod 10]
  end.
Definition u64_to_chars (v : Z) : list Z := dec_digits 20 v.

(** ** Facts *)

Lemma digitb_spec c : digitb c = true <-> is_digit c.
Proof. unfold digitb, is_digit; lia. Qed.

Lemma dec_val_from_app s : forall t acc, dec_val_from acc (s ++ t) = dec_val_from (dec_val_from acc s) t.
Proof. induction s; intros; cbn [app dec_val_from]; auto. Qed.

Lemma dec_val_snoc s c : dec_val (s ++ [c]) = dec_val s * 10 + (c - 48).
Proof. unfold dec_val. rewrite dec_val_from_app. reflexivity. Qed.

Lemma dec_val_from_bound s : Forall is_digit s -> forall acc, 0 <= acc ->
  acc * 10 ^ zlen s <= dec_val_from acc s < (acc + 1) * 10 ^ zlen s.
Proof.
  induction 1 as [|c s Hc Hs IH]; intros acc Ha; cbn [dec_val_from].
  - change (10 ^ zlen (@nil Z)) with 1. lia.
  - unfold is_digit in Hc. specialize (IH (acc * 10 + (c - 48)) ltac:(lia)).
    replace (zlen (c :: s)) with (zlen s + 1) by (unfold zlen; cbn [length]; lia).
    assert (0 <= zlen s) by (unfold zlen; lia).
    rewrite Z.pow_add_r by lia. change (10 ^ 1) with 10.
    assert (0 < 10 ^ zlen s) by (apply Z.pow_pos_nonneg; lia). nia.
Qed.

Lemma dec_val_bound s : Forall is_digit s -> 0 <= dec_val s < 10 ^ zlen s.
Proof. intros H. pose proof (dec_val_from_bound s H 0 ltac:(lia)). unfold dec_val. lia. Qed.

Lemma take_digits_all s : Forall is_digit s -> forall t, (forall c r, t = c :: r -> ~ is_digit c) ->
  take_digits (s ++ t) = s.
Proof.
  induction 1 as [|c s Hc Hs IH]; intros t Ht; cbn [app take_digits].
  - destruct t as [|c r]; auto. cbn [take_digits]. destruct (digitb c) eqn:E; auto.
    apply digitb_spec in E. exfalso. apply (Ht c r); auto.
  - apply digitb_spec in Hc. rewrite Hc, IH; auto.
Qed.

Lemma take_digits_prefix s : exists r, s = take_digits s ++ r.
Proof.
  induction s as [|c s [r IH]]; [exists []; reflexivity|]. cbn [take_digits].
  destruct (digitb c); [exists r; cbn [app]; rewrite <- IH; auto | exists (c :: s); auto].
Qed.

Lemma take_digits_digits s : Forall is_digit (take_digits s).
Proof.
  induction s as [|c s IH]; cbn [take_digits]; auto. destruct (digitb c) eqn:E; auto.
  apply Forall_cons; auto. apply digitb_spec; auto.
Qed.

Lemma take_digits_len s : zlen (take_digits s) = zlen s -> take_digits s = s.
Proof.
  destruct (take_digits_prefix s) as [r E]. intros H.
  assert (L : zlen s = zlen (take_digits s) + zlen r) by (rewrite E at 1; unfold zlen; rewrite app_length; lia).
  destruct r; [rewrite app_nil_r in E; auto|]. unfold zlen in *. cbn [length] in *. lia.
Qed.

(** What [from_chars_all] accepts. *)
Lemma from_chars_all_spec sg lo hi s v :
  from_chars_all sg lo hi s = Some v <->
  exists ds, ds <> [] /\ Forall is_digit ds /\ lo <= v <= hi /\
    ((s = ds /\ v = dec_val ds) \/ (sg = true /\ s = 45 :: ds /\ v = - dec_val ds)).
Proof.
  unfold from_chars_all, from_chars. split.
  - set (neg := match s with c :: _ => sg && (c =? 45) | [] => false end).
    destruct (take_digits (if neg then tl s else s)) as [|d ds] eqn:T; [discriminate|].
    set (v0 := if neg then _ else _). destruct ((lo <=? v0) && (v0 <=? hi)) eqn:R; [|discriminate].
    destruct (Z.eqb_spec (zlen (d :: ds) + (if neg then 1 else 0)) (zlen s)) as [L|L]; [|discriminate].
    intros H; injection H as <-.
    exists (d :: ds). split; [discriminate|]. split; [rewrite <- T; apply take_digits_digits|]. split; [lia|].
    destruct neg eqn:N.
    + right. subst neg. destruct s as [|c s]; [discriminate|]. apply andb_true_iff in N. destruct N as [N1 N2].
      apply Z.eqb_eq in N2. subst c. split; auto. cbn [tl] in T. split; [|reflexivity].
      f_equal. rewrite <- T. symmetry. apply take_digits_len. rewrite T. unfold zlen in *. cbn [length] in *. lia.
    + left. split; [|reflexivity]. rewrite <- T. symmetry. apply take_digits_len. rewrite T. lia.
  - intros (ds & Hn & Hd & Hr & [[-> ->]|(-> & -> & ->)]).
    + assert (N : match ds with c :: _ => sg && (c =? 45) | [] => false end = false).
      { destruct ds as [|d ds]; auto. inversion Hd as [|? ? Hc _]. unfold is_digit in Hc. rewrite andb_comm. replace (d =? 45) with false by lia. auto. }
      rewrite N. rewrite <- (app_nil_r ds) at 1. rewrite take_digits_all by (auto; discriminate).
      destruct ds as [|d ds]; [contradiction|].
      replace ((lo <=? dec_val (d :: ds)) && (dec_val (d :: ds) <=? hi)) with true by lia.
      rewrite Z.add_0_r, Z.eqb_refl. reflexivity.
    + change (true && (45 =? 45)) with true. cbv iota. cbn [tl].
      rewrite <- (app_nil_r ds) at 1. rewrite take_digits_all by (auto; discriminate).
      destruct ds as [|d ds]; [contradiction|].
      replace ((lo <=? - dec_val (d :: ds)) && (- dec_val (d :: ds) <=? hi)) with true by lia.
      replace (zlen (45 :: d :: ds)) with (zlen (d :: ds) + 1) by (unfold zlen; cbn [length]; lia).
      rewrite Z.eqb_refl. reflexivity.
Qed.

Lemma fixed_digits_len n : forall v, length (fixed_digits n v) = n.
Proof. induction n; intros; cbn [fixed_digits]; auto. rewrite app_length, IHn. cbn [length]. lia. Qed.

Lemma fixed_digits_digits n : forall v, Forall is_digit (fixed_digits n v).
Proof.
  induction n; intros; cbn [fixed_digits]; auto. apply Forall_app; split; auto.
  apply Forall_cons; auto. unfold is_digit. lia.
Qed.

Lemma fixed_digits_val n : forall v, 0 <= v < 10 ^ Z.of_nat n -> dec_val (fixed_digits n v) = v.
Proof.
  induction n; intros v Hv.
  - change (10 ^ Z.of_nat 0) with 1 in Hv. change (dec_val (fixed_digits 0 v)) with 0. lia.
  - cbn [fixed_digits]. rewrite dec_val_snoc. rewrite IHn; [lia|].
    replace (Z.of_nat (S n)) with (Z.of_nat n + 1) in Hv by lia. rewrite Z.pow_add_r in Hv by lia. change (10 ^ 1) with 10 in Hv. lia.
Qed.

Lemma dec_digits_digits f : forall v, 0 <= v -> Forall is_digit (dec_digits f v).
Proof.
  induction f; intros v Hv; cbn [dec_digits]; auto. destruct (Z.ltb_spec v 10).
  - apply Forall_cons; auto. unfold is_digit; lia.
  - apply Forall_app; split; [apply IHf; lia|]. apply Forall_cons; auto. unfold is_digit; lia.
Qed.

Lemma dec_digits_val f : forall v, 0 <= v < 10 ^ Z.of_nat f -> dec_val (dec_digits f v) = v.
Proof.
  induction f; intros v Hv; cbn [dec_digits].
  - change (10 ^ Z.of_nat 0) with 1 in Hv. change (dec_val []) with 0. lia.
  - destruct (Z.ltb_spec v 10).
    + unfold dec_val; cbn [dec_val_from]. lia.
    + rewrite dec_val_snoc, IHf; [lia|].
      replace (Z.of_nat (S f)) with (Z.of_nat f + 1) in Hv by lia. rewrite Z.pow_add_r in Hv by lia. change (10 ^ 1) with 10 in Hv. lia.
Qed.

Lemma dec_digits_nonnil f v : (f <> 0)%nat -> dec_digits f v <> [].
Proof. destruct f; [contradiction|]. intros _. cbn [dec_digits]. destruct (v <? 10); [discriminate|]. destruct (dec_digits f (v / 10)); discriminate. Qed.

Lemma dec_digits_len f k : forall v, 0 <= v < 10 ^ Z.of_nat k -> (0 < k)%nat -> (length (dec_digits f v) <= k)%nat.
Proof.
  revert k. induction f; intros k v Hv Hk; cbn [dec_digits length]; [lia|].
  destruct (Z.ltb_spec v 10); cbn [length]; [lia|]. rewrite app_length. cbn [length].
  destruct k as [|[|k]]; [lia| |].
  - change (10 ^ Z.of_nat 1) with 10 in Hv. lia.
  - specialize (IHf (S k) (v / 10)).
    replace (Z.of_nat (S (S k))) with (Z.of_nat (S k) + 1) in Hv by lia. rewrite Z.pow_add_r in Hv by lia. change (10 ^ 1) with 10 in Hv.
    assert (0 <= v / 10 < 10 ^ Z.of_nat (S k)) by lia. specialize (IHf H0 ltac:(lia)). lia.
Qed.

(** No leading zero unless the number is zero. *)
Lemma dec_digits_lead f : forall v, 0 < v < 10 ^ Z.of_nat f -> hd 0 (dec_digits f v) <> 48.
Proof.
  induction f; intros v Hv; cbn [dec_digits].
  - change (10 ^ Z.of_nat 0) with 1 in Hv. lia.
  - destruct (Z.ltb_spec v 10); [cbn [hd]; lia|].
    replace (Z.of_nat (S f)) with (Z.of_nat f + 1) in Hv by lia. rewrite Z.pow_add_r in Hv by lia. change (10 ^ 1) with 10 in Hv.
    specialize (IHf (v / 10) ltac:(lia)).
    destruct (dec_digits f (v / 10)) as [|d r] eqn:E; [|exact IHf].
    destruct f; [change (10 ^ Z.of_nat 0) with 1 in Hv; lia|].
    exfalso. apply (dec_digits_nonnil (S f) (v / 10)); auto.
Qed.
