(** Proofs about flat_map: lookup and modification. *)
From Coq Require Import List Arith Lia Bool Sorted Permutation.
Import ListNotations.
Require Import Verif.FlatMap.

(** ** Specification *)
(** [less] is a strict weak ordering, as std::map and flat_map require. *)
Record strict_weak {K} (less : K -> K -> bool) : Prop := {
  sw_irr : forall x, less x x = false;
  sw_trans : forall x y z, less x y = true -> less y z = true -> less x z = true;
  sw_weak : forall x y z, less x z = true -> less x y = true \/ less y z = true
}.

Section Spec.
  Context {K V : Type} (less : K -> K -> bool).
  (** Keys strictly increasing and as many values as keys. *)
  Definition inv (m : fmap K V) : Prop :=
    length (keys m) = length (vals m) /\ StronglySorted (fun a b => less a b = true) (keys m).
  (** Neither key comes before the other. *)
  Definition same_key (a b : K) : Prop := less a b = false /\ less b a = false.
  (** The finite map a flat_map stands for. *)
  Definition maps_to (m : fmap K V) (k : K) (v : V) : Prop := exists k', In (k', v) (elements m) /\ same_key k k'.
  Definition has_key (m : fmap K V) (k : K) : Prop := exists v, maps_to m k v.
End Spec.

(** ** List facts *)
Section Lists.
  Context {T : Type}.
  Implicit Types (l : list T).
  Lemma upd_length i x l : length (upd i x l) = length l.
  Proof. revert i; induction l as [|a l IH]; intros [|i]; cbn; auto. Qed.
  Lemma upd_nth i x l j : nth_error (upd i x l) j = if (i =? j) && (i <? length l) then Some x else nth_error l j.
  Proof.
    revert i j; induction l as [|a l IH]; intros [|i] [|j]; cbn [upd nth_error length]; try reflexivity.
    - destruct (S i =? S j); reflexivity.
    - rewrite IH. reflexivity.
  Qed.
  Lemma upd_out i x l : length l <= i -> upd i x l = l.
  Proof. revert i; induction l as [|a l IH]; intros [|i]; cbn; intros; try lia; auto. f_equal. apply IH. lia. Qed.
  Lemma upd_split i x l : i < length l -> upd i x l = firstn i l ++ x :: skipn (S i) l.
  Proof. revert i; induction l as [|a l IH]; intros [|i] H; cbn in *; try lia; auto. f_equal. apply IH. lia. Qed.
  Lemma split_at i l x : nth_error l i = Some x -> l = firstn i l ++ x :: skipn (S i) l /\ length (firstn i l) = i.
  Proof.
    revert i; induction l as [|a l IH]; intros [|i]; cbn [nth_error firstn skipn app length]; try discriminate; [intros [= <-]; auto|].
    intros H. destruct (IH i H) as [H1 H2]. split; [f_equal; exact H1|lia].
  Qed.
  Lemma swap_length i j l : length (swap i j l) = length l.
  Proof. unfold swap. destruct (nth_error l i), (nth_error l j); rewrite ?upd_length; reflexivity. Qed.
  Lemma swap_nth i j l k : i < length l -> j < length l ->
    nth_error (swap i j l) k = if k =? i then nth_error l j else if k =? j then nth_error l i else nth_error l k.
  Proof.
    intros Hi Hj. unfold swap. destruct (nth_error l i) as [x|] eqn:Ei; [|apply nth_error_None in Ei; lia].
    destruct (nth_error l j) as [y|] eqn:Ej; [|apply nth_error_None in Ej; lia].
    rewrite !upd_nth, upd_length. destruct (Nat.ltb_spec i (length l)); [|lia]. destruct (Nat.ltb_spec j (length l)); [|lia].
    rewrite !andb_true_r, (Nat.eqb_sym i k), (Nat.eqb_sym j k). destruct (k =? i) eqn:E1, (k =? j) eqn:E2; try reflexivity; auto.
  Qed.
  Lemma upd_perm i x y l : nth_error l i = Some y -> Permutation (x :: l) (y :: upd i x l).
  Proof.
    revert i; induction l as [|a l IH]; intros [|i]; cbn; try discriminate.
    - intros [= <-]. apply perm_swap.
    - intros H. rewrite perm_swap. rewrite (IH i H). apply perm_swap.
  Qed.
  Lemma swap_perm i j l : Permutation l (swap i j l).
  Proof.
    unfold swap. destruct (nth_error l i) as [x|] eqn:Ei; [|reflexivity]. destruct (nth_error l j) as [y|] eqn:Ej; [|reflexivity].
    apply (Permutation_cons_inv (a := x)). rewrite (upd_perm j x y l Ej).
    destruct (Nat.eq_dec i j) as [<-|Hn].
    - rewrite Ei in Ej. injection Ej as <-. apply upd_perm. rewrite upd_nth, Nat.eqb_refl.
      assert (i < length l) by (apply nth_error_Some; congruence). destruct (Nat.ltb_spec i (length l)); [reflexivity|lia].
    - apply upd_perm. rewrite upd_nth. destruct (Nat.eqb_spec j i); [congruence|]. cbn. exact Ei.
  Qed.
  Lemma firstn_len (a b : list T) : firstn (length a) (a ++ b) = a.
  Proof. rewrite firstn_app, firstn_all, Nat.sub_diag. cbn. apply app_nil_r. Qed.
  Lemma skipn_len (a b : list T) : skipn (length a) (a ++ b) = b.
  Proof. rewrite skipn_app, skipn_all, Nat.sub_diag. reflexivity. Qed.
  Lemma nth_len (a b : list T) : nth_error (a ++ b) (length a) = hd_error b.
  Proof. rewrite nth_error_app2, Nat.sub_diag by lia. destruct b; reflexivity. Qed.
  Lemma insert_at_len (a b : list T) x : insert_at (length a) x (a ++ b) = a ++ x :: b.
  Proof. unfold insert_at. rewrite firstn_len, skipn_len. reflexivity. Qed.
  Lemma skipn_add i j l : skipn (i + j) l = skipn j (skipn i l).
  Proof. revert l; induction i as [|i IH]; intros [|a l]; cbn; auto. destruct j; reflexivity. Qed.
  Lemma firstn_succ i l x : nth_error l i = Some x -> firstn (S i) l = firstn i l ++ [x].
  Proof. revert l; induction i as [|i IH]; intros [|a l]; cbn [nth_error]; try discriminate; [intros [= ->]; reflexivity|]. intros H. cbn. f_equal. apply (IH l H). Qed.
  Lemma sorted_app (R : T -> T -> Prop) a b : StronglySorted R (a ++ b) <->
    StronglySorted R a /\ StronglySorted R b /\ Forall (fun x => Forall (R x) b) a.
  Proof.
    induction a as [|x a IH]; cbn [app].
    - split; [intros H; repeat split; auto; constructor|tauto].
    - split.
      + intros H. inversion H as [|? ? H1 H2]; subst. apply IH in H1. destruct H1 as (A & B & C). apply Forall_app in H2. destruct H2.
        repeat split; auto; constructor; auto.
      + intros (A & B & C). inversion A; subst. inversion C; subst. constructor; [apply IH; auto|]. apply Forall_app. auto.
  Qed.
End Lists.

Section Proofs.
  Context {K V : Type} (less : K -> K -> bool).
  Hypothesis SW : strict_weak less.
  Notation fmap := (fmap K V).
  Notation inv := (inv (V := V) less).
  Notation same := (same_key less).
  Notation maps_to := (maps_to (V := V) less).
  Notation lt a b := (less a b = true).
  Notation sorted := (StronglySorted (fun a b => less a b = true)).

  Implicit Types m : fmap.

  Lemma less_asym a b : lt a b -> less b a = false.
  Proof. intros H. destruct (less b a) eqn:E; [|reflexivity]. pose proof (sw_trans _ SW _ _ _ H E). rewrite (sw_irr _ SW) in *. discriminate. Qed.
  Lemma less_le a b c : lt a b -> less c b = false -> lt a c.
  Proof. intros H1 H2. destruct (sw_weak _ SW a c b H1); congruence. Qed.
  Lemma le_less a b c : less b a = false -> lt b c -> lt a c.
  Proof. intros H1 H2. destruct (sw_weak _ SW b a c H2); congruence. Qed.
  Lemma same_refl a : same a a.
  Proof. split; apply (sw_irr _ SW). Qed.
  Lemma same_sym a b : same a b -> same b a.
  Proof. intros []; split; auto. Qed.
  Lemma same_trans a b c : same a b -> same b c -> same a c.
  Proof.
    intros [H1 H2] [H3 H4]. split.
    - destruct (less a c) eqn:E; [|reflexivity]. destruct (sw_weak _ SW a b c E); congruence.
    - destruct (less c a) eqn:E; [|reflexivity]. destruct (sw_weak _ SW c b a E); congruence.
  Qed.
  Lemma equivalent_iff a b : equivalent less a b = true <-> same a b.
  Proof. unfold equivalent, same_key. rewrite andb_true_iff, !negb_true_iff. tauto. Qed.
  Lemma same_dec a b : {same a b} + {~ same a b}.
  Proof. unfold same_key. destruct (less a b); [right; intros []; discriminate|]. destruct (less b a); [right; intros []; discriminate|left; auto]. Qed.

  (** ** Binary search *)
  Lemma search_spec (p : K -> bool) l c : forall fuel first len, len <= fuel -> first <= c <= first + len ->
    (forall i, first <= i < c -> test p l i = true) -> (forall i, c <= i < first + len -> test p l i = false) ->
    search fuel first len p l = c.
  Proof.
    induction fuel as [|f IH]; intros first len Hf Hc Ht Hfa; [cbn; lia|]. destruct len as [|n]; [cbn; lia|].
    cbn [search]. set (half := S n / 2). assert (half < S n) by (apply Nat.div_lt; lia).
    destruct (test p l (first + half)) eqn:E.
    - apply IH; try lia.
      + destruct (le_lt_dec c (first + half)) as [Hl|Hl]; [|lia]. rewrite Hfa in E by lia. discriminate.
      + intros i Hi. apply Ht. lia.
      + intros i Hi. apply Hfa. lia.
    - apply IH; try lia.
      + destruct (le_lt_dec c (first + half)) as [Hl|Hl]; [lia|]. rewrite Ht in E by lia. discriminate.
      + intros i Hi. apply Ht. lia.
      + intros i Hi. apply Hfa. lia.
  Qed.

  Lemma partition_point_split (p : K -> bool) n A B : n <= length A -> Forall (fun x => p x = true) (skipn n A) -> Forall (fun x => p x = false) B ->
    partition_point n p (A ++ B) = length A.
  Proof.
    intros Hn HA HB. unfold partition_point. rewrite app_length. apply search_spec; try lia.
    - intros i Hi. unfold test. rewrite nth_error_app1 by lia. destruct (nth_error A i) as [x|] eqn:E; [|apply nth_error_None in E; lia].
      rewrite Forall_forall in HA. apply HA. assert (nth_error (skipn n A) (i - n) = Some x).
      { rewrite <- E. rewrite <- (firstn_skipn n A) at 2. rewrite nth_error_app2 by (rewrite firstn_length; lia). f_equal. rewrite firstn_length. lia. }
      eapply nth_error_In; eauto.
    - intros i Hi. unfold test. rewrite nth_error_app2 by lia. destruct (nth_error B (i - length A)) as [x|] eqn:E; [|reflexivity].
      rewrite Forall_forall in HB. apply HB. eapply nth_error_In; eauto.
  Qed.

  (** A sorted list splits at a key. *)
  Lemma split_lower k l : sorted l -> exists A B, l = A ++ B /\ Forall (fun x => lt x k) A /\ Forall (fun x => less x k = false) B.
  Proof.
    induction l as [|x l IH]; intros H; [exists [], []; repeat constructor|]. inversion H as [|? ? H1 H2]; subst.
    destruct (less x k) eqn:E.
    - destruct (IH H1) as (A & B & -> & HA & HB). exists (x :: A), B. repeat split; auto.
    - exists [], (x :: l). split; [reflexivity|]. split; [constructor|]. constructor; [exact E|]. eapply Forall_impl; [|exact H2]. cbn. intros y Hy.
      destruct (less y k) eqn:E2; [|reflexivity]. pose proof (sw_trans _ SW _ _ _ Hy E2). congruence.
  Qed.
  Lemma split_upper k l : sorted l -> exists A B, l = A ++ B /\ Forall (fun x => less k x = false) A /\ Forall (fun x => lt k x) B.
  Proof.
    induction l as [|x l IH]; intros H; [exists [], []; repeat constructor|]. inversion H as [|? ? H1 H2]; subst.
    destruct (less k x) eqn:E.
    - exists [], (x :: l). split; [reflexivity|]. split; [constructor|]. constructor; [exact E|]. eapply Forall_impl; [|exact H2]. cbn. intros y Hy. eapply (sw_trans _ SW); eauto.
    - destruct (IH H1) as (A & B & -> & HA & HB). exists (x :: A), B. repeat split; auto.
  Qed.

  (** The map around the position of key [k]. *)
  Lemma around k m : inv m -> exists A B VA VB, keys m = A ++ B /\ vals m = VA ++ VB /\ length A = length VA /\ length B = length VB /\
    Forall (fun x => lt x k) A /\ Forall (fun x => less x k = false) B /\ sorted A /\ sorted B /\ lower_bound less k m = length A.
  Proof.
    intros [Hl Hs]. destruct (split_lower k _ Hs) as (A & B & E & HA & HB). exists A, B, (firstn (length A) (vals m)), (skipn (length A) (vals m)).
    rewrite E, app_length in Hl. rewrite firstn_length, skipn_length, firstn_skipn. rewrite E in Hs. apply sorted_app in Hs.
    repeat split; auto; try lia; try tauto. unfold lower_bound. rewrite E. apply partition_point_split; cbn [skipn]; auto. lia.
  Qed.

  Lemma absent_hd k A B (vs : list V) : absent_at less k (length A) (FM (A ++ B) vs) = match B with [] => true | x :: _ => less k x end.
  Proof. unfold absent_at. cbn [keys]. rewrite nth_len. destruct B; reflexivity. Qed.

  Lemma elements_app {S T} (A B : list S) (VA VB : list T) : length A = length VA -> elements (FM (A ++ B) (VA ++ VB)) = combine A VA ++ combine B VB.
  Proof.
    unfold elements. cbn [keys vals]. revert VA; induction A as [|a A IH]; intros [|v VA]; cbn; try discriminate; auto. intros [= H]. f_equal. auto.
  Qed.
  Lemma in_combine_fst {A B} (l : list A) (l' : list B) x y : In (x, y) (combine l l') -> In x l.
  Proof. apply in_combine_l. Qed.

  Lemma fm_eta m : m = FM (keys m) (vals m) :> fmap.
  Proof. destruct m; reflexivity. Qed.

  (** In a valid map at most one element has a given key. *)
  Lemma sorted_nth l : sorted l -> forall i j x y, i < j -> nth_error l i = Some x -> nth_error l j = Some y -> lt x y.
  Proof.
    induction 1 as [|a l H1 IH H2]; intros [|i] [|j] x y Hij; cbn; try discriminate; try lia.
    - intros [= <-] Hy. rewrite Forall_forall in H2. apply H2. eapply nth_error_In; eauto.
    - apply IH. lia.
  Qed.
  Lemma same_pos l i j x y : sorted l -> nth_error l i = Some x -> nth_error l j = Some y -> same x y -> i = j.
  Proof.
    intros H Hi Hj [S1 S2]. destruct (Nat.lt_trichotomy i j) as [Hl|[->|Hl]]; [|reflexivity|].
    - rewrite (sorted_nth l H i j x y Hl Hi Hj) in S1. discriminate.
    - rewrite (sorted_nth l H j i y x Hl Hj Hi) in S2. discriminate.
  Qed.
  Lemma elements_nth m i k v : nth_error (elements m) i = Some (k, v) <-> nth_error (keys m) i = Some k /\ nth_error (vals m) i = Some v.
  Proof.
    unfold elements. destruct m as [ks vs]. cbn [keys vals]. revert vs i. induction ks as [|a ks IH]; intros [|b vs] [|i]; cbn; try (split; [discriminate|intros []; discriminate]).
    - split; [intros [= -> ->]; auto|intros [[= ->] [= ->]]; reflexivity].
    - apply IH.
  Qed.
  Lemma maps_nth m k v : inv m -> maps_to m k v <-> exists i k', nth_error (keys m) i = Some k' /\ nth_error (vals m) i = Some v /\ same k k'.
  Proof.
    intros _. split.
    - intros (k' & Hin & Hs). apply In_nth_error in Hin. destruct Hin as [i Hi]. apply elements_nth in Hi. destruct Hi. eauto.
    - intros (i & k' & H1 & H2 & Hs). exists k'. split; auto. eapply nth_error_In. apply elements_nth. eauto.
  Qed.
  Theorem maps_unique m k k2 v v' : inv m -> same k k2 -> maps_to m k v -> maps_to m k2 v' -> v = v'.
  Proof.
    intros Hi Hk H1 H2. apply maps_nth in H1, H2; auto. destruct H1 as (i & x & A1 & A2 & A3), H2 as (j & y & B1 & B2 & B3).
    assert (i = j). { eapply (same_pos (keys m) i j x y (proj2 Hi) A1 B1). exact (same_trans _ _ _ (same_sym _ _ A3) (same_trans _ _ _ Hk B3)). }
    subst j. congruence.
  Qed.
  Lemma maps_same m k k' v : same k k' -> maps_to m k v -> maps_to m k' v.
  Proof. intros Hs (x & H1 & H2). exists x. split; auto. eapply same_trans; [apply same_sym; exact Hs|exact H2]. Qed.

  (** ** Lookup *)
  Theorem lower_bound_spec k m : inv m -> lower_bound less k m <= length (keys m) /\
    (forall i x, nth_error (keys m) i = Some x -> i < lower_bound less k m <-> lt x k).
  Proof.
    intros Hi. destruct (around k m Hi) as (A & B & VA & VB & E1 & E2 & L1 & L2 & FA & FB & SA & SB & ->). rewrite E1, app_length. split; [lia|].
    intros i x Hx. rewrite Forall_forall in FA, FB. destruct (le_lt_dec (length A) i) as [Hl|Hl].
    - rewrite nth_error_app2 in Hx by lia. apply nth_error_In in Hx. apply FB in Hx. split; [lia|congruence].
    - rewrite nth_error_app1 in Hx by lia. apply nth_error_In in Hx. apply FA in Hx. tauto.
  Qed.
  Theorem upper_bound_spec k m : inv m -> upper_bound less k m <= length (keys m) /\
    (forall i x, nth_error (keys m) i = Some x -> i < upper_bound less k m <-> less k x = false).
  Proof.
    intros Hi. destruct (split_upper k _ (proj2 Hi)) as (A & B & E & HA & HB).
    assert (Hu : upper_bound less k m = length A).
    { unfold upper_bound. rewrite E. apply partition_point_split; cbn [skipn]; [lia| |].
      - eapply Forall_impl; [|exact HA]. cbn. intros a ->. reflexivity.
      - eapply Forall_impl; [|exact HB]. cbn. intros a ->. reflexivity. }
    rewrite Hu, E, app_length. split; [lia|]. intros i x Hx. rewrite Forall_forall in HA, HB. destruct (le_lt_dec (length A) i) as [Hl|Hl].
    - rewrite nth_error_app2 in Hx by lia. apply nth_error_In in Hx. apply HB in Hx. split; [lia|congruence].
    - rewrite nth_error_app1 in Hx by lia. apply nth_error_In in Hx. apply HA in Hx. tauto.
  Qed.
  Theorem equal_range_spec k m : inv m -> equal_range less k m = (lower_bound less k m, upper_bound less k m).
  Proof.
    intros Hi. unfold equal_range. f_equal. destruct (lower_bound_spec k m Hi) as [H1 H2]. set (n := lower_bound less k m) in *.
    destruct (split_upper k _ (proj2 Hi)) as (A & B & E & HA & HB).
    assert (Hu : forall n, n <= length A -> partition_point n (fun x => negb (less k x)) (keys m) = length A).
    { intros n' Hn. rewrite E. apply partition_point_split; auto.
      - rewrite <- (firstn_skipn n' A) in HA. apply Forall_app in HA. eapply Forall_impl; [|apply HA]. cbn. intros a ->. reflexivity.
      - eapply Forall_impl; [|exact HB]. cbn. intros a ->. reflexivity. }
    unfold upper_bound. rewrite (Hu 0) by lia. apply Hu.
    destruct (le_lt_dec n (length A)) as [|Hl]; [assumption|]. exfalso. rewrite E, app_length in H1.
    destruct (nth_error (keys m) (length A)) as [x|] eqn:Ex; [|apply nth_error_None in Ex; rewrite E, app_length in Ex; lia].
    pose proof (proj1 (H2 _ _ Ex) Hl) as Hlt. rewrite E, nth_len in Ex. destruct B as [|b B]; [discriminate|]. injection Ex as ->.
    inversion HB; subst. rewrite (less_asym _ _ Hlt) in *. discriminate.
  Qed.

  (** The position searched for holds the key, or the key is absent. *)
  Lemma lower_found k m : inv m -> absent_at less k (lower_bound less k m) m = false ->
    exists x v, nth_error (keys m) (lower_bound less k m) = Some x /\ nth_error (vals m) (lower_bound less k m) = Some v /\ same k x /\ lower_bound less k m < length (keys m).
  Proof.
    intros Hi Ha. destruct (around k m Hi) as (A & B & VA & VB & E1 & E2 & L1 & L2 & FA & FB & SA & SB & E). rewrite E in *.
    unfold absent_at in Ha. rewrite E1, nth_len in *. destruct B as [|x B]; [discriminate|]. destruct VB as [|v VB]; [discriminate|].
    cbn [hd_error] in *. inversion FB; subst. exists x, v. rewrite E2, L1, nth_len, app_length. cbn. repeat split; auto. lia.
  Qed.
  Lemma lower_absent k m : inv m -> absent_at less k (lower_bound less k m) m = true -> forall x, In x (keys m) -> ~ same k x.
  Proof.
    intros Hi Ha x Hx [S1 S2]. destruct (around k m Hi) as (A & B & VA & VB & E1 & E2 & L1 & L2 & FA & FB & SA & SB & E). rewrite E in *.
    unfold absent_at in Ha. rewrite E1, nth_len in *. apply in_app_or in Hx. rewrite Forall_forall in FA. destruct Hx as [Hx|Hx]; [apply FA in Hx; congruence|].
    destruct B as [|b B]; [destruct Hx|]. cbn in Ha. destruct Hx as [->|Hx]; [congruence|]. inversion SB as [|? ? _ F]; subst. rewrite Forall_forall in F. apply F in Hx.
    rewrite (sw_trans _ SW _ _ _ Ha Hx) in S1. discriminate.
  Qed.
  Lemma keys_maps m x : inv m -> In x (keys m) -> exists v, maps_to m x v.
  Proof.
    intros Hi Hx. apply In_nth_error in Hx. destruct Hx as [i Hx]. destruct (nth_error (vals m) i) as [v|] eqn:E.
    - exists v. apply maps_nth; auto. exists i, x. auto using same_refl.
    - apply nth_error_None in E. destruct Hi as [H _]. assert (i < length (keys m)) by (apply nth_error_Some; congruence). lia.
  Qed.
  Lemma maps_keys m k v : maps_to m k v -> exists x, In x (keys m) /\ same k x.
  Proof. intros (x & H & Hs). exists x. split; auto. eapply in_combine_l; exact H. Qed.

  Theorem find_spec k m : inv m -> find less k m <= length (keys m) /\
    (find less k m < length (keys m) <-> exists v, maps_to m k v) /\
    (forall v, maps_to m k v <-> nth_error (vals m) (find less k m) = Some v) /\
    (forall x, nth_error (keys m) (find less k m) = Some x -> same k x).
  Proof.
    intros Hi. unfold find. destruct (absent_at less k (lower_bound less k m) m) eqn:E.
    - unfold end_. pose proof (lower_absent k m Hi E) as Hn.
      assert (Hno : forall v, ~ maps_to m k v) by (intros v Hv; destruct (maps_keys m k v Hv) as (x & H1 & H2); eapply Hn; eauto).
      split; [lia|]. split; [split; [lia|intros [v Hv]; destruct (Hno v Hv)]|]. split.
      + intros v. split; [intros Hv; destruct (Hno v Hv)|]. destruct Hi as [-> _]. rewrite (proj2 (nth_error_None _ _)) by lia. discriminate.
      + intros x Hx. rewrite (proj2 (nth_error_None _ _)) in Hx by lia. discriminate.
    - destruct (lower_found k m Hi E) as (x & v & H1 & H2 & H3 & H4). split; [lia|].
      assert (Hv : maps_to m k v) by (apply maps_nth; auto; eauto). split; [split; eauto|]. split.
      + intros v'. rewrite H2. split; [intros Hv'; f_equal; eapply (maps_unique m k k); eauto using same_refl|intros [= <-]; exact Hv].
      + intros y Hy. congruence.
  Qed.
  Theorem contains_spec k m : inv m -> contains less k m = true <-> exists v, maps_to m k v.
  Proof.
    intros Hi. destruct (find_spec k m Hi) as (H1 & H2 & _). unfold contains, end_. rewrite negb_true_iff, Nat.eqb_neq, <- H2. lia.
  Qed.
  Theorem at_spec k m : inv m -> forall v, at_ less k m = Some v <-> maps_to m k v.
  Proof.
    intros Hi v. destruct (find_spec k m Hi) as (H1 & H2 & H3 & _). unfold at_, end_. destruct (Nat.eqb_spec (find less k m) (length (keys m))) as [E|E].
    - split; [discriminate|]. intros Hv. assert (find less k m < length (keys m)) by (apply H2; eauto). lia.
    - rewrite H3. tauto.
  Qed.

  (** ** Insertion *)
  Lemma insert_valid A B VA VB k v : sorted (A ++ B) -> length A = length VA -> length B = length VB -> Forall (fun x => lt x k) A ->
    match B with [] => true | x :: _ => less k x end = true ->
    inv (FM (A ++ k :: B) (VA ++ v :: VB)) /\ insert_pair (length A) k v (FM (A ++ B) (VA ++ VB)) = FM (A ++ k :: B) (VA ++ v :: VB).
  Proof.
    intros Hs L1 L2 FA HB. apply sorted_app in Hs. destruct Hs as (SA & SB & F). split.
    - split; cbn [keys vals]; [rewrite !app_length; cbn; lia|]. apply sorted_app. split; [exact SA|]. split.
      + constructor; [exact SB|]. destruct B as [|b B]; constructor; auto. inversion SB; subst. eapply Forall_impl; [|eassumption]. cbn. intros a. apply (sw_trans _ SW). exact HB.
      + rewrite Forall_forall in *. intros x Hx. constructor; auto.
    - unfold insert_pair. cbn [keys vals]. rewrite insert_at_len, L1, insert_at_len. reflexivity.
  Qed.
  Lemma maps_insert A B VA VB k v : length A = length VA -> forall k' v', 
    maps_to (FM (A ++ k :: B) (VA ++ v :: VB)) k' v' <-> maps_to (FM (A ++ B) (VA ++ VB)) k' v' \/ same k' k /\ v' = v.
  Proof.
    intros L1 k' v'. unfold FlatMapProofs.maps_to. rewrite !elements_app by auto. cbn [combine]. setoid_rewrite in_app_iff. cbn [In]. split.
    - intros (x & [H|[[= <- <-]|H]] & Hs); eauto.
    - intros [(x & [H|H] & Hs)|[Hs ->]]; eauto 6.
  Qed.

  Theorem try_emplace_spec k v m : inv m ->
    let '(m', i, ins) := try_emplace less k v m in
    inv m' /\
    (ins = true <-> ~ exists w, maps_to m k w) /\
    (forall k' v', maps_to m' k' v' <-> maps_to m k' v' \/ ins = true /\ same k' k /\ v' = v) /\
    (exists x, nth_error (keys m') i = Some x /\ same k x) /\ i < length (vals m') /\ (ins = true -> nth_error (vals m') i = Some v) /\ (ins = false -> m' = m).
  Proof.
    intros Hi. unfold try_emplace. fold (lower_bound less k m). destruct (absent_at less k (lower_bound less k m) m) eqn:Ea.
    - pose proof (lower_absent k m Hi Ea) as Hn. destruct (around k m Hi) as (A & B & VA & VB & E1 & E2 & L1 & L2 & FA & FB & SA & SB & E). rewrite E in *.
      destruct Hi as [Hl Hs]. destruct m as [ks vs]. cbn [keys vals] in *. subst ks vs. rewrite absent_hd in Ea.
      destruct (insert_valid A B VA VB k v Hs L1 L2 FA Ea) as [Hv ->]. split; [exact Hv|]. split; [|split; [|split; [|split; [|split]]]].
      + split; [|tauto]. intros _ [w Hw]. destruct (maps_keys _ _ _ Hw) as (x & H1 & H2). eapply Hn; eauto.
      + intros k' v'. rewrite maps_insert by auto. tauto.
      + exists k. cbn [keys]. rewrite nth_len. split; [reflexivity|apply same_refl].
      + cbn [vals]. rewrite app_length. cbn. lia.
      + intros _. cbn [vals]. rewrite L1, nth_len. reflexivity.
      + discriminate.
    - destruct (lower_found k m Hi Ea) as (x & w & H1 & H2 & H3 & H4). split; [exact Hi|]. split; [|split; [|split; [|split; [|split]]]].
      + split; [discriminate|]. intros H. exfalso. apply H. exists w. apply maps_nth; auto. eauto.
      + intros k' v'. split; [auto|intros [H|[H _]]; [exact H|discriminate]].
      + eauto.
      + destruct Hi. lia.
      + discriminate.
      + auto.
  Qed.
  Theorem emplace_eq k v m : emplace less k v m = try_emplace less k v m.
  Proof. reflexivity. Qed.

  Lemma insert_range_inv l : forall m, inv m -> inv (insert_range less l m).
  Proof.
    induction l as [|[k v] l IH]; intros m Hi; [exact Hi|]. cbn [insert_range fold_left fst snd]. apply IH. rewrite emplace_eq.
    pose proof (try_emplace_spec k v m Hi) as H. destruct (try_emplace less k v m) as [[m' i] ins]. apply H.
  Qed.
  (** The first value given for a key that was absent. *)
  Fixpoint first_for (k : K) (l : list (K * V)) : option V :=
    match l with [] => None | (x, v) :: t => if equivalent less k x then Some v else first_for k t end.
  Theorem insert_range_spec l : forall m, inv m -> forall k v,
    maps_to (insert_range less l m) k v <-> maps_to m k v \/ (~ (exists w, maps_to m k w)) /\ first_for k l = Some v.
  Proof.
    induction l as [|[x w] l IH]; intros m Hi k v; [cbn; split; [auto|intros [H|[_ H]]; [exact H|discriminate]]|].
    cbn [insert_range fold_left fst snd first_for]. rewrite emplace_eq. pose proof (try_emplace_spec x w m Hi) as H.
    destruct (try_emplace less x w m) as [[m' i] ins]. cbn [fst]. destruct H as (H1 & H2 & H3 & _ & _ & _ & H5). fold (insert_range less l m'). rewrite (IH m' H1), (H3 k v).
    destruct (equivalent less k x) eqn:Eq.
    - apply equivalent_iff in Eq. destruct ins.
      + assert (Hn : ~ exists u, maps_to m k u). { intros [u Hu]. apply (proj1 H2 eq_refl). exists u. eapply maps_same; eauto. }
        split.
        * intros [[H|(_ & _ & ->)]|[Kn _]]; [auto|auto|]. exfalso. apply Kn. exists w. apply H3. auto.
        * intros [H|[_ [= <-]]]; auto.
      + rewrite (H5 eq_refl) in *. assert (He : exists u, maps_to m k u).
        { destruct (contains less x m) eqn:Ec; [apply contains_spec in Ec; auto; destruct Ec as [u Hu]; exists u; eapply maps_same; [apply same_sym; exact Eq|exact Hu]|].
          assert (false = true); [|discriminate]. apply H2. intros Hx. apply contains_spec in Hx; auto. congruence. }
        split; [intros [[H|(H & _)]|[Kn _]]; [auto|discriminate|contradiction]|intros [H|[Kn _]]; [auto|contradiction]].
    - assert (Hne : ~ same k x) by (intros Hs; apply equivalent_iff in Hs; congruence).
      assert (Hex : (exists u, maps_to m' k u) <-> exists u, maps_to m k u).
      { split; intros [u Hu]; [apply H3 in Hu; destruct Hu as [Hu|(_ & Hu & _)]; [eauto|contradiction]|exists u; apply H3; auto]. }
      rewrite Hex. split; [intros [[H|(_ & H & _)]|H]; [auto|contradiction|auto]|intros [H|H]; auto].
  Qed.

  (** ** Hinted insertion *)
  Lemma lower_at k m h : inv m -> h <= length (keys m) ->
    (forall i x, nth_error (keys m) i = Some x -> i < h -> lt x k) -> (forall x, nth_error (keys m) h = Some x -> less x k = false) -> lower_bound less k m = h.
  Proof.
    intros Hi Hh Hb Ha. destruct (lower_bound_spec k m Hi) as [H1 H2]. destruct (Nat.lt_trichotomy (lower_bound less k m) h) as [Hl|[->|Hl]]; [|reflexivity|].
    - destruct (nth_error (keys m) (lower_bound less k m)) as [x|] eqn:E; [|apply nth_error_None in E; lia].
      pose proof (Hb _ _ E Hl) as Hlt. apply (H2 _ _ E) in Hlt. lia.
    - destruct (nth_error (keys m) h) as [x|] eqn:E; [|apply nth_error_None in E; lia]. pose proof (proj1 (H2 _ _ E) Hl). rewrite (Ha x eq_refl) in *. discriminate.
  Qed.
  Lemma before_less m h p y : inv m -> h = S p -> nth_error (keys m) p = Some y -> forall k, lt y k -> forall i x, nth_error (keys m) i = Some x -> i < h -> lt x k.
  Proof.
    intros Hi -> Hy k Hk i x Hx Hlt. destruct (Nat.eq_dec i p) as [->|]; [congruence|]. eapply (sw_trans _ SW); [|exact Hk].
    eapply (sorted_nth _ (proj2 Hi) i p); eauto. lia.
  Qed.
  Theorem hint_spec h k v m : inv m -> h <= length (keys m) -> try_emplace_hint less h k v m = fst (try_emplace less k v m).
  Proof.
    intros Hi Hh. unfold try_emplace_hint.
    assert (Hfall : (let '(m1, i, _) := try_emplace less k v m in (m1, i)) = fst (try_emplace less k v m)) by (destruct (try_emplace less k v m) as [[? ?] ?]; reflexivity).
    rewrite Hfall. destruct (match nth_error (keys m) h with Some x => equivalent less k x | None => false end) eqn:E1.
    - destruct (nth_error (keys m) h) as [x|] eqn:Ex; [|discriminate]. apply equivalent_iff in E1.
      assert (Hlb : lower_bound less k m = h).
      { apply lower_at; auto.
        - intros i y Hy Hl. eapply less_le; [eapply (sorted_nth _ (proj2 Hi) i h); eauto|]. apply E1.
        - intros y Hy. rewrite Ex in Hy. injection Hy as <-. apply E1. }
      unfold try_emplace. fold (lower_bound less k m). rewrite Hlb. unfold absent_at. rewrite Ex. destruct E1 as [-> _]. reflexivity.
    - destruct h as [|p].
      + destruct (match nth_error (keys m) 0 with None => true | Some x => less k x end) eqn:E2; [|reflexivity].
        assert (Hlb : lower_bound less k m = 0).
        { apply lower_at; auto; [intros; lia|]. intros x Hx. rewrite Hx in E2. apply less_asym. exact E2. }
        unfold try_emplace. fold (lower_bound less k m). rewrite Hlb. unfold absent_at. rewrite E2. reflexivity.
      + destruct (nth_error (keys m) p) as [y|] eqn:Ey; [|reflexivity]. destruct (equivalent less k y) eqn:E3.
        * apply equivalent_iff in E3. assert (Hlb : lower_bound less k m = p).
          { apply lower_at; auto; [lia| |].
            - intros i x Hx Hl. eapply less_le; [eapply (sorted_nth _ (proj2 Hi) i p); eauto|]. apply E3.
            - intros x Hx. rewrite Ey in Hx. injection Hx as <-. apply E3. }
          unfold try_emplace. fold (lower_bound less k m). rewrite Hlb. unfold absent_at. rewrite Ey. destruct E3 as [-> _]. reflexivity.
        * destruct (less y k && match nth_error (keys m) (S p) with None => true | Some x => less k x end) eqn:E4; [|reflexivity].
          apply andb_true_iff in E4. destruct E4 as [E4 E5].
          assert (Hlb : lower_bound less k m = S p).
          { apply lower_at; auto; [intros i x Hx Hl; eapply (before_less m (S p) p y); eauto|]. intros x Hx. rewrite Hx in E5. apply less_asym. exact E5. }
          unfold try_emplace. fold (lower_bound less k m). rewrite Hlb. unfold absent_at. rewrite E5. reflexivity.
  Qed.

  (** ** Assignment *)
  Lemma assign_inv i v m : inv m -> inv (assign i v m).
  Proof. intros [H1 H2]. split; cbn; [rewrite upd_length|]; auto. Qed.
  Lemma maps_assign i x v m : inv m -> nth_error (keys m) i = Some x -> forall k' v', maps_to (assign i v m) k' v' <->
    (same k' x /\ v' = v) \/ (~ same k' x /\ maps_to m k' v').
  Proof.
    intros Hi Hx k' v'. rewrite (maps_nth (assign i v m)) by (apply assign_inv; auto). rewrite (maps_nth m) by auto. cbn [assign keys vals].
    assert (Hlen : i < length (vals m)) by (destruct Hi as [<- _]; apply nth_error_Some; congruence). split.
    - intros (j & y & H1 & H2 & Hs). rewrite upd_nth in H2. destruct (Nat.eqb_spec i j) as [<-|Hne].
      + destruct (Nat.ltb_spec i (length (vals m))); [|lia]. injection H2 as <-. left. split; congruence.
      + right. split; [|eauto]. intros Hs2. apply Hne. eapply (same_pos (keys m)); eauto; [apply Hi|]. eapply same_trans; [apply same_sym; exact Hs2|exact Hs].
    - intros [[Hs ->]|[Hn (j & y & H1 & H2 & Hs)]].
      + exists i, x. rewrite upd_nth, Nat.eqb_refl. destruct (Nat.ltb_spec i (length (vals m))); [|lia]. auto.
      + exists j, y. rewrite upd_nth. destruct (Nat.eqb_spec i j) as [<-|Hne]; [|auto]. exfalso. apply Hn. congruence.
  Qed.
  Theorem insert_or_assign_spec k v m : inv m ->
    let '(m', i, ins) := insert_or_assign less k v m in
    inv m' /\ (ins = true <-> ~ exists w, maps_to m k w) /\
    (forall k' v', maps_to m' k' v' <-> (same k' k /\ v' = v) \/ (~ same k' k /\ maps_to m k' v')) /\
    nth_error (vals m') i = Some v.
  Proof.
    intros Hi. unfold insert_or_assign. pose proof (try_emplace_spec k v m Hi) as H. destruct (try_emplace less k v m) as [[m1 i] ins].
    destruct H as (H1 & H2 & H3 & (x & H4 & H4') & H5 & H6 & H7). destruct ins.
    - split; [exact H1|]. split; [exact H2|]. split; [|auto]. intros k' v'. rewrite (H3 k' v'). split.
      + intros [H|(_ & H)]; [|auto]. right. split; [|exact H]. intros Hs. apply (proj1 H2 eq_refl). exists v'. eapply maps_same; eauto.
      + intros [[Hs ->]|[_ H]]; auto.
    - rewrite (H7 eq_refl) in *. split; [apply assign_inv; auto|]. split; [exact H2|]. split.
      + intros k' v'. rewrite (maps_assign i x v m Hi H4). split; intros [[Hs ->]|[Hn H]].
        * left. split; [|reflexivity]. eapply same_trans; [exact Hs|apply same_sym; exact H4'].
        * right. split; [|exact H]. intros Hs. apply Hn. eapply same_trans; eauto.
        * left. split; [|reflexivity]. eapply same_trans; eauto.
        * right. split; [|exact H]. intros Hs. apply Hn. eapply same_trans; [exact Hs|apply same_sym; exact H4'].
      + cbn [assign vals]. rewrite upd_nth, Nat.eqb_refl. destruct (Nat.ltb_spec i (length (vals m))); [reflexivity|lia].
  Qed.
  Theorem hint_assign_spec h k v m : inv m -> h <= length (keys m) -> insert_or_assign_hint less h k v m = fst (insert_or_assign less k v m).
  Proof.
    intros Hi Hh. unfold insert_or_assign_hint, insert_or_assign. rewrite (hint_spec h k v m Hi Hh). unfold try_emplace.
    destruct (absent_at less k (partition_point 0 (fun x => less x k) (keys m)) m) eqn:E; cbn [fst].
    - fold (lower_bound less k m). destruct (lower_bound_spec k m Hi) as [Hl _]. unfold insert_pair, insert_at. cbn [keys].
      rewrite app_length. cbn [length]. rewrite firstn_length, skipn_length. destruct (Nat.eqb_spec (Nat.min (lower_bound less k m) (length (keys m)) + S (length (keys m) - lower_bound less k m)) (length (keys m))); [lia|reflexivity].
    - rewrite Nat.eqb_refl. reflexivity.
  Qed.

  (** ** Erasure *)
  Lemma erase_parts {T} (l : list T) i j : i <= j -> j <= length l -> exists a b c, l = a ++ b ++ c /\ length a = i /\ length (a ++ b) = j /\ erase_range i j l = a ++ c.
  Proof.
    intros Hij Hj. exists (firstn i l), (firstn (j - i) (skipn i l)), (skipn j l). 
    assert (E : skipn j l = skipn (j - i) (skipn i l)). { rewrite <- skipn_add. f_equal. lia. }
    split; [rewrite E, !firstn_skipn; reflexivity|]. rewrite app_length, !firstn_length, skipn_length. split; [lia|]. split; [lia|]. reflexivity.
  Qed.
  Theorem erase_between_spec i j m : inv m -> i <= j -> j <= length (keys m) ->
    inv (erase_between i j m) /\ elements (erase_between i j m) = erase_range i j (elements m).
  Proof.
    intros [Hl Hs] Hij Hj.
    destruct (erase_parts (vals m) i j Hij ltac:(lia)) as (a' & b' & c' & E' & La' & Lb' & Ev). rewrite app_length in Lb'.
    unfold erase_between. destruct (erase_parts (keys m) i j Hij Hj) as (a2 & b2 & c2 & E2 & La2 & Lb2 & Ek). rewrite Ek, Ev. rewrite app_length in Lb2.
    rewrite E2, E', !app_length in Hl. split.
    - split; cbn [keys vals]; [rewrite !app_length; lia|]. rewrite E2 in Hs. apply sorted_app in Hs. destruct Hs as (S1 & S2 & S3). apply sorted_app in S2. destruct S2 as (S2 & S4 & S5).
      apply sorted_app. split; [auto|]. split; [auto|]. eapply Forall_impl; [|exact S3]. cbn. intros x Hx. apply Forall_app in Hx. apply Hx.
    - rewrite (elements_app a2 c2 a' c') by lia. rewrite (fm_eta m), E2, E'. rewrite elements_app by lia.
      assert (Hbc : combine (b2 ++ c2) (b' ++ c') = combine b2 b' ++ combine c2 c') by (apply (elements_app b2 c2 b' c'); lia). rewrite Hbc.
      unfold erase_range. assert (L1 : length (combine a2 a') = i) by (rewrite combine_length; lia). assert (L2 : length (combine b2 b') = j - i) by (rewrite combine_length; lia).
      rewrite <- L1 at 1. rewrite firstn_len. f_equal. rewrite app_assoc. replace j with (length (combine a2 a' ++ combine b2 b')) by (rewrite app_length; lia). rewrite skipn_len. reflexivity.
  Qed.
  Theorem erase_key_spec k m : inv m ->
    let '(m', n) := erase_key less k m in
    inv m' /\ (n = 1 <-> exists w, maps_to m k w) /\ n <= 1 /\
    (forall k' v', maps_to m' k' v' <-> ~ same k' k /\ maps_to m k' v').
  Proof.
    intros Hi. unfold erase_key. destruct (find_spec k m Hi) as (H1 & H2 & H3 & H4). unfold end_. destruct (Nat.eqb_spec (find less k m) (length (keys m))) as [E|E].
    - split; [exact Hi|]. split; [split; [discriminate|intros H; apply H2 in H; lia]|]. split; [lia|]. intros k' v'. split; [|tauto]. intros H. split; [|exact H].
      intros Hs. assert (find less k m < length (keys m)); [|lia]. apply H2. exists v'. eapply maps_same; eauto.
    - assert (Hlt : find less k m < length (keys m)) by lia. destruct (erase_between_spec (find less k m) (S (find less k m)) m Hi ltac:(lia) ltac:(lia)) as [Hv He].
      unfold erase_at. split; [exact Hv|]. split; [tauto|]. split; [lia|]. intros k' v'.
      destruct (nth_error (keys m) (find less k m)) as [x|] eqn:Ex; [|apply nth_error_None in Ex; lia]. pose proof (H4 x eq_refl) as Hsx.
      assert (Hle : find less k m < length (elements m)). { unfold elements. rewrite combine_length. destruct Hi. lia. }
      destruct (nth_error (elements m) (find less k m)) as [[x' w]|] eqn:Ee; [|apply nth_error_None in Ee; lia].
      assert (x' = x) by (apply elements_nth in Ee; destruct Ee; congruence). subst x'.
      destruct (split_at _ _ _ Ee) as [Hsp Hspl]. unfold FlatMapProofs.maps_to. rewrite He. unfold erase_range.
      assert (Hdis : forall y u, In (y, u) (firstn (find less k m) (elements m)) \/ In (y, u) (skipn (S (find less k m)) (elements m)) -> ~ same y k).
      { intros y u Hin Hs. assert (Hex : exists j, nth_error (elements m) j = Some (y, u) /\ j <> find less k m).
        { destruct Hin as [Hin|Hin]; apply In_nth_error in Hin; destruct Hin as [j Hj].
          - assert (j < find less k m) by (rewrite <- Hspl; apply nth_error_Some; congruence). exists j. split; [|lia]. rewrite Hsp, nth_error_app1 by lia. exact Hj.
          - exists (find less k m + S j). split; [|lia]. rewrite Hsp, nth_error_app2, Hspl by lia. replace (find less k m + S j - find less k m) with (S j) by lia. exact Hj. }
        destruct Hex as (j & Hj & Hne). apply Hne. apply elements_nth in Hj. eapply (same_pos (keys m)); [apply Hi|apply Hj|exact Ex|]. eapply same_trans; eauto. }
      split.
      + intros (y & Hin & Hs). apply in_app_or in Hin. split; [|exists y; split; [|exact Hs]; rewrite Hsp; apply in_or_app; cbn; tauto].
        intros Hs2. eapply Hdis; [exact Hin|]. eapply same_trans; [apply same_sym; exact Hs|exact Hs2].
      + intros [Hn (y & Hin & Hs)]. exists y. split; [|exact Hs]. rewrite Hsp in Hin. apply in_app_or in Hin. apply in_or_app. destruct Hin as [Hin|[[= -> <-]|Hin]]; auto.
        exfalso. apply Hn. eapply same_trans; [exact Hs|apply same_sym; exact Hsx].
  Qed.

  (** ** Inserting a sorted range *)
  Lemma insert_sorted_from_eq l : forall it m, inv m -> it <= length (keys m) -> sorted (map fst l) ->
    (forall i x k v, nth_error (keys m) i = Some x -> i < it -> In (k, v) l -> lt x k) ->
    insert_sorted_from less it l m = insert_range less l m.
  Proof.
    induction l as [|[k v] l IH]; intros it m Hi Hit Hs Hb; [reflexivity|]. cbn [insert_sorted_from insert_range fold_left fst snd map] in *. fold (insert_range less l).
    inversion Hs as [|? ? Hs1 Hs2]; subst.
    assert (Hpp : partition_point it (fun x => less x k) (keys m) = lower_bound less k m).
    { destruct (around k m Hi) as (A & B & VA & VB & E1 & E2 & L1 & L2 & FA & FB & SA & SB & E). rewrite E, E1.
      apply partition_point_split; auto.
      - destruct (le_lt_dec it (length A)) as [|Hl]; [assumption|]. exfalso. rewrite E1, app_length in Hit.
        destruct B as [|b B]; [cbn in Hit; lia|]. inversion FB; subst. assert (lt b k); [|congruence].
        eapply (Hb (length A)); [rewrite E1, nth_len; reflexivity|exact Hl|left; reflexivity].
      - rewrite <- (firstn_skipn it A) in FA. apply Forall_app in FA. apply FA. }
    rewrite Hpp. rewrite emplace_eq. pose proof (try_emplace_spec k v m Hi) as H. unfold try_emplace in *. fold (lower_bound less k m) in *.
    assert (Hkl : forall k' v', In (k', v') l -> lt k k') by (rewrite Forall_forall in Hs2; intros k' v' Hin; apply Hs2; apply (in_map fst) in Hin; exact Hin).
    destruct (absent_at less k (lower_bound less k m) m) eqn:Ea; cbn [fst].
    - destruct H as (H1 & _ & _ & (x & Hx & Hsx) & H5 & _). apply IH; auto.
      + assert (lower_bound less k m < length (keys (insert_pair (lower_bound less k m) k v m))) by (apply nth_error_Some; congruence). lia.
      + intros i y k' v' Hy Hlt Hin. specialize (Hkl k' v' Hin). destruct (Nat.eq_dec i (lower_bound less k m)) as [->|Hne].
        * rewrite Hx in Hy. injection Hy as <-. eapply le_less; [apply Hsx|exact Hkl].
        * eapply (sw_trans _ SW); [|exact Hkl]. eapply less_le; [eapply (sorted_nth _ (proj2 H1) i (lower_bound less k m)); eauto; lia|apply Hsx].
    - destruct H as (H1 & _ & _ & (x & Hx & Hsx) & H5 & _). apply IH; auto.
      + assert (lower_bound less k m < length (keys m)) by (apply nth_error_Some; congruence). lia.
      + intros i y k' v' Hy Hlt Hin. specialize (Hkl k' v' Hin). destruct (Nat.eq_dec i (lower_bound less k m)) as [->|Hne].
        * rewrite Hx in Hy. injection Hy as <-. eapply le_less; [apply Hsx|exact Hkl].
        * eapply (sw_trans _ SW); [|exact Hkl]. eapply less_le; [eapply (sorted_nth _ (proj2 H1) i (lower_bound less k m)); eauto; lia|apply Hsx].
  Qed.
  Theorem insert_sorted_spec l m : inv m -> sorted (map fst l) -> insert_sorted less l m = insert_range less l m.
  Proof. intros Hi Hs. apply insert_sorted_from_eq; auto; [lia|intros; lia]. Qed.

  (** ** Iteration *)
  Lemma rev_loop_spec m : length (keys m) = length (vals m) -> forall n fuel, n <= fuel -> n <= length (keys m) ->
    rev_loop fuel n 0 m = Some (rev (firstn n (elements m))).
  Proof.
    intros Hl. induction n as [|n IH]; intros fuel Hf Hn; [destruct fuel; reflexivity|]. destruct fuel as [|f]; [lia|]. cbn [rev_loop Nat.eqb].
    destruct (nth_error (elements m) n) as [[k v]|] eqn:E; [|apply nth_error_None in E; unfold elements in E; rewrite combine_length in E; lia].
    pose proof (proj1 (elements_nth m n k v) E) as [-> ->]. rewrite IH by lia. f_equal.
    rewrite (firstn_succ n _ _ E), rev_app_distr. reflexivity.
  Qed.
  Theorem reverse_spec m : inv m -> reverse_walk (rbegin m) (rend m) m = Some (rev (elements m)).
  Proof.
    intros [Hl _]. unfold reverse_walk, rbegin, rend, end_. rewrite rev_loop_spec by lia. rewrite firstn_all2; [reflexivity|]. unfold elements. rewrite combine_length. lia.
  Qed.
  Theorem crbegin_spec m : keys m <> [] -> reverse_walk (crbegin m) (crend m) m = None.
  Proof. destruct m as [[|k ks] vs]; [intros H; destruct (H eq_refl)|]. intros _. reflexivity. Qed.
End Proofs.
