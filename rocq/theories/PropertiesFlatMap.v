(** C36-C39: flat_map.

    [less] is any strict weak ordering of the keys.  A map is the pair of
    containers [FM keys vals]; [elements] pairs them up in order.  The
    specification is an association list (FlatMapMain.v: [add], [put], [remove],
    [lookup], [present]) compared up to the order of its entries. *)
From Coq Require Import List Arith Bool Sorted Permutation.
Import ListNotations.
Require Import Verif.FlatMap Verif.FlatMapProofs Verif.FlatMapSort Verif.FlatMapMain.

(** Keys of the examples: numbers compared by their tens, so that distinct keys can be equivalent. *)
Definition tens_less (a b : nat) : bool := a / 10 <? b / 10.
Lemma tens_strict_weak : strict_weak tens_less.
Proof.
  unfold tens_less. constructor; intros *; rewrite ?Nat.ltb_lt; rewrite ?Nat.ltb_irrefl; auto.
  - apply Nat.lt_trans.
  - intros H. destruct (Nat.lt_ge_cases (x / 10) (y / 10)); [auto|]. right. eapply Nat.le_lt_trans; eauto.
Qed.

(** ** C36: any sequence of operations, started on an empty map, returns what the
    association list returns and leaves the same entries, sorted by key. *)
Theorem C36_operations {K V} (less : K -> K -> bool) : strict_weak less -> forall os : list (op (K := K) (V := V)), Forall (legal less) os ->
  let '(m, outs) := run (map_op less) os empty_map in
  let '(s, souts) := run (spec_op less) os [] in
  outs = souts /\ Permutation (elements m) s /\ length (keys m) = length (vals m) /\
  StronglySorted (fun a b => less a b = true) (keys m).
Proof.
  exact (fun SW os Hl => match run_agrees less SW os empty_map [] Hl (empty_agrees less) with
    conj H1 H2 => match run (map_op less) os empty_map as r, run (spec_op less) os [] as r' return
        agrees less (fst r) (fst r') -> snd r = snd r' -> let '(m, outs) := r in let '(s, souts) := r' in
          outs = souts /\ Permutation (elements m) s /\ length (keys m) = length (vals m) /\ StronglySorted (fun a b => less a b = true) (keys m)
      with (m, outs), (s, souts) => fun Ha He => conj He (conj (proj2 Ha) (proj1 Ha)) end H1 H2 end).
Qed.
Print Assumptions C36_operations.

(** Started on any valid map and its elements. *)
Theorem C36_operations_from {K V} (less : K -> K -> bool) : strict_weak less -> forall (os : list (op (K := K) (V := V))) m s, Forall (legal less) os ->
  inv less m -> Permutation (elements m) s ->
  inv less (fst (run (map_op less) os m)) /\
  Permutation (elements (fst (run (map_op less) os m))) (fst (run (spec_op less) os s)) /\
  snd (run (map_op less) os m) = snd (run (spec_op less) os s).
Proof. exact (fun SW os m s Hl Hi Hp => match run_agrees less SW os m s Hl (conj Hi Hp) with conj (conj A B) C => conj A (conj B C) end). Qed.
Print Assumptions C36_operations_from.

(** Erasing a range of positions removes exactly those elements. *)
Theorem C36_erase_positions {K V} (less : K -> K -> bool) i j (m : fmap K V) : inv less m -> i <= j -> j <= length (keys m) ->
  inv less (erase_between i j m) /\ elements (erase_between i j m) = firstn i (elements m) ++ skipn j (elements m).
Proof. exact (erase_between_spec less i j m). Qed.
Print Assumptions C36_erase_positions.

(** lower_bound and upper_bound. *)
Theorem C36_lower_bound {K V} (less : K -> K -> bool) : strict_weak less -> forall k (m : fmap K V), inv less m ->
  lower_bound less k m <= length (keys m) /\
  (forall i x, nth_error (keys m) i = Some x -> i < lower_bound less k m <-> less x k = true).
Proof. exact (lower_bound_spec less). Qed.
Print Assumptions C36_lower_bound.
Theorem C36_upper_bound {K V} (less : K -> K -> bool) : strict_weak less -> forall k (m : fmap K V), inv less m ->
  upper_bound less k m <= length (keys m) /\
  (forall i x, nth_error (keys m) i = Some x -> i < upper_bound less k m <-> less k x = false).
Proof. exact (upper_bound_spec less). Qed.
Print Assumptions C36_upper_bound.
Theorem C36_equal_range {K V} (less : K -> K -> bool) : strict_weak less -> forall k (m : fmap K V), inv less m ->
  equal_range less k m = (lower_bound less k m, upper_bound less k m).
Proof. exact (equal_range_spec less). Qed.
Print Assumptions C36_equal_range.

Definition ops36 : list (op (K := nat) (V := nat)) :=
  [Insert 50 1; Insert 20 2; InsertHint 7 35 3; Insert 55 4; Assign 25 5; AssignHint 0 90 6; InsertRange [(10, 7); (11, 8)];
   InsertSorted [(5, 9); (60, 10)]; Erase 58; At 29; Contains 50; Size].
Example C36_case : strict_weak tens_less /\ Forall (legal tens_less) ops36 /\
  run (map_op tens_less) ops36 empty_map =
    (FM [5; 10; 20; 35; 60; 90] [9; 7; 5; 3; 10; 6],
     [OBool true; OBool true; OVal (Some 3); OBool false; OBool false; OVal (Some 6); ONone; ONone; ONat 1; OVal (Some 5); OBool false; ONat 6]).
Proof. split; [exact tens_strict_weak|]. split; [repeat constructor|reflexivity]. Qed.

(** ** C37: construction from any range. *)
Theorem C37_of_range {K V} (less : K -> K -> bool) : strict_weak less -> forall l : list (K * V),
  inv less (of_range less l) /\
  (forall k v, In (k, v) (elements (of_range less l)) -> In (k, v) l) /\
  (forall k v, In (k, v) l -> exists w, maps_to less (of_range less l) k w).
Proof. exact (of_range_spec less). Qed.
Print Assumptions C37_of_range.

Theorem C37_of_containers {K V} (less : K -> K -> bool) : strict_weak less -> forall (ks : list K) (vs : list V), length ks = length vs ->
  inv less (of_containers less ks vs) /\
  (forall k v, In (k, v) (elements (of_containers less ks vs)) -> In (k, v) (combine ks vs)) /\
  (forall k v, In (k, v) (combine ks vs) -> exists w, maps_to less (of_containers less ks vs) k w).
Proof. exact (fun SW ks vs H => sort_unique_spec less SW (FM ks vs) H). Qed.
Print Assumptions C37_of_containers.

(** Without duplicate keys nothing is lost. *)
Theorem C37_distinct {K V} (less : K -> K -> bool) : strict_weak less -> forall (ks : list K) (vs : list V), length ks = length vs ->
  (forall i j x y, i < j -> nth_error ks i = Some x -> nth_error ks j = Some y -> ~ same_key less x y) ->
  Permutation (combine ks vs) (elements (of_containers less ks vs)).
Proof. exact (fun SW ks vs H => sort_unique_distinct less SW (FM ks vs) H). Qed.
Print Assumptions C37_distinct.

(** Inserting a range keeps existing entries and adds the first entry given for each absent key. *)
Theorem C37_insert_range {K V} (less : K -> K -> bool) : strict_weak less -> forall (l : list (K * V)) m, inv less m ->
  inv less (insert_range less l m) /\ forall k v,
  maps_to less (insert_range less l m) k v <-> maps_to less m k v \/ (~ (exists w, maps_to less m k w)) /\ first_for less k l = Some v.
Proof. exact (fun SW l m Hi => conj (insert_range_inv less SW l m Hi) (insert_range_spec less SW l m Hi)). Qed.
Print Assumptions C37_insert_range.

Example C37_case : elements (of_range tens_less [(42, 1); (17, 2); (93, 3); (48, 4); (5, 5); (12, 6); (41, 7)]) = [(5, 5); (12, 6); (41, 7); (93, 3)].
Proof. reflexivity. Qed.
(** Which of several entries for one key survives is not a matter of input order. *)
Theorem C37_survivor_refuted : exists l1 l2 : list (nat * nat),
  elements (of_range tens_less l1) <> [last l1 (0, 0)] /\ length (elements (of_range tens_less l1)) = 1 /\
  elements (of_range tens_less l2) <> firstn 1 l2 /\ length (elements (of_range tens_less l2)) = 1.
Proof. exists [(1, 1); (1, 2)], [(1, 1); (1, 2); (1, 3)]. vm_compute. repeat split; discriminate. Qed.
Print Assumptions C37_survivor_refuted.

(** ** C38: a hint never changes the outcome. *)
Theorem C38_try_emplace_hint {K V} (less : K -> K -> bool) : strict_weak less -> forall h k v (m : fmap K V), inv less m -> h <= length (keys m) ->
  try_emplace_hint less h k v m = fst (try_emplace less k v m).
Proof. exact (hint_spec less). Qed.
Print Assumptions C38_try_emplace_hint.
Theorem C38_insert_or_assign_hint {K V} (less : K -> K -> bool) : strict_weak less -> forall h k v (m : fmap K V), inv less m -> h <= length (keys m) ->
  insert_or_assign_hint less h k v m = fst (insert_or_assign less k v m).
Proof. exact (hint_assign_spec less). Qed.
Print Assumptions C38_insert_or_assign_hint.
Definition m38 : fmap nat nat := FM [10; 20; 40] [1; 2; 4].
Example C38_case : inv tens_less m38 /\ map (fun h => fst (try_emplace_hint tens_less h 30 3 m38)) [0; 1; 2; 3] = repeat (FM [10; 20; 30; 40] [1; 2; 3; 4]) 4.
Proof. split; [split; [reflexivity|repeat constructor]|reflexivity]. Qed.

(** ** C39: reverse iteration. *)
Theorem C39_reverse {K V} (less : K -> K -> bool) (m : fmap K V) : inv less m ->
  reverse_walk (rbegin m) (rend m) m = Some (rev (elements m)).
Proof. exact (reverse_spec less m). Qed.
Print Assumptions C39_reverse.
(** crbegin() is built from begin() and crend() from end(): walking from one to the
    other steps before the first element, on every non-empty map. *)
Theorem C39_constant_reverse_undefined {K V} (m : fmap K V) : keys m <> [] -> reverse_walk (crbegin m) (crend m) m = None.
Proof. exact (crbegin_spec m). Qed.
Print Assumptions C39_constant_reverse_undefined.
Theorem C39_constant_reverse_refuted : exists m : fmap nat nat, inv tens_less m /\ reverse_walk (crbegin m) (crend m) m <> Some (rev (elements m)).
Proof. exists m38. split; [exact (proj1 C38_case)|discriminate]. Qed.
Print Assumptions C39_constant_reverse_refuted.
Example C39_case : inv tens_less m38 /\ reverse_walk (rbegin m38) (rend m38) m38 = Some [(40, 4); (20, 2); (10, 1)].
Proof. split; [exact (proj1 C38_case)|reflexivity]. Qed.
