(** Model of include/hpp_proto/flat_map.hpp.

    A flat_map holds two parallel containers; positions (iterators) are indices.
    Simplifications: containers are lists (std::vector); exceptions thrown by
    element constructors, allocators and node moves are not modelled (a moved-from
    element keeps its value); const and rvalue overloads have one model each. *)
From Coq Require Import List Arith Lia Bool.
Import ListNotations.

Section FlatMap.
  Context {K V : Type} (less : K -> K -> bool).

  (** containers, flat_map.hpp:374-377. *)
  Record fmap := FM { keys : list K; vals : list V }.
  Definition empty_map : fmap := FM [] [].

  (** ** Element access used by the algorithms *)
  Fixpoint upd {T} (i : nat) (x : T) (l : list T) : list T :=
    match l, i with
    | [], _ => []
    | _ :: t, O => x :: t
    | h :: t, S j => h :: upd j x t
    end.
  (** std::iter_swap. *)
  Definition swap {T} (i j : nat) (l : list T) : list T :=
    match nth_error l i, nth_error l j with
    | Some x, Some y => upd i y (upd j x l)
    | _, _ => l
    end.
  Definition insert_at {T} (i : nat) (x : T) (l : list T) : list T := firstn i l ++ x :: skipn i l.
  Definition erase_range {T} (i j : nat) (l : list T) : list T := firstn i l ++ skipn j l.
  Definition test (p : K -> bool) (l : list K) (i : nat) : bool :=
    match nth_error l i with Some x => p x | None => false end.

  (** std::partition_point on [first, first+len): the binary search of the
      standard library ([std::lower_bound] is the same search). *)
  Fixpoint search (fuel first len : nat) (p : K -> bool) (l : list K) : nat :=
    match fuel, len with
    | S f, S _ =>
        let half := len / 2 in
        let mid := first + half in
        if test p l mid then search f (S mid) (len - half - 1) p l
        else search f first half p l
    | _, _ => first
    end.
  Definition partition_point (first : nat) (p : K -> bool) (l : list K) : nat :=
    search (length l) first (length l - first) p l.

  (** ** Sorting both containers, flat_map.hpp:112-163 *)
  (** swap_together, flat_map.hpp:112-117. *)
  Definition swap_together (i j : nat) (m : fmap) : fmap := FM (swap i j (keys m)) (swap i j (vals m)).

  (** The inner loops of partition_together, flat_map.hpp:122-125. *)
  Fixpoint scan_up (fuel left right : nat) (p : K -> bool) (l : list K) : nat :=
    match fuel with
    | O => left
    | S f => if negb (left =? right) && test p l left then scan_up f (S left) right p l else left
    end.
  Fixpoint scan_down (fuel left right : nat) (p : K -> bool) (l : list K) : nat :=
    match fuel with
    | O => right
    | S f => if negb (left =? right) && negb (test p l (right - 1)) then scan_down f left (right - 1) p l else right
    end.
  (** partition_together, flat_map.hpp:119-133.  The number of iterations is
      bounded by [fuel]. *)
  Fixpoint partition_loop (fuel left right : nat) (p : K -> bool) (m : fmap) : nat * fmap :=
    match fuel with
    | O => (right, m)
    | S f =>
        if left <? right then
          let left1 := scan_up (length (keys m)) left right p (keys m) in
          let right1 := scan_down (length (keys m)) left1 right p (keys m) in
          if left1 + 1 <? right1 then partition_loop f (S left1) (right1 - 1) p (swap_together left1 (right1 - 1) m)
          else partition_loop f left1 right1 p m
        else (right, m)
    end.

  (** sort_together, flat_map.hpp:135-163; [fuel] bounds the recursion depth. *)
  Fixpoint sort_range (fuel left right : nat) (m : fmap) : fmap :=
    match fuel with
    | O => m
    | S f =>
        if 3 <=? right - left then
          let pivot := left + (right - left) / 2 in
          let m1 := if pivot =? right - 1 then m else swap_together pivot (right - 1) m in
          match nth_error (keys m1) (right - 1) with
          | None => m1
          | Some pk =>
              let '(c, m2) := partition_loop (S (right - left)) left (right - 1) (fun x => less x pk) m1 in
              let m3 := if c =? right - 1 then m2 else swap_together c (right - 1) m2 in
              sort_range f (c + 1) right (sort_range f left c m3)
          end
        else if right - left =? 2 then
          match nth_error (keys m) left, nth_error (keys m) (left + 1) with
          | Some a, Some b => if less a b then m else swap_together left (left + 1) m
          | _, _ => m
          end
        else m
    end.
  Definition sort_together (m : fmap) : fmap := sort_range (length (keys m)) 0 (length (keys m)) m.

  (** unique_helper, flat_map.hpp:175-197: [i] is first, [d] is dfirst. *)
  Fixpoint unique_loop (fuel i d : nat) (m : fmap) : nat * fmap :=
    match fuel with
    | O => (d, m)
    | S f =>
        match nth_error (keys m) i, nth_error (vals m) i with
        | Some k, Some v =>
            let dup := match nth_error (keys m) (S i) with Some k' => negb (less k k') | None => false end in
            if dup then unique_loop f (S i) d m
            else unique_loop f (S i) (S d) (if i =? d then m else FM (upd d k (keys m)) (upd d v (vals m)))
        | _, _ => (d, m)
        end
    end.

  (** erase(first, last), flat_map.hpp:882-898. *)
  Definition erase_between (i j : nat) (m : fmap) : fmap := FM (erase_range i j (keys m)) (erase_range i j (vals m)).

  (** sort_and_unique_impl, flat_map.hpp:1081-1087. *)
  Definition sort_and_unique (m : fmap) : fmap :=
    let m1 := sort_together m in
    let '(d, m2) := unique_loop (length (keys m1)) 0 0 m1 in
    erase_between d (length (keys m2)) m2.

  (** Construction from a range or from two containers, flat_map.hpp:384-387,462-469,485-497. *)
  Definition of_range (l : list (K * V)) : fmap := sort_and_unique (FM (map fst l) (map snd l)).
  Definition of_containers (ks : list K) (vs : list V) : fmap := sort_and_unique (FM ks vs).
  (** Construction with sorted_unique_t, flat_map.hpp:430-431,505-512. *)
  Definition of_sorted (l : list (K * V)) : fmap := FM (map fst l) (map snd l).

  (** ** Lookup, flat_map.hpp:924-1068 *)
  Definition lower_bound (k : K) (m : fmap) : nat := partition_point 0 (fun x => less x k) (keys m).
  Definition upper_bound (k : K) (m : fmap) : nat := partition_point 0 (fun x => negb (less k x)) (keys m).
  Definition equal_range (k : K) (m : fmap) : nat * nat :=
    let i := lower_bound k m in (i, partition_point i (fun x => negb (less k x)) (keys m)).
  (** [it == end() || compare_(k, it->first)], flat_map.hpp:926,627,716. *)
  Definition absent_at (k : K) (i : nat) (m : fmap) : bool :=
    match nth_error (keys m) i with None => true | Some x => less k x end.
  Definition end_ (m : fmap) : nat := length (keys m).
  Definition find (k : K) (m : fmap) : nat :=
    let i := lower_bound k m in if absent_at k i m then end_ m else i.
  Definition contains (k : K) (m : fmap) : bool := negb (find k m =? end_ m).
  (** at, flat_map.hpp:606-620; [None] is the exception. *)
  Definition at_ (k : K) (m : fmap) : option V :=
    let i := find k m in if i =? end_ m then None else nth_error (vals m) i.

  (** ** Modifiers *)
  Definition insert_pair (i : nat) (k : K) (v : V) (m : fmap) : fmap := FM (insert_at i k (keys m)) (insert_at i v (vals m)).

  (** emplace / insert, flat_map.hpp:622-637: map, position, inserted. *)
  Definition emplace (k : K) (v : V) (m : fmap) : fmap * nat * bool :=
    let i := lower_bound k m in
    if absent_at k i m then (insert_pair i k v m, i, true) else (m, i, false).
  (** insert(first, last), flat_map.hpp:663-670. *)
  Definition insert_range (l : list (K * V)) (m : fmap) : fmap :=
    fold_left (fun m p => fst (fst (emplace (fst p) (snd p) m))) l m.
  (** insert(sorted_unique, first, last), flat_map.hpp:672-685: the search starts
      at the position after the previous element. *)
  Fixpoint insert_sorted_from (it : nat) (l : list (K * V)) (m : fmap) : fmap :=
    match l with
    | [] => m
    | (k, v) :: t =>
        let i := partition_point it (fun x => less x k) (keys m) in
        if absent_at k i m then
          let '(m1, j, _) := emplace k v m in insert_sorted_from (S j) t m1
        else insert_sorted_from (S i) t m
    end.
  Definition insert_sorted (l : list (K * V)) (m : fmap) : fmap := insert_sorted_from 0 l m.

  (** try_emplace, flat_map.hpp:711-735; operator[] is try_emplace with a default
      value (flat_map.hpp:602-604). *)
  Definition try_emplace (k : K) (v : V) (m : fmap) : fmap * nat * bool :=
    let i := partition_point 0 (fun x => less x k) (keys m) in
    if absent_at k i m then (insert_pair i k v m, i, true) else (m, i, false).

  Definition equivalent (a b : K) : bool := negb (less a b) && negb (less b a).
  (** try_emplace with a hint, flat_map.hpp:737-803. *)
  Definition try_emplace_hint (h : nat) (k : K) (v : V) (m : fmap) : fmap * nat :=
    let here := nth_error (keys m) h in
    if match here with Some x => equivalent k x | None => false end then (m, h)
    else
      let fallback := let '(m1, i, _) := try_emplace k v m in (m1, i) in
      let fits := match here with None => true | Some x => less k x end in
      match h with
      | S p =>
          match nth_error (keys m) p with
          | Some y =>
              if equivalent k y then (m, p)
              else if less y k && fits then (insert_pair h k v m, h)
              else fallback
          | None => fallback
          end
      | O => if fits then (insert_pair 0 k v m, 0) else fallback
      end.

  Definition assign (i : nat) (v : V) (m : fmap) : fmap := FM (keys m) (upd i v (vals m)).
  (** insert_or_assign, flat_map.hpp:805-826. *)
  Definition insert_or_assign (k : K) (v : V) (m : fmap) : fmap * nat * bool :=
    let '(m1, i, ins) := try_emplace k v m in
    (if ins then m1 else assign i v m1, i, ins).
  (** insert_or_assign with a hint, flat_map.hpp:828-849. *)
  Definition insert_or_assign_hint (h : nat) (k : K) (v : V) (m : fmap) : fmap * nat :=
    let '(m1, i) := try_emplace_hint h k v m in
    (if length (keys m1) =? length (keys m) then assign i v m1 else m1, i).

  (** erase(position), flat_map.hpp:851-873. *)
  Definition erase_at (i : nat) (m : fmap) : fmap := erase_between i (S i) m.
  (** erase(key), flat_map.hpp:875-881. *)
  Definition erase_key (k : K) (m : fmap) : fmap * nat :=
    let i := find k m in if i =? end_ m then (m, 0) else (erase_at i m, 1).

  (** ** Iteration *)
  (** begin()..end(), flat_map.hpp:572-578. *)
  Definition elements (m : fmap) : list (K * V) := combine (keys m) (vals m).
  (** A loop over reverse iterators from base position [b] to [e]: dereferencing
      base position [S i] gives element [i]; dereferencing position 0 is
      undefined ([None]). *)
  Fixpoint rev_loop (fuel b e : nat) (m : fmap) : option (list (K * V)) :=
    if b =? e then Some []
    else
      match fuel, b with
      | S f, S i =>
          match nth_error (keys m) i, nth_error (vals m) i with
          | Some k, Some v => match rev_loop f i e m with Some l => Some ((k, v) :: l) | None => None end
          | _, _ => None
          end
      | _, _ => None
      end.
  (** rbegin()/rend() and crbegin()/crend(), flat_map.hpp:585-591. *)
  Definition rbegin (m : fmap) : nat := end_ m.
  Definition rend (m : fmap) : nat := 0.
  Definition crbegin (m : fmap) : nat := 0.
  Definition crend (m : fmap) : nat := end_ m.
  Definition reverse_walk (b e : nat) (m : fmap) : option (list (K * V)) := rev_loop (length (keys m)) b e m.
End FlatMap.
Arguments fmap : clear implicits.
