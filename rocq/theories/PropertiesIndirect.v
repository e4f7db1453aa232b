(** C92: the owning pointers of recursive messages behave as values. *)
From Coq Require Import List Arith ZArith Bool.
From Verif Require Import Archive Indirect IndirectSpec IndirectProof4.
Import ListNotations.
Local Open Scope nat_scope.

(** Every program with handles (messages with any number of submessages, any nesting, any number of
    variables): if it has a meaning on values then it runs without undefined behaviour, what it
    observes is what it would observe with values (so copies are independent and a moved value is the old one),
    and after each program there are exactly as many objects in memory as the values have messages: nothing is
    leaked, and nothing is freed twice, which would be undefined. *)
Theorem C92_values : forall K p t out, vrun K p (Node 0 []) = Some (t, out) ->
  exists h, run K p start = Ok (h, out) /\ live h = size t.
Proof. exact values. Qed.
Print Assumptions C92_values.

(** The comparison of the specification is equality. *)
Theorem C92_equal : forall t u, tree_eqb t u = true <-> t = u.
Proof. exact tree_eqb_true. Qed.
Print Assumptions C92_equal.

(** A list of three messages; taking its tail by copy assignment from a part of itself is defined. *)
Definition three : list op := [OPush; OEmplace [0] 1; OEmplace [0; 0] 2; OEmplace [0; 0; 0] 3].
Example C92_case : vrun 1 (three ++ [OPush; OCopy [1] [0]; OCopy [0] [0; 0]; OSet [0] 9; OValue [1; 0]; OValue [0]; OEq [0] [1; 0];
                                     OMove [1] [0; 0]; OHas [0; 0]; OValue [1]; OValue [1; 0]; OPop]) (Node 0 [])
  = Some (Node 0 [Some (Node 9 [None])], [SData 2; SData 9; SBool false; SBool false; SData 3; SThrow]).
Proof. reflexivity. Qed.

(** Taking the tail by move assignment, [l = std::move(l->next)], is a use after free: the object is
    destroyed, with the handle that is moved from in it, before that handle is read. *)
Theorem C92_move_child_refuted : exists t,
  vrun 1 three (Node 0 []) = Some (t, []) /\ handle [0] t <> None /\ handle [0; 0] t <> None /\
  run 1 (three ++ [OMove [0] [0; 0]]) start = UB.
Proof.
  eexists. split; [reflexivity|]. split; [discriminate|]. split; [discriminate|]. reflexivity.
Qed.
Print Assumptions C92_move_child_refuted.

(** [indirect]: assigning a part of the value, where messages have two submessages, is one too: the first
    member is assigned and the part freed, then its second member is read. *)
Theorem C92_assign_child_refuted : exists t,
  vrun 2 three (Node 0 []) = Some (t, []) /\ handle [0] t <> None /\ handle [0; 0] t <> None /\
  run 2 (three ++ [OAssign [0] [0; 0]]) start = UB.
Proof.
  eexists. split; [reflexivity|]. split; [discriminate|]. split; [discriminate|]. reflexivity.
Qed.
Print Assumptions C92_assign_child_refuted.
