(** C93: the repeated fields of dynamic messages behave as lists. *)
From Coq Require Import List Arith ZArith Bool.
From Verif Require Import Archive Indirect DynRepeated DynRepeatedSpec DynRepeatedProof.
Import ListNotations.
Local Open Scope nat_scope.

(** Every program with any number of repeated fields of one of the kinds (numbers, enums, strings and bytes,
    messages), of any lengths: if it has a meaning on lists then it runs without undefined behaviour (no element
    outside of memory is read or written and no indeterminate one is read) and what it observes is what it would
    observe with lists: no field is changed by an operation on another one, reserving changes nothing, elements survive
    reallocation, also where one is appended to its own list by reference, and setting enums by
    name with an unknown name leaves those before it. *)
Theorem C93_lists : forall V (K : kind V) n p s out, vrun (k_fresh K) (k_drop K) p (vstart n) = Some (s, out) ->
  exists st, run K p (start n) = Ok (st, out).
Proof. exact (@lists). Qed.
Print Assumptions C93_lists.

Definition prog : list (op nat) :=
  [OPush 0 5; OReserve 0 4; OPush 0 6; OPushRef 0 0 0; OClone 1 0; OWrite 1 0 9; OAll 0; OAll 1; OResize 0 1; OSize 0;
   OAt 0 1; OPushRef 0 1 0; OAll 0; OSetNames 1 [Some 1; None; Some 2]; OAll 1; OAdopt 1 [4; 3]; OPush 1 2;
   OAlias 0 1; OReset 1; OPush 1 8; OAll 0; OAll 1; OClear 0; OClone 1 0; OSize 1].
Example C93_case : vrun None true prog (vstart 2)
  = Some ([Some []; Some []],
     [SVals [5; 6; 5]; SVals [9; 6; 5]; SSize 1; SThrow; SVals [5; 9]; SName false; SVals [1]; SVals [4; 3; 2]; SVals [8]; SSize 0]).
Proof. reflexivity. Qed.
Example C93_numbers : k_fresh (@numbers nat) = None /\ k_drop (@numbers nat) = true.
Proof. split; reflexivity. Qed.

(** New elements of strings, bytes and messages are the default ones, but those of numbers and enums are
    indeterminate, although the default of a number is zero: reading one is undefined. *)
Theorem C93_resize_refuted :
  vrun (Some 0) true [OResize 0 1; OAt 0 0] (vstart 1) = Some ([Some [Some 0]], [SVal 0]) /\
  run (@numbers nat) [OResize 0 1; OAt 0 0] (start 1) = UB /\ run (@enums nat) [OResize 0 1; OAt 0 0] (start 1) = UB /\
  (exists st, run (texts 0) [OResize 0 1; OAt 0 0] (start 1) = Ok (st, [SVal 0])) /\
  (exists st, run (messages 0) [OResize 0 1; OAt 0 0] (start 1) = Ok (st, [SVal 0])).
Proof. split; [reflexivity|]. split; [reflexivity|]. split; [reflexivity|]. split; eexists; reflexivity. Qed.
Print Assumptions C93_resize_refuted.

(** Where a field has spare capacity, [alias_from] of numbers and messages shares it: both fields append at the
    same place, and the second append changes the element that was appended to the first field.  With
    enums, strings and bytes it does not. *)
Theorem C93_alias_refuted : forall K : kind nat, K = numbers \/ K = messages 0 ->
  (exists st, run K [OReserve 0 2; OPush 0 1; OAlias 1 0; OPush 0 2; OPush 1 3; OAll 0] (start 2) = Ok (st, [SVals [1; 3]])) /\
  forall K' : kind nat, K' = enums \/ K' = texts 0 ->
  (exists st, run K' [OReserve 0 2; OPush 0 1; OAlias 1 0; OPush 0 2; OPush 1 3; OAll 0] (start 2) = Ok (st, [SVals [1; 2]])).
Proof.
  intros K H. split; [destruct H as [-> | ->]; eexists; reflexivity|].
  intros K' [-> | ->]; eexists; reflexivity.
Qed.
Print Assumptions C93_alias_refuted.

(** [reset] of a repeated message field keeps the memory, so that after [alias_from] the other field is
    changed by what is appended; of the other fields it does not. *)
Theorem C93_reset_refuted :
  (exists s, vrun (Some 0) true [OPush 0 1; OAlias 1 0; OReset 0; OPush 0 2; OAll 1] (vstart 2) = Some (s, [SVals [1]])) /\
  (exists st, run (messages 0) [OPush 0 1; OAlias 1 0; OReset 0; OPush 0 2; OAll 1] (start 2) = Ok (st, [SVals [2]])) /\
  (exists st, run (@numbers nat) [OPush 0 1; OAlias 1 0; OReset 0; OPush 0 2; OAll 1] (start 2) = Ok (st, [SVals [1]])).
Proof. split; [|split]; eexists; reflexivity. Qed.
Print Assumptions C93_reset_refuted.

(** Appending [n] elements one by one to an empty field takes n(n+1)/2 elements from the memory resource, which
    are not given back before the message goes: [push_back] reallocates every time, to one element more. *)
Theorem C93_push_memory : forall V (K : kind V) vs, (Z.of_nat (length vs) <= 2147483647)%Z ->
  exists st, run K (map (OPush 0) vs) (start 1) = Ok (st, []) /\ 2 * used (fst st) = length vs * (length vs + 1).
Proof. intros V K vs H. apply push_memory. now apply Z.leb_le. Qed.
Print Assumptions C93_push_memory.

(** After [reserve] it takes [n]. *)
Theorem C93_push_memory_reserved : forall V (K : kind V) vs, (Z.of_nat (length vs) <= 2147483647)%Z ->
  exists st, run K (OReserve 0 (length vs) :: map (OPush 0) vs) (start 1) = Ok (st, []) /\ used (fst st) = length vs.
Proof. intros V K vs H. apply push_memory_reserved. now apply Z.leb_le. Qed.
Print Assumptions C93_push_memory_reserved.
