(** C33: the lookup from field numbers to members. *)
Require Import Verif.Bits Verif.Schema Verif.Dispatch Verif.DispatchProofs.
Open Scope nat_scope.

(** ** C33: dispatch is exact. *)
(** For every list of members and every number: the first member declaring the
    number is called; with distinct numbers it is the only one. *)
Theorem C33_dispatch_found ms n : unknown_last ms -> n <> uint32_max -> forall i,
  dispatch ms n = Some (Some i) <-> declares ms i n /\ forall j, declares ms j n -> i <= j.
Proof. exact (dispatch_found ms n). Qed.
Print Assumptions C33_dispatch_found.

Theorem C33_dispatch_not_found ms n : unknown_last ms -> n <> uint32_max ->
  dispatch ms n = Some None <-> forall i, ~ declares ms i n.
Proof. exact (dispatch_not_found ms n). Qed.
Print Assumptions C33_dispatch_not_found.

(** The decoder model looks a number up by a search through the descriptor; the
    tables of the library give the same answer. *)
Theorem C33_dispatch_is_search d n : legal_numbers d -> n <> uint32_max ->
  dispatch (metas_of d) n = Some (match find_field n (m_fields d) 0 with Some (i, _) => Some i | None => None end).
Proof. exact (dispatch_find d n). Qed.
Print Assumptions C33_dispatch_is_search.

(** The example of the comment in meta.hpp, with a member for unknown fields. *)
Definition sample : list meta := [MField 1; MOneof [4; 9]; MField 20; MField uint32_max]%Z.
Example C33_case : unknown_last sample /\ declares sample 1 9 /\
  map (dispatch sample) [1; 4; 9; 20; 5; 17]%Z = [Some (Some 0); Some (Some 1); Some (Some 1); Some (Some 2); Some None; Some None].
Proof.
  split; [|split; [right; left; reflexivity|vm_compute; reflexivity]].
  intros i D. destruct i as [|[|[|[|[|i]]]]]; unfold declares in D; cbn in D; unfold uint32_max in D;
    try (exfalso; lia); split; reflexivity.
Qed.

(** The member for unknown fields must come last: in any other place the numbers
    declared after it are taken for the member before. *)
Theorem C33_unknown_member_first_refuted :
  exists ms n i, n <> uint32_max /\ declares ms i n /\ (forall j, declares ms j n -> j = i) /\ dispatch ms n <> Some (Some i).
Proof.
  exists [MField uint32_max; MField 5]%Z, 5%Z, 1. split; [unfold uint32_max; lia|]. split; [reflexivity|].
  split; [|vm_compute; congruence].
  intros [|[|[|j]]] D; unfold declares in D; cbn in D; unfold uint32_max in D; try (exfalso; lia); reflexivity.
Qed.
Print Assumptions C33_unknown_member_first_refuted.
