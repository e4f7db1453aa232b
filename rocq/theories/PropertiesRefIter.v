(** Iterators over repeated fields and fields of dynamic messages.

    Modelled code: include/hpp_proto/dynamic_message/repeated_field_iterator.hpp:32-107 and begin() and end() of the references. *)
Require Import Verif.Bits Verif.Archive Verif.RefIter Verif.RefIterSpec.
Require Verif.RefIter1.
Local Open Scope list_scope.
Local Open Scope Z_scope.

(** ** C113: iterators are positions, and loops visit every element once, in order. *)
(** Any sequence of steps that stays in the range ends where it should. *)
Theorem C113_moves r size p ms q : size < 2 ^ 63 -> leads size p ms q -> moves (Iter r p) ms = Ok (Iter r q).
Proof. exact (RefIter1.moves_lead r size p ms q). Qed.
Print Assumptions C113_moves.
(** Distances, and the moves by them; order and equality of iterators of one reference. *)
Theorem C113_distance r p q : 0 <= p < 2 ^ 63 -> 0 <= q < 2 ^ 63 ->
  distance (Iter r p) (Iter r q) = Ok (p - q) /\ plus (Iter r q) (p - q) = Ok (Iter r p) /\ minus (Iter r p) (p - q) = Ok (Iter r q) /\
  order (Iter r p) (Iter r q) = Ok (p ?= q) /\ equal (Iter r p) (Iter r q) = Ok (p =? q).
Proof.
  exact (fun H K => match RefIter1.distance_pos r r p q H K with conj A (conj B C) => conj A (conj B (conj C (RefIter1.order_pos r p q))) end).
Qed.
Print Assumptions C113_distance.
(** [*it] and [it[n]] are the elements at these positions, of a reference that exists. *)
Theorem C113_element {X} (R : refs) r (l : list X) p n q x : R r = Some l -> zlen l < 2 ^ 63 -> 0 <= p <= zlen l -> p + n = Z.of_nat q -> nth_error l q = Some x ->
  at_offset R (Iter r p) n = Ok x /\ deref R (Iter r (Z.of_nat q)) = Ok x.
Proof. exact (fun H L P Q E => conj (RefIter1.offset_pos R r l p n q x H L P Q E) (RefIter1.deref_pos R r l q x H E)). Qed.
Print Assumptions C113_element.
(** From begin() to end() and back. *)
Theorem C113_loop {X} (R : refs) r (l : list X) : R r = Some l -> zlen l < 2 ^ 63 ->
  (exists e, end_of R r = Ok e /\ forward (S (length l)) R (begin_of r) e = Ok l) /\ (exists e, end_of R r = Ok e /\ backward (S (length l)) R e (begin_of r) = Ok (rev l)).
Proof. exact (fun H L => conj (RefIter1.forward_all R r l H L) (RefIter1.backward_all R r l H L)). Qed.
Print Assumptions C113_loop.
(** The comment of the references says that they are valid as long as the storage is.  Their iterators are not: reference 0 and its
    copy, reference 1, are of the same field; after reference 0 is gone its iterator cannot be used, although the field is there. *)
Theorem C113_gone_refuted : exists (R1 R2 : @refs Z) l, R1 0%nat = Some l /\ R1 1%nat = Some l /\ R2 0%nat = None /\ R2 1%nat = Some l /\
  deref R1 (begin_of 0) = Ok 7 /\ deref R2 (begin_of 0) = UB /\ deref R2 (begin_of 1) = Ok 7.
Proof.
  exists (fun _ => Some [7]), (fun r => match r with O => None | _ => Some [7] end), [7]. split; [reflexivity|]. split; [reflexivity|]. split; [reflexivity|]. split; [reflexivity|]. split; [reflexivity|]. split; reflexivity.
Qed.
Print Assumptions C113_gone_refuted.
(** Iterators of two references to the same field cannot be compared. *)
Theorem C113_copies_refuted : exists (R : @refs Z) l e, R 0%nat = Some l /\ R 1%nat = Some l /\ end_of R 1 = Ok e /\ equal (begin_of 0) e = Exn.
Proof. exists (fun _ => Some [7]), [7], (Iter 1 1). split; [reflexivity|]. split; [reflexivity|]. split; reflexivity. Qed.
Print Assumptions C113_copies_refuted.

Example C113_case : leads 3 0 [MPlus 3; MDecr; MMinus 2; MIncr; MIncr] 2 /\ moves (begin_of 5) [MPlus 3; MDecr; MMinus 2; MIncr; MIncr] = Ok (Iter 5 2) /\ zlen [7; 8; 9] < 2 ^ 63 /\
  forward 4 (fun _ => Some [7; 8; 9]) (begin_of 5) (Iter 5 3) = Ok [7; 8; 9] /\ backward 4 (fun _ => Some [7; 8; 9]) (Iter 5 3) (begin_of 5) = Ok [9; 8; 7] /\ at_offset (fun _ => Some [7; 8; 9]) (Iter 5 3) (-2) = Ok 8.
Proof.
  split; [repeat (apply LStep; [cbn [step]; lia|]); cbn [step]; apply LDone; lia|]. split; [vm_compute; reflexivity|]. split; [vm_compute; reflexivity|]. split; [vm_compute; reflexivity|]. split; vm_compute; reflexivity.
Qed.
