(** Iterators over repeated fields and fields of dynamic messages.
    Model of include/hpp_proto/dynamic_message/repeated_field_iterator.hpp:32-107 and of begin() and end() in
    repeated_string_fields.hpp:120-121, repeated_message_fields.hpp:88-89,201-202, message_fields.hpp:184-198,461-474.
    An iterator has the address of the reference it comes from, not of the field, and an index of type std::size_t. *)
Require Import Verif.Bits Verif.Archive.
Local Open Scope list_scope.
Local Open Scope Z_scope.

Record iter := Iter { i_ref : nat; i_index : Z }.
(** Conversions between std::size_t and std::ptrdiff_t of 64 bits. *)
Definition wrap (z : Z) : Z := z mod 2 ^ 64.
Definition to_diff (z : Z) : Z := if z <? 2 ^ 63 then z else z - 2 ^ 64.
Definition diff_ok (z : Z) : bool := (- 2 ^ 63 <=? z) && (z <? 2 ^ 63).

(** 50-68 *)
Definition incr (i : iter) : iter := Iter (i_ref i) (wrap (i_index i + 1)).
Definition decr (i : iter) : iter := Iter (i_ref i) (wrap (i_index i - 1)).
(** 69-86, 92-94.  [UB]: overflow of std::ptrdiff_t. *)
Definition plus (i : iter) (n : Z) : res iter :=
  let s := to_diff (i_index i) + n in if diff_ok s then Ok (Iter (i_ref i) (wrap s)) else UB.
Definition minus (i : iter) (n : Z) : res iter :=
  let s := to_diff (i_index i) - n in if diff_ok s then Ok (Iter (i_ref i) (wrap s)) else UB.
(** 88-90 *)
Definition distance (i j : iter) : res Z :=
  let s := to_diff (i_index i) - to_diff (i_index j) in if diff_ok s then Ok s else UB.
(** 96-104.  [Exn]: the assert fails. *)
Definition order (i j : iter) : res comparison := if (i_ref i =? i_ref j)%nat then Ok (i_index i ?= i_index j) else Exn.
Definition equal (i j : iter) : res bool := if (i_ref i =? i_ref j)%nat then Ok (i_index i =? i_index j) else Exn.

Section Refs.
  Context {X : Type}.
  (** The references that exist: what operator[] of each gives for the indices below its size; [None]: it does not exist any more. *)
  Definition refs := nat -> option (list X).
  (** 106; the assert of operator[] and the use of a reference that is gone are [UB]. *)
  Definition deref (R : refs) (i : iter) : res X :=
    match R (i_ref i) with
    | None => UB
    | Some l => match nth_error l (Z.to_nat (i_index i)) with Some x => Ok x | None => UB end
    end.
  (** 107 *)
  Definition at_offset (R : refs) (i : iter) (n : Z) : res X := j <- plus i n ;; deref R j.
  Definition begin_of (r : nat) : iter := Iter r 0.
  Definition end_of (R : refs) (r : nat) : res iter := match R r with None => UB | Some l => Ok (Iter r (zlen l)) end.

  (** A loop from one iterator to another, and one that goes back. *)
  Fixpoint forward (fuel : nat) (R : refs) (i e : iter) : res (list X) :=
    match fuel with
    | O => NoFuel
    | S k => b <- equal i e ;; if b : bool then Ok [] else x <- deref R i ;; xs <- forward k R (incr i) e ;; Ok (x :: xs)
    end.
  Fixpoint backward (fuel : nat) (R : refs) (i b : iter) : res (list X) :=
    match fuel with
    | O => NoFuel
    | S k => q <- equal i b ;; if q : bool then Ok [] else x <- deref R (decr i) ;; xs <- backward k R (decr i) b ;; Ok (x :: xs)
    end.
End Refs.

Inductive move := MIncr | MDecr | MPlus (n : Z) | MMinus (n : Z).
Definition apply (i : iter) (m : move) : res iter :=
  match m with MIncr => Ok (incr i) | MDecr => Ok (decr i) | MPlus n => plus i n | MMinus n => minus i n end.
Fixpoint moves (i : iter) (ms : list move) : res iter := match ms with [] => Ok i | m :: r => j <- apply i m ;; moves j r end.
