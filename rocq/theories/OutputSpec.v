(** Filling chunks in order. *)
Require Import Verif.Bits Verif.Output.
Local Open Scope nat_scope.

(** The space in the first [n] chunks. *)
Definition space (k : sink) (n : nat) : nat := list_sum (map k (seq 0 n)).
(** A sink that has run out of space stays so. *)
Definition stays_empty (k : sink) : Prop := forall i, k i = 0 -> k (S i) = 0.
(** [chunks] holds [data] in order: every chunk within its size, and all chunks but
    the last full. *)
Record filled (k : sink) (data : bytes) (chunks : list bytes) : Prop := {
  fi_data : concat chunks = data;
  fi_bound : forall i c, nth_error chunks i = Some c -> length c <= k i;
  fi_full : forall i c, nth_error chunks i = Some c -> S i < length chunks -> length c = k i }.
