(** Cycles in the dependency graph. *)
From Coq Require Export Relations.
Require Import Verif.Bits.

(** File [i] imports file [j]. *)
Definition imports (deps : list (list nat)) (i j : nat) : Prop := exists ds, nth_error deps i = Some ds /\ In j ds.
(** Some file imports itself, possibly through other files. *)
Definition cyclic (deps : list (list nat)) : Prop := exists i, clos_trans nat (imports deps) i i.
(** Every imported file is one of the files. *)
Definition closed_graph (deps : list (list nat)) : Prop := forall i j, imports deps i j -> (j < length deps)%nat.
