(** What iterators should do, on positions. *)
Require Import Verif.Bits Verif.RefIter.
Local Open Scope list_scope.
Local Open Scope Z_scope.

Definition step (m : move) : Z := match m with MIncr => 1 | MDecr => -1 | MPlus n => n | MMinus n => - n end.
(** The moves lead from position [p] to [q] without leaving the range from 0 to [size]. *)
Inductive leads (size : Z) : Z -> list move -> Z -> Prop :=
| LDone p : 0 <= p <= size -> leads size p [] p
| LStep p m r q : 0 <= p <= size -> leads size (p + step m) r q -> leads size p (m :: r) q.
