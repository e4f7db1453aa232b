(** What changing fields with function objects should do. *)
Require Import Verif.Bits Verif.DynSlots Verif.Dyn Verif.DynAccess Verif.DynModify.
Local Open Scope list_scope.

(** Fields [i] and [j] are in the same oneof. *)
Definition in_same_oneof (fs : list tfield) (i j : nat) : Prop :=
  exists f g o, nth_error fs i = Some f /\ nth_error fs j = Some g /\ tf_oneof f = Some o /\ tf_oneof g = Some o.
(** The calls all succeed, one after the other. *)
Inductive succeed {S} (E : nat -> dtype) (fuel : nat) (t : dtype) (fs : list tfield) : list (call S) -> list slot -> list slot -> Prop :=
| Begin m : succeed E fuel t fs [] m m
| Next c r m m1 m2 : call_on E fuel S t fs c m = Some (m1, None) -> succeed E fuel t fs r m1 m2 -> succeed E fuel t fs (c :: r) m m2.
(** A function object that calls set with the value [v]; it can be called with all fields. *)
Definition setter (E : nat -> dtype) (fuel : nat) (v : arg) : mutator unit :=
  Mutator (fun _ _ => true) (fun st f l s => match set_value E fuel f l v s with Some (s', e) => (s', e, st) | None => (s, None, st) end).
