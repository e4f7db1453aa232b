(** Changing fields of dynamic messages with function objects: model of modify_field_by_name and modify_field_by_number,
    include/hpp_proto/dynamic_message/message_fields.hpp:420-438, field_mref::modify, field_refs.hpp:202-212, with visit,
    field_visit.hpp:44-121, and of chains of these calls and of set_field_by_*, expected_message_mref.hpp:86-126. *)
Require Import Verif.Bits Verif.DynSlots Verif.Dyn Verif.DynAccess.
Local Open Scope list_scope.
Local Open Scope Z_scope.

(** A function object with state [S]: the types of fields whose references it can be called with, and what a call does to the
    slot of the field, what it returns and the state it leaves.  A reference to a field reaches the slot of this field only. *)
Record mutator (S : Type) := Mutator {
  takes : ptype -> bool -> bool;
  run : S -> tfield -> layout -> slot -> slot * option derr * S }.
Arguments Mutator {S}. Arguments takes {S}. Arguments run {S}.

Section Modify.
  Context (E : nat -> dtype) (fuel : nat) (S : Type).
  (** field_mref::modify, field_refs.hpp:202-212.  The closure has a copy of the function object ([copy]); the one it is copied
      from is returned as it was. *)
  Definition modify_field (mu : mutator S) (state : S) (f : tfield) (l : layout) (s : slot) : slot * option derr * S :=
    let copy := state in
    if takes mu (tf_type f) (tf_repeated f) then let '(s', e, _) := run mu copy f l s in (s', e, state) else (s, Some InvalidType, state).
  (** modify_field_by_name and modify_field_by_number, message_fields.hpp:420-438; again with a copy when the object is not a
      temporary.  [None] as in [set_by]. *)
  Definition modify_by (t : dtype) (fs : list tfield) (k : key) (mu : mutator S) (state : S) (m : list slot) : option (list slot * option derr * S) :=
    match found_at k fs with
    | None => Some (m, Some NoSuchField, state)
    | Some i =>
        match nth_error fs i, field t i with
        | Some f, Some (_, l) => let copy := state in let '(s, e, _) := modify_field mu copy f l (slot_at m l) in Some (put m (l_slot l) s, e, state)
        | _, _ => None
        end
    end.
  (** expected_message_mref, 86-126: a chain of set_field_by_* and modify_field_by_*, then done().  The function objects of a
      chain each have their state. *)
  Inductive call := Sets (k : key) (v : arg) | Modifies (k : key) (mu : mutator S) (state : S).
  Definition call_on (t : dtype) (fs : list tfield) (c : call) (m : list slot) : option (list slot * option derr) :=
    match c with
    | Sets k v => set_by E fuel t fs k v m
    | Modifies k mu state => option_map fst (modify_by t fs k mu state m)
    end.
  Fixpoint calls_on (t : dtype) (fs : list tfield) (cs : list call) (m : list slot) : option (list slot * option derr) :=
    match cs with
    | [] => Some (m, None)
    | c :: r => match call_on t fs c m with Some (m', None) => calls_on t fs r m' | x => x end
    end.
End Modify.
Arguments Sets {S}. Arguments Modifies {S}.
