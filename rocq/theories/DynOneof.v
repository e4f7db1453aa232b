(** Oneofs of dynamic messages as a whole: has_oneof and clear_field with a oneof descriptor.
    Model of include/hpp_proto/dynamic_message/message_fields.hpp:174-183 and 446-459 on the storage of Dyn.v.

    A oneof descriptor is [Some o] if it is the one with index [o] of the message, and [None] if it is that of another message:
    the code compares addresses. *)
Require Import Verif.Bits Verif.DynSlots Verif.Dyn.
Local Open Scope list_scope.
Local Open Scope Z_scope.

(** oneof_descriptor_t::fields(): the fields with the index of the oneof, in order (descriptor_pool.hpp:1230-1238), as positions. *)
Fixpoint members_from (i : nat) (fs : list (dynf * layout)) (o : nat) : list nat :=
  match fs with
  | [] => []
  | (f, _) :: r => if match y_oneof f with Some x => (x =? o)%nat | None => false end then i :: members_from (S i) r o else members_from (S i) r o
  end.
(** storage_slot(), factory_addons.hpp:257-263, after the checks of 175-180 and 447-452; [None]: one of them fails.  [count]: the
    number of oneofs of the message. *)
Definition oneof_slot (count : nat) (t : dtype) (d : option nat) : option nat :=
  match d with
  | None => None
  | Some o =>
      if (o <? count)%nat then
        match members_from 0 (t_fields t) o with
        | [] => None
        | i :: _ => option_map (fun x => l_slot (snd x)) (field t i)
        end
      else None
  end.
(** has_oneof, 174-183; value_storage::selection_word is the first component of a slot. *)
Definition has_oneof (count : nat) (t : dtype) (d : option nat) (m : list slot) : bool :=
  match oneof_slot count t d with None => false | Some s => negb (fst (nth s m zero_slot) =? 0) end.
(** clear_field, 446-455; value_storage::reset as in [clear_slot]. *)
Definition clear_oneof (count : nat) (t : dtype) (d : option nat) (m : list slot) : list slot :=
  match oneof_slot count t d with None => m | Some s => put m s (clear_slot (nth s m zero_slot)) end.
(** field_cref::active_oneof_index of the field at position [i], field_refs.hpp:81-93; [None]: there is no such field. *)
Definition active_index (t : dtype) (i : nat) (m : list slot) : option Z :=
  option_map (fun x => active_oneof_index (snd x) (fst (slot_at m (snd x)))) (field t i).
