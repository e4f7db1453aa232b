(** Storage slots of dynamic messages. *)
Require Import Verif.Bits.

(** ** Slot layout, src/dynamic_message/factory.cpp:46-142,354-391 *)
(** What the layout depends on: the oneof a field belongs to, by its index in the
    message, and whether it is repeated. *)
Record dfield := DField { d_oneof : option nat; d_repeated : bool }.

(** field_slot_layout (64-100). *)
Record layout := Layout { l_slot : nat; l_ordinal : Z; l_mask : Z; l_bias : Z }.

(** storage_slot_state (46-56).  [ss_started]: the oneofs marked in oneof_started.
    [ss_prev] is the number of oneofs when the previous field is in no oneof. *)
Record slot_state := SlotState { ss_cur : nat; ss_started : list nat; ss_prev : nat; ss_next : Z }.

Section Layout.
  (** The number of oneofs of the message. *)
  Variable count : nat.

  (** setup_oneof_field (102-130); [None] is schema_validation_error.  The
      asserted bounds of the slot and the bias (2^32 and 2^31 fields) are not modelled. *)
  Definition setup_oneof_field (index : nat) (st : slot_state) (field_index : nat) : option (layout * slot_state) :=
    let continue slot st :=
      if ss_next st =? 65535 then None
      else
        let ordinal := ss_next st + 1 in
        Some (Layout slot ordinal (2 ^ 32 - 1) (Z.of_nat field_index - ordinal),
              SlotState (ss_cur st) (ss_started st) index ordinal) in
    if negb (ss_prev st =? index)%nat then
      if existsb (Nat.eqb index) (ss_started st) then None
      else continue (ss_cur st) (SlotState (S (ss_cur st)) (index :: ss_started st) (ss_prev st) 1)
    else continue (ss_cur st - 1)%nat st.

  (** setup_non_oneof_field (132-142). *)
  Definition setup_non_oneof_field (repeated : bool) (st : slot_state) (field_index : nat) : layout * slot_state :=
    (Layout (ss_cur st) (if repeated then 0 else 1) 0 (Z.of_nat field_index),
     SlotState (S (ss_cur st)) (ss_started st) count (ss_next st)).

  (** The loop of finalize_resolved_field_infos (356-389) over the fields of one message. *)
  Fixpoint lay_out (fs : list dfield) (field_index : nat) (st : slot_state) : option (list layout * slot_state) :=
    match fs with
    | [] => Some ([], st)
    | f :: t =>
        match (match d_oneof f with
               | Some o => setup_oneof_field o st field_index
               | None => Some (setup_non_oneof_field (d_repeated f) st field_index)
               end) with
        | None => None
        | Some (l, st1) =>
            match lay_out t (S field_index) st1 with
            | None => None
            | Some (ls, st2) => Some (l :: ls, st2)
            end
        end
    end.

  (** The layouts of the fields, and num_slots. *)
  Definition slot_layout (fs : list dfield) : option (list layout * nat) :=
    match lay_out fs 0 (SlotState 0 [] count 1) with
    | None => None
    | Some (ls, st) => Some (ls, ss_cur st)
    end.
End Layout.

(** ** Presence *)
(** resolved_field_info::has_value, types.hpp:207-209, on the selection word of a slot. *)
Definition has_word (repeated : bool) (l : layout) (word : Z) : bool :=
  if repeated then 0 <? word else word =? l_ordinal l.

(** field_cref::active_oneof_index, field_refs.hpp:81-93. *)
Definition active_oneof_index (l : layout) (word : Z) : Z :=
  if word =? 0 then -1
  else
    let index := Z.land word (l_mask l) + l_bias l in
    if (index <? - 2 ^ 31) || (2 ^ 31 - 1 <? index) then -1 else index.
