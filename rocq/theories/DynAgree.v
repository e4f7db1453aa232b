(** When a dynamic message and a message of generated code hold the same. *)
Require Import Verif.Bits Verif.Varint Verif.DynSlots Verif.Dyn Verif.Schema Verif.Archive Verif.Decode Verif.Encode Verif.DynWire.
Require Import Verif.DecodeSafe Verif.WellTyped Verif.DynView Verif.DynDecode.

Section Agree.
  Context (W : list wtype).

  (** The value of a singular field that is present. *)
  Inductive held (rec : nat -> list slot -> val -> Prop) (f : wfield) (l : layout) (s : slot) : val -> Prop :=
  | HeldScalar v : scalar (w_elem f) = true -> single f l s = Ok v -> held rec f l s v
  | HeldMsg ty d m v : w_elem f = EMsg ty d -> value (dyn_of f) l s = FMsg m -> rec ty m v -> held rec f l s v.

  (** A field of its own.  An absent field without presence stands for its default
      value, of either sign if it is a floating point zero.  The elements of a map are
      completed when they are read ([complete]); values of a closed enum are known. *)
  Inductive same_one (rec : nat -> list slot -> val -> Prop) (f : wfield) (l : layout) (s : slot) : list val -> Prop :=
  | SoAbsent : w_rep f = None -> has_value (dyn_of f) l s = false -> w_explicit f = true -> same_one rec f l s []
  | SoDefault v : w_rep f = None -> has_value (dyn_of f) l s = false -> w_explicit f = false -> is_default (w_elem f) (w_default f) v = true -> same_one rec f l s [v]
  | SoHeld v : w_rep f = None -> has_value (dyn_of f) l s = true -> held rec f l s v -> same_one rec f l s [v]
  | SoScalars p vs : w_rep f = Some p -> scalar (w_elem f) = true -> several f l s = Ok vs -> fst s = zlen vs -> Forall (fun v => valid (w_elem f) v = true) vs -> same_one rec f l s vs
  | SoMsgs p ty d ms vs : w_rep f = Some p -> w_elem f = EMsg ty d -> value (dyn_of f) l s = FMsgs ms -> fst s = zlen ms ->
      Forall2 (fun m v => exists m0, rec ty m0 v /\ complete W ty m0 = Ok m) ms vs -> same_one rec f l s vs.

  (** A member of the generated struct: a field of its own, or a oneof. *)
  Inductive same_member (rec : nat -> list slot -> val -> Prop) (m : list slot) : member -> list val -> Prop :=
  | SmOne f l vs : same_one rec f l (slot_at m l) vs -> same_member rec m (MOne f l) vs
  | SmNone o g : (forall f l, In (f, l) g -> has_value (dyn_of f) l (slot_at m l) = false) -> same_member rec m (MGroup o g) []
  | SmAlt o g i f l v : nth_error g i = Some (f, l) -> has_value (dyn_of f) l (slot_at m l) = true -> held rec f l (slot_at m l) v ->
      same_member rec m (MGroup o g) [VAlt i v].

  Inductive agree : nat -> list slot -> val -> Prop :=
  | Agree ty m vs : length m = w_slots (wty W ty) -> Forall2 (same_member agree m) (members_of (w_fields (wty W ty))) vs -> agree ty m (VMsg vs []).

  (** Schemas for which both decoders do the same.  Closed enums are not alternatives of
      oneofs, for which generated code throws (C30_closed_enum_oneof_refuted), nor fields without presence.
      Map entries have two fields, the second being singular, and are used in repeated
      fields that are not groups. *)
  Definition readable_field (f : wfield) : Prop :=
    (elem_closed (w_elem f) = true -> w_oneof f = None /\ (w_rep f = None -> w_explicit f = true)) /\
    (forall ty d, w_elem f = EMsg ty d -> w_entry (wty W ty) = true -> w_rep f <> None /\ d = false).
  Definition readable_type (t : wtype) : Prop :=
    Forall (fun fl => readable_field (fst fl)) (w_fields t) /\
    (w_entry t = true -> exists f l, nth_error (w_fields t) 1 = Some (f, l) /\ w_rep f = None).
  Definition readable : Prop := Forall readable_type W.

  (** The default values of scalar fields are values of the field. *)
  Definition defaults_fit : Prop := Forall (fun t => Forall (fun fl => scalar (w_elem (fst fl)) = true -> fits (w_elem (fst fl)) (w_default (fst fl))) (w_fields t)) W.
  (** No type is a map entry. *)
  Definition no_maps : Prop := Forall (fun t => w_entry t = false) W.
End Agree.
