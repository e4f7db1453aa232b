(** A dynamic message as a value of Schema.v: the schema its descriptors describe, and
    the message value that has the fields a user reads from it. *)
Require Import Verif.Bits Verif.Varint Verif.DynSlots Verif.Dyn Verif.Schema Verif.Archive Verif.Decode Verif.Encode Verif.DynWire.
Require Import Verif.DynSlotsProofs Verif.DecodeSafe Verif.EncodeProofs.

(** ** The schema *)
(** Members of a generated struct: a field, or the fields of a oneof, which are
    consecutive (C51_accepted). *)
Inductive member := MOne (f : wfield) (l : layout) | MGroup (o : nat) (g : list (wfield * layout)).
Fixpoint members_of (fs : list (wfield * layout)) : list member :=
  match fs with
  | [] => []
  | (f, l) :: t =>
      match w_oneof f with
      | None => MOne f l :: members_of t
      | Some o =>
          match members_of t with
          | MGroup o' g :: r => if Nat.eqb o o' then MGroup o ((f, l) :: g) :: r else MGroup o [(f, l)] :: MGroup o' g :: r
          | r => MGroup o [(f, l)] :: r
          end
      end
  end.
Definition member_field (b : member) : Schema.field :=
  match b with
  | MOne f _ =>
      Field (w_num f) (w_elem f)
        (match w_rep f with Some p => CRep p | None => if w_explicit f then COpt else CPlain false (w_default f) end)
  | MGroup _ g => Oneof (map (fun fl => (w_num (fst fl), w_elem (fst fl))) g)
  end.
Definition desc_of_wtype (t : wtype) : mdesc := MDesc (map member_field (members_of (w_fields t))) UNone false.
Definition env_of (W : list wtype) : env := map desc_of_wtype W.

(** ** The value *)
Section Value.
  Context (W : list wtype).
  Section Fields.
    Variable rec : nat -> list slot -> val.
    Definition slot_vals (f : wfield) (l : layout) (s : slot) : list val :=
      match value (dyn_of f) l s with
      | FInt z => [VInt z]
      | FBytes b => [VBytes b]
      | FMsg m => match w_elem f with EMsg ty _ => [rec ty m] | _ => [] end
      | FInts x => map VInt x
      | FStrs x => map VBytes x
      | FMsgs x => match w_elem f with EMsg ty _ => map (rec ty) x | _ => [] end
      | _ => []
      end.
    Fixpoint group_vals (i : nat) (g : list (wfield * layout)) (m : list slot) : list val :=
      match g with
      | [] => []
      | (f, l) :: t => if has_value (dyn_of f) l (slot_at m l) then map (VAlt i) (slot_vals f l (slot_at m l)) else group_vals (S i) t m
      end.
    (** A field without presence that is absent counts as its default value, which is
        not what value() returns after reset() or clear_field() (C61_clear_value_refuted). *)
    Definition member_vals (m : list slot) (b : member) : list val :=
      match b with
      | MOne f l =>
          if has_value (dyn_of f) l (slot_at m l) then slot_vals f l (slot_at m l)
          else if is_rep f || w_explicit f then [] else [w_default f]
      | MGroup _ g => group_vals 0 g m
      end.
  End Fields.
  (** [fuel] bounds the nesting. *)
  Fixpoint val_of (fuel : nat) (ty : nat) (m : list slot) : val :=
    match fuel with O => VMsg [] [] | S n => VMsg (map (member_vals (val_of n) m) (members_of (w_fields (wty W ty)))) [] end.
End Value.

(** ** Well-formed storage *)
(** The values the C++ types of scalar fields can hold. *)
Definition fits (e : elem) (v : val) : Prop :=
  match e, v with
  | EVar t, VInt z => in_vtype t z
  | EBool, VInt z => z = 0 \/ z = 1
  | EFix is64 _, VInt z => 0 <= z < 2 ^ (8 * Z.of_nat (fix_size is64))
  | EEnum _, VInt z => in_vtype VI32 z
  | EBytes _ _, VBytes b => all_bytes b
  | _, _ => False
  end.
(** A field that has a value holds one of its type. *)
Definition slot_ok (rec : nat -> list slot -> Prop) (f : wfield) (l : layout) (s : slot) : Prop :=
  has_value (dyn_of f) l s = true ->
  match value (dyn_of f) l s with
  | FInt z => fits (w_elem f) (VInt z)
  | FBytes b => fits (w_elem f) (VBytes b)
  | FInts x => Z.of_nat (length x) = fst s /\ Forall (fun z => fits (w_elem f) (VInt z)) x
  | FStrs x => Z.of_nat (length x) = fst s /\ Forall (fun b => fits (w_elem f) (VBytes b)) x
  | FMsg m => match w_elem f with EMsg ty _ => rec ty m | _ => False end
  | FMsgs x => Z.of_nat (length x) = fst s /\ match w_elem f with EMsg ty _ => Forall (rec ty) x | _ => False end
  | FNone | FUndef => False
  end.
(** [m] is a message of type [ty], nested less than [fuel] deep. *)
Fixpoint typed (W : list wtype) (fuel : nat) (ty : nat) (m : list slot) : Prop :=
  match fuel with
  | O => False
  | S n => length m = w_slots (wty W ty) /\ Forall (fun fl => slot_ok (typed W n) (fst fl) (snd fl) (slot_at m (snd fl))) (w_fields (wty W ty))
  end.

(** ** Schemas *)
(** Guaranteed by the descriptor pool (descriptor_pool.hpp:288-319,1217-1239) and
    presence_for (factory.cpp:306-317): field numbers are legal, members of oneofs and
    singular messages have explicit presence, fields without presence have no default. *)
Definition wfield_ok (f : wfield) : Prop :=
  1 <= w_num f < 2 ^ 29 /\
  (forall o, w_oneof f = Some o -> w_explicit f = true) /\
  (forall ty d, w_elem f = EMsg ty d -> w_rep f = None -> w_explicit f = true) /\
  (w_explicit f = false -> w_dint f = 0 /\ w_dbytes f = []).
Definition wtype_ok (t : wtype) : Prop :=
  exists count fs, oneofs_valid count (map (fun f => DField (w_oneof f) (is_rep f)) fs) /\ Forall wfield_ok fs /\ wtype_of count (w_entry t) fs = Some t.
Definition wtypes_ok (W : list wtype) : Prop := Forall wtype_ok W.
