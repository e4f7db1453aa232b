(** What a oneof of a dynamic message should be. *)
Require Verif.Archive.
Require Import Verif.Bits Verif.DynJson Verif.DynSlots Verif.Dyn Verif.DynMain Verif.DynWire Verif.DynDecode Verif.DynAccess Verif.FactoryAccess Verif.DynOneof.
Local Open Scope list_scope.

(** Field [i] is in the oneof [o]. *)
Definition member (t : dtype) (i o : nat) : Prop := exists f l, field t i = Some (f, l) /\ y_oneof f = Some o.
(** Field [i] is present (has_value). *)
Definition present (t : dtype) (i : nat) (m : list slot) : Prop := exists v, look t i m = Some (true, v).

(** The messages of type [ty] one gets from a new one or one read from bytes by setting and clearing fields and oneofs, whatever
    the calls return, by reading JSON, by reading fields through mutable references and by cloning.  JSON of
    google.protobuf.FieldMask, which has no oneof, is left out; so is google.protobuf.Any. *)
Inductive reached (count : nat) (W : list wtype) (ty : nat) (fs : list tfield) : list slot -> Prop :=
| RNew : reached count W ty fs (new_message (types_of W ty))
| RRead utf8_ok maxd bs m : dyn_read W utf8_ok maxd ty bs = Archive.Ok m -> reached count W ty fs m
| RJson J utf8_ok maxd fparse strict fuel ts m m' : reached count W ty fs m -> known_of J ty <> KFieldMask -> read_json W J utf8_ok maxd fparse strict fuel ty m ts = Archive.Ok m' -> reached count W ty fs m'
| RSetBy E fuel k v m m' e : reached count W ty fs m -> set_by E fuel (types_of W ty) fs k v m = Some (m', e) -> reached count W ty fs m'
| RSet i v m m' : reached count W ty fs m -> set_field (types_of W ty) i v m = Some m' -> reached count W ty fs m'
| REmplace i n m : reached count W ty fs m -> reached count W ty fs (emplace_field n (types_of W ty) i m)
| RClear i m : reached count W ty fs m -> reached count W ty fs (clear_field (types_of W ty) i m)
| RClearOneof d m : reached count W ty fs m -> reached count W ty fs (clear_oneof count (types_of W ty) d m)
| RPeek i m : reached count W ty fs m -> reached count W ty fs (peek_enum (types_of W ty) i m)
| RClone fuel m src m' : reached count W ty fs m -> reached count W ty fs src -> clone_message (types_of W) fuel ty m src = Some m' -> reached count W ty fs m'.
