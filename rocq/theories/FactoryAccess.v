(** The fields of the types of the factory as access by name and number sees them (DynAccess.v). *)
Require Import Verif.Bits Verif.Varint Verif.Pool Verif.DynSlots Verif.Dyn Verif.Schema Verif.DynWire Verif.DynAccess Verif.Factory.
Local Open Scope list_scope.
Local Open Scope Z_scope.

(** field_kind_t of a field: runtime_type_traits_by_proto_type, factory.cpp:153-280, with the descriptor the type name stands for
    (message_field_type_descriptor and enum_field_type_descriptor, descriptor_pool.hpp:890-919). *)
Definition ptype_of (pl : pool) (p : fproto) : option ptype :=
  match shape_of p with
  | SVar VI32 => Some PInt32 | SVar VI64 => Some PInt64 | SVar VU32 => Some PUInt32 | SVar VU64 => Some PUInt64 | SVar VS32 => Some PSInt32 | SVar VS64 => Some PSInt64
  | SBool => Some PBool
  | SFix true true => Some PSFixed64 | SFix true false => Some PFixed64 | SFix false true => Some PSFixed32 | SFix false false => Some PFixed32
  | SFloat true => Some PDouble | SFloat false => Some PFloat
  | SEnum => option_map (fun e => PEnum (ep_values (ed_proto e))) (enum_of pl p)
  | SString => Some PString
  | SBytes => Some PBytes
  | SMsg => option_map PMsg (message_index pl (tl (fp_type_name p)))
  end.
(** What field_descriptor_by_name and field_descriptor_by_number, message_fields.hpp:73-122 and 148-162, and the field references read of a field: proto().name,
    proto().number and what finalize_resolved_field_infos, factory.cpp:354-391, stores. *)
Definition access_field (fc : bool -> bytes -> option Z) (pl : pool) (f : fdsc) : option tfield :=
  match ptype_of pl (fd_proto f), field_info fc pl f with
  | Some t, Some w => Some (TField (fp_name (fd_proto f)) (fp_number (fd_proto f)) t (fa_repeated (fd_attrs f)) (w_oneof w) (w_explicit w) (w_dint w) (w_dbytes w))
  | _, _ => None
  end.
(** The fields of a message, in the order of the descriptor. *)
Definition access_fields (fc : bool -> bytes -> option Z) (pl : pool) (ty : nat) : list tfield :=
  match nth_error (s_mmap (p_state pl)) ty with
  | Some d => match all_some (map (access_field fc pl) (fields_of d)) with Some l => l | None => [] end
  | None => []
  end.
(** The storage of the types (Dyn.v). *)
Definition types_of (W : list wtype) (ty : nat) : dtype :=
  let t := nth ty W (WType [] 0 false) in DType (map (fun fl => (dyn_of (fst fl), snd fl)) (w_fields t)) (w_slots t).
