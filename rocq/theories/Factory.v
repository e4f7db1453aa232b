(** The factory of dynamic messages: what it makes of a set of file descriptors.
    Model of src/dynamic_message/factory.cpp:146-317 and 319-460 on top of the pool
    (Pool.v) and the layout of storage slots (DynSlots.v).

    The types it makes are the [wtype]s on which the other models of dynamic messages
    (DynWire.v, DynDecode.v, DynJson.v ...) work.  A message type is known by its position
    among the messages of the pool.  Well-known types (393-421) are the subject of
    DynJson.v and left out here. *)
From Coq Require Import Ascii String.
Require Import Verif.Bits Verif.Varint Verif.CppText Verif.Defaults Verif.Pool Verif.DynSlots Verif.Dyn Verif.Schema Verif.DynWire.
Local Open Scope list_scope.
Local Open Scope Z_scope.

(** ** Types of fields *)
(** field_kind_t and the storage kind, types.hpp:64-131: what a field of a type holds. *)
Inductive shape := SVar (t : vtype) | SBool | SFix (is64 signed : bool) | SFloat (is64 : bool) | SEnum | SString | SBytes | SMsg.
(** runtime_type_traits_by_proto_type, factory.cpp:153-280: kind and base_wire_type of the
    types, in the order of FieldDescriptorProto.Type, of which the first is 1. *)
Definition runtime_type_traits : list (shape * Z) :=
  [ (SFloat true, WT_I64); (SFloat false, WT_I32); (SVar VI64, WT_VARINT); (SVar VU64, WT_VARINT); (SVar VI32, WT_VARINT);
    (SFix true false, WT_I64); (SFix false false, WT_I32); (SBool, WT_VARINT); (SString, WT_LEN); (SMsg, WT_SGROUP); (SMsg, WT_LEN);
    (SBytes, WT_LEN); (SVar VU32, WT_VARINT); (SEnum, WT_VARINT); (SFix false true, WT_I32); (SFix true true, WT_I64);
    (SVar VS32, WT_VARINT); (SVar VS64, WT_VARINT) ].
(** runtime_traits_for, 284-290; the pool accepts no other types. *)
Definition runtime_traits_for (t : Z) : shape * Z := nth (Z.to_nat (t - 1)) runtime_type_traits (SBool, WT_VARINT).
Definition shape_of (p : fproto) : shape := fst (runtime_traits_for (fp_type p)).

(** presence_for, 306-317, and explicit_presence(), types.hpp:198-201. *)
Definition explicit_presence (f : fdsc) : bool :=
  if fa_repeated (fd_attrs f) then false else if is_some (fp_oneof (fd_proto f)) then true else if fa_required (fd_attrs f) then true else fa_explicit (fd_attrs f).

(** serialized_tag, 366-376: the shift is that of a uint32_t. *)
Definition serialized_wire_type (f : fdsc) : Z :=
  if fa_packed (fd_attrs f) then WT_LEN else if fa_delimited (fd_attrs f) then WT_SGROUP else snd (runtime_traits_for (fp_type (fd_proto f))).
Definition serialized_tag (f : fdsc) : Z := Z.lor (wrapU 32 (Z.shiftl (fp_number (fd_proto f)) 3)) (serialized_wire_type f).

(** The descriptor a type name stands for: field.message_field_type_descriptor(), set by
    descriptor_pool.hpp:890-919 from the map of full names.  Names start with a dot. *)
Fixpoint index_of (n : bytes) (l : list bytes) : option nat :=
  match l with [] => None | x :: t => if name_eqb x n then Some O else option_map S (index_of n t) end.
Definition message_index (p : pool) (n : bytes) : option nat := index_of n (map md_full (s_mmap (p_state p))).
Definition enum_of (p : pool) (f : fproto) : option edsc := get_enum p (tl (fp_type_name f)).

(** values_by_name and value_of, factory_addons.hpp:228-243: the first value of a name. *)
Definition value_of (e : edsc) (n : bytes) : option Z := option_map snd (find (fun v => name_eqb (fst v) n) (ep_values (ed_proto e))).

Section Factory.
  (** std::from_chars of a double or float: the bits of the number. *)
  Variable from_chars_float : bool -> bytes -> option Z.

  (** ** Default values *)
  (** set_default_value, factory_addons.hpp:188-225 with 72-122; [None]: default_value_valid_
      is false.  Fields of 4 or 8 bytes keep the bits of the number, as elsewhere in the
      model. *)
  Definition set_default_value (p : fproto) : option Z :=
    match shape_of p with
    | SVar t => parse_default (match t with VU32 | VU64 => false | _ => true end) (vbits t) (fp_default p)
    | SFix is64 sg => let w := if is64 then 64 else 32 in option_map (wrapU w) (parse_default sg w (fp_default p))
    | SFloat is64 => match fp_default p with [] => Some 0 | t => from_chars_float is64 t end
    | SBool => Some (if name_eqb (fp_default p) (txt "true") then 1 else 0)
    | _ => Some 0
    end.
  (** setup_enum_field_default_value, 423-450, for a field of an enum type; [None]:
      schema_validation_error. *)
  Definition enum_default_value (pl : pool) (f : fdsc) : option Z :=
    match enum_of pl (fd_proto f) with
    | None => None
    | Some e =>
        match ep_values (ed_proto e) with
        | [] => None
        | v :: _ =>
            match fp_default (fd_proto f) with
            | [] => Some (if fa_explicit (fd_attrs f) || fa_required (fd_attrs f) then snd v else 0)
            | n => value_of e n
            end
        end
    end.
  Definition default_value (pl : pool) (f : fdsc) : option Z :=
    match shape_of (fd_proto f) with SEnum => enum_default_value pl f | _ => set_default_value (fd_proto f) end.

  (** ** Fields *)
  (** The type of the elements, from the tables and the descriptors the field refers to;
      [None] does not happen in a pool (resolve_field). *)
  Definition elem_of (pl : pool) (f : fdsc) : option elem :=
    match shape_of (fd_proto f) with
    | SVar t => Some (EVar t)
    | SBool => Some EBool
    | SFix is64 _ => Some (EFix is64 false)
    | SFloat is64 => Some (EFix is64 true)
    | SEnum => option_map (fun e => EEnum (if ed_closed e then Some (map snd (ep_values (ed_proto e))) else None)) (enum_of pl (fd_proto f))
    | SString => Some (EBytes (fa_utf8 (fd_attrs f)) false)
    | SBytes => Some (EBytes false false)
    | SMsg => option_map (fun ty => EMsg ty (fa_delimited (fd_attrs f))) (message_index pl (tl (fp_type_name (fd_proto f))))
    end.
  Definition is_text (s : shape) : bool := match s with SString | SBytes => true | _ => false end.
  (** What finalize_resolved_field_infos, 354-391, stores of a field.  The default of a
      repeated field is never read, it is left out. *)
  Definition field_info (pl : pool) (f : fdsc) : option wfield :=
    let p := fd_proto f in
    let rep := fa_repeated (fd_attrs f) in
    match elem_of pl f with
    | None => None
    | Some e =>
        Some (WField (fp_number p) e (if rep then Some (fa_packed (fd_attrs f)) else None) (option_map Z.to_nat (fp_oneof p)) (explicit_presence f)
          (if rep then 0 else match default_value pl f with Some z => z | None => 0 end)
          (if rep then [] else if is_text (shape_of p) then fp_default p else []))
    end.

  (** ** The factory *)
  Fixpoint all_some {A} (l : list (option A)) : option (list A) :=
    match l with [] => Some [] | Some x :: t => option_map (cons x) (all_some t) | None :: _ => None end.
  (** message.fields(), set by build_fields (descriptor_pool.hpp:1195-1245). *)
  Definition fields_of (d : mdsc) : list fdsc := map (fun p => FDsc p (field_attrs (md_feat d) (mp_entry (md_proto d)) p)) (mp_fields (md_proto d)).
  Definition message_type (pl : pool) (d : mdsc) : option wtype :=
    match all_some (map (field_info pl) (fields_of d)) with
    | None => None
    | Some fs => wtype_of (mp_oneofs (md_proto d)) (mp_entry (md_proto d)) fs
    end.
  Definition valid_default (f : fdsc) : bool := is_some (set_default_value (fd_proto f)).
  Definition enum_ready (pl : pool) (f : fdsc) : bool := match shape_of (fd_proto f) with SEnum => is_some (enum_default_value pl f) | _ => true end.
  (** finish_initialize, 452-460; every error is schema_validation_error. *)
  Definition finish_initialize (pl : pool) : outcome (list wtype) :=
    let* _ := require (forallb valid_default (p_fields pl)) in
    match all_some (map (message_type pl) (s_mmap (p_state pl))) with
    | None => Invalid
    | Some W => let* _ := require (forallb (enum_ready pl) (p_fields pl)) in Done W
    end.
  (** initialize, 326-330 *)
  Definition initialize (fs : list fileproto) : outcome (pool * list wtype) :=
    let* pl := init fs in let* W := finish_initialize pl in Done (pl, W).
End Factory.
(** get_message, 339-346; [None]: unknown_message_name. *)
Definition get_message_type (pl : pool) (n : bytes) : option nat := message_index pl n.
