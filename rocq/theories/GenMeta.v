(** The member and the metadata (pb_meta) the generator writes for every field:
    src/protoc-plugin/hpp_generator.cpp:254-318 (C++ types), 830-844 (enum defaults),
    1237-1341 (member types and initial values), 1343-1380 and 1790-1812 (oneofs),
    1638-1734 (options and default values), and what the templates of binpb/meta.hpp
    make of that text.

    Simplifications: the text is represented by its parts -- C++ type, wrapper, list of
    options, default value --, the spelling of names is the subject of CppText.v.  A
    default value is given as the value its expression denotes (C54).  A map field is
    one member; the metadata of its entry is [entry_options]. *)
Require Import Verif.Bits Verif.Varint Verif.Schema Verif.Pool.
Local Open Scope Z_scope.

(** ** What the generator knows of a field *)
(** [g_dsc]: FieldDescriptorProto and the attributes the pool computed (Pool.v);
    [g_parent]: full name of parent_message(), empty if there is none;
    [g_ext]: extendee_descriptor() is not null; [g_closed]: is_closed_enum (835);
    [g_enum]: the numbers of the enum type in the order of declaration;
    [g_map]: is_map_entry(), the field is a map; [g_rec]: is_recursive (Gen.v);
    [g_ty]: the message type; [g_text]: the value of the option default. *)
Record gfield := GField {
  g_dsc : fdsc; g_parent : bytes; g_in_entry : bool; g_ext : bool; g_closed : bool; g_enum : list Z;
  g_map : bool; g_rec : bool; g_ty : nat; g_text : option val }.
Definition g_proto (g : gfield) : fproto := fd_proto (g_dsc g).
Definition g_attrs (g : gfield) : fattr := fd_attrs (g_dsc g).
Definition g_label (g : gfield) (l : Z) : bool := fp_label (g_proto g) =? l.
Definition g_type (g : gfield) (t : Z) : bool := fp_type (g_proto g) =? t.

(** ** C++ types, hpp_generator.cpp:254-318 set_cpp_type *)
Definition TYPE_DOUBLE := 1. Definition TYPE_FLOAT := 2. Definition TYPE_INT64 := 3. Definition TYPE_UINT64 := 4. Definition TYPE_INT32 := 5.
Definition TYPE_FIXED64 := 6. Definition TYPE_FIXED32 := 7. Definition TYPE_BOOL := 8. Definition TYPE_UINT32 := 13.
Definition TYPE_SFIXED32 := 15. Definition TYPE_SFIXED64 := 16. Definition TYPE_SINT32 := 17. Definition TYPE_SINT64 := 18.
Inductive ctype := TyDouble | TyFloat | TyI32 | TyI64 | TyU32 | TyU64 | TyBool | TyString | TyBytes | TyNamed.
Inductive mtype := MtVoid | MtVint64 | MtVuint64 | MtVuint32 | MtVsint32 | MtVsint64 | MtBool.
Definition cpp_type (t : Z) : ctype * mtype :=
  if t =? TYPE_DOUBLE then (TyDouble, MtVoid)
  else if t =? TYPE_FLOAT then (TyFloat, MtVoid)
  else if t =? TYPE_INT64 then (TyI64, MtVint64)
  else if t =? TYPE_UINT64 then (TyU64, MtVuint64)
  else if t =? TYPE_INT32 then (TyI32, MtVint64)
  else if t =? TYPE_FIXED64 then (TyU64, MtVoid)
  else if t =? TYPE_FIXED32 then (TyU32, MtVoid)
  else if t =? TYPE_BOOL then (TyBool, MtBool)
  else if t =? TYPE_STRING then (TyString, MtVoid)
  else if (t =? TYPE_GROUP) || (t =? TYPE_MESSAGE) || (t =? TYPE_ENUM) then (TyNamed, MtVoid)
  else if t =? TYPE_BYTES then (TyBytes, MtVoid)
  else if t =? TYPE_UINT32 then (TyU32, MtVuint32)
  else if t =? TYPE_SFIXED32 then (TyI32, MtVoid)
  else if t =? TYPE_SFIXED64 then (TyI64, MtVoid)
  else if t =? TYPE_SINT32 then (TyI32, MtVsint32)
  else if t =? TYPE_SINT64 then (TyI64, MtVsint64)
  else (TyNamed, MtVoid).

(** ** Presence, hpp_generator.cpp:1314-1327 set_presence_rule *)
Fixpoint starts_with (s p : bytes) : bool :=
  match p, s with [] , _ => true | a :: p', b :: s' => (a =? b) && starts_with s' p' | _, [] => false end.
(** The option proto2_explicit_presence (2521-2535: [.] when it is not given), and
    whether the syntax of the file is proto2 (461: an empty syntax is). *)
Record goptions := GOptions { o_presences : list bytes; o_proto2 : bool }.
Definition qualified_name (g : gfield) : bytes := g_parent g ++ 46 :: fp_name (g_proto g).
Definition presence_rule (o : goptions) (g : gfield) : bool :=
  if negb (o_proto2 o) || is_empty (o_presences o) then fa_explicit (g_attrs g)
  else g_label g LABEL_OPTIONAL &&
       (g_type g TYPE_MESSAGE || g_type g TYPE_GROUP || existsb (fun s => starts_with (qualified_name g) (tl s)) (o_presences o)).
(** is_cpp_optional: the rule is applied to the fields of messages that are written as
    structs (1330, 1467-1468), not to extensions nor to the fields of map entries. *)
Definition is_cpp_optional (o : goptions) (g : gfield) : bool := negb (g_ext g) && negb (g_in_entry g) && presence_rule o g.

(** ** Options *)
Inductive opt := ONone | OExplicit | OPacked | OGroup | OUtf8 | OClosed.
(** hpp_generator.cpp:1638-1653 *)
Definition emit_closed (o : goptions) (g : gfield) : bool :=
  g_closed g &&
  negb (negb (g_ext g) && negb (is_empty (g_parent g)) && negb (g_in_entry g) && g_label g LABEL_OPTIONAL &&
        negb (is_some (fp_oneof (g_proto g))) && negb (is_cpp_optional o g)).
(** hpp_generator.cpp:1655-1682 *)
Definition meta_options (o : goptions) (g : gfield) : list opt :=
  let first :=
    if is_cpp_optional o g || fa_required (g_attrs g) || is_some (fp_oneof (g_proto g)) ||
       (g_closed g && g_ext g && g_label g LABEL_OPTIONAL)
    then [OExplicit] else if fa_packed (g_attrs g) then [OPacked] else [] in
  first ++
  (if fa_delimited (g_attrs g) then [OGroup]
   else if fa_utf8 (g_attrs g) then [OUtf8]
   else if emit_closed o g then [OClosed]
   else if is_empty first then [ONone] else []).

(** ** Member types, hpp_generator.cpp:1237-1290; 1376-1378 for a oneof of one field *)
Inductive wrapper := WNone | WOptional | WIndirect | WRepeated | WMap.
Definition member_wrapper (o : goptions) (g : gfield) : wrapper :=
  if is_some (fp_oneof (g_proto g)) then WOptional
  else if g_map g then WMap
  else if g_label g LABEL_REPEATED then WRepeated
  else if g_type g TYPE_GROUP || g_type g TYPE_MESSAGE then (if g_rec g then WIndirect else if is_cpp_optional o g then WOptional else WNone)
  else if is_cpp_optional o g then WOptional else WNone.

(** ** Default values *)
(** default_value: 320-381; for enums 836-842: the first value if the label is optional. *)
Definition default_value (g : gfield) : option val :=
  match g_text g with
  | Some v => Some v
  | None => if g_type g TYPE_ENUM && g_label g LABEL_OPTIONAL then match g_enum g with v :: _ => Some (VInt v) | [] => None end else None
  end.
Definition is_wrapped (w : wrapper) : bool := match w with WNone => false | _ => true end.
(** The initializer of the member, 1329-1341: [None] is the value of an empty initializer. *)
Definition initializer (o : goptions) (g : gfield) : option val :=
  if is_wrapped (member_wrapper o g) || g_type g TYPE_STRING || g_type g TYPE_BYTES then None else default_value g.
(** The default value in the metadata, 1708-1720: [None] is std::monostate. *)
Definition meta_default (o : goptions) (g : gfield) : option val :=
  match meta_options o g with
  | ONone :: _ => default_value g
  | _ => if g_closed g then default_value g else None
  end.

(** ** The text *)
Record source := Source {
  s_number : Z; s_ctype : ctype; s_mtype : mtype; s_wrap : wrapper; s_options : list opt; s_init : option val; s_default : option val;
  s_named : elem }.
(** The type a name refers to: an enum with its is_valid() (GenEnum.v), or a message. *)
Definition named_type (g : gfield) : elem := if g_type g TYPE_ENUM then EEnum (Some (g_enum g)) else EMsg (g_ty g) false.
Definition emit (o : goptions) (g : gfield) : source :=
  let '(c, m) := cpp_type (fp_type (g_proto g)) in
  Source (fp_number (g_proto g)) c m (member_wrapper o g) (meta_options o g) (initializer o g) (meta_default o g) (named_type g).

(** An extension is a struct with one member, value: format_extension, 1741-1812.  Its
    type is never wrapped in an optional, its default value is always in the metadata. *)
Definition emit_extension (o : goptions) (g : gfield) : source :=
  let '(c, m) := cpp_type (fp_type (g_proto g)) in
  Source (fp_number (g_proto g)) c m (if g_label g LABEL_REPEATED then WRepeated else WNone) (meta_options o g) (default_value g) (default_value g) (named_type g).

(** The members of a struct and the elements of its pb_meta, 1466-1475 with 1343-1380,
    1600-1612 with 1790-1812: a oneof is written at its first field, as a variant if it
    has several. *)
Inductive smember := SOne (s : source) | SVariant (ss : list source).
Definition oneof_fields (fs : list gfield) (i : Z) : list gfield :=
  filter (fun g => match fp_oneof (g_proto g) with Some j => j =? i | None => false end) fs.
Definition emit_field (o : goptions) (fs : list gfield) (g : gfield) : list smember :=
  match fp_oneof (g_proto g) with
  | None => [SOne (emit o g)]
  | Some i =>
      match oneof_fields fs i with
      | [] => []
      | first :: rest =>
          if fp_number (g_proto first) =? fp_number (g_proto g)
          then match rest with [] => [SOne (emit o first)] | _ => [SVariant (map (emit o) (first :: rest))] end
          else []
      end
  end.
Definition emit_message (o : goptions) (fs : list gfield) : list smember := flat_map (emit_field o fs) fs.

(** ** What the templates make of it *)
(** meta.hpp:8-35: the options are bits. *)
Definition opt_bits (x : opt) : Z := match x with ONone => 0 | OExplicit => 1 | OPacked => 2 | OGroup => 4 | OUtf8 => 8 | OClosed => 16 end.
Definition joined (l : list opt) : Z := fold_right (fun x a => Z.lor (opt_bits x) a) 0 l.
Definition has_option (v : Z) (x : opt) : bool := negb (Z.land v (opt_bits x) =? 0).

Section Templates.
  (** string_view/span instead of owning types; the value of a default constructed message. *)
  Variable view : bool.
  Variable msg0 : nat -> val.

  (** The element type: field_meta's Type if it is not void, else the C++ type
      (meta.hpp:115-136 tag_type, 174-194 serialize_type).  A vint64_t read into an int32_t
      is the element type [VI32] of Varint.v.  [None]: no such combination. *)
  Definition source_elem (s : source) : option elem :=
    let bits := joined (s_options s) in
    match s_mtype s, s_ctype s with
    | MtVoid, TyDouble => Some (EFix true true)
    | MtVoid, TyFloat => Some (EFix false true)
    | MtVoid, (TyI32 | TyU32) => Some (EFix false false)
    | MtVoid, (TyI64 | TyU64) => Some (EFix true false)
    | MtVoid, (TyString | TyBytes) => Some (EBytes (has_option bits OUtf8) view)
    | MtVoid, TyNamed =>
        match s_named s with
        | EEnum (Some l) => Some (EEnum (if has_option bits OClosed then Some l else None))
        | EMsg ty _ => Some (EMsg ty (has_option bits OGroup))
        | _ => None
        end
    | MtVint64, TyI32 => Some (EVar VI32)
    | MtVint64, TyI64 => Some (EVar VI64)
    | MtVuint32, TyU32 => Some (EVar VU32)
    | MtVuint64, TyU64 => Some (EVar VU64)
    | MtVsint32, TyI32 => Some (EVar VS32)
    | MtVsint64, TyI64 => Some (EVar VS64)
    | (MtBool | MtVoid), TyBool => Some EBool
    | _, _ => None
    end.
  (** T{} *)
  Definition zero_value (e : elem) : val := match e with EBytes _ _ => VBytes [] | EMsg ty _ => msg0 ty | _ => VInt 0 end.
  Definition or_zero (e : elem) (d : option val) : val := match d with Some v => v | None => zero_value e end.

  (** The value of the member in a new message. *)
  Definition initial (e : elem) (s : source) : val := or_zero e (s_init s).
  (** The value that is not written, meta.hpp:69-83 omit_value with field_types.hpp:564-581;
      only for members without explicit_presence. *)
  Definition omitted (e : elem) (s : source) : val := or_zero e (s_default s).

  (** How the member behaves, as a member of Schema.v.  A member without
      explicit_presence must start with the value that is not written. *)
  Inductive card_of (e : elem) (s : source) : card -> Prop :=
  | AsPlain : s_wrap s = WNone -> has_option (joined (s_options s)) OExplicit = true -> card_of e s (CPlain true (initial e s))
  | AsImplicit : s_wrap s = WNone -> has_option (joined (s_options s)) OExplicit = false -> omitted e s = initial e s -> card_of e s (CPlain false (initial e s))
  | AsOptional : s_wrap s = WOptional \/ s_wrap s = WIndirect -> has_option (joined (s_options s)) OExplicit = true -> card_of e s COpt
  | AsRepeated : s_wrap s = WRepeated -> has_option (joined (s_options s)) OExplicit = false -> card_of e s (CRep (has_option (joined (s_options s)) OPacked))
  | AsMap : s_wrap s = WMap -> has_option (joined (s_options s)) OExplicit = false -> card_of e s (CMap (negb view)).
  Inductive behaves : smember -> field -> Prop :=
  | BOne s e c : source_elem s = Some e -> card_of e s c -> behaves (SOne s) (Field (s_number s) e c)
  | BVariant ss es : Forall2 (fun s e => source_elem s = Some e) ss es -> behaves (SVariant ss) (Oneof (combine (map s_number ss) es)).

  (** map_entry, hpp_generator.cpp:1690-1706 and meta.hpp:199-216: the options are added
      to explicit_presence; the members start as {}. *)
  Definition entry_field (o : goptions) (num : Z) (g : gfield) : option field :=
    match source_elem (Source num (fst (cpp_type (fp_type (g_proto g)))) (snd (cpp_type (fp_type (g_proto g)))) WNone (OExplicit :: meta_options o g) None None (named_type g)) with
    | Some e => Some (Field num e (CPlain true (zero_value e)))
    | None => None
    end.
End Templates.
