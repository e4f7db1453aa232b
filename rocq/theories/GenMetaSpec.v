(** What the schema says about the members of a generated struct, without the
    generator's functions. *)
Require Import Verif.Bits Verif.Varint Verif.Schema Verif.Pool Verif.PoolSpec Verif.GenMeta.
Definition option_eq_dec {A} (dec : forall x y : A, {x = y} + {x <> y}) (x y : option A) : {x = y} + {x <> y}.
Proof. decide equality. Defined.
Local Open Scope Z_scope.

(** ** Element types of the protobuf language *)
(** The types of descriptor.proto from TYPE_DOUBLE = 1 on. *)
Definition proto_elem (t : Z) (utf8 delim view : bool) (enum : option (list Z)) (ty : nat) : option elem :=
  nth_error
    [ EFix true true          (* double *)
    ; EFix false true         (* float *)
    ; EVar VI64               (* int64 *)
    ; EVar VU64               (* uint64 *)
    ; EVar VI32               (* int32 *)
    ; EFix true false         (* fixed64 *)
    ; EFix false false        (* fixed32 *)
    ; EBool                   (* bool *)
    ; EBytes utf8 view        (* string *)
    ; EMsg ty true            (* group *)
    ; EMsg ty delim           (* message *)
    ; EBytes false view       (* bytes *)
    ; EVar VU32               (* uint32 *)
    ; EEnum enum              (* enum *)
    ; EFix false false        (* sfixed32 *)
    ; EFix true false         (* sfixed64 *)
    ; EVar VS32               (* sint32 *)
    ; EVar VS64               (* sint64 *)
    ] (Z.to_nat (t - 1)).
(** The numbers a field of integer type can hold. *)
Definition signed (w : Z) := Some (- 2 ^ (w - 1), 2 ^ (w - 1) - 1).
Definition unsigned (w : Z) := Some (0, 2 ^ w - 1).
Definition proto_range (t : Z) : option (Z * Z) :=
  nth (Z.to_nat (t - 1))
    [None; None; signed 64; unsigned 64; signed 32; unsigned 64; unsigned 32; None; None; None; None; None; unsigned 32; None; signed 32; signed 64; signed 32; signed 64] None.
(** The range of a C++ type. *)
Definition cpp_range (c : ctype) : option (Z * Z) :=
  match c with TyI32 => signed 32 | TyI64 => signed 64 | TyU32 => unsigned 32 | TyU64 => unsigned 64 | _ => None end.

(** ** Presence *)
Section Field.
  Variables (o : goptions) (scopes escopes : list features) (g : gfield).
  Let p := g_proto g.

  (** The attributes are those of the features in scope (C57). *)
  Record faithful : Prop := {
    fh_attrs : attributes p (g_in_entry g) scopes (g_attrs g);
    fh_closed : g_closed g = true <-> fp_type p = TYPE_ENUM /\ feature ft_enum escopes = ENUM_CLOSED;
    fh_legal : legal_field p }.

  (** A scope given with the option proto2_explicit_presence covers a field: it is
      everything, the field, or a message or package around it (docs/Code_Generation_Guide.md:29). *)
  Definition covers (s q : bytes) : Prop := exists t, s = 46 :: t /\ (t = [] \/ q = t \/ exists r, q = t ++ 46 :: r).
  Definition full_name : bytes := g_parent g ++ [46] ++ fp_name p.
  Definition covered : Prop := exists s, In s (o_presences o) /\ covers s full_name.

  Definition is_message : Prop := fp_type p = TYPE_MESSAGE \/ fp_type p = TYPE_GROUP.
  Definition required : Prop := fp_label p = LABEL_REQUIRED \/ feature ft_presence scopes = LEGACY_REQUIRED.
  (** The field knows whether it is set.  In proto2 the option of the generator decides. *)
  Definition tracked : Prop :=
    is_message \/ fp_opt3 p = true \/ fp_oneof p <> None \/ (feature ft_presence scopes = EXPLICIT /\ (o_proto2 o = true -> covered)).

  (** What protoc makes sure of. *)
  Record coherent : Prop := {
    co_oneof : fp_oneof p <> None -> fp_label p = LABEL_OPTIONAL;
    co_opt3 : fp_opt3 p = true -> fp_oneof p <> None /\ o_proto2 o = false;
    co_legacy : feature ft_presence scopes = LEGACY_REQUIRED -> fp_label p = LABEL_OPTIONAL /\ fp_oneof p = None;
    co_proto2 : o_proto2 o = true -> feature ft_presence scopes = EXPLICIT;
    co_map : g_map g = true -> fp_type p = TYPE_MESSAGE /\ fp_label p = LABEL_REPEATED;
    co_enum : fp_type p = TYPE_ENUM -> g_enum g <> [] }.

  (** The default value: the given one, for enums the first value, else zero. *)
  Definition proto_default (msg0 : nat -> val) : val :=
    match g_text g with
    | Some v => v
    | None =>
        if fp_type p =? TYPE_ENUM then VInt (hd 0 (g_enum g))
        else if (fp_type p =? TYPE_STRING) || (fp_type p =? TYPE_BYTES) then VBytes []
        else if (fp_type p =? TYPE_MESSAGE) || (fp_type p =? TYPE_GROUP) then msg0 (g_ty g) else VInt 0
    end.

  (** How the field is stored.  A message declared required in proto2 is held by
      value unless its type is recursive; one that is required by a feature is held
      like an optional one. *)
  Inductive proto_card (view : bool) (msg0 : nat -> val) : card -> Prop :=
  | PMap : fp_label p = LABEL_REPEATED -> g_map g = true -> proto_card view msg0 (CMap (negb view))
  | PRepeated b : fp_label p = LABEL_REPEATED -> g_map g = false -> (b = true <-> packed_rule p scopes) -> proto_card view msg0 (CRep b)
  | PRequired : fp_label p <> LABEL_REPEATED -> required -> ~ (is_message /\ (g_rec g = true \/ fp_label p = LABEL_OPTIONAL)) ->
      proto_card view msg0 (CPlain true (proto_default msg0))
  | PHeld : fp_label p <> LABEL_REPEATED -> required -> is_message /\ (g_rec g = true \/ fp_label p = LABEL_OPTIONAL) -> proto_card view msg0 COpt
  | PTracked : fp_label p = LABEL_OPTIONAL -> ~ required -> tracked -> proto_card view msg0 COpt
  | PUntracked : fp_label p = LABEL_OPTIONAL -> ~ required -> ~ tracked -> proto_card view msg0 (CPlain false (proto_default msg0)).

  (** The element type.  A closed enum that the option turned into a field without
      presence accepts every value, as documented. *)
  Definition flattened : Prop := fp_label p = LABEL_OPTIONAL /\ fp_oneof p = None /\ ~ tracked /\ ~ required.
  Definition proto_type (view : bool) (e : elem) : Prop :=
    exists utf8 delim enum,
      (utf8 = true <-> feature ft_utf8 scopes = UTF8_VERIFY) /\
      (delim = true <-> feature ft_encoding scopes = DELIMITED) /\
      ((feature ft_enum escopes = ENUM_CLOSED /\ ~ flattened /\ enum = Some (g_enum g)) \/ ((feature ft_enum escopes <> ENUM_CLOSED \/ flattened) /\ enum = None)) /\
      proto_elem (fp_type p) utf8 delim view enum (g_ty g) = Some e.
End Field.

(** Fields for which the generator is right; the clauses that do not come with protoc's
    validation are necessary (the [_refuted] theorems of PropertiesMeta.v). *)
Record regular (o : goptions) (scopes escopes : list features) (g : gfield) : Prop := {
  rg_faithful : faithful scopes escopes g;
  rg_coherent : coherent o scopes g;
  (** a field of a message that is written as a struct *)
  rg_ext : g_ext g = false;
  rg_entry : g_in_entry g = false;
  rg_parent : g_parent g <> [];
  (** a scope of the option ends where a name ends (C73_scope_prefix_refuted) *)
  rg_scopes : o_presences o <> [] /\ forall s, In s (o_presences o) -> (exists r, full_name g = tl s ++ r) -> covers s (full_name g);
  (** C57_packed_false_ignored_refuted *)
  rg_packed : fp_packed (g_proto g) <> Some false;
  rg_text : ~ is_message g \/ g_text g = None;
  (** text and bytes held by value have no default value (C73_string_default_refuted) *)
  rg_string : fp_type (g_proto g) = TYPE_STRING \/ fp_type (g_proto g) = TYPE_BYTES -> fp_label (g_proto g) <> LABEL_REPEATED -> g_text g <> None ->
    ~ required scopes g /\ tracked o scopes g;
  (** C73_required_enum_refuted *)
  rg_first : fp_type (g_proto g) = TYPE_ENUM -> fp_label (g_proto g) = LABEL_REQUIRED -> g_text g <> None \/ hd 0 (g_enum g) = 0;
  (** C73_legacy_required_enum_refuted *)
  rg_legacy : fp_type (g_proto g) = TYPE_ENUM /\ feature ft_enum escopes = ENUM_CLOSED -> feature ft_presence scopes <> LEGACY_REQUIRED }.

(** ** Messages *)
(** The fields that start a member: those outside of oneofs and the first of every oneof. *)
Fixpoint leaders (seen : list Z) (fs : list gfield) : list gfield :=
  match fs with
  | [] => []
  | g :: t =>
      match fp_oneof (g_proto g) with
      | None => g :: leaders seen t
      | Some i => if in_dec Z.eq_dec i seen then leaders seen t else g :: leaders (i :: seen) t
      end
  end.
(** The fields of a oneof. *)
Definition alternatives (fs : list gfield) (i : Z) : list gfield :=
  filter (fun g => if option_eq_dec Z.eq_dec (fp_oneof (g_proto g)) (Some i) then true else false) fs.
Definition num (g : gfield) : Z := fp_number (g_proto g).

(** The member for a field outside of oneofs, for the only field of a oneof, and for a
    oneof of several fields. *)
Inductive described (o : goptions) (sc esc : gfield -> list features) (view : bool) (msg0 : nat -> val) (fs : list gfield) (g : gfield) : field -> Prop :=
| DField e c : fp_oneof (g_proto g) = None -> proto_type o (sc g) (esc g) g view e -> proto_card o (sc g) g view msg0 c ->
    described o sc esc view msg0 fs g (Field (num g) e c)
| DAlone i e : fp_oneof (g_proto g) = Some i -> alternatives fs i = [g] -> proto_type o (sc g) (esc g) g view e ->
    described o sc esc view msg0 fs g (Field (num g) e COpt)
| DOneof i es : fp_oneof (g_proto g) = Some i -> (2 <= length (alternatives fs i))%nat ->
    Forall2 (fun x e => proto_type o (sc x) (esc x) x view e) (alternatives fs i) es ->
    described o sc esc view msg0 fs g (Oneof (combine (map num (alternatives fs i)) es)).

(** The numbers a member answers to. *)
Definition numbers (f : field) : list Z := match f with Field n _ _ => [n] | Oneof alts => map fst alts end.
