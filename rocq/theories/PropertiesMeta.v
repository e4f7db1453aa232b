(** What the generator writes for the fields of messages: types, presence, defaults,
    options; the check of closed enums; default values. *)
From Coq Require Import String.
Require Import Verif.Bits Verif.Varint Verif.Schema Verif.Archive Verif.Decode Verif.Encode Verif.EncodeSpec Verif.WellTyped Verif.RoundTrip Verif.EncodeMain.
Require Import Verif.Pool Verif.PoolSpec Verif.PoolAttrs Verif.GenMeta Verif.GenMetaSpec Verif.GenMetaProofs Verif.GenLink Verif.GenMetaEx Verif.GenMetaRefuted Verif.GenEnum.
Require Verif.CppText Verif.CppSpec Verif.CppNumbers Verif.Defaults.
Local Open Scope Z_scope.

(** ** C73: fields *)

(** C73: the member written for a field outside of oneofs has the field's number, the
    element type of its protobuf type, and presence, packing and initial value as the
    features in scope and the options of the generator say. *)
Theorem C73_field o scopes escopes g view msg0 : regular o scopes escopes g -> fp_oneof (g_proto g) = None ->
  exists e c, behaves view msg0 (SOne (emit o g)) (Field (num g) e c) /\ proto_type o scopes escopes g view e /\ proto_card o scopes g view msg0 c.
Proof. intros R. destruct R as [F C Hx Hn Hp Hs Hk Ht Hst Hf Hl]. apply field_meets; try assumption. intros K. apply Hl. apply (fh_closed _ _ _ F). exact K. Qed.
Print Assumptions C73_field.
(** There is no other reading of the text. *)
Theorem C73_one_meaning view msg0 m f f' : behaves view msg0 m f -> behaves view msg0 m f' -> f = f'.
Proof. exact (behaves_unique view msg0 m f f'). Qed.
Print Assumptions C73_one_meaning.
(** The C++ type of an integer field holds exactly the numbers of the field's type. *)
Theorem C73_integer_ranges t : 1 <= t <= 18 -> cpp_range (fst (cpp_type t)) = proto_range t.
Proof. exact (cpp_type_range t). Qed.
Print Assumptions C73_integer_ranges.
(** Keys and values of maps; closed enums are checked there too. *)
Theorem C73_entry o scopes escopes g view msg0 n : faithful scopes escopes g -> g_in_entry g = true ->
  exists e, entry_field view msg0 o n g = Some (Field n e (CPlain true (zero_value msg0 e))) /\
    exists utf8 delim enum,
      (utf8 = true <-> feature ft_utf8 scopes = UTF8_VERIFY) /\ (delim = true <-> feature ft_encoding scopes = DELIMITED) /\
      enum = (if Z.eq_dec (feature ft_enum escopes) ENUM_CLOSED then Some (g_enum g) else None) /\
      proto_elem (fp_type (g_proto g)) utf8 delim view enum (g_ty g) = Some e.
Proof. exact (entry_meets o scopes escopes g view msg0 n). Qed.
Print Assumptions C73_entry.

(** An edition file, and a proto2 file where the option names one field. *)
Example C73_case : Forall (fun x => regular (everywhere false) (ex_sc x) (ex_esc x) x) ex_fields /\
  Forall2 (behaves false (default_msg ex_env)) (emit_message (everywhere false) ex_fields)
    [ Field 1 (EVar VI32) COpt; Field 2 (EEnum (Some [3; 5])) COpt; Field 3 (EVar VI32) (CRep true); Field 4 (EBytes true false) (CPlain false (VBytes []))
    ; Field 5 (EMsg 1 false) (CMap true); Oneof [(6, EBytes true false); (8, EMsg 2 false)]; Field 7 (EEnum (Some [3; 5])) COpt; Field 9 (EVar VU32) (CPlain true (VInt 4)) ].
Proof. split; [exact ex_regular|exact (ex_behaves (default_msg ex_env))]. Qed.
Example C73_case_proto2 msg0 : Forall (fun x => regular only_a (ex2_sc x) (ex2_esc x) x) ex2_fields /\
  Forall2 (behaves false msg0) (emit_message only_a ex2_fields)
    [ Field 1 (EVar VI32) COpt; Field 2 (EEnum None) (CPlain false (VInt 3)); Field 3 (EVar VS64) (CPlain true (VInt (-1)))
    ; Field 4 (EMsg 0 false) (CPlain true (msg0 0%nat)); Field 5 (EMsg 0 true) COpt; Field 6 (EEnum (Some [3; 5])) (CRep false) ].
Proof. split; [exact ex2_regular|exact (ex2_behaves msg0)]. Qed.
Example C73_entry_case : g_in_entry (entry_made 1 TYPE_STRING) = true /\ entry_field false (fun _ => VInt 0) (everywhere false) 1 (entry_made 1 TYPE_STRING) = Some (Field 1 (EBytes true false) (CPlain true (VBytes []))).
Proof. split; reflexivity. Qed.

(** *** Where the generator departs from the schema *)

(** A scope of the option proto2_explicit_presence is compared as a prefix of the name:
    [.p.M.a] also covers the field [p.M.ab]. *)
Theorem C73_scope_prefix_refuted : exists o g, faithful [proto2; none] [proto2] g /\ coherent o [proto2; none] g /\
  ~ covered o g /\ forall msg0, behaves false msg0 (SOne (emit o g)) (Field 1 (EVar VI32) COpt) /\ ~ proto_card o [proto2; none] g false msg0 COpt.
Proof. exact scope_prefix. Qed.
Print Assumptions C73_scope_prefix_refuted.

(** A proto2 string without presence that has a default value starts empty, while its
    default value is not written: a message set to the default is read back as empty. *)
Theorem C73_string_default_refuted : exists o g d, faithful [proto2; none] [proto2] g /\ coherent o [proto2; none] g /\ ~ tracked o [proto2; none] g /\
  g_text g = Some (VBytes d) /\ d <> [] /\ forall msg0, let e := EBytes false false in
  source_elem false (emit o g) = Some e /\ has_option (joined (s_options (emit o g))) OExplicit = false /\
  initial msg0 e (emit o g) = VBytes [] /\ omitted msg0 e (emit o g) = VBytes d.
Proof. exact string_default. Qed.
Print Assumptions C73_string_default_refuted.

(** A required enum field without default value starts with 0, which need not be a
    value of the enum. *)
Theorem C73_required_enum_refuted : exists o g, faithful [proto2; none] [proto2] g /\ coherent o [proto2; none] g /\ ~ In 0 (g_enum g) /\
  forall msg0, behaves false msg0 (SOne (emit o g)) (Field 1 (EEnum (Some (g_enum g))) (CPlain true (VInt 0))) /\ ~ proto_card o [proto2; none] g false msg0 (CPlain true (VInt 0)).
Proof. exact required_enum. Qed.
Print Assumptions C73_required_enum_refuted.

(** A field of a closed enum type that is required by a feature accepts every value. *)
Theorem C73_legacy_required_enum_refuted : exists o scopes g, faithful scopes [proto2] g /\ coherent o scopes g /\ required scopes g /\ ~ flattened o scopes g /\
  forall msg0, behaves false msg0 (SOne (emit o g)) (Field 1 (EEnum None) (CPlain true (VInt 3))) /\ ~ proto_type o scopes [proto2] g false (EEnum None).
Proof. exact legacy_required_enum. Qed.
Print Assumptions C73_legacy_required_enum_refuted.

(** A map field under features.message_encoding = DELIMITED is written as a group;
    protobuf writes maps with a length whatever the feature says. *)
Theorem C73_map_delimited_refuted : exists o scopes escopes g, regular o scopes escopes g /\ g_map g = true /\
  forall msg0, behaves false msg0 (SOne (emit o g)) (Field 1 (EMsg (g_ty g) true) (CMap true)).
Proof. exact map_delimited. Qed.
Print Assumptions C73_map_delimited_refuted.

(** An extension with explicit presence has none: setting it to its default value
    writes nothing. *)
Theorem C73_extension_presence_refuted : exists o g d, faithful [edition; none] [edition] g /\ g_ext g = true /\ fa_explicit (g_attrs g) = true /\
  (forall msg0, behaves false msg0 (SOne (emit_extension o g)) (Field 1 (EVar VI32) (CPlain false (VInt d)))) /\
  enc_msg [MDesc [Field 1 (EVar VI32) (CPlain false (VInt d))] UNone false] 0 (VMsg [[VInt d]] []) = [].
Proof. exact extension_presence. Qed.
Print Assumptions C73_extension_presence_refuted.

(** ** C74: messages *)

(** C74: a struct has one member for every field outside of oneofs and one for every
    oneof, in the order of the first fields. *)
Theorem C74_members o sc esc view msg0 fs : NoDup (map num fs) -> Forall (fun x => regular o (sc x) (esc x) x) fs ->
  exists ms, Forall2 (behaves view msg0) (emit_message o fs) ms /\ Forall2 (described o sc esc view msg0 fs) (leaders [] fs) ms.
Proof. exact (message_meets o sc esc view msg0 fs). Qed.
Print Assumptions C74_members.
(** Every field number belongs to exactly one member. *)
Theorem C74_numbers o sc esc view msg0 fs ms : NoDup (map num fs) -> Forall (fun x => regular o (sc x) (esc x) x) fs ->
  Forall2 (behaves view msg0) (emit_message o fs) ms ->
  NoDup (concat (map numbers ms)) /\ forall n, In n (concat (map numbers ms)) <-> In n (map num fs).
Proof. exact (emitted_numbers o sc esc view msg0 fs ms). Qed.
Print Assumptions C74_numbers.
(** The structs written for a set of messages make a schema for which the theorems about
    encoding and decoding hold, ... *)
Theorem C74_schema o sc esc view unk types E : well_formed o sc esc unk types -> Forall2 (compiled o view unk (default_msg E)) types E -> generated E.
Proof. exact (schema_generated o sc esc view unk types E). Qed.
Print Assumptions C74_schema.
(** ... for instance reading back what was written. *)
Theorem C74_round_trip o sc esc view unk types E utf8_ok maxd limit ty fs v bs : well_formed o sc esc unk types ->
  Forall2 (compiled o view unk (default_msg E)) types E -> nth_error types ty = Some (GStruct fs) -> maxd <= limit ->
  wt_msg E utf8_ok ty v -> canonical E limit 1 ty v -> encode_bytes E utf8_ok maxd ty v = Ok bs -> decode_bytes E utf8_ok limit ty (default_msg E ty) bs = Ok v.
Proof. exact (schema_round_trip o sc esc view unk types E utf8_ok maxd limit ty fs v bs). Qed.
Print Assumptions C74_round_trip.
Example C74_case : well_formed (everywhere false) ex_sc ex_esc UBytes ex_types /\ Forall2 (compiled (everywhere false) false UBytes (default_msg ex_env)) ex_types ex_env /\
  map numbers (m_fields (desc_of ex_env 0)) = [[1]; [2]; [3]; [4]; [5]; [6; 8]; [7]; [9]].
Proof. split; [exact ex_well_formed|]. split; [exact ex_compiled|reflexivity]. Qed.

(** ** C75: the check of closed enums *)

(** C75: is_valid accepts exactly the values of the enum. *)
Theorem C75_is_valid values c : enum_check values = Ok c -> forall v, is_valid c v = true <-> In v values.
Proof. exact (check_exact values c). Qed.
Print Assumptions C75_is_valid.
(** It is generated for every enum whose values are less than 2^31 apart. *)
Theorem C75_generated values : (forall a b, In a values -> In b values -> b - a < 2 ^ 31) -> exists c, enum_check values = Ok c.
Proof. exact (check_total values). Qed.
Print Assumptions C75_generated.
(** For others the generator may subtract ints with an overflow. *)
Theorem C75_overflow_refuted : exists values, Forall (fun v => - 2 ^ 31 <= v < 2 ^ 31) values /\ enum_check values = UB.
Proof. exists [0; - 2 ^ 31]. split; [repeat constructor; lia|reflexivity]. Qed.
Print Assumptions C75_overflow_refuted.
Example C75_case : enum_check [2; 0; 1; 1] = Ok (CRange 0 2) /\ enum_check [5; -1; 0] = Ok (CAmong [-1; 0; 5]) /\ enum_check [] = Ok CNever.
Proof. split; [reflexivity|]. split; reflexivity. Qed.

(** ** C76: default values in generated code and in dynamic messages *)
Import CppText CppSpec CppNumbers Defaults.

(** C76: for an integer as protoc writes it, the generated expression and the dynamic
    message have the value the text denotes. *)
Theorem C76_signed w t z : w = 32 \/ w = 64 -> decimal_text t z -> - 2 ^ (w - 1) <= z < 2 ^ (w - 1) ->
  (exists e, signed_integer t w = Some e /\ integer_expression e = Some (signed_type w, z)) /\ parse_default true w t = Some z.
Proof.
  intros Hw H R. split; [apply (signed_denotes w t z Hw (decimal_integer t z H) R)|apply parse_signed; [destruct Hw; lia|exact H|exact R]].
Qed.
Print Assumptions C76_signed.
Theorem C76_unsigned w t z : w = 32 \/ w = 64 -> decimal_text t z -> hd 0 t <> 45 -> 0 <= z < 2 ^ w ->
  (exists e, unsigned_integer t w = Some e /\ integer_expression e = Some (unsigned_type w, z)) /\ parse_default false w t = Some z.
Proof.
  intros Hw H M R. split; [apply (unsigned_denotes w t z Hw (decimal_magnitude t z H M)); apply R|apply parse_unsigned; [destruct Hw; lia|exact H|exact R|exact M]].
Qed.
Print Assumptions C76_unsigned.
(** A dynamic message accepts decimal digits, after a minus if the type is signed, that
    denote a number of the type, and nothing else. *)
Theorem C76_dynamic_exact sgn w t z : t <> [] -> (parse_default sgn w t = Some z <->
  exists l ds, digits_of 10 l ds /\ in_type sgn w z /\ ((t = l /\ z = number 10 ds) \/ (sgn = true /\ t = 45 :: l /\ z = - number 10 ds))).
Proof. exact (parse_exact sgn w t z). Qed.
Print Assumptions C76_dynamic_exact.
(** The default value of a bytes field is right exactly if its text needs no escapes. *)
Theorem C76_bytes t v r : all_bytes t -> unescape t = Some v ->
  (read_literal (bytes_default_literal t ++ r) = Some (v, r) <-> ~ In 92 t) /\ (bytes_default_dynamic t = v <-> ~ In 92 t).
Proof. intros A U. split; [exact (bytes_default_exact t v r A U)|exact (bytes_default_exact_dynamic t v U)]. Qed.
Print Assumptions C76_bytes.
Example C76_case : decimal_text (txt "-2147483648") (- 2 ^ 31) /\ parse_default true 32 (txt "-2147483648") = Some (- 2 ^ 31) /\ parse_default true 32 (txt "2147483648") = None /\
  parse_default false 64 (txt "18446744073709551615") = Some (2 ^ 64 - 1) /\ parse_default false 64 (txt "-1") = None /\ unescape (txt "a\000\n") = Some [97; 0; 10].
Proof.
  split; [|repeat (split; [reflexivity|]); reflexivity]. apply (DNeg 50 (txt "147483648") [2; 1; 4; 7; 4; 8; 3; 6; 4; 8]); [lia|]. split; [discriminate|]. repeat (constructor; [split; [reflexivity|lia]|]). constructor.
Qed.

(** The bytes of a default value [\000] are a backslash and three zeros. *)
Theorem C76_bytes_default_refuted : exists t v, all_bytes t /\ unescape t = Some v /\ read_literal (bytes_default_literal t) <> Some (v, []) /\ bytes_default_dynamic t <> v.
Proof.
  exists (txt "\000"), [0]. split; [repeat constructor; cbn; unfold is_byte; lia|]. split; [reflexivity|]. split; discriminate.
Qed.
Print Assumptions C76_bytes_default_refuted.
(** A text with a leading zero, which protoc does not write, is octal for one and
    decimal for the other. *)
Theorem C76_octal_refuted : exists t e, signed_integer t 32 = Some e /\ integer_expression e = Some (signed_type 32, 8) /\ parse_default true 32 t = Some 10.
Proof. exists (txt "010"), (txt "010"). split; [reflexivity|]. split; reflexivity. Qed.
Print Assumptions C76_octal_refuted.
