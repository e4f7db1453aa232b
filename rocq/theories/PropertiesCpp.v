(** Text the code generator emits: C52 to C55, C59, C60. *)
From Coq Require Import Ascii String.
Require Import Verif.Bits Verif.CppText Verif.CppSpec Verif.CppProofs Verif.CppNames Verif.CppNumbers.
Local Open Scope list_scope.

(** C52.  The literal denotes the bytes it was made from, whatever follows it; no trigraph
    or line splice touches it, and it consists of printable ASCII characters. *)
Theorem C52_string_literal bs rest : all_bytes bs ->
  read_literal (string_literal bs ++ rest) = Some (bs, rest) /\
  phase1 (string_literal bs ++ rest) = string_literal bs ++ phase1 rest /\
  (forall a b, string_literal bs = a ++ 92 :: b -> blank_line_end (b ++ rest) = false) /\
  Forall (fun c => 32 <= c < 127) (string_literal bs).
Proof.
  exact (fun H => conj (literal_denotes bs rest H) (conj (literal_phase1 bs rest H)
    (conj (fun a b => literal_no_splice bs rest a b H) (literal_printable bs H)))).
Qed.
Print Assumptions C52_string_literal.
(** NUL before a digit, two question marks and an equals sign, a quote, a newline, 255. *)
Example C52_case : string_literal [0; 49; 63; 63; 61; 34; 10; 92; 255] = txt """\0001\?\?=\""\n\\\377""".
Proof. reflexivity. Qed.

(** C53.  The text of a comment ends exactly at the newline the generator puts after it:
    it has no line end of its own, no trigraph, and no backslash that splices the next
    line.  Different texts give different comments. *)
Theorem C53_comment bs rest : all_bytes bs ->
  Forall (fun c => 32 <= c < 127) (comment_text bs) /\
  phase1 (comment_text bs ++ rest) = comment_text bs ++ phase1 rest /\
  (forall a b, comment_text bs = a ++ 92 :: b -> blank_line_end (b ++ rest) = false).
Proof.
  exact (fun H => conj (Forall_impl _ (fun c K => proj1 K) (comment_chars bs H))
    (conj (comment_phase1 bs rest H) (fun a b => comment_no_splice bs rest a b H))).
Qed.
Print Assumptions C53_comment.
Theorem C53_comment_injective a b : all_bytes a -> all_bytes b -> comment_text a = comment_text b -> a = b.
Proof. exact (comment_injective a b). Qed.
Print Assumptions C53_comment_injective.
Example C53_case : comment_text (txt "a\" ++ [10; 63; 63; 47]) = txt "a\134\n\077\077/".
Proof. reflexivity. Qed.

(** C54.  A signed (32 or 64 bit) default is accepted iff its text denotes a value of the
    type; the emitted expression then has that type and that value, without overflow. *)
Theorem C54_signed_value w t z : w = 32 \/ w = 64 -> integer_text t z -> - 2 ^ (w - 1) <= z < 2 ^ (w - 1) ->
  exists e, signed_integer t w = Some e /\ integer_expression e = Some (if w =? 64 then I64 else I32, z).
Proof. exact (signed_denotes w t z). Qed.
Print Assumptions C54_signed_value.
Theorem C54_signed_accepts w t e : w = 32 \/ w = 64 -> signed_integer t w = Some e ->
  exists z, integer_text t z /\ - 2 ^ (w - 1) <= z < 2 ^ (w - 1).
Proof. exact (signed_accepts w t e). Qed.
Print Assumptions C54_signed_accepts.
Theorem C54_unsigned_value w t m : w = 32 \/ w = 64 -> magnitude t m -> m < 2 ^ w ->
  exists e, unsigned_integer t w = Some e /\ integer_expression e = Some (if w =? 64 then U64 else U32, m).
Proof. exact (unsigned_denotes w t m). Qed.
Print Assumptions C54_unsigned_value.
Theorem C54_unsigned_accepts w t e : w = 32 \/ w = 64 -> unsigned_integer t w = Some e -> exists m, magnitude t m /\ 0 <= m < 2 ^ w.
Proof. exact (unsigned_accepts w t e). Qed.
Print Assumptions C54_unsigned_accepts.
Example C54_case_min : integer_text (txt "-9223372036854775808") (- 2 ^ 63) /\
  signed_integer (txt "-9223372036854775808") 64 = Some (txt "-9223372036854775807LL-1").
Proof.
  split; [|vm_compute; reflexivity]. change (txt "-9223372036854775808") with (45 :: txt "9223372036854775808"). change (- 2 ^ 63) with (- (2 ^ 63)). apply TMinus.
  change (2 ^ 63) with (number 10 [9;2;2;3;3;7;2;0;3;6;8;5;4;7;7;5;8;0;8]). apply MDec; [discriminate|].
  split; [discriminate|]. repeat (constructor; [split; [reflexivity|lia]|]). constructor.
Qed.
Example C54_case_hex : integer_text (txt "-0x1F") (-31) /\ signed_integer (txt "-0x1F") 32 = Some (txt "-0x1F").
Proof.
  split; [|vm_compute; reflexivity]. change (txt "-0x1F") with (45 :: 48 :: 120 :: txt "1F"). change (-31) with (- number 16 [1; 15]). apply TMinus.
  apply MHex; [tauto|]. split; [discriminate|]. repeat (constructor; [split; [reflexivity|lia]|]). constructor.
Qed.
(** Floating defaults: "nan", "inf", "-inf", or a decimal text that is finite in the type;
    the emitted expression has the sign, the type, and exactly the same decimal value. *)
Theorem C54_floating_value finite t is_float e : floating finite t is_float = Some e ->
  (t = txt "nan" /\ e = txt "std::numeric_limits<" ++ (if is_float then txt "float" else txt "double") ++ txt ">::quiet_NaN()") \/
  (exists neg : bool, t = (if neg then [45] else []) ++ txt "inf" /\
     e = (if neg then [45] else []) ++ txt "std::numeric_limits<" ++ (if is_float then txt "float" else txt "double") ++ txt ">::infinity()") \/
  exists (neg : bool) d d', t = (if neg then [45] else []) ++ spelling d /\ legal_decimal d /\ finite t is_float = true /\
     same_value d d' /\ float_expression is_float neg d' e.
Proof. exact (floating_denotes finite t is_float e). Qed.
Print Assumptions C54_floating_value.
Theorem C54_floating_accepts finite (neg : bool) d is_float : legal_decimal d -> finite ((if neg then [45] else []) ++ spelling d) is_float = true ->
  exists e, floating finite ((if neg then [45] else []) ++ spelling d) is_float = Some e.
Proof. exact (floating_accepts finite neg d is_float). Qed.
Print Assumptions C54_floating_accepts.
Example C54_case_float : floating (fun _ _ => true) (txt "-12") true = Some (txt "-12.0F") /\
  floating (fun _ _ => true) (txt "1.5e-3") false = Some (txt "static_cast<double>(1.5e-3)") /\
  floating (fun _ _ => true) (txt "1e") false = None.
Proof. repeat split; reflexivity. Qed.

(** C55.  Names are accepted iff they have the form of a C++ identifier and are not
    reserved; the result is an identifier that is neither a keyword nor reserved. *)
Theorem C55_identifier n : ((exists r, from_proto n = Some r) <-> identifier n /\ ~ reserved n) /\
  (forall r, from_proto n = Some r -> usable r).
Proof. exact (conj (from_proto_accepts n) (from_proto_usable n)). Qed.
Print Assumptions C55_identifier.
(** Two names give the same identifier only if one is a keyword and the other that keyword
    with an underscore. *)
Theorem C55_distinct a b r : from_proto a = Some r -> from_proto b = Some r ->
  a = b \/ (In a keywords /\ b = a ++ [95]) \/ (In b keywords /\ a = b ++ [95]).
Proof. exact (from_proto_collision a b r). Qed.
Print Assumptions C55_distinct.
Theorem C55_distinct_refuted : exists a b r, a <> b /\ from_proto a = Some r /\ from_proto b = Some r.
Proof. exists (txt "class"), (txt "class_"), (txt "class_"). split; [discriminate|split; vm_compute; reflexivity]. Qed.
Print Assumptions C55_distinct_refuted.
(** The names derived for oneofs and nested scopes are usable as well; those of nested
    scopes are distinct for distinct messages, those of oneofs up to a final underscore. *)
Theorem C55_derived n w : identifier n -> ~ reserved n -> In w [txt "oneof_case"; txt "oneof_numbers"; txt "nested"] ->
  usable (append_word n w) /\ usable (disambiguated_with n w) /\ disambiguated_with n w <> n.
Proof.
  exact (fun I R W => conj (append_word_usable n w I R (suffix_words w W)) (conj (disambiguated_usable n w I R (suffix_words w W))
    (disambiguated_differs n w (suffix_words_nonempty w W)))).
Qed.
Print Assumptions C55_derived.
Theorem C55_derived_distinct a b :
  (disambiguated_with a (txt "nested") = disambiguated_with b (txt "nested") -> a = b) /\
  (append_word a (txt "oneof_case") = append_word b (txt "oneof_case") -> a = b \/ b = a ++ [95] \/ a = b ++ [95]).
Proof.
  exact (conj (disambiguated_injective a b (txt "nested") ltac:(discriminate) eq_refl) (append_word_injective a b (txt "oneof_case"))).
Qed.
Print Assumptions C55_derived_distinct.
Example C55_case : from_proto (txt "namespace") = Some (txt "namespace_") /\ from_proto (txt "_Upper") = None /\
  from_proto (txt "foo_1") = Some (txt "foo_1") /\ usable (txt "foo_1") /\
  append_word (txt "namespace_") (txt "oneof_case") = txt "namespace_oneof_case" /\ disambiguated_with (txt "Foo") (txt "nested") = txt "Foo_".
Proof.
  split; [vm_compute; reflexivity|]. split; [vm_compute; reflexivity|]. split; [vm_compute; reflexivity|]. split; [|split; vm_compute; reflexivity].
  apply (from_proto_usable (txt "foo_1")). vm_compute. reflexivity.
Qed.

(** C59.  An include path is quoted, has no quote, backslash or control character inside,
    and is the directory, the file name without extension and the suffix, with backslashes
    turned into slashes. *)
Theorem C59_include_path file dir suffix p : all_bytes file -> all_bytes dir -> all_bytes suffix -> include_path file dir suffix = Some p ->
  exists stem ext path, file = stem ++ 46 :: ext /\ ~ In 46 ext /\ p = [34] ++ path ++ [34] /\ path <> [] /\
    Forall (fun b => 32 <= b < 256 /\ b <> 34 /\ b <> 92) path /\
    Forall2 (fun a b => b = a \/ (a = 92 /\ b = 47)) ((match dir with [] => [] | _ => dir ++ [47] end) ++ stem ++ suffix) path.
Proof. exact (include_path_spec file dir suffix p). Qed.
Print Assumptions C59_include_path.
Example C59_case : include_path (txt "a\b.c.proto") (txt "gen") (txt ".pb.hpp") = Some (txt """gen/a/b.c.pb.hpp""").
Proof. reflexivity. Qed.

(** C60.  A dotted name becomes a qualified name with one usable identifier per segment;
    the namespace of a file has one usable identifier per path component. *)
Theorem C60_qualified_name n q : from_dotted n = Some q ->
  n = [] /\ q = [] \/
  exists names segs, n = unsplit 46 names /\ names <> [] /\ Forall (fun w => ~ In 46 w) names /\
    Forall2 (fun w s => from_proto w = Some s) names segs /\ Forall usable segs /\ qualified segs q.
Proof. exact (from_dotted_spec n q). Qed.
Print Assumptions C60_qualified_name.
Theorem C60_file_namespace file over q : file_namespace file over = Some q ->
  exists segs, qualified (txt "hpp_proto" :: txt "file_descriptors" :: segs) q /\ Forall usable segs /\
    length segs = length (split 47 file).
Proof. exact (file_namespace_spec file over q). Qed.
Print Assumptions C60_file_namespace.
(** Different files can share a namespace; hence the option that overrides it. *)
Theorem C60_file_namespace_distinct_refuted : exists a b q, a <> b /\ file_namespace a None = Some q /\ file_namespace b None = Some q.
Proof.
  exists (txt "a-b.proto"), (txt "a_b.proto"), (txt "hpp_proto::file_descriptors::a_b_proto").
  split; [discriminate|split; vm_compute; reflexivity].
Qed.
Print Assumptions C60_file_namespace_distinct_refuted.
Example C60_case : from_dotted (txt "foo.class.Bar") = Some (txt "foo::class_::Bar") /\
  file_namespace (txt "google/protobuf/2any.proto") None = Some (txt "hpp_proto::file_descriptors::google::protobuf::_2any_proto").
Proof. split; vm_compute; reflexivity. Qed.
