(** Validation of the names of generated code (src/protoc-plugin/hpp_generator.cpp 74-106,
    850-1120), and the names that are declared in each C++ scope (1186-1235, 1343-1505,
    1736-1780, 2390-2430).

    Simplifications.  A diagnostic is a bool, [true] if nothing is recorded: generate
    (2534-2571) emits nothing otherwise.  The namespace of a file is the list of its
    segments; which one a package has is C60.  Of maps used only to detect that a
    key is inserted twice the keys are kept. *)
From Coq Require Import Ascii String.
From Coq Require Import ZArith List Bool Lia.
Import ListNotations.
Require Import Verif.Bits Verif.CppText.
Local Open Scope string_scope.
Local Open Scope list_scope.
Local Open Scope Z_scope.

(** ** Descriptors, with the names in the .proto files *)
Record nenum := NEnum { ne_name : bytes; ne_values : list bytes }.
Record nfield := NField { nf_name : bytes; nf_number : Z; nf_oneof : option nat }.
Inductive nmsg := NMsg (full name : bytes) (entry ranges : bool) (fields : list nfield) (oneofs : list bytes) (msgs : list nmsg) (enums : list nenum) (exts : list bytes).
Definition n_full (m : nmsg) := let 'NMsg f _ _ _ _ _ _ _ _ := m in f.
Definition n_name (m : nmsg) := let 'NMsg _ n _ _ _ _ _ _ _ := m in n.
Definition n_entry (m : nmsg) := let 'NMsg _ _ e _ _ _ _ _ _ := m in e.
Definition n_ranges (m : nmsg) := let 'NMsg _ _ _ r _ _ _ _ _ := m in r.
Definition n_fields (m : nmsg) := let 'NMsg _ _ _ _ f _ _ _ _ := m in f.
Definition n_oneofs (m : nmsg) := let 'NMsg _ _ _ _ _ o _ _ _ := m in o.
Definition n_msgs (m : nmsg) := let 'NMsg _ _ _ _ _ _ l _ _ := m in l.
Definition n_enums (m : nmsg) := let 'NMsg _ _ _ _ _ _ _ e _ := m in e.
Definition n_exts (m : nmsg) := let 'NMsg _ _ _ _ _ _ _ _ x := m in x.
Record nservice := NService { ns_name : bytes; ns_methods : list bytes }.
Record nfile := NFile { nl_ns : list bytes; nl_package : bytes; nl_msgs : list nmsg; nl_enums : list nenum; nl_exts : list bytes; nl_services : list nservice }.

(** ** Identifiers *)
(** cpp_identifier, 74-81, and whether it records nothing *)
Definition cpp (n : bytes) : bytes := match from_proto n with Some r => r | None => txt "invalid_cpp_identifier" end.
Definition cpp_ok (n : bytes) : bool := match from_proto n with Some _ => true | None => false end.
(** 83-85 *)
Definition helper (n : bytes) : bool := same n (txt "message_type_url") || same n (txt "pb_meta") || same n (txt "is_valid").
(** 97-106 *)
Definition metadata (n : bytes) : bool :=
  existsb (same n) (map txt ["method_name"; "client_streaming"; "server_streaming"; "rpc_type"; "ordinal"; "request_t"; "response_t"]).
(** oneof_descriptor, 423-425; message_descriptor, 444 *)
Definition case_name (o : bytes) : bytes := append_word (cpp o) (cpp (txt "oneof_case")).
Definition table_name (o : bytes) : bytes := append_word (cpp o) (cpp (txt "oneof_numbers")).
Definition scope_name (n : bytes) : bytes := disambiguated_with (cpp n) (cpp (txt "nested")).
(** 499-502 *)
Definition well_known (full : bytes) : bool := existsb (same full) (map txt ["google.protobuf.Duration"; "google.protobuf.Timestamp"; "google.protobuf.FieldMask"]).

(** ** Validation *)
(** Insertion of the keys into a map that has the keys [seen]. *)
Fixpoint inserted (seen names : list bytes) : bool :=
  match names with [] => true | n :: t => negb (existsb (same n) seen) && inserted (n :: seen) t end.

(** is_fixed_message_member, 860-870 *)
Definition fixed_member (m : nmsg) (n : bytes) : bool :=
  same n (txt "Traits") || same n (txt "hpp_proto_traits_type") || same n (txt "unknown_fields_") ||
  (same n (txt "glaze_reflect") && well_known (n_full m)) ||
  (n_ranges m && (same n (txt "get_extension") || same n (txt "set_extension") || same n (txt "has_extension"))).
(** is_fixed_extension_member, 872-874 *)
Definition fixed_extension (n : bytes) : bool := same n (txt "Traits") || same n (txt "value_type") || same n (txt "value") || same n (txt "pb_meta").
(** validate_enum_values, 876-887 *)
Definition enum_ok (e : nenum) : bool := inserted [] (map cpp (ne_values e)) && forallb cpp_ok (ne_values e).

(** message_schema_uses_name, 854-858 *)
Definition field_names (m : nmsg) : list bytes := map (fun f => cpp (nf_name f)) (n_fields m).
Definition msg_names (l : list nmsg) : list bytes := map (fun x => cpp (n_name x)) l.
Definition enum_names (l : list nenum) : list bytes := map (fun x => cpp (ne_name x)) l.
Definition schema_names (m : nmsg) : list bytes :=
  field_names m ++ msg_names (n_msgs m) ++ enum_names (n_enums m) ++ map cpp (n_oneofs m) ++ map cpp (n_exts m).
(** validate_message_members, 897-927 *)
Definition member_ok (m : nmsg) (in_namespace extension : bool) (n : bytes) : bool :=
  negb (fixed_member m n) && negb (in_namespace && helper n) && negb (extension && fixed_extension n) && negb (same n (cpp (n_name m))).
Definition members_ok (m : nmsg) : bool :=
  forallb (member_ok m false false) (field_names m) && forallb (member_ok m true false) (msg_names (n_msgs m)) &&
  forallb (member_ok m true false) (enum_names (n_enums m)) && forallb (member_ok m false false) (map cpp (n_oneofs m)) &&
  forallb (member_ok m false true) (map cpp (n_exts m)) && inserted [] (schema_names m).
(** validate_oneof_helpers, 929-940 *)
Definition oneof_ok (m : nmsg) (o : bytes) : bool :=
  negb (same (case_name o) (cpp (n_name m)) || existsb (same (case_name o)) (schema_names m)) &&
  negb (same (table_name o) (cpp (n_name m)) || existsb (same (table_name o)) (schema_names m)).
(** validate_namespace_declarations, 942-966 *)
Definition both_names (l : list nmsg) : list bytes := flat_map (fun x => [cpp (n_name x); scope_name (n_name x)]) l.
Definition nested_ok (m : nmsg) : bool := inserted [] (both_names (n_msgs m) ++ enum_names (n_enums m) ++ map cpp (n_exts m)).
(** The descriptors of a message record their names that are not identifiers (249, 402, 423, 443). *)
Definition spelled (m : nmsg) : bool :=
  cpp_ok (n_name m) && forallb (fun f => cpp_ok (nf_name f)) (n_fields m) && forallb cpp_ok (n_oneofs m) &&
  forallb (fun e => cpp_ok (ne_name e)) (n_enums m) && forallb cpp_ok (n_exts m).
(** validate_generated_names of a message, 968-984 *)
Fixpoint msg_ok (m : nmsg) : bool :=
  spelled m && negb (fixed_member m (cpp (n_name m)) || helper (cpp (n_name m))) && members_ok m && forallb (oneof_ok m) (n_oneofs m) && nested_ok m &&
  forallb enum_ok (n_enums m) &&
  match m with NMsg _ _ _ _ _ _ msgs _ _ => forallb msg_ok msgs end.

(** validate_generated_names of a service, 1053-1072: services without methods are not generated. *)
Definition generated (l : list nservice) : list nservice := filter (fun s => match ns_methods s with [] => false | _ => true end) l.
Definition service_ok (s : nservice) : bool :=
  cpp_ok (ns_name s) && negb (helper (cpp (ns_name s))) &&
  forallb (fun n => cpp_ok n && negb (metadata (cpp n))) (ns_methods s) && inserted [] (map cpp (ns_methods s)).

(** validate_generated_names of a pool, 986-1077 *)
(** What a file adds to the declarations of its namespace *)
Definition file_names (f : nfile) : list bytes :=
  both_names (nl_msgs f) ++ map cpp (nl_exts f) ++ enum_names (nl_enums f) ++ map (fun s => cpp (ns_name s)) (generated (nl_services f)).
Definition underscored (n : bytes) : bool := starts [95] n.
(** Keys of the map of maps *)
Definition same_key (a b : list bytes * bytes) : bool := (if list_eq_dec (list_eq_dec Z.eq_dec) (fst a) (fst b) then true else false) && same (snd a) (snd b).
Fixpoint inserted_in (seen keys : list (list bytes * bytes)) : bool :=
  match keys with [] => true | k :: t => negb (existsb (same_key k) seen) && inserted_in (k :: seen) t end.
(** 1017-1024: [seen] is namespace_packages. *)
Fixpoint packages_ok (seen : list (list bytes * bytes)) (files : list nfile) : bool :=
  match files with
  | [] => true
  | f :: t =>
      match find (fun p => if list_eq_dec (list_eq_dec Z.eq_dec) (fst p) (nl_ns f) then true else false) seen with
      | Some p => same (snd p) (nl_package f) && packages_ok seen t
      | None => packages_ok ((nl_ns f, nl_package f) :: seen) t
      end
  end.
Definition file_ok (f : nfile) : bool :=
  negb (match nl_ns f with s :: _ => underscored s | [] => existsb underscored (file_names f) end) &&
  forallb (fun n => cpp_ok n && negb (fixed_extension (cpp n) || helper (cpp n))) (nl_exts f) &&
  forallb (fun e => cpp_ok (ne_name e) && enum_ok e && negb (helper (cpp (ne_name e)))) (nl_enums f) &&
  forallb service_ok (generated (nl_services f)) && forallb msg_ok (nl_msgs f).
Definition pool_ok (files : list nfile) : bool :=
  forallb file_ok files && packages_ok [] files && inserted_in [] (flat_map (fun f => map (pair (nl_ns f)) (file_names f)) files).

(** ** What is declared *)
(** process of a message, 1446-1505, and of a oneof, 1343-1380.  The fields of a oneof are
    those with its index. *)
Definition alternatives (m : nmsg) (i : nat) : list nfield :=
  filter (fun f => match nf_oneof f with Some j => Nat.eqb i j | None => false end) (n_fields m).
Definition field_members (m : nmsg) (f : nfield) : list bytes :=
  match nf_oneof f with
  | None => [cpp (nf_name f)]
  | Some i =>
      match nth_error (n_oneofs m) i, alternatives m i with
      | Some o, first :: rest =>
          if nf_number f =? nf_number first then
            match rest with
            | [] => [cpp (nf_name first)]
            | _ => case_name o :: map (fun g => cpp (nf_name g)) (first :: rest) ++ [table_name o; cpp o]
            end
          else []
      | _, _ => []
      end
  end.
(** The scope of a struct: the parameter of the template, its own name, the types of the
    schema, constants, members and functions (no function is overloaded). *)
Definition struct_names (m : nmsg) : list bytes :=
  txt "Traits" :: cpp (n_name m) :: txt "hpp_proto_traits_type" :: enum_names (n_enums m) ++
  (if well_known (n_full m) then [txt "glaze_reflect"] else []) ++
  msg_names (filter (fun x => negb (n_entry x)) (n_msgs m)) ++ flat_map (field_members m) (n_fields m) ++ map cpp (n_exts m) ++
  txt "unknown_fields_" :: (if n_ranges m then map txt ["get_extension"; "set_extension"; "has_extension"] else []).

(** The functions that are declared in namespaces, overloaded for each message or enum. *)
Definition functions : list bytes := map txt ["message_type_url"; "pb_meta"; "is_valid"].
(** The namespace of the types nested in a message, 1431-1444, 1620-1631; maps have no struct. *)
Definition shown_msgs (l : list nmsg) : list nmsg := filter (fun x => negb (n_entry x)) l.
Definition nested_names (m : nmsg) : list bytes := functions ++ both_names (shown_msgs (n_msgs m)) ++ enum_names (n_enums m).
(** The namespace of a service, 2391-2428 *)
Definition service_names (s : nservice) : list bytes := map cpp (ns_methods s) ++ [txt "_methods"].

(** Qualified names of the types and namespaces in the namespace that holds a message, relative
    to it; entries of maps and namespaces without types, for which nothing is emitted, are included. *)
Fixpoint paths (m : nmsg) : list (list bytes) :=
  [cpp (n_name m)] :: [scope_name (n_name m)] :: map (cons (scope_name (n_name m)))
    (match m with NMsg _ _ _ _ _ _ msgs enums _ => flat_map paths msgs ++ map (fun e => [cpp (ne_name e)]) enums end).
Definition file_paths (f : nfile) : list (list bytes) :=
  map (app (nl_ns f)) (flat_map paths (nl_msgs f) ++ map (fun n => [n]) (map cpp (nl_exts f) ++ enum_names (nl_enums f) ++ map (fun s => cpp (ns_name s)) (generated (nl_services f)))).

(** ** Names of file descriptors *)
(** qualified_entity_is_prefix_of and validate_file_descriptor_names, 1079-1120; [names] are
    those of the files that have messages. *)
Definition entity_prefix (entity name : bytes) : bool :=
  (Z.of_nat (length entity) + 1 <? Z.of_nat (length name)) && starts entity name && starts colons (skipn (length entity) name).
Definition collide (a b : bytes) : bool := same a b || entity_prefix a b || entity_prefix b a.
Fixpoint apart (names : list bytes) : bool := match names with [] => true | n :: t => negb (existsb (collide n) t) && apart t end.
Definition descriptor_names (ns : bytes) : list bytes := [append_segment ns (txt "file_descriptor_"); append_segment ns (txt "file_descriptor_set")].
Definition descriptors_ok (spaces : list bytes) : bool := apart (flat_map descriptor_names spaces).
