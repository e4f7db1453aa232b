(** Properties of the names in generated code. *)
From Coq Require Import Ascii String.
From Coq Require Import ZArith List Bool.
Import ListNotations.
Require Import Verif.Bits Verif.CppText Verif.CppSpec Verif.GenNameCheck Verif.GenNameProofs Verif.GenNamePaths Verif.GenNameEx.
Local Open Scope string_scope.
Local Open Scope list_scope.
Local Open Scope Z_scope.

(** ** C85: no name is declared twice in a scope *)
(** In the struct of a message, at any depth, if field numbers are distinct and no two
    oneofs with several fields have names that differ in a final underscore, ... *)
Theorem C85_struct files f m x : pool_ok files = true -> In f files -> In m (nl_msgs f) -> within m x ->
  NoDup (map nf_number (n_fields x)) -> ~ twins x -> NoDup (struct_names x).
Proof. exact (fun H Hf Hm Hx => struct_nodup x (within_ok m x (proj1 (file_parts f (proj1 (pool_parts files H) f Hf)) m Hm) Hx)). Qed.
Print Assumptions C85_struct.
(** ... which the code does not detect, ... *)
Theorem C85_struct_refuted : pool_ok [twin_file] = true /\ NoDup (map nf_number (n_fields twin_msg)) /\ ~ NoDup (struct_names twin_msg).
Proof. exact twin_refuted. Qed.
Print Assumptions C85_struct_refuted.
(** ... in the namespace of its nested types, ... *)
Theorem C85_nested files f m x : pool_ok files = true -> In f files -> In m (nl_msgs f) -> within m x -> NoDup (nested_names x).
Proof. exact (fun H Hf Hm Hx => nested_nodup x (within_ok m x (proj1 (file_parts f (proj1 (pool_parts files H) f Hf)) m Hm) Hx)). Qed.
Print Assumptions C85_nested.
(** which are those of the messages, except the entries of maps, and of the enums, ... *)
Theorem C85_nested_declared m n : In n (nested_names m) <->
  In n functions \/ (exists x, In x (n_msgs m) /\ n_entry x = false /\ (n = cpp (n_name x) \/ n = scope_name (n_name x))) \/ exists e, In e (n_enums m) /\ n = cpp (ne_name e).
Proof. exact (nested_declared m n). Qed.
Print Assumptions C85_nested_declared.
(** ... in a namespace that files share, ... *)
Theorem C85_namespace files ns : pool_ok files = true -> NoDup (functions ++ flat_map file_names (filter (same_ns ns) files)).
Proof. exact (namespace_nodup files ns). Qed.
Print Assumptions C85_namespace.
(** ... in enums ... *)
Theorem C85_enum files f m x e : pool_ok files = true -> In f files -> In e (nl_enums f) \/ (In m (nl_msgs f) /\ within m x /\ In e (n_enums x)) -> NoDup (map cpp (ne_values e)).
Proof.
  intros H Hf He. destruct (file_parts f (proj1 (pool_parts files H) f Hf)) as (Hm & _ & K & _). apply enum_nodup. destruct He as [He|(Hi & Hx & He)]; [exact (K e He)|].
  pose proof (msg_ok_parts x (within_ok m x (Hm m Hi) Hx)) as (_ & _ & _ & _ & _ & E & _). rewrite forallb_forall in E. exact (E e He).
Qed.
Print Assumptions C85_enum.
(** ... and in the namespaces of services, unless a method has the name of the list of methods. *)
Theorem C85_service files f s : pool_ok files = true -> In f files -> In s (generated (nl_services f)) -> ~ In (txt "_methods") (ns_methods s) -> NoDup (service_names s).
Proof. exact (fun H Hf Hs => service_nodup s (proj1 (proj2 (file_parts f (proj1 (pool_parts files H) f Hf))) s Hs)). Qed.
Print Assumptions C85_service.
Theorem C85_service_refuted : pool_ok [methods_file] = true /\ ~ NoDup (service_names (NService (txt "S") [txt "_methods"])).
Proof. exact methods_refuted. Qed.
Print Assumptions C85_service_refuted.
(** Schemas are refused for names that are not emitted: of a field [optional int32 Foo] that
    of the oneof protoc makes up for it. *)
Theorem C85_refused_refuted : pool_ok [optional_file] = false /\ struct_names optional_msg = map txt ["Traits"; "M"; "hpp_proto_traits_type"; "Foo"; "unknown_fields_"] /\
  Forall usable (struct_names optional_msg) /\ NoDup (struct_names optional_msg).
Proof. exact optional_refuted. Qed.
Print Assumptions C85_refused_refuted.
Example C85_case : pool_ok [ex_file] = true /\ In ex_outer (nl_msgs ex_file) /\ within ex_outer ex_outer /\ NoDup (map nf_number (n_fields ex_outer)) /\ ~ twins ex_outer /\
  struct_names ex_outer = map txt ["Traits"; "Outer"; "hpp_proto_traits_type"; "Color"; "Inner"; "table"; "pick_oneof_case"; "a"; "class_"; "pick_oneof_numbers"; "pick"; "c"; "extra";
  "unknown_fields_"; "get_extension"; "set_extension"; "has_extension"].
Proof. split; [exact ex_ok|]. split; [left; reflexivity|]. split; [constructor|]. split; [exact ex_numbers|]. split; [exact ex_no_twins|exact ex_names]. Qed.

(** ** C86: types and namespaces have names of their own *)
(** If no package continues the namespace of a file with a name that the file declares, the
    qualified names of types and of the namespaces of messages and services are
    distinct, and no package is in a namespace of that name. *)
Theorem C86_distinct files : pool_ok files = true -> separated files -> NoDup (flat_map file_paths files).
Proof. exact (all_paths_nodup files). Qed.
Print Assumptions C86_distinct.
Theorem C86_packages files f g p k : separated files -> In f files -> In g files -> In p (file_paths f) -> firstn k (nl_ns g) <> p.
Proof. exact (path_not_namespace files f g p k). Qed.
Print Assumptions C86_packages.
(** A namespace is that of one package. *)
Theorem C86_one_package files f g : pool_ok files = true -> In f files -> In g files -> nl_ns f = nl_ns g -> nl_package f = nl_package g.
Proof. exact (one_package files f g). Qed.
Print Assumptions C86_one_package.
(** The code does not detect it: foo.A.B and foo.A_.B become one struct, the message foo.class
    and the package foo.class_ have one name. *)
Theorem C86_distinct_refuted :
  (pool_ok [nested_file; package_file] = true /\ In [txt "foo"; txt "A_"; txt "B"] (file_paths nested_file) /\ In [txt "foo"; txt "A_"; txt "B"] (file_paths package_file) /\
    ~ NoDup (flat_map file_paths [nested_file; package_file])) /\
  pool_ok [keyword_file; class_file] = true /\ In (nl_ns class_file) (file_paths keyword_file).
Proof. exact (conj packages_refuted class_refuted). Qed.
Print Assumptions C86_distinct_refuted.
Example C86_case : pool_ok [ex_file] = true /\ separated [ex_file] /\ In (map txt ["foo"; "Outer_"; "Inner_"; "Kind"]) (file_paths ex_file).
Proof. split; [exact ex_ok|]. split; [exact ex_separated|]. vm_compute. tauto. Qed.

(** ** C87: file descriptors have names of their own *)
(** The names of the descriptors of files are accepted iff no two of them are the same and
    none is in a namespace with the name of another. *)
Theorem C87_descriptors spaces : Forall (fun ns => exists file over, file_namespace file over = Some ns) spaces ->
  exists segs, Forall2 qualified segs (flat_map descriptor_names spaces) /\ Forall (Forall usable) segs /\
    (descriptors_ok spaces = true <-> ForallOrdPairs (fun a b => ~ leading a b /\ ~ leading b a) segs).
Proof. exact (descriptors_apart spaces). Qed.
Print Assumptions C87_descriptors.
Example C87_case : exists x y z, file_namespace (txt "a/b.proto") None = Some x /\ file_namespace (txt "a-b.proto") None = Some y /\ file_namespace (txt "a_b.proto") None = Some z /\
  descriptors_ok [x; y] = true /\ descriptors_ok [y; z] = false.
Proof. exact descriptor_cases. Qed.
