(** The code generator: the order of the messages in a generated header. *)
Require Import List Arith ZArith Bool Relations.
Require Import Verif.Archive Verif.Gen Verif.GenSpec Verif.GenEmit Verif.GenLaws Verif.GenNames Verif.GenCheck Verif.GenEx.
Import ListNotations.
Local Open Scope nat_scope.

(** C68: the generator ends on every schema, whatever cycles it has, and defines every
    message of the file exactly once. *)
Theorem C68_every_message_once P file : wf P -> no_file_extensions P ->
  exists es, generate P file = Ok es /\ NoDup (defs es) /\
    forall m, In m (defs es) <-> m < nmsgs P /\ fileof P m = file /\ entry P m = false.
Proof. exact (fun W X => generate_complete P W X file). Qed.
Print Assumptions C68_every_message_once.

(** An extension declared in a file, whose type is a message on a cycle, makes the
    generator read a null pointer. *)
Theorem C68_file_extension_refuted : exists P, wf P /\ generate P 0 = UB.
Proof. exists extended. exact (conj (wf_checked extended eq_refl) eq_refl). Qed.
Print Assumptions C68_file_extension_refuted.

Example C68_case : wf rings /\ no_file_extensions rings /\ option_map defs (match generate rings 0 with Ok es => Some es | _ => None end) = Some [3; 2; 1; 0].
Proof. exact (conj (wf_checked rings eq_refl) (conj (ext_checked rings eq_refl) eq_refl)). Qed.

(** C69: if the messages of every scope can be ordered by their needs, every type is
    declared before it is used, there are no forward declarations, and the members are
    what the schema says. *)
Theorem C69_ordered_schemas P file es : wf P -> no_file_extensions P -> ordered_needs P file -> no_outward P file ->
  generate P file = Ok es ->
  declared_before_use P es /\ fwds es = [] /\ forall m us, In (EDef m us) es -> us = flat_map (plain_use P m) (fields_of P m).
Proof.
  exact (fun W X R N E => match R with ex_intro _ rank H =>
    conj (generate_ordered P W X file rank H es E N) (generate_untouched P W X file rank H es E) end).
Qed.
Print Assumptions C69_ordered_schemas.

(** Messages that can be ordered may be in scopes that cannot: then a nested message is
    used before it is declared. *)
Theorem C69_nested_types_refuted : exists P rank es, wf P /\ no_file_extensions P /\ no_outward P 0 /\
  (forall p x, mentions P p x -> rank x < rank p) /\ generate P 0 = Ok es /\ ~ declared_before_use P es.
Proof.
  exists crossing, (fun i => nth i [0; 2; 0; 1] 0), (header crossing).
  exact (conj (wf_checked crossing eq_refl) (conj (ext_checked crossing eq_refl) (conj (outward_checked crossing 0 eq_refl)
    (conj (acyclic_checked crossing (fun i => nth i [0; 2; 0; 1] 0) eq_refl) (conj eq_refl (undeclared_found crossing (header crossing) [] eq_refl)))))).
Qed.
Print Assumptions C69_nested_types_refuted.

(** The type of an enclosing message is never declared before a nested message uses it. *)
Theorem C69_enclosing_type_refuted : exists P es, wf P /\ no_file_extensions P /\ ordered_needs P 0 /\ generate P 0 = Ok es /\ ~ declared_before_use P es.
Proof.
  exists outward, (header outward).
  exact (conj (wf_checked outward eq_refl) (conj (ext_checked outward eq_refl) (conj (ranks outward (wf_checked outward eq_refl) 0 (fun _ => 0) eq_refl)
    (conj eq_refl (undeclared_found outward (header outward) [] eq_refl))))).
Qed.
Print Assumptions C69_enclosing_type_refuted.

Example C69_case : wf orders /\ no_file_extensions orders /\ ordered_needs orders 0 /\ no_outward orders 0 /\
  generate orders 0 = Ok [EScope 3; EDef 3 []; EScope 0; EScope 1; EDef 1 [UMsg 1 false; UMsg 3 true];
    EDef 0 [UMsg 1 true; UMsg 3 false; UMsg 3 false; UEnum 3]].
Proof.
  exact (conj (wf_checked orders eq_refl) (conj (ext_checked orders eq_refl)
    (conj (ranks orders (wf_checked orders eq_refl) 0 (fun i => nth i [1; 0; 0; 0] 0) eq_refl) (conj (outward_checked orders 0 eq_refl) eq_refl)))).
Qed.

(** C70: cycles of messages are broken with forward declarations, so that every type is
    declared before it is used. *)
Theorem C70_cycles P file es : wf P -> no_file_extensions P -> lone_containers P file -> no_outward P file -> own_types P file ->
  generate P file = Ok es -> declared_before_use P es.
Proof. exact (fun W X L N T E => generate_cyclic P W X file L es E N T). Qed.
Print Assumptions C70_cycles.

(** A message on a cycle with a repeated field of its own type is written before the other
    messages it needs, and these are not declared. *)
Theorem C70_container_refuted : exists P es, wf P /\ no_file_extensions P /\ no_outward P 0 /\ own_types P 0 /\ generate P 0 = Ok es /\ ~ declared_before_use P es.
Proof.
  exists trees, (header trees).
  exact (conj (wf_checked trees eq_refl) (conj (ext_checked trees eq_refl) (conj (outward_checked trees 0 eq_refl) (conj (own_checked trees 0 eq_refl)
    (conj eq_refl (undeclared_found trees (header trees) [] eq_refl)))))).
Qed.
Print Assumptions C70_container_refuted.

(** A message that uses an enum declared in a message of a cycle can be written before it. *)
Theorem C70_nested_enum_refuted : exists P es, wf P /\ no_file_extensions P /\ lone_containers P 0 /\ no_outward P 0 /\ generate P 0 = Ok es /\ ~ declared_before_use P es.
Proof.
  exists kinds, (header kinds).
  exact (conj (wf_checked kinds eq_refl) (conj (ext_checked kinds eq_refl) (conj (lone_checked kinds (wf_checked kinds eq_refl) 0 eq_refl)
    (conj (outward_checked kinds 0 eq_refl) (conj eq_refl (undeclared_found kinds (header kinds) [] eq_refl)))))).
Qed.
Print Assumptions C70_nested_enum_refuted.

Example C70_case : wf structs /\ no_file_extensions structs /\ lone_containers structs 0 /\ no_outward structs 0 /\ own_types structs 0 /\
  generate structs 0 = Ok [EFwd 2; EScope 3; EDef 3 [UMsg 2 false]; EFwd 2; EScope 0; EDef 0 [UMsg 2 false];
    EScope 2; EDef 2 [UMsg 0 false; UMsg 3 false]].
Proof.
  exact (conj (wf_checked structs eq_refl) (conj (ext_checked structs eq_refl) (conj (lone_checked structs (wf_checked structs eq_refl) 0 eq_refl)
    (conj (outward_checked structs 0 eq_refl) (conj (own_checked structs 0 eq_refl) eq_refl))))).
Qed.
Example C70_map_case : wf by_names /\ lone_containers by_names 0 /\ own_types by_names 0 /\
  generate by_names 0 = Ok [EFwd 0; EScope 2; EDef 2 [UMsg 0 false]; EFwd 0; EScope 1; EDef 1 [UMsg 0 false]; EScope 0; EDef 0 [UMsg 1 false]].
Proof.
  exact (conj (wf_checked by_names eq_refl) (conj (lone_checked by_names (wf_checked by_names eq_refl) 0 eq_refl) (conj (own_checked by_names 0 eq_refl) eq_refl))).
Qed.

(** C71: no generated struct contains itself by value. *)
Theorem C71_finite_layout P file es : wf P -> no_file_extensions P -> lone_containers P file \/ ordered_needs P file -> plain_cycles P file ->
  generate P file = Ok es -> finite_layout es.
Proof.
  exact (fun W X L C E => match L with
    | or_introl H => generate_finite P W X file H es E C
    | or_intror (ex_intro _ rank H) => generate_ordered_finite P W X file rank H es E C
    end).
Qed.
Print Assumptions C71_finite_layout.

(** A message with a proto3 [optional] field of its own type contains itself. *)
Theorem C71_optional_self_refuted : exists P es, wf P /\ no_file_extensions P /\ lone_containers P 0 /\ ordered_needs P 0 /\
  flds P = [mkF (Some 0) false (TMsg 0) false (Some 0)] /\ generate P 0 = Ok es /\ ~ finite_layout es.
Proof.
  exists optional_self, (header optional_self).
  exact (conj (wf_checked optional_self eq_refl) (conj (ext_checked optional_self eq_refl) (conj (lone_checked optional_self (wf_checked optional_self eq_refl) 0 eq_refl)
    (conj (ranks optional_self (wf_checked optional_self eq_refl) 0 (fun _ => 0) eq_refl) (conj eq_refl (conj eq_refl (chain_infinite (header optional_self) 0 [] eq_refl))))))).
Qed.
Print Assumptions C71_optional_self_refuted.

(** So does a message with an alternative of its own type in a oneof. *)
Theorem C71_oneof_self_refuted : exists P es, wf P /\ no_file_extensions P /\ lone_containers P 0 /\ ordered_needs P 0 /\
  length (fields_of P 0) = 2 /\ generate P 0 = Ok es /\ ~ finite_layout es.
Proof.
  exists oneof_self, (header oneof_self).
  exact (conj (wf_checked oneof_self eq_refl) (conj (ext_checked oneof_self eq_refl) (conj (lone_checked oneof_self (wf_checked oneof_self eq_refl) 0 eq_refl)
    (conj (ranks oneof_self (wf_checked oneof_self eq_refl) 0 (fun _ => 0) eq_refl) (conj eq_refl (conj eq_refl (chain_infinite (header oneof_self) 0 [] eq_refl))))))).
Qed.
Print Assumptions C71_oneof_self_refuted.

(** A cycle through messages nested in two others is not broken, without any oneof. *)
Theorem C71_nested_cycle_refuted : exists P es, wf P /\ no_file_extensions P /\ lone_containers P 0 /\
  (forall f, f < nflds P -> f_oneof (fget P f) = None) /\ generate P 0 = Ok es /\ ~ finite_layout es.
Proof.
  exists nested_pair, (header nested_pair).
  exact (conj (wf_checked nested_pair eq_refl) (conj (ext_checked nested_pair eq_refl) (conj (lone_checked nested_pair (wf_checked nested_pair eq_refl) 0 eq_refl)
    (conj (no_oneofs_checked nested_pair eq_refl) (conj eq_refl (chain_infinite (header nested_pair) 0 [1; 2; 3] eq_refl)))))).
Qed.
Print Assumptions C71_nested_cycle_refuted.

(** Nor is a cycle of singular fields of siblings, if a message on it has a repeated field
    of another one. *)
Theorem C71_container_refuted : exists P es, wf P /\ no_file_extensions P /\ plain_cycles P 0 /\ generate P 0 = Ok es /\ ~ finite_layout es.
Proof.
  exists leaves, (header leaves).
  exact (conj (wf_checked leaves eq_refl) (conj (ext_checked leaves eq_refl) (conj (cycles_checked leaves (wf_checked leaves eq_refl) 0 eq_refl)
    (conj eq_refl (chain_infinite (header leaves) 1 [2] eq_refl))))).
Qed.
Print Assumptions C71_container_refuted.

Example C71_case : wf rings /\ no_file_extensions rings /\ lone_containers rings 0 /\ plain_cycles rings 0 /\
  generate rings 0 = Ok [EFwd 0; EScope 2; EScope 3; EDef 3 [UMsg 3 false]; EDef 2 [UMsg 3 true; UMsg 0 false]; EFwd 0;
    EScope 1; EDef 1 [UMsg 0 false; UMsg 2 false]; EScope 0; EDef 0 [UMsg 1 false]].
Proof.
  exact (conj (wf_checked rings eq_refl) (conj (ext_checked rings eq_refl) (conj (lone_checked rings (wf_checked rings eq_refl) 0 eq_refl)
    (conj (cycles_checked rings (wf_checked rings eq_refl) 0 eq_refl) eq_refl)))).
Qed.
Example C71_struct_case : lone_containers structs 0 /\ plain_cycles structs 0.
Proof. exact (conj (lone_checked structs (wf_checked structs eq_refl) 0 eq_refl) (cycles_checked structs (wf_checked structs eq_refl) 0 eq_refl)). Qed.

(** C72: the scope shared by two dotted names is found component by component, and so is
    the name one level below it. *)
Theorem C72_common_ancestor c a b : Forall component (c ++ a) -> Forall component (c ++ b) ->
  (forall x y ra rb, a = x :: ra -> b = y :: rb -> x <> y) ->
  get_common_ancestor (join (c ++ a)) (join (c ++ b)) = Ok (join c) /\ one_below (join (c ++ a)) (join c) = join (c ++ firstn 1 a).
Proof. exact (fun A B N => conj (ancestor_components c a b A B N) (one_below_components c a A)). Qed.
Print Assumptions C72_common_ancestor.

(** The names of the model of C68 to C71 are as good as dotted names. *)
Theorem C72_names_of_the_model nm p q : spelling nm ->
  (full nm p = full nm q -> p = q) /\
  get_common_ancestor (full nm p) (full nm q) = Ok (full nm (common p q)) /\
  one_below (full nm p) (full nm (common p q)) = full nm (firstn (S (length (common p q))) p) /\
  one_below (full nm q) (full nm (common p q)) = full nm (firstn (S (length (common p q))) q).
Proof. exact (fun H => conj (full_inj nm p q H) (names_agree nm p q H)). Qed.
Print Assumptions C72_names_of_the_model.

(** "pk.Ab.C" and "pk.Abc" share "pk" only; "pk.Ab" is one below it. *)
Example C72_case : Forall component ([[112; 107]] ++ [[65; 98]; [67]])%Z /\ Forall component ([[112; 107]] ++ [[65; 98; 99]])%Z /\
  get_common_ancestor [112; 107; 46; 65; 98; 46; 67]%Z [112; 107; 46; 65; 98; 99]%Z = Ok [112; 107]%Z /\
  one_below [112; 107; 46; 65; 98; 46; 67]%Z [112; 107]%Z = [112; 107; 46; 65; 98]%Z /\ spelling (fun i => repeat 97%Z (S i)).
Proof. exact (conj pk_ab_c (conj pk_abc (conj eq_refl (conj eq_refl unary)))). Qed.
