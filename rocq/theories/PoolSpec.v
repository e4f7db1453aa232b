(** Which sets of file descriptors are valid, and what their fields are like,
    stated on the descriptor messages alone. *)
From Coq Require Export Relations.
Require Import Verif.Bits Verif.Pool.

Definition dotted (a b : bytes) : bytes := a ++ 46 :: b.
Definition qualified (package n : bytes) : bytes := match package with [] => n | _ => dotted package n end.

(** A message declared with full name [full], and all messages declared inside. *)
Fixpoint tree (full : bytes) (m : mproto) {struct m} : list (bytes * mproto) :=
  (full, m) :: concat (map (fun k => tree (dotted full (mp_name k)) k) (mp_nested m)).
Definition file_messages (f : fileproto) : list (bytes * mproto) := concat (map (fun m => tree (qualified (fl_package f) (mp_name m)) m) (fl_messages f)).
Definition file_enums (f : fileproto) : list (bytes * eproto) :=
  concat (map (fun d => map (fun e => (dotted (fst d) (ep_name e), e)) (mp_enums (snd d))) (file_messages f)) ++
  map (fun e => (qualified (fl_package f) (ep_name e), e)) (fl_enums f).
Definition all_messages (fs : list fileproto) := concat (map file_messages fs).
Definition all_enums (fs : list fileproto) := concat (map file_enums fs).

(** All fields: those of the messages, and the extensions. *)
Definition message_fields (fs : list fileproto) : list fproto := concat (map (fun d => mp_fields (snd d)) (all_messages fs)).
Definition extensions (fs : list fileproto) : list fproto := concat (map (fun d => mp_exts (snd d)) (all_messages fs)) ++ concat (map fl_exts fs).

(** A field number, type and label allowed by protobuf. *)
Definition legal_field (p : fproto) : Prop :=
  1 <= fp_type p <= 18 /\ 1 <= fp_label p <= 3 /\ 1 <= fp_number p <= 2 ^ 29 - 1 /\ ~ (19000 <= fp_number p <= 19999).

(** The JSON name derived from a field name: split at underscores, capitalise
    every word but the first. *)
Fixpoint words (l : bytes) : list bytes :=
  match l with
  | [] => [[]]
  | c :: t => if c =? 95 then [] :: words t else match words t with w :: ws => (c :: w) :: ws | [] => [[c]] end
  end.
Definition capitalise (w : bytes) : bytes := match w with c :: t => (if (97 <=? c) && (c <=? 122) then c - 32 else c) :: t | [] => [] end.
Definition camel_case (n : bytes) : bytes := match words n with w :: ws => w ++ concat (map capitalise ws) | [] => [] end.
(** The field has a JSON name of its own. *)
Definition own_json_name (p : fproto) : Prop := fp_json p <> [] /\ fp_json p <> camel_case (fp_name p).

(** Two different fields of a message. *)
Definition compatible (p q : fproto) : Prop :=
  fp_number p <> fp_number q /\ fp_name p <> fp_name q /\
  (own_json_name p -> fp_json p <> fp_name q /\ fp_json p <> fp_json q) /\
  (own_json_name q -> fp_json q <> fp_name p /\ fp_json q <> fp_json p).
Definition oneof_member (n : nat) (p : fproto) : Prop :=
  forall i, fp_oneof p = Some i -> 0 <= i < Z.of_nat n /\ fp_label p <> LABEL_REPEATED.

Record valid_message (m : mproto) : Prop := {
  vm_legal : Forall legal_field (mp_fields m);
  vm_distinct : ForallOrdPairs compatible (mp_fields m);
  vm_oneof : Forall (oneof_member (mp_oneofs m)) (mp_fields m);
  vm_nonempty : forall i, 0 <= i < Z.of_nat (mp_oneofs m) -> exists p, In p (mp_fields m) /\ fp_oneof p = Some i }.

(** The type a field refers to exists. *)
Definition names_one_of (l : list bytes) (n : bytes) : Prop := exists x, n = 46 :: x /\ In x l.
Definition resolved (msgs enums : list bytes) (p : fproto) : Prop :=
  (fp_type p = TYPE_MESSAGE \/ fp_type p = TYPE_GROUP -> names_one_of msgs (fp_type_name p)) /\
  (fp_type p = TYPE_ENUM -> names_one_of enums (fp_type_name p)) /\
  (fp_extendee p <> [] -> names_one_of msgs (fp_extendee p)).

Definition known_edition (f : fileproto) : Prop :=
  fl_syntax f = editions_text -> In (fl_edition f) [EDITION_LEGACY; EDITION_PROTO3; EDITION_2023; EDITION_2024].

Definition depends (fs : list fileproto) (a b : bytes) : Prop := exists f, In f fs /\ fl_name f = a /\ In b (fl_deps f).

Record valid_files (fs : list fileproto) : Prop := {
  vf_named : Forall (fun f => fl_name f <> []) fs;
  vf_distinct : NoDup (map fl_name fs);
  vf_edition : Forall known_edition fs;
  vf_messages : Forall (fun d => mp_name (snd d) <> []) (all_messages fs) /\ NoDup (map fst (all_messages fs));
  vf_enums : Forall (fun d => ep_name (snd d) <> []) (all_enums fs) /\ NoDup (map fst (all_enums fs));
  vf_imports : forall a b, depends fs a b -> In b (map fl_name fs);
  vf_acyclic : ~ exists n, clos_trans bytes (depends fs) n n;
  vf_fields : Forall (fun d => valid_message (snd d)) (all_messages fs);
  vf_extensions : Forall legal_field (extensions fs);
  vf_types : Forall (resolved (map fst (all_messages fs)) (map fst (all_enums fs))) (message_fields fs ++ extensions fs) }.

(** What C++ can represent: oneof_index is an int32, and a message has fewer
    than 2^63 oneofs. *)
Definition representable (fs : list fileproto) : Prop :=
  Forall (fun d => Z.of_nat (mp_oneofs (snd d)) < 2 ^ 63 /\ Forall (fun p => forall i, fp_oneof p = Some i -> fits_s 32 i) (mp_fields (snd d))) (all_messages fs).

(** ** Field attributes according to the protobuf language *)
(** A feature set by the innermost scope that sets it. *)
Definition feature (get : features -> Z) (scopes : list features) : Z := fold_left (fun a f => if get f =? 0 then a else get f) scopes 0.

(** What a file inherits from its syntax or edition. *)
Definition language_defaults (f : fileproto) : features :=
  let proto2 := Features EXPLICIT ENUM_CLOSED EXPANDED UTF8_NONE LENGTH_PREFIXED in
  let proto3 := Features IMPLICIT ENUM_OPEN PACKED UTF8_VERIFY LENGTH_PREFIXED in
  let edition := Features EXPLICIT ENUM_OPEN PACKED UTF8_VERIFY LENGTH_PREFIXED in
  if list_eq_dec Z.eq_dec (fl_syntax f) proto3_text then proto3
  else if list_eq_dec Z.eq_dec (fl_syntax f) editions_text
  then if fl_edition f =? EDITION_LEGACY then proto2 else if fl_edition f =? EDITION_PROTO3 then proto3 else edition
  else proto2.

(** Every message with the scopes around it, outermost first. *)
Fixpoint scoped_tree (scopes : list features) (full : bytes) (m : mproto) {struct m} : list (bytes * mproto * list features) :=
  (full, m, scopes) :: concat (map (fun k => scoped_tree (scopes ++ [mp_feat k]) (dotted full (mp_name k)) k) (mp_nested m)).
Definition file_scopes (f : fileproto) : list features := [language_defaults f; fl_feat f].
Definition scoped_messages (f : fileproto) : list (bytes * mproto * list features) :=
  concat (map (fun m => scoped_tree (file_scopes f ++ [mp_feat m]) (qualified (fl_package f) (mp_name m)) m) (fl_messages f)).

(** Every field, whether it belongs to a map entry, and the scopes around it and its own. *)
Definition scoped (entry : bool) (scopes : list features) (p : fproto) : fproto * bool * list features := (p, entry, scopes ++ [fp_feat p]).
Definition scoped_fields (fs : list fileproto) : list (fproto * bool * list features) :=
  concat (map (fun '(_, m, scopes) => map (scoped (mp_entry m) scopes) (mp_fields m) ++ map (scoped false scopes) (mp_exts m)) (concat (map scoped_messages fs))) ++
  concat (map (fun f => map (scoped false (file_scopes f)) (fl_exts f)) fs).
(** Every enum with the scopes around it and its own. *)
Definition scoped_enums (fs : list fileproto) : list (bytes * eproto * list features) :=
  concat (map (fun f =>
    concat (map (fun '(full, m, scopes) => map (fun e => (dotted full (ep_name e), e, scopes ++ [ep_feat e])) (mp_enums m)) (scoped_messages f)) ++
    map (fun e => (qualified (fl_package f) (ep_name e), e, file_scopes f ++ [ep_feat e])) (fl_enums f)) fs).

Definition packable (t : Z) : Prop := t <> TYPE_STRING /\ t <> TYPE_GROUP /\ t <> TYPE_MESSAGE /\ t <> TYPE_BYTES.
Record attributes (p : fproto) (entry : bool) (scopes : list features) (a : fattr) : Prop := {
  at_explicit : fa_explicit a = true <->
    entry = true \/ (fp_label p = LABEL_OPTIONAL /\
      (fp_type p = TYPE_GROUP \/ fp_type p = TYPE_MESSAGE \/ fp_opt3 p = true \/ fp_oneof p <> None \/ feature ft_presence scopes = EXPLICIT));
  at_repeated : fa_repeated a = true <-> fp_label p = LABEL_REPEATED;
  at_packed : fa_packed a = true <->
    fp_label p = LABEL_REPEATED /\ packable (fp_type p) /\ (fp_packed p = Some true \/ feature ft_repeated scopes = PACKED);
  at_utf8 : fa_utf8 a = true <-> fp_type p = TYPE_STRING /\ feature ft_utf8 scopes = UTF8_VERIFY;
  at_delimited : fa_delimited a = true <-> fp_type p = TYPE_GROUP \/ (fp_type p = TYPE_MESSAGE /\ feature ft_encoding scopes = DELIMITED);
  at_required : fa_required a = true <-> fp_label p = LABEL_REQUIRED \/ feature ft_presence scopes = LEGACY_REQUIRED }.
(** Protobuf's rule for packing: the packed option decides when it is given. *)
Definition packed_rule (p : fproto) (scopes : list features) : Prop :=
  fp_label p = LABEL_REPEATED /\ packable (fp_type p) /\
  match fp_packed p with Some b => b = true | None => feature ft_repeated scopes = PACKED end.
