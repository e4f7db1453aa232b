(** C97: google.protobuf.Any in the JSON of generated messages. *)
From Coq Require Import Ascii String.
Require Import Verif.Bits Verif.Varint Verif.CppText.
Require Import Verif.DynSlots Verif.Dyn Verif.Schema Verif.Archive Verif.Decode Verif.Encode Verif.WellTyped Verif.DynWire Verif.DynDecode Verif.DynView.
Require Import Verif.DynJson Verif.DynJsonSpec Verif.DynJsonSafe Verif.DynJsonEx Verif.DynJsonBad Verif.DynAny Verif.DynAnySpec Verif.DynAnySafe Verif.DynAnyEx Verif.DynAnyEx2.
Require Import Verif.GenJson Verif.GenJsonSpec Verif.GenJsonSafe Verif.GenAny Verif.GenAnySpec Verif.GenAny1 Verif.GenAnyEx.
Local Open Scope string_scope.
Local Open Scope list_scope.
Local Open Scope Z_scope.

(** ** Reading *)
(** A JSON text does to a new message what GenAnySpec.gaset says of its value. *)
Theorem C97_reads_tree E G utf8_ok fparse lenient strict W J maxd find_type deep n ty j : jtypes_ok W J -> atypes_ok W J ->
  garead_json E G utf8_ok fparse lenient W J maxd find_type deep strict n ty (render j) = gaset E G utf8_ok fparse lenient strict W J maxd find_type deep n ty (default_msg E ty) j.
Proof. exact (fun HJ HA => ga_tree E G utf8_ok fparse lenient strict W J maxd find_type deep HJ HA n ty j). Qed.
Print Assumptions C97_reads_tree.
Theorem C97_nothing_follows E G utf8_ok fparse lenient strict W J maxd find_type deep n ty j r : jtypes_ok W J -> atypes_ok W J -> r <> [] ->
  forall v, garead_json E G utf8_ok fparse lenient W J maxd find_type deep strict n ty (render j ++ r) <> Ok v.
Proof. exact (fun HJ HA => ga_nothing_follows E G utf8_ok fparse lenient strict W J maxd find_type deep HJ HA n ty j r). Qed.
Print Assumptions C97_nothing_follows.
(** It does not matter where "@type" stands. *)
Theorem C97_type_anywhere E G utf8_ok fparse lenient strict W J maxd find_type deep n ty url ps qs : jtypes_ok W J -> atypes_ok W J -> gknown G ty = KAny -> Forall (fun p => fst p <> type_key) (ps ++ qs) ->
  garead_json E G utf8_ok fparse lenient W J maxd find_type deep strict n ty (render (JObj (ps ++ (type_key, JStr url) :: qs))) =
  garead_json E G utf8_ok fparse lenient W J maxd find_type deep strict n ty (render (JObj ((type_key, JStr url) :: ps ++ qs))).
Proof. exact (fun HJ HA => ga_type_anywhere E G utf8_ok fparse lenient strict W J maxd find_type deep HJ HA n ty url ps qs). Qed.
Print Assumptions C97_type_anywhere.
(** Any text yields a message, of the types of the schema as in C90, or an error, if the
    factory has no list of google.protobuf.Value that is read from null (C96). *)
Theorem C97_read_defined E G utf8_ok fparse lenient strict W J maxd find_type deep ty ts : jtypes_ok W J -> atypes_ok W J -> gtypes_ok E G -> ganys_ok E G -> wtypes_ok W ->
  genums_fit G -> floats_fit fparse -> wt_defaults E utf8_ok -> enums_fit J -> nulls_ok W J -> lists_ok J find_type -> maxd + 2 <= Z.of_nat deep -> 0 < Z.of_nat deep -> text ts ->
  (exists v, garead_json E G utf8_ok fparse lenient W J maxd find_type deep strict (S (List.length ts)) ty ts = Ok v /\ wt_msg (relaxed E) utf8_ok ty v) \/
  exists e, garead_json E G utf8_ok fparse lenient W J maxd find_type deep strict (S (List.length ts)) ty ts = Err e.
Proof. exact (fun HJ HA HG HY HW HE HF HD HEJ HN HL H1 H2 => ga_defined E G utf8_ok (fun _ _ => []) fparse lenient strict W J maxd find_type deep HJ HA HG HY HW HE HF HD HEJ (conj HN HL) H1 H2 ty ts). Qed.
Print Assumptions C97_read_defined.
Example C97_read_case : jtypes_ok da_types da_json /\ atypes_ok da_types da_json /\ gtypes_ok ga_env ga_types /\ ganys_ok ga_env ga_types /\ wtypes_ok da_types /\ genums_fit ga_types /\ wt_defaults ga_env any_text /\ enums_fit da_json /\ floats_fit dj_parse /\
  (nulls_ok da_types da_json /\ lists_ok da_json da_find) /\ gknown ga_types 1 = KAny /\ garead_json ga_env ga_types any_text dj_parse false da_types da_json 8 da_find 8 true 10 0 (render da_shuffled) = Ok ga_message.
Proof. exact (conj da_json_ok (conj da_any_ok (conj ga_ok (conj ga_anys (conj da_ok (conj ga_enums (conj ga_defaults (conj da_enums (conj dj_floats (conj ga_nulls (conj eq_refl (proj2 ga_written)))))))))))). Qed.

(** ** Writing *)
(** What is written is JSON, and it is read back as the message without unknown fields,
    with the same URL and bytes in every Any. *)
Theorem C97_round_trip E G utf8_ok le fshow fparse lenient preserve always strict W J maxd find_type deep n ty v ts : jtypes_ok W J -> atypes_ok W J -> gtypes_ok E G -> ganys_ok E G -> wtypes_ok W ->
  wt_msg E utf8_ok ty v -> gaprintable E G utf8_ok fshow fparse lenient W J maxd find_type deep n ty v -> gawrite E G utf8_ok le fshow preserve W J maxd find_type deep always n ty v = Ok ts ->
  (exists j, ts = render j) /\ garead_json E G utf8_ok fparse lenient W J maxd find_type deep strict n ty ts = Ok (bare E G always n ty v).
Proof.
  intros HJ HA HG HY HW Hw Hp H. destruct (ga_back E G utf8_ok le fshow fparse lenient preserve always strict W J maxd find_type deep HJ HA HG HY HW n ty v ts Hw Hp H) as [(j & Hj & _) R]. split; [exists j; exact Hj|].
  unfold garead_json. specialize (R []). rewrite app_nil_r in R. rewrite R. reflexivity.
Qed.
Print Assumptions C97_round_trip.
(** An Any is an object with the URL as its first member, "@type", and no other of that name. *)
Theorem C97_type_first E G utf8_ok le fshow fparse lenient preserve always W J maxd find_type deep n ty v ts : jtypes_ok W J -> atypes_ok W J -> wtypes_ok W -> gknown G ty = KAny ->
  wt_msg E utf8_ok ty v -> gaprintable E G utf8_ok fshow fparse lenient W J maxd find_type deep n ty v -> gawrite E G utf8_ok le fshow preserve W J maxd find_type deep always n ty v = Ok ts ->
  exists url data u ms, v = VMsg [[VBytes url]; [VBytes data]] u /\ ts = render (JObj ((type_key, JStr url) :: ms)) /\ Forall (fun p => fst p <> type_key) ms.
Proof. exact (fun HJ HA HW => ga_any_shown E G utf8_ok le fshow fparse lenient preserve always false W J maxd find_type deep HJ HA HW n ty v ts). Qed.
Print Assumptions C97_type_first.
(** Writing an Any is defined, ... *)
Theorem C97_any_defined E G utf8_ok le fshow fparse lenient preserve always W J maxd find_type deep n ty v : jtypes_ok W J -> atypes_ok W J -> gknown G ty = KAny -> gaprintable E G utf8_ok fshow fparse lenient W J maxd find_type deep n ty v ->
  (exists ts, gawrite E G utf8_ok le fshow preserve W J maxd find_type deep always n ty v = Ok ts) \/ exists e, gawrite E G utf8_ok le fshow preserve W J maxd find_type deep always n ty v = Err e.
Proof.
  intros HJ HA K Hp. pose proof (ga_any_defined E G utf8_ok le fshow fparse lenient preserve always W J maxd find_type deep HJ HA n ty v K Hp) as S. unfold DynJson5.settled in S.
  destruct (gawrite E G utf8_ok le fshow preserve W J maxd find_type deep always n ty v); try contradiction; eauto.
Qed.
Print Assumptions C97_any_defined.
(** ... and refused if the URL names no type of the factory, or the value is not a
    message of that type. *)
Theorem C97_refused E G utf8_ok le fshow preserve always W J maxd find_type deep n ty url data u : gknown G ty = KAny ->
  (forall t, type_of find_type url <> Ok t) \/ (exists t e, type_of find_type url = Ok t /\ dyn_read W utf8_ok maxd t data = Err e) ->
  gawrite E G utf8_ok le fshow preserve W J maxd find_type deep always (S n) ty (VMsg [[VBytes url]; [VBytes data]] u) = Err BadMessage.
Proof. exact (ga_any_refused E G utf8_ok le fshow preserve always W J maxd find_type deep n ty url data u). Qed.
Print Assumptions C97_refused.
Example C97_case : wt_msg ga_env any_text 0 ga_message /\ gaprintable ga_env ga_types any_text dj_show dj_parse false da_types da_json 8 da_find 8 10 0 ga_message /\
  gawrite ga_env ga_types any_text true dj_show false da_types da_json 8 da_find 8 false 10 0 ga_message = Ok (render da_tree) /\ bare ga_env ga_types false 10 0 ga_message = ga_message.
Proof. exact (conj ga_wt (conj ga_printable (conj (proj1 ga_written) eq_refl))). Qed.
Example C97_refused_case : (forall t, type_of da_find (txt "x.y/p.None") <> Ok t) /\ type_of da_find url_flat = Ok 2%nat /\ dyn_read da_types any_text 8 2 [8] = Err BadMessage.
Proof. split; [intros t; discriminate|]. split; vm_compute; reflexivity. Qed.

(** ** What is not so *)
(** A message with an Any in which nothing is set cannot be written, and {} is refused
    for an Any; protobuf represents the one by the other. *)
Theorem C97_empty_refuted : gtypes_ok ga_env ga_types /\ wt_msg ga_env any_text 0 ga_empty /\
  gawrite ga_env ga_types any_text true dj_show false da_types da_json 8 da_find 8 false 10 0 ga_empty = Err BadMessage /\
  forall strict, garead_json ga_env ga_types any_text dj_parse false da_types da_json 8 da_find 8 strict 10 0 (render (JObj [(txt "any", JObj [])])) = Err BadMessage.
Proof. exact (conj ga_ok (conj ga_empty_wt ga_empty_refused)). Qed.
Print Assumptions C97_empty_refuted.
(** The messages within the payload are written without their braces, as in C96. *)
Theorem C97_nested_message_refuted : gtypes_ok ga_env ga_types /\ wt_msg ga_env any_text 1 (ga_any url_nest [10; 2; 8; 1]) /\
  exists ts, gawrite ga_env ga_types any_text true dj_show false da_types da_json 8 da_find 8 false 10 1 (ga_any url_nest [10; 2; 8; 1]) = Ok ts /\ forall j, ts <> render j.
Proof. exact (conj ga_ok ga_nest). Qed.
Print Assumptions C97_nested_message_refuted.
