(** C88 - C91: JSON of generated messages. *)
From Coq Require Import Ascii String.
Require Import Verif.Bits Verif.Varint Verif.CppText Verif.Schema Verif.Archive Verif.Decode Verif.Encode Verif.WellTyped.
Require Import Verif.DynJson Verif.DynJsonSpec Verif.DynJsonSafe Verif.DynJsonEx Verif.DynJsonBad Verif.GenJson Verif.GenJsonSpec Verif.GenJson2 Verif.GenJsonSafe Verif.GenJsonWrite Verif.GenJsonTree Verif.GenJson4 Verif.GenJsonEx.
Local Open Scope string_scope.
Local Open Scope list_scope.
Local Open Scope Z_scope.

(** ** C88: what is written *)
(** Writing a well-formed message is defined: it yields a text or an error. *)
Theorem C88_defined E G utf8_ok le fshow preserve always n ty v : gtypes_ok E G -> wt_msg E utf8_ok ty v -> (height v < n)%nat ->
  (exists ts, gwrite E G le fshow preserve always n ty v = Ok ts) \/ gwrite E G le fshow preserve always n ty v = Err BadMessage.
Proof.
  intros HG Hw Hn. pose proof (gwrite_settled E G utf8_ok le fshow preserve always HG n ty v Hw Hn) as H. destruct (gwrite E G le fshow preserve always n ty v); try contradiction; [left; eexists; reflexivity|right; rewrite H; reflexivity].
Qed.
Print Assumptions C88_defined.

(** The text of a message that is not of a well-known type is an object of JSON, with the
    names of the members that are set, or not their default, each once. *)
Theorem C88_object E G utf8_ok le fshow fparse lenient preserve always n ty fs u ts : gtypes_ok E G -> wt_msg E utf8_ok ty (VMsg fs u) ->
  gprintable E G utf8_ok fshow fparse lenient n ty (VMsg fs u) -> gknown G ty = KNone -> gwrite E G le fshow preserve always n ty (VMsg fs u) = Ok ts ->
  exists l, ts = render (JObj l) /\ map fst l = written preserve always (g_members (gty G ty)) (m_fields (desc_of E ty)) fs /\ NoDup (map fst l).
Proof. intros HG. exact (gen_object E G utf8_ok le fshow fparse lenient preserve always HG n ty fs u ts). Qed.
Print Assumptions C88_object.
Example C88_case : gtypes_ok gj_env gj_types /\ wt_msg gj_env any_text 0 gj_message /\ (height gj_message < 8)%nat /\ gprintable gj_env gj_types any_text dj_show dj_parse false 8 0 gj_message /\
  gknown gj_types 0 = KNone /\ gwrite gj_env gj_types true dj_show false false 8 0 gj_message = Ok gj_written.
Proof.
  split; [exact gj_ok|]. split; [exact gj_message_wt|]. split; [cbn; lia|]. split; [apply gj_message_printable|]. split; [reflexivity|]. exact gj_gwrite.
Qed.

(** A google.protobuf.Value that was not given a kind is written as nothing, and the
    text is not JSON. *)
Theorem C88_no_kind_refuted : gtypes_ok gj_env gj_types /\ wt_msg gj_env any_text 0 gj_no_kind /\ exists ts, gwrite gj_env gj_types true dj_show false false 10 0 gj_no_kind = Ok ts /\ forall j, ts <> render j.
Proof. exact (conj gj_ok (conj gj_no_kind_wt gj_no_kind_text)). Qed.
Print Assumptions C88_no_kind_refuted.

(** ** C89: what is written is read back *)
Theorem C89_round_trip E G utf8_ok le fshow fparse lenient preserve always strict n ty v ts : gtypes_ok E G -> wt_msg E utf8_ok ty v ->
  gprintable E G utf8_ok fshow fparse lenient n ty v -> gwrite E G le fshow preserve always n ty v = Ok ts ->
  (exists j, ts = render j) /\ gread_json E G utf8_ok fparse lenient strict n ty ts = Ok (bare E G always n ty v).
Proof.
  intros HG Hw Hp H. destruct (gen_back E G utf8_ok le fshow fparse lenient preserve always strict HG n ty v ts Hw Hp H) as [(j & Hj & _) R]. split; [exists j; exact Hj|].
  unfold gread_json. specialize (R []). rewrite app_nil_r in R. rewrite R. reflexivity.
Qed.
Print Assumptions C89_round_trip.
Example C89_case : gtypes_ok gj_env gj_types /\ wt_msg gj_env any_text 0 gj_message /\ gprintable gj_env gj_types any_text dj_show dj_parse false 8 0 gj_message /\
  gwrite gj_env gj_types true dj_show false false 8 0 gj_message = Ok gj_written /\ bare gj_env gj_types false 8 0 gj_message = gj_message.
Proof. split; [exact gj_ok|]. split; [exact gj_message_wt|]. split; [apply gj_message_printable|]. split; [exact gj_gwrite|vm_compute; reflexivity]. Qed.

(** An integer of 64 bits that is an alternative of a oneof is written as a number, which
    is read only if glaze takes numbers without quotes under the option quoted_num. *)
Theorem C89_wide_oneof_refuted : wt_msg gj_env any_text 0 gj_wide /\ exists ts, gwrite gj_env gj_types true dj_show false false 10 0 gj_wide = Ok ts /\
  forall strict, gread_json gj_env gj_types any_text dj_parse false strict 10 0 ts = Err BadMessage.
Proof. split; [exact gj_wide_wt|]. eexists. split; [vm_compute; reflexivity|]. intros []; vm_compute; reflexivity. Qed.
Print Assumptions C89_wide_oneof_refuted.
(** A field with a google.protobuf.Value that is null is read back as absent. *)
Theorem C89_null_value_refuted : wt_msg gj_env any_text 0 gj_null /\ exists ts, gwrite gj_env gj_types true dj_show false false 10 0 gj_null = Ok ts /\
  forall lenient strict, gread_json gj_env gj_types any_text dj_parse lenient strict 10 0 ts = Ok gj_default /\ gj_default <> gj_null.
Proof. split; [exact gj_null_wt|]. eexists. split; [vm_compute; reflexivity|]. intros [] []; (split; [vm_compute; reflexivity|discriminate]). Qed.
Print Assumptions C89_null_value_refuted.
(** The number of an enum that has no name is not read into a std::optional. *)
Theorem C89_unnamed_enum_refuted : gtypes_ok gj_open_env gj_open_types /\ wt_msg gj_open_env any_text 0 gj_open /\ exists ts, gwrite gj_open_env gj_open_types true dj_show false false 10 0 gj_open = Ok ts /\
  forall lenient strict, gread_json gj_open_env gj_open_types any_text dj_parse lenient strict 10 0 ts = Err BadMessage.
Proof. split; [exact gj_open_ok|]. split; [exact gj_open_wt|]. eexists. split; [vm_compute; reflexivity|]. intros [] []; vm_compute; reflexivity. Qed.
Print Assumptions C89_unnamed_enum_refuted.
(** ProtoJSON represents 64-bit integers as strings; a proto3 optional field is written
    as a number, and the string is refused. *)
Theorem C89_optional_int64_refuted : wt_msg gj_env any_text 0 (gj_with 2 [VInt 5]) /\
  gwrite gj_env gj_types true dj_show false false 10 0 (gj_with 2 [VInt 5]) = Ok (render (JObj [(txt "o", JNum (txt "5")); (txt "s", JStr [])])) /\
  forall lenient strict, gread_json gj_env gj_types any_text dj_parse lenient strict 10 0 (render (JObj [(txt "o", JStr (txt "5"))])) = Err BadMessage.
Proof. split; [gj_wt|]. split; [vm_compute; reflexivity|]. intros [] []; vm_compute; reflexivity. Qed.
Print Assumptions C89_optional_int64_refuted.

(** ** C90: reading is defined *)
(** Any text yields a message, whose members are of the types of the schema but for the
    numbers of closed enums and the validity of strings, or the error bad_message. *)
Theorem C90_defined E G utf8_ok fparse lenient strict ty ts : gtypes_ok E G -> genums_fit G -> floats_fit fparse -> wt_defaults E utf8_ok -> text ts ->
  (exists v, gread_json E G utf8_ok fparse lenient strict (S (List.length ts)) ty ts = Ok v /\ wt_msg (relaxed E) utf8_ok ty v) \/
  gread_json E G utf8_ok fparse lenient strict (S (List.length ts)) ty ts = Err BadMessage.
Proof.
  intros HG HE HF HD Ht. pose proof (gread_fine E G utf8_ok fparse lenient strict HG HE HF HD false (S (List.length ts)) ty (default_msg E ty) ts (default_wt E utf8_ok HD ty false) Ht (Nat.lt_succ_diag_r _)) as H.
  unfold gread_json. destruct (gread _ _ _ _ _ _ _ _ _ _) as [[v r]| | | |]; cbn [gfine] in H; try contradiction; cbn [bind].
  - destruct H as [Hv _]. destruct r; [left; exists v; split; [reflexivity|exact Hv]|right; reflexivity].
  - right. destruct e; [reflexivity|discriminate H].
Qed.
Print Assumptions C90_defined.
Example C90_case : gtypes_ok gj_env gj_types /\ genums_fit gj_types /\ floats_fit dj_parse /\ wt_defaults gj_env any_text /\ text gj_written /\
  (exists v, gread_json gj_env gj_types any_text dj_parse false true (S (List.length gj_written)) 0 gj_written = Ok v).
Proof.
  split; [exact gj_ok|]. split; [exact gj_enums|]. split; [exact dj_floats|]. split; [exact gj_defaults|]. split; [exact gj_text|]. eexists. vm_compute. reflexivity.
Qed.
(** A closed enum is given a number that it does not have. *)
Theorem C90_closed_enum_refuted : text gj_unlisted /\ (forall lenient strict, gread_json gj_env gj_types any_text dj_parse lenient strict 10 0 gj_unlisted = Ok gj_unlisted_value) /\ ~ wt_msg gj_env any_text 0 gj_unlisted_value.
Proof.
  split; [intros b Hb; cbn [gj_unlisted In] in Hb; repeat (destruct Hb as [Hb|Hb]; [first [discriminate Hb|injection Hb as <-; bytes_any]|]); destruct Hb|].
  split; [intros [] []; vm_compute; reflexivity|exact gj_unlisted_bad].
Qed.
Print Assumptions C90_closed_enum_refuted.
(** The string of a required field is not validated. *)
Theorem C90_required_string_refuted : (forall lenient strict, gread_json gj_env gj_types no_text dj_parse lenient strict 10 0 (render (JObj [(txt "s", JStr (txt "hi"))])) = Ok gj_string_value) /\ ~ wt_msg gj_env no_text 0 gj_string_value.
Proof. split; [intros [] []; vm_compute; reflexivity|exact gj_string_bad]. Qed.
Print Assumptions C90_required_string_refuted.
(** {"rs":[{"r":["RED"}]} is not JSON, but is read. *)
Theorem C90_malformed_refuted : (forall lenient strict, exists v, gread_json gj_env gj_types any_text dj_parse lenient strict 10 0 gj_unbalanced = Ok v) /\ forall j, gj_unbalanced <> render j.
Proof. exact gj_malformed. Qed.
Print Assumptions C90_malformed_refuted.

(** ** C91: what is read *)
(** A JSON text does to a new message what GenJsonTree says of its value, without tokens. *)
Theorem C91_tree E G utf8_ok fparse lenient strict n ty j : gread_json E G utf8_ok fparse lenient strict n ty (render j) = gset E G utf8_ok fparse lenient strict n ty (default_msg E ty) j.
Proof. exact (GenJson4.gen_tree E G utf8_ok fparse lenient strict n ty j). Qed.
Print Assumptions C91_tree.
(** Nothing may follow the value. *)
Theorem C91_trailing E G utf8_ok fparse lenient strict n ty j r v : r <> [] -> gread_json E G utf8_ok fparse lenient strict n ty (render j ++ r) <> Ok v.
Proof. exact (GenJson4.gen_trailing E G utf8_ok fparse lenient strict n ty j r v). Qed.
Print Assumptions C91_trailing.
(** Members are read in turn, each into the message the ones before it left. *)
Theorem C91_in_turn E G utf8_ok fparse lenient strict n ty ps qs : gknown G ty = KNone ->
  gread_json E G utf8_ok fparse lenient strict n ty (render (JObj (ps ++ qs))) =
  ('(v, _) <- gread E G utf8_ok fparse lenient strict n ty (default_msg E ty) (render (JObj ps)) ;; '(w, _) <- gread E G utf8_ok fparse lenient strict n ty v (render (JObj qs)) ;; Ok w).
Proof. exact (GenJson4.gen_in_turn E G utf8_ok fparse lenient strict n ty ps qs). Qed.
Print Assumptions C91_in_turn.
(** A key that is not the name of a field is an error or, if allowed, ignored with its value. *)
Theorem C91_unknown E G utf8_ok fparse lenient (strict : bool) n ty ps key j qs : gknown G ty = KNone -> ~ In key (flat_map labels (flat_map fields_of (g_members (gty G ty)))) ->
  if strict then forall v, gread_json E G utf8_ok fparse lenient strict n ty (render (JObj (ps ++ (key, j) :: qs))) <> Ok v
  else gread_json E G utf8_ok fparse lenient strict n ty (render (JObj (ps ++ (key, j) :: qs))) = gread_json E G utf8_ok fparse lenient strict n ty (render (JObj (ps ++ qs))).
Proof. exact (GenJson4.gen_unknown E G utf8_ok fparse lenient strict n ty ps key j qs). Qed.
Print Assumptions C91_unknown.
(** The name in the schema does as well as the JSON name. *)
Theorem C91_either_name E G utf8_ok fparse lenient strict n ty b jf ps j qs : gtypes_ok E G -> gknown G ty = KNone -> In b (g_members (gty G ty)) -> In jf (fields_of b) ->
  gread_json E G utf8_ok fparse lenient strict n ty (render (JObj (ps ++ (j_name jf, j) :: qs))) = gread_json E G utf8_ok fparse lenient strict n ty (render (JObj (ps ++ (j_json jf, j) :: qs))).
Proof. exact (GenJson4.gen_either_name E G utf8_ok fparse lenient strict n ty b jf ps j qs). Qed.
Print Assumptions C91_either_name.
(** null resets a member that is not required to what it is in a new message. *)
Theorem C91_null E G utf8_ok fparse lenient strict n ty fs u i b f jf key r : gtypes_ok E G -> gknown G ty = KNone ->
  nth_error (g_members (gty G ty)) i = Some b -> nth_error (m_fields (desc_of E ty)) i = Some f -> List.length fs = List.length (m_fields (desc_of E ty)) ->
  In jf (fields_of b) -> key = j_name jf \/ key = j_json jf -> (forall num e d, f <> Field num e (CPlain true d)) ->
  gread E G utf8_ok fparse lenient strict (S n) ty (VMsg fs u) (render (JObj [(key, JNull)]) ++ r) = Ok (VMsg (Schema.set_nth i (field_default f) fs) u, r).
Proof. exact (GenJson4.gen_null E G utf8_ok fparse lenient strict n ty fs u i b f jf key r). Qed.
Print Assumptions C91_null.
(** ... also the oneof of an alternative other than the one that is null. *)
Theorem C91_other_alternative_refuted : forall lenient strict,
  gread_json gj_env gj_types any_text dj_parse lenient strict 10 0 (render (JObj [(txt "y", JStr (txt "yy")); (txt "x", JNull)])) = Ok gj_default.
Proof. intros [] []; vm_compute; reflexivity. Qed.
Print Assumptions C91_other_alternative_refuted.
Example C91_case : exists jf, nth_error (g_members (gty gj_types 0)) 0 = Some (GField jf false) /\ j_name jf = txt "an_int" /\ j_json jf = txt "anInt" /\
  ~ In (txt "unknown") (flat_map labels (flat_map fields_of (g_members (gty gj_types 0)))) /\
  gread_json gj_env gj_types any_text dj_parse false false 10 0 (render (JObj [(txt "an_int", JNum (txt "6")); (txt "unknown", dj_tree); (txt "c", JObj []); (txt "c", JNull)])) = Ok (gj_with 0 [VInt 6]).
Proof.
  eexists. split; [reflexivity|]. split; [reflexivity|]. split; [reflexivity|]. split; [|vm_compute; reflexivity].
  vm_compute. intros K. repeat (destruct K as [K|K]; [discriminate K|]). exact K.
Qed.
