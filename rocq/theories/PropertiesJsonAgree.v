(** The JSON of a dynamic message and of the generated message with the same content. *)
From Coq Require Import Ascii String.
Require Import Verif.Bits Verif.CppText.
Require Import Verif.DynSlots Verif.Dyn Verif.Schema Verif.Archive Verif.Decode Verif.WellTyped Verif.DynWire Verif.DynDecode Verif.DynView Verif.DynJson Verif.DynJsonSpec Verif.DynJsonTree Verif.DynJsonEx Verif.DynJsonBad Verif.GenJson Verif.GenJsonSpec Verif.JsonAgreeSpec.
Require Verif.DynJson7 Verif.PropertiesGenJson Verif.JsonAgree4 Verif.JsonAgree5 Verif.JsonAgreeEx.
Import Verif.JsonAgreeEx(ja_env, ja_types, ja_tree, ja_dynamic, ja_message, ja_zero, ja_enum, jb_types, jb_json, jb_env, jb_gen, jb_set).
Local Open Scope string_scope.
Local Open Scope list_scope.
Local Open Scope Z_scope.

(** ** C94: the same text is written. *)
(** [view]: the generated message with what a user reads from the fields of the dynamic one. *)
Theorem C94_same_text W J E G le fshow maxd n ty m : wtypes_ok W -> jtypes_ok W J -> types_match W J E G -> w_entry (wty W ty) = false -> typed W n ty m -> common W J n ty m ->
  maxd < 2 ^ 32 - 1 -> Z.of_nat n <= maxd + 1 ->
  write_json W J le maxd fshow n ty m = gwrite E G le fshow false false n ty (view W J G n ty m).
Proof. exact (JsonAgree5.json_equal W J E G le fshow maxd n ty m). Qed.
Print Assumptions C94_same_text.
(** Generated messages have no limit to how deep they are nested. *)
Theorem C94_same_or_deep W J E G le fshow maxd n ty m : wtypes_ok W -> jtypes_ok W J -> types_match W J E G -> w_entry (wty W ty) = false -> typed W n ty m -> common W J n ty m ->
  write_json W J le maxd fshow n ty m = gwrite E G le fshow false false n ty (view W J G n ty m) \/ write_json W J le maxd fshow n ty m = Err TooLarge.
Proof. exact (fun HW HJ HM => JsonAgree4.json_same W J E G le fshow maxd HW HJ HM n ty m). Qed.
Print Assumptions C94_same_or_deep.

(** Not the same are a field without presence that was set to its default, ... *)
Theorem C94_default_refuted : wtypes_ok dj_types /\ jtypes_ok dj_types dj_json /\ types_match dj_types dj_json ja_env ja_types /\ typed dj_types 2 0 ja_zero /\
  write_json dj_types dj_json true 8 dj_show 2 0 ja_zero = Ok (render (JObj [(txt "anInt", JNum (txt "0"))])) /\
  gwrite ja_env ja_types true dj_show false false 2 0 (view dj_types dj_json ja_types 2 0 ja_zero) = Ok (render (JObj [])).
Proof. exact (conj dj_ok (conj dj_json_ok (conj JsonAgreeEx.ja_match (conj JsonAgreeEx.ja_zero_typed JsonAgreeEx.ja_zero_differs)))). Qed.
Print Assumptions C94_default_refuted.
(** ... a negative number of an enum without name, ... *)
Theorem C94_enum_refuted : wtypes_ok dj_types /\ jtypes_ok dj_types dj_json /\ types_match dj_types dj_json ja_env ja_types /\ typed dj_types 2 0 ja_enum /\
  write_json dj_types dj_json true 8 dj_show 2 0 ja_enum = Ok (render (JObj [(txt "e", JNum (txt "4294967295"))])) /\
  gwrite ja_env ja_types true dj_show false false 2 0 (view dj_types dj_json ja_types 2 0 ja_enum) = Ok (render (JObj [(txt "e", JNum (txt "-1"))])).
Proof. exact (conj dj_ok (conj dj_json_ok (conj JsonAgreeEx.ja_match (conj JsonAgreeEx.ja_enum_typed JsonAgreeEx.ja_enum_differs)))). Qed.
Print Assumptions C94_enum_refuted.
(** ... and 64-bit integers that are optional or in a oneof. *)
Theorem C94_wide_refuted : wtypes_ok jb_types /\ jtypes_ok jb_types jb_json /\ types_match jb_types jb_json jb_env jb_gen /\ (typed jb_types 2 0 (jb_set "a") /\ typed jb_types 2 0 (jb_set "b")) /\
  write_json jb_types jb_json true 8 dj_show 2 0 (jb_set "a") = Ok (render (JObj [(txt "a", JStr (txt "5"))])) /\
  gwrite jb_env jb_gen true dj_show false false 2 0 (view jb_types jb_json jb_gen 2 0 (jb_set "a")) = Ok (render (JObj [(txt "a", JNum (txt "5"))])) /\
  write_json jb_types jb_json true 8 dj_show 2 0 (jb_set "b") = Ok (render (JObj [(txt "b", JStr (txt "5"))])) /\
  gwrite jb_env jb_gen true dj_show false false 2 0 (view jb_types jb_json jb_gen 2 0 (jb_set "b")) = Ok (render (JObj [(txt "b", JNum (txt "5"))])).
Proof. exact (conj JsonAgreeEx.jb_ok (conj JsonAgreeEx.jb_json_ok (conj JsonAgreeEx.jb_match (conj JsonAgreeEx.jb_typed JsonAgreeEx.jb_differs)))). Qed.
Print Assumptions C94_wide_refuted.

(** So what one of them wrote is read by the other: the dynamic message from the text of the generated, ... *)
Theorem C94_generated_to_dynamic W J E G utf8_ok le fshow fparse maxd strict n ty m ts : wtypes_ok W -> jtypes_ok W J -> types_match W J E G -> w_entry (wty W ty) = false -> typed W n ty m -> common W J n ty m ->
  printable W J utf8_ok fshow fparse n ty m -> maxd < 2 ^ 32 - 1 -> Z.of_nat n <= maxd + 1 -> gwrite E G le fshow false false n ty (view W J G n ty m) = Ok ts ->
  exists m', read_json W J utf8_ok maxd fparse strict n ty (new_slots W ty) ts = Ok m' /\ same W n ty m m'.
Proof.
  intros HW HJ HM He T C P Hm Hn H. rewrite <- (JsonAgree5.json_equal W J E G le fshow maxd n ty m HW HJ HM He T C Hm Hn) in H.
  destruct (DynJson7.round_trip W J utf8_ok le maxd fshow fparse HW HJ strict n ty m ts T P H) as (m' & R & S & _). exists m'. split; [exact R|exact S].
Qed.
Print Assumptions C94_generated_to_dynamic.
(** ... and the generated message from that of the dynamic, whatever the depth that is allowed. *)
Theorem C94_dynamic_to_generated W J E G utf8_ok le fshow fparse lenient maxd strict n ty m ts : wtypes_ok W -> jtypes_ok W J -> types_match W J E G -> w_entry (wty W ty) = false -> typed W n ty m -> common W J n ty m ->
  gtypes_ok E G -> wt_msg E utf8_ok ty (view W J G n ty m) -> gprintable E G utf8_ok fshow fparse lenient n ty (view W J G n ty m) -> write_json W J le maxd fshow n ty m = Ok ts ->
  gread_json E G utf8_ok fparse lenient strict n ty ts = Ok (bare E G false n ty (view W J G n ty m)).
Proof.
  intros HW HJ HM He T C HG Hw P H. destruct (JsonAgree4.json_same W J E G le fshow maxd HW HJ HM n ty m He T C) as [K|K]; [|congruence]. rewrite H in K. symmetry in K.
  exact (proj2 (PropertiesGenJson.C89_round_trip E G utf8_ok le fshow fparse lenient false false strict n ty _ ts HG Hw P K)).
Qed.
Print Assumptions C94_dynamic_to_generated.

(** A message with a map, a list, a oneof and each of the known types. *)
Example C94_case : wtypes_ok dj_types /\ jtypes_ok dj_types dj_json /\ types_match dj_types dj_json ja_env ja_types /\ w_entry (wty dj_types 0) = false /\ typed dj_types 10 0 ja_dynamic /\ common dj_types dj_json 10 0 ja_dynamic /\
  printable dj_types dj_json any_text dj_show dj_parse 10 0 ja_dynamic /\ gtypes_ok ja_env ja_types /\ view dj_types dj_json ja_types 10 0 ja_dynamic = ja_message /\ wt_msg ja_env any_text 0 ja_message /\
  (forall lenient, gprintable ja_env ja_types any_text dj_show dj_parse lenient 10 0 ja_message) /\ bare ja_env ja_types false 10 0 ja_message = ja_message /\
  write_json dj_types dj_json true 9 dj_show 10 0 ja_dynamic = Ok (render ja_tree) /\ Z.of_nat 10 <= 9 + 1 /\ gwrite ja_env ja_types true dj_show false false 10 0 ja_message = Ok (render ja_tree).
Proof.
  split; [exact dj_ok|]. split; [exact dj_json_ok|]. split; [exact JsonAgreeEx.ja_match|]. split; [reflexivity|]. split; [exact JsonAgreeEx.ja_typed|]. split; [exact JsonAgreeEx.ja_common|]. split; [exact JsonAgreeEx.ja_printable|].
  split; [exact JsonAgreeEx.ja_gen_ok|]. split; [exact JsonAgreeEx.ja_message_view|]. split; [exact JsonAgreeEx.ja_message_wt|]. split; [exact JsonAgreeEx.ja_message_printable|]. split; [exact JsonAgreeEx.ja_bare|].
  split; [exact JsonAgreeEx.ja_written|]. split; [cbn; lia|]. vm_compute. reflexivity.
Qed.
