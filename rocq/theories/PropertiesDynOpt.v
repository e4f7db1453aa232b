(** Properties of the options of writing JSON for dynamic messages. *)
From Coq Require Import Ascii String.
Require Import Verif.Bits Verif.Varint Verif.CppText.
Require Import Verif.DynSlots Verif.Dyn Verif.Schema Verif.Archive Verif.Decode Verif.Encode Verif.DynWire Verif.DynDecode Verif.DynView.
Require Import Verif.DynJson Verif.DynJsonSpec Verif.DynOpt Verif.DynOptSpec.
Require Verif.DynOpt3 Verif.DynOpt4 Verif.DynJsonEx Verif.DynJsonBad Verif.DynOptEx.
Import Verif.DynJsonEx Verif.DynJsonBad Verif.DynOptEx.
Local Open Scope string_scope.
Local Open Scope list_scope.
Local Open Scope Z_scope.

(** ** C100: always_print_fields_with_no_presence and preserve_proto_field_names *)
(** Without the options the text is that of C77 and C78. *)
Theorem C100_plain W J le maxd fshow n ty m : show_json W J le maxd fshow false false n ty m = write_json W J le maxd fshow n ty m.
Proof. exact (DynOpt3.msg_plain W J le maxd fshow n 0 false ty m). Qed.
Print Assumptions C100_plain.
(** Writing succeeds or reports an error ... *)
Theorem C100_defined W J utf8_ok le maxd fshow fparse always preserve n ty m : jtypes_ok W J -> typed W n ty m -> showable W J utf8_ok fshow fparse always n ty m ->
  (exists ts, show_json W J le maxd fshow always preserve n ty m = Ok ts) \/ (exists e, show_json W J le maxd fshow always preserve n ty m = Err e).
Proof. exact (fun HJ => DynOpt4.show_defined W J utf8_ok le maxd fshow fparse always preserve HJ n ty m). Qed.
Print Assumptions C100_defined.
(** ... and what it writes is an object with a member for each field that has a value or,
    with always_print_fields_with_no_presence, has no presence, in the order of the fields
    and with the names asked for; absent fields by [absent_form], and messages within as they
    are written alone with the same options. *)
Theorem C100_members W J utf8_ok le maxd fshow fparse always preserve n ty m ts : wtypes_ok W -> jtypes_ok W J -> names_found W J preserve -> maxd < 2 ^ 32 - 1 -> typed W (S n) ty m -> showable W J utf8_ok fshow fparse always (S n) ty m ->
  w_entry (wty W ty) = false -> known_of J ty = KNone -> show_json W J le maxd fshow always preserve (S n) ty m = Ok ts ->
  exists ms, ts = render (JObj ms) /\
    Forall2 (fun x p => member_for W fshow preserve m x p /\ nested_for W (show_json W J le (maxd - 1) fshow always preserve n) m x p) (filter (fun x => printed always (snd x) m) (jfields W J ty)) ms.
Proof. exact (fun HW HJ HN => DynOpt4.show_object W J utf8_ok le maxd fshow fparse always preserve HW HJ HN n ty m ts). Qed.
Print Assumptions C100_members.
(** It is read back: the fields that are present, by the binary format, are the same with
    the same values, and the message is written in binary as before. *)
Theorem C100_round_trip W J utf8_ok le maxd fshow fparse always preserve strict n ty m ts : wtypes_ok W -> jtypes_ok W J -> names_found W J preserve -> typed W n ty m -> showable W J utf8_ok fshow fparse always n ty m ->
  show_json W J le maxd fshow always preserve n ty m = Ok ts ->
  exists m', read_json W J utf8_ok maxd fparse strict n ty (new_slots W ty) ts = Ok m' /\ same W n ty m m' /\ forall u md k, dyn_encode W u md k ty m' = dyn_encode W u md k ty m.
Proof. exact (fun HW HJ HN => DynOpt4.show_round W J utf8_ok le maxd fshow fparse always preserve HW HJ HN strict n ty m ts). Qed.
Print Assumptions C100_round_trip.
(** With preserve_proto_field_names alone what C78 asks for is enough, ... *)
Theorem C100_names_only W J utf8_ok fshow fparse n ty m : printable W J utf8_ok fshow fparse n ty m -> showable W J utf8_ok fshow fparse false n ty m.
Proof. exact (DynOpt4.printable_showable W J utf8_ok fshow fparse n ty m). Qed.
Print Assumptions C100_names_only.
(** ... and names are found if they are distinct and none is the JSON name of another field. *)
Theorem C100_names W J preserve : jtypes_ok W J -> (forall ty, NoDup (map j_name (jt_fields (jty J ty)))) ->
  (forall ty a b, In a (jt_fields (jty J ty)) -> In b (jt_fields (jty J ty)) -> j_name a = j_json b -> j_json a = j_json b) -> names_found W J preserve.
Proof. exact (DynOpt4.names_apart W J preserve). Qed.
Print Assumptions C100_names.

(** A string and an enum without presence are written as null. *)
Theorem C100_default_refuted : wtypes_ok do_types /\ jtypes_ok do_types do_json /\
  exists ms, show_json do_types do_json true 8 dj_show true false 10 0 (new_slots do_types 0) = Ok (render (JObj ms)) /\ In (txt "c", JNull) ms /\ In (txt "e", JNull) ms.
Proof. exact (conj do_ok (conj do_json_ok null_string)). Qed.
Print Assumptions C100_default_refuted.
(** A number that was cleared is written with the value it had, and read back. *)
Theorem C100_cleared_refuted : wtypes_ok do_types /\ jtypes_ok do_types do_json /\ typed do_types 10 0 do_cleared /\
  exists ts m', dyn_encode do_types any_text 8 10 0 do_cleared = Ok [] /\ show_json do_types do_json true 8 dj_show true false 10 0 do_cleared = Ok ts /\
    read_json do_types do_json (fun _ => true) 8 dj_parse true 10 0 (new_slots do_types 0) ts = Ok m' /\ dyn_encode do_types any_text 8 10 0 m' = Ok [8; 5].
Proof. exact (conj do_ok (conj do_json_ok (conj do_cleared_typed cleared_written))). Qed.
Print Assumptions C100_cleared_refuted.
(** A StringValue without value is written as null, and lost. *)
Theorem C100_wrapper_refuted : wtypes_ok do_types /\ jtypes_ok do_types do_json /\
  exists m ts m', dyn_read do_types any_text 8 0 [82; 0] = Ok m /\ dyn_encode do_types any_text 8 10 0 m = Ok [82; 0] /\ show_json do_types do_json true 8 dj_show true false 10 0 m = Ok ts /\
    read_json do_types do_json (fun _ => true) 8 dj_parse true 10 0 (new_slots do_types 0) ts = Ok m' /\ dyn_encode do_types any_text 8 10 0 m' = Ok [].
Proof. exact (conj do_ok (conj do_json_ok wrapper_lost)). Qed.
Print Assumptions C100_wrapper_refuted.
(** A name that is the JSON name of another field is read as the other field. *)
Theorem C100_names_refuted : wtypes_ok dn_types /\ jtypes_ok dn_types dn_json /\
  exists m ts m', dyn_read dn_types any_text 8 0 [8; 1; 16; 2] = Ok m /\ show_json dn_types dn_json true 8 dj_show false true 10 0 m = Ok ts /\
    read_json dn_types dn_json (fun _ => true) 8 dj_parse true 10 0 (new_slots dn_types 0) ts = Ok m' /\ dyn_encode dn_types any_text 8 10 0 m' = Ok [8; 2].
Proof. exact (conj dn_ok (conj dn_json_ok names_swapped)). Qed.
Print Assumptions C100_names_refuted.

Example C100_case : wtypes_ok do_types /\ jtypes_ok do_types do_json /\ names_found do_types do_json true /\ typed do_types 10 0 do_message /\ showable do_types do_json (fun _ => true) dj_show dj_parse true 10 0 do_message /\
  w_entry (wty do_types 0) = false /\ known_of do_json 0 = KNone /\
  show_json do_types do_json true 8 dj_show true true 10 0 do_message = Ok (render (do_full "an_int")) /\ show_json do_types do_json true 8 dj_show true false 10 0 do_message = Ok (render (do_full "anInt")) /\
  show_json do_types do_json true 8 dj_show false true 10 0 do_message = Ok (render do_plain).
Proof. split; [exact do_ok|]. split; [exact do_json_ok|]. split; [exact do_names|]. split; [exact do_typed|]. split; [exact do_shown|]. split; [reflexivity|]. split; [reflexivity|]. exact do_written. Qed.
