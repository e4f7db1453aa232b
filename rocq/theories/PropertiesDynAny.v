(** C96: google.protobuf.Any in the JSON of dynamic messages. *)
From Coq Require Import Ascii String.
Require Import Verif.Bits Verif.Varint Verif.CppText.
Require Import Verif.DynSlots Verif.Dyn Verif.Schema Verif.Archive Verif.Decode Verif.Encode Verif.DynWire Verif.DynDecode Verif.DynView.
Require Import Verif.DynJson Verif.DynJsonSpec Verif.DynJsonTree Verif.DynAny Verif.DynAnySpec.
Require Import Verif.DynJson5 Verif.DynJsonSafe Verif.DynAny2 Verif.DynAnySafe Verif.DynAny3 Verif.DynJsonEx Verif.DynJsonBad Verif.DynAnyEx Verif.DynAnyEx2.
Local Open Scope string_scope.
Local Open Scope list_scope.
Local Open Scope Z_scope.

(** ** Reading *)
(** Reading a JSON value does what DynAnySpec.aset_json says for the structure of the value. *)
Theorem C96_reads_tree W J utf8_ok maxd fparse find_type strict n ty m j : jtypes_ok W J -> atypes_ok W J -> w_entry (wty W ty) = false ->
  aread_json W J utf8_ok maxd fparse find_type strict n ty m (render j) = aset_json W J utf8_ok maxd fparse find_type strict n 0 ty m j.
Proof. exact (fun HJ HA => DynAny2.any_document_read W J utf8_ok maxd fparse find_type HJ HA strict n ty m j). Qed.
Print Assumptions C96_reads_tree.
Theorem C96_nothing_follows W J utf8_ok maxd fparse find_type strict n ty m j r : jtypes_ok W J -> atypes_ok W J -> w_entry (wty W ty) = false -> r <> [] ->
  forall m', aread_json W J utf8_ok maxd fparse find_type strict n ty m (render j ++ r) <> Ok m'.
Proof. exact (fun HJ HA => DynAny2.any_nothing_follows W J utf8_ok maxd fparse find_type HJ HA strict n ty m j r). Qed.
Print Assumptions C96_nothing_follows.
(** It does not matter where "@type" stands. *)
Theorem C96_type_anywhere W J utf8_ok maxd fparse find_type strict n ty m url ps qs : jtypes_ok W J -> atypes_ok W J -> known_of J ty = KAny -> Forall (fun p => fst p <> type_key) (ps ++ qs) ->
  aread_json W J utf8_ok maxd fparse find_type strict n ty m (render (JObj (ps ++ (type_key, JStr url) :: qs))) =
  aread_json W J utf8_ok maxd fparse find_type strict n ty m (render (JObj ((type_key, JStr url) :: ps ++ qs))).
Proof. exact (fun HJ HA => DynAny2.any_type_anywhere W J utf8_ok maxd fparse find_type HJ HA strict n ty m url ps qs). Qed.
Print Assumptions C96_type_anywhere.
(** The type is named by what follows the last slash of the URL, which is not empty. *)
Theorem C96_type_name url name : after_slash url = Some name <-> name <> [] /\ ~ In 47 name /\ exists p, url = p ++ 47 :: name.
Proof. exact (slash_name url name). Qed.
Print Assumptions C96_type_name.
(** Whatever the text, reading is defined, and the message is one that can be written
    (C82); this is so for a text without null, and with nulls if no list of
    google.protobuf.Value can be read from one. *)
Theorem C96_read_defined W J utf8_ok maxd fparse find_type strict n ty m ts : wtypes_ok W -> jtypes_ok W J -> atypes_ok W J -> enums_fit J -> floats_fit fparse ->
  maxd + 2 <= Z.of_nat n -> 0 < Z.of_nat n -> sound W n ty m -> aquiet W J find_type ts -> calm J ty ts ->
  match aread_json W J utf8_ok maxd fparse find_type strict n ty m ts with Ok m' => sound W n ty m' | Err _ => True | _ => False end.
Proof. exact (fun HW HJ HA HE HF => aread_defined W J utf8_ok maxd fparse find_type strict HW HJ HA HE HF n ty m ts). Qed.
Print Assumptions C96_read_defined.
Example C96_read_defined_case : enums_fit da_json /\ floats_fit dj_parse /\ sound da_types 10 0 (new_slots da_types 0) /\ aquiet da_types da_json da_find (render da_tree) /\ calm da_json 0 (render da_tree) /\
  aread_json da_types da_json any_text 8 dj_parse da_find true 10 0 (new_slots da_types 0) (LBrace :: render da_tree) = Err BadMessage.
Proof. exact (conj da_enums (conj dj_floats (conj (sound_new da_types da_ok 9 0) (conj (proj1 da_quiet) (conj (proj2 da_quiet) da_unread))))). Qed.
(** The exception: {"@type":"/google.protobuf.ListValue","value":null}. *)
Theorem C96_null_list_refuted : wtypes_ok dl_types /\ jtypes_ok dl_types dl_json /\ atypes_ok dl_types dl_json /\ nulls_ok dl_types dl_json /\ forall strict,
  aread_json dl_types dl_json any_text 8 dj_parse dl_find strict 10 0 (new_slots dl_types 0) (render dl_tree) = UB.
Proof. exact (conj dl_ok (conj dl_json_ok (conj dl_any_ok (conj dl_nulls null_in_any)))). Qed.
Print Assumptions C96_null_list_refuted.
Example C96_read_case : jtypes_ok da_types da_json /\ atypes_ok da_types da_json /\ w_entry (wty da_types 0) = false /\ known_of da_json 1 = KAny /\
  aread_json da_types da_json any_text 8 dj_parse da_find true 10 0 (new_slots da_types 0) (render da_tree) = Ok da_message /\
  aread_json da_types da_json any_text 8 dj_parse da_find true 10 0 (new_slots da_types 0) (render da_shuffled) = Ok da_message.
Proof. exact (conj da_json_ok (conj da_any_ok (conj eq_refl (conj eq_refl da_read)))). Qed.

(** ** Writing *)
(** Writing is defined; what is written is JSON; ... *)
Theorem C96_defined W J utf8_ok le maxd fshow fparse find_type n ty m : jtypes_ok W J -> atypes_ok W J -> typed W n ty m -> aprintable W J utf8_ok maxd fshow fparse find_type n ty m ->
  (exists ts, awrite_json W J utf8_ok le maxd fshow find_type n ty m = Ok ts) \/ exists e, awrite_json W J utf8_ok le maxd fshow find_type n ty m = Err e.
Proof. intros HJ HA Ht Hp. pose proof (DynAny2.awrite_settled W J utf8_ok le maxd fshow fparse find_type HJ HA n 0 false ty m Ht Hp) as K. unfold DynJson5.settled, awrite_json in *. destruct (awrite_msg W J utf8_ok le maxd fshow find_type n 0 false false false ty m); try contradiction; eauto. Qed.
Print Assumptions C96_defined.
Theorem C96_document W J utf8_ok le maxd fshow fparse find_type n ty m ts : wtypes_ok W -> jtypes_ok W J -> atypes_ok W J -> typed W n ty m -> aprintable W J utf8_ok maxd fshow fparse find_type n ty m -> w_entry (wty W ty) = false ->
  awrite_json W J utf8_ok le maxd fshow find_type n ty m = Ok ts -> exists j, ts = render j.
Proof. exact (fun HW HJ HA => DynAny2.any_document W J utf8_ok le maxd fshow fparse find_type HW HJ HA n ty m ts). Qed.
Print Assumptions C96_document.
(** ... an Any is an object with the URL as its first member, "@type", and no other of that name; ... *)
Theorem C96_type_first W J utf8_ok le maxd fshow fparse find_type n ty m ts : wtypes_ok W -> jtypes_ok W J -> atypes_ok W J -> typed W n ty m -> aprintable W J utf8_ok maxd fshow fparse find_type n ty m -> known_of J ty = KAny ->
  awrite_json W J utf8_ok le maxd fshow find_type n ty m = Ok ts ->
  exists f l rest url ms, w_fields (wty W ty) = (f, l) :: rest /\ value (dyn_of f) l (slot_at m l) = FBytes url /\
    ts = render (JObj ((type_key, JStr url) :: ms)) /\ Forall (fun p => fst p <> type_key) ms.
Proof. exact (fun HW HJ HA => DynAny2.any_shown W J utf8_ok le maxd fshow fparse find_type HW HJ HA n ty m ts). Qed.
Print Assumptions C96_type_first.
(** ... and it is read back as the same message, with the same bytes in every Any. *)
Theorem C96_round_trip W J utf8_ok le maxd fshow fparse find_type strict n ty m ts : wtypes_ok W -> jtypes_ok W J -> atypes_ok W J -> typed W n ty m -> aprintable W J utf8_ok maxd fshow fparse find_type n ty m ->
  awrite_json W J utf8_ok le maxd fshow find_type n ty m = Ok ts ->
  exists m', aread_json W J utf8_ok maxd fparse find_type strict n ty (new_slots W ty) ts = Ok m' /\ same W n ty m m' /\
    forall u md k, dyn_encode W u md k ty m' = dyn_encode W u md k ty m.
Proof. exact (fun HW HJ HA => DynAny2.any_round_trip W J utf8_ok le maxd fshow fparse find_type HW HJ HA strict n ty m ts). Qed.
Print Assumptions C96_round_trip.
(** An Any is refused if the URL names no type of the pool, or the value is not a message
    of that type, unless it holds nothing. *)
Theorem C96_refused W J utf8_ok le maxd fshow find_type n ty m f0 l0 f1 l1 url data : atypes_ok W J -> known_of J ty = KAny -> w_fields (wty W ty) = [(f0, l0); (f1, l1)] ->
  value (dyn_of f0) l0 (slot_at m l0) = FBytes url -> value (dyn_of f1) l1 (slot_at m l1) = FBytes data -> has (f0, l0) m = true -> url <> [] \/ data <> [] /\ has (f1, l1) m = true -> 0 <= maxd ->
  (forall t, type_of find_type url <> Ok t) \/ (exists t e, type_of find_type url = Ok t /\ dyn_read W utf8_ok maxd t data = Err e) ->
  awrite_json W J utf8_ok le maxd fshow find_type (S n) ty m = Err BadMessage.
Proof. exact (fun HA => any_refused W J utf8_ok le maxd fshow (fun _ _ => None) find_type HA n ty m f0 l0 f1 l1 url data). Qed.
Print Assumptions C96_refused.
Example C96_refused_case : (forall t, type_of da_find (txt "x.y/p.None") <> Ok t) /\ type_of da_find url_flat = Ok 2%nat /\ dyn_read da_types any_text 8 2 [8] = Err BadMessage /\
  exists f0 l0 f1 l1, w_fields (wty da_types 1) = [(f0, l0); (f1, l1)] /\ has (f0, l0) (da_any url_flat [8]) = true /\
  value (dyn_of f0) l0 (slot_at (da_any url_flat [8]) l0) = FBytes url_flat /\ value (dyn_of f1) l1 (slot_at (da_any url_flat [8]) l1) = FBytes [8].
Proof.
  split; [intros t; discriminate|]. split; [vm_compute; reflexivity|]. split; [vm_compute; reflexivity|]. do 4 eexists. split; [reflexivity|].
  split; [vm_compute; reflexivity|]. split; vm_compute; reflexivity.
Qed.
(** A message with an Any that holds a message with another Any. *)
Example C96_case : wtypes_ok da_types /\ jtypes_ok da_types da_json /\ atypes_ok da_types da_json /\ typed da_types 10 0 da_message /\
  aprintable da_types da_json any_text 8 dj_show dj_parse da_find 10 0 da_message /\ awrite_json da_types da_json any_text true 8 dj_show da_find 10 0 da_message = Ok (render da_tree).
Proof. exact (conj da_ok (conj da_json_ok (conj da_any_ok (conj da_typed (conj da_printable da_written))))). Qed.

(** ** Messages without Any *)
(** For types from which no Any can be reached this is the JSON of C77-C82. *)
Theorem C96_without_any W J utf8_ok le maxd fshow fparse find_type P n ty : any_free W J P -> P ty ->
  (forall m, awrite_json W J utf8_ok le maxd fshow find_type n ty m = write_json W J le maxd fshow n ty m) /\
  (forall strict m ts, aread_json W J utf8_ok maxd fparse find_type strict n ty m ts = read_json W J utf8_ok maxd fparse strict n ty m ts).
Proof. exact (fun HP => json_without W J utf8_ok le maxd fshow fparse find_type P HP n ty). Qed.
Print Assumptions C96_without_any.
Example C96_without_case : any_free da_types da_json (fun ty => ty = 3%nat).
Proof. exact da_free. Qed.

(** ** What is not so *)
(** The messages within the payload of an Any are written without their braces:
    {"@type":"x.y/p.Nest","l":["b":1]}. *)
Theorem C96_nested_message_refuted : wtypes_ok da_types /\ jtypes_ok da_types da_json /\ atypes_ok da_types da_json /\
  typed da_types 10 1 da_nest /\ dyn_read da_types any_text 8 4 [10; 2; 8; 1] = Ok nest_payload /\
  exists ts, awrite_json da_types da_json any_text true 8 dj_show da_find 10 1 da_nest = Ok ts /\ forall j, ts <> render j.
Proof. exact (conj da_ok (conj da_json_ok (conj da_any_ok nested_braces))). Qed.
Print Assumptions C96_nested_message_refuted.
(** An Any that holds nothing is written as {}, which is refused. *)
Theorem C96_empty_refuted : wtypes_ok da_types /\ jtypes_ok da_types da_json /\ atypes_ok da_types da_json /\
  typed da_types 10 1 (new_slots da_types 1) /\ (awrite_json da_types da_json any_text true 8 dj_show da_find 10 1 (new_slots da_types 1) = Ok (render (JObj []))) /\
  forall strict, aread_json da_types da_json any_text 8 dj_parse da_find strict 10 1 (new_slots da_types 1) (render (JObj [])) = Err BadMessage.
Proof. exact (conj da_ok (conj da_json_ok (conj da_any_ok empty_any))). Qed.
Print Assumptions C96_empty_refuted.
(** Of a wrapper of zero in an Any nothing is written after "value":. *)
Theorem C96_zero_wrapper_refuted : wtypes_ok da_types /\ jtypes_ok da_types da_json /\ atypes_ok da_types da_json /\
  typed da_types 10 1 (da_any url_wrap []) /\ exists ts, awrite_json da_types da_json any_text true 8 dj_show da_find 10 1 (da_any url_wrap []) = Ok ts /\ forall j, ts <> render j.
Proof. exact (conj da_ok (conj da_json_ok (conj da_any_ok zero_wrapper))). Qed.
Print Assumptions C96_zero_wrapper_refuted.
