(** Properties of the JSON form of dynamic messages. *)
From Coq Require Import Ascii String.
Require Import Verif.Bits Verif.Varint Verif.CppText.
Require Import Verif.DynSlots Verif.Dyn Verif.Schema Verif.Archive Verif.Decode Verif.Encode Verif.DynWire Verif.DynDecode Verif.DynView.
Require Import Verif.DynJson Verif.DynJsonSpec Verif.DynJsonTree Verif.DynJsonSafe.
Require Verif.DynJson5 Verif.DynJson7 Verif.DynJsonEx Verif.DynJsonBad.
Import Verif.DynJsonEx Verif.DynJsonBad.
Local Open Scope string_scope.
Local Open Scope list_scope.
Local Open Scope Z_scope.

(** ** C77: what is written is JSON. *)
(** Writing succeeds or reports an error ... *)
Theorem C77_defined W J utf8_ok le maxd fshow fparse n ty m : jtypes_ok W J -> typed W n ty m -> printable W J utf8_ok fshow fparse n ty m ->
  (exists ts, write_json W J le maxd fshow n ty m = Ok ts) \/ (exists e, write_json W J le maxd fshow n ty m = Err e).
Proof. intros HJ Ht Hp. pose proof (DynJson5.write_settled W J utf8_ok le maxd fshow fparse HJ n 0 false ty m Ht Hp) as K. unfold DynJson5.settled, write_json in *. destruct (write_msg W J le maxd fshow n 0 false ty m); try contradiction; eauto. Qed.
Print Assumptions C77_defined.
(** ... and what it writes is one JSON value. *)
Theorem C77_well_formed W J utf8_ok le maxd fshow fparse n ty m ts : wtypes_ok W -> jtypes_ok W J -> typed W n ty m -> printable W J utf8_ok fshow fparse n ty m -> w_entry (wty W ty) = false ->
  write_json W J le maxd fshow n ty m = Ok ts -> exists j, ts = render j.
Proof. exact (fun HW HJ => DynJson7.document_written W J utf8_ok le maxd fshow fparse HW HJ n ty m ts). Qed.
Print Assumptions C77_well_formed.
(** For a message without a form of its own: an object with a member for each field that
    has a value, in the order of the fields and with their JSON names. *)
Theorem C77_members W J utf8_ok le maxd fshow fparse n ty m ts : wtypes_ok W -> jtypes_ok W J -> typed W n ty m -> printable W J utf8_ok fshow fparse n ty m -> w_entry (wty W ty) = false -> known_of J ty = KNone ->
  write_json W J le maxd fshow n ty m = Ok ts ->
  exists ms, ts = render (JObj ms) /\ map fst ms = map (fun x => j_json (fst x)) (filter (fun x => has (snd x) m) (jfields W J ty)).
Proof. exact (fun HW HJ => DynJson7.object_written W J utf8_ok le maxd fshow fparse HW HJ n ty m ts). Qed.
Print Assumptions C77_members.

(** Messages read from binary can be written as what is not JSON: a wrapper or a
    google.protobuf.Value without a value is written as nothing, ... *)
Theorem C77_empty_wrapper_refuted : wtypes_ok dj_types /\ jtypes_ok dj_types dj_json /\
  exists m ts, dyn_read dj_types any_text 8 0 [74; 0] = Ok m /\ write_json dj_types dj_json true 8 dj_show 10 0 m = Ok ts /\ forall j, ts <> render j.
Proof. exact (conj dj_ok (conj dj_json_ok empty_wrapper)). Qed.
Print Assumptions C77_empty_wrapper_refuted.
Theorem C77_empty_value_refuted : wtypes_ok dj_types /\ jtypes_ok dj_types dj_json /\
  exists m ts, dyn_read dj_types any_text 8 0 [82; 0] = Ok m /\ write_json dj_types dj_json true 8 dj_show 10 0 m = Ok ts /\ forall j, ts <> render j.
Proof. exact (conj dj_ok (conj dj_json_ok empty_value)). Qed.
Print Assumptions C77_empty_value_refuted.
(** ... an entry of a map without key is written by its value alone, ... *)
Theorem C77_keyless_entry_refuted : wtypes_ok dj_types /\ jtypes_ok dj_types dj_json /\
  exists m ts, dyn_read dj_types any_text 8 0 [58; 4; 18; 2; 32; 1] = Ok m /\ write_json dj_types dj_json true 8 dj_show 10 0 m = Ok ts /\ forall j, ts <> render j.
Proof. exact (conj dj_ok (conj dj_json_ok keyless_entry)). Qed.
Print Assumptions C77_keyless_entry_refuted.
(** ... and one whose message was not set is not defined. *)
Theorem C77_absent_mapped_refuted : wtypes_ok dj_types /\ jtypes_ok dj_types dj_json /\ exists m, typed dj_types 3 0 m /\ write_json dj_types dj_json true 8 dj_show 10 0 m = UB.
Proof. exact (conj dj_ok (conj dj_json_ok absent_mapped)). Qed.
Print Assumptions C77_absent_mapped_refuted.

Example C77_case : wtypes_ok dj_types /\ jtypes_ok dj_types dj_json /\ typed dj_types 10 0 dj_message /\ printable dj_types dj_json (fun _ => true) dj_show dj_parse 10 0 dj_message /\
  write_json dj_types dj_json true 8 dj_show 10 0 dj_message = Ok (render dj_tree).
Proof. split; [exact dj_ok|]. split; [exact dj_json_ok|]. split; [exact (sound_typed _ _ _ _ dj_sound)|]. split; [exact dj_printable|exact dj_written]. Qed.

(** ** C78: what was written is read back. *)
(** The fields that are present, by the binary format, are the same with the same values;
    the message is written in binary as before. *)
Theorem C78_round_trip W J utf8_ok le maxd fshow fparse strict n ty m ts : wtypes_ok W -> jtypes_ok W J -> typed W n ty m -> printable W J utf8_ok fshow fparse n ty m ->
  write_json W J le maxd fshow n ty m = Ok ts ->
  exists m', read_json W J utf8_ok maxd fparse strict n ty (new_slots W ty) ts = Ok m' /\ same W n ty m m' /\
    forall u md k, dyn_encode W u md k ty m' = dyn_encode W u md k ty m.
Proof. exact (fun HW HJ => DynJson7.round_trip W J utf8_ok le maxd fshow fparse HW HJ strict n ty m ts). Qed.
Print Assumptions C78_round_trip.
(** A number of an enum that has no name and is negative is written as unsigned, and refused. *)
Theorem C78_negative_enum_refuted : wtypes_ok dj_types /\ jtypes_ok dj_types dj_json /\
  exists m ts, typed dj_types 10 0 m /\ write_json dj_types dj_json true 8 dj_show 10 0 m = Ok ts /\ forall strict, read_json dj_types dj_json any_text 8 dj_parse strict 10 0 (new_slots dj_types 0) ts = Err BadMessage.
Proof. exact (conj dj_ok (conj dj_json_ok negative_enum)). Qed.
Print Assumptions C78_negative_enum_refuted.
(** A google.protobuf.NullValue is written as null, which is read as absent, ... *)
Theorem C78_null_enum_refuted : wtypes_ok dk_types /\ jtypes_ok dk_types dk_json /\
  exists m ts m', typed dk_types 10 0 m /\ write_json dk_types dk_json true 8 dj_show 10 0 m = Ok ts /\
    read_json dk_types dk_json any_text 8 dj_parse true 10 0 (new_slots dk_types 0) ts = Ok m' /\ dyn_encode dk_types any_text 8 10 0 m = Ok [32; 0] /\ dyn_encode dk_types any_text 8 10 0 m' = Ok [].
Proof. exact (conj dk_ok (conj dk_json_ok null_enum)). Qed.
Print Assumptions C78_null_enum_refuted.
(** ... and a list of them is refused. *)
Theorem C78_null_enums_refuted : wtypes_ok dk_types /\ jtypes_ok dk_types dk_json /\
  exists m ts, typed dk_types 10 0 m /\ write_json dk_types dk_json true 8 dj_show 10 0 m = Ok ts /\ forall strict, read_json dk_types dk_json any_text 8 dj_parse strict 10 0 (new_slots dk_types 0) ts = Err BadMessage.
Proof. exact (conj dk_ok (conj dk_json_ok null_enums)). Qed.
Print Assumptions C78_null_enums_refuted.
(** The hypotheses are met by C77_case. *)
Example C78_case : read_json dj_types dj_json (fun _ => true) 8 dj_parse true 10 0 (new_slots dj_types 0) (render dj_tree) = Ok dj_message.
Proof. exact dj_read. Qed.

(** ** C79: what a JSON text does to a message. *)
(** Reading a JSON value does what DynJsonTree.set_json says for the structure of the value. *)
Theorem C79_reads_tree W J utf8_ok maxd fparse strict n ty m j : jtypes_ok W J -> w_entry (wty W ty) = false ->
  read_json W J utf8_ok maxd fparse strict n ty m (render j) = set_json W J utf8_ok maxd fparse strict n 0 ty m j.
Proof. exact (fun HJ => DynJson7.document_read W J utf8_ok maxd fparse HJ strict n ty m j). Qed.
Print Assumptions C79_reads_tree.
(** Nothing may follow it. *)
Theorem C79_nothing_follows W J utf8_ok maxd fparse strict n ty m j r : jtypes_ok W J -> w_entry (wty W ty) = false -> r <> [] ->
  forall m', read_json W J utf8_ok maxd fparse strict n ty m (render j ++ r) <> Ok m'.
Proof. exact (fun HJ => DynJson7.document_rest W J utf8_ok maxd fparse HJ strict n ty m j r). Qed.
Print Assumptions C79_nothing_follows.
(** The members of an object take effect in turn: the message keeps what it held. *)
Theorem C79_in_turn W J utf8_ok maxd fparse strict n ty m ps qs : jtypes_ok W J -> w_entry (wty W ty) = false -> known_of J ty = KNone ->
  read_json W J utf8_ok maxd fparse strict n ty m (render (JObj (ps ++ qs))) =
  match read_json W J utf8_ok maxd fparse strict n ty m (render (JObj ps)) with
  | Ok m1 => read_json W J utf8_ok maxd fparse strict n ty m1 (render (JObj qs))
  | e => e
  end.
Proof. intros HJ He Hk. rewrite (DynJson7.members_in_turn W J utf8_ok maxd fparse HJ strict n ty m ps qs He Hk). destruct (read_json W J utf8_ok maxd fparse strict n ty m (render (JObj ps))); reflexivity. Qed.
Print Assumptions C79_in_turn.
(** Texts that are not JSON are accepted: a list that is not closed, within a list. *)
Theorem C79_malformed_refuted : wtypes_ok dk_types /\ jtypes_ok dk_types dk_json /\
  (exists m, read_json dk_types dk_json any_text 8 dj_parse true 10 0 (new_slots dk_types 0) unbalanced = Ok m) /\ forall j, unbalanced <> render j.
Proof. exact (conj dk_ok (conj dk_json_ok malformed)). Qed.
Print Assumptions C79_malformed_refuted.
Example C79_case : jtypes_ok dj_types dj_json /\ w_entry (wty dj_types 0) = false /\ known_of dj_json 0 = KNone /\
  read_json dj_types dj_json any_text 8 dj_parse true 10 0 dj_message (render (JObj [(txt "f", JArr [JNum (txt "3")]); (txt "an_int", JNum (txt "6"))])) =
  Ok (put (put dj_message 5 (3, CInts [1; -2; 3])) 0 (1, CInt 6)).
Proof. split; [exact dj_json_ok|]. split; [reflexivity|]. split; [reflexivity|]. vm_compute. reflexivity. Qed.

(** ** C80: null *)
(** The member null makes a field absent and touches no other storage, ... *)
Theorem C80_null_clears W J utf8_ok maxd fparse strict n ty m jf f l : wtypes_ok W -> jtypes_ok W J -> w_entry (wty W ty) = false -> known_of J ty = KNone -> In (jf, (f, l)) (jfields W J ty) ->
  scope_ok maxd 0 = true -> length m = w_slots (wty W ty) -> (forall te d, w_elem f = EMsg te d -> known_of J te <> KValue) ->
  exists m', read_json W J utf8_ok maxd fparse strict (S n) ty m (render (JObj [(j_json jf, JNull)])) = Ok m' /\
    has (f, l) m' = false /\ (forall g k, l_slot k <> l_slot l -> slot_at m' k = slot_at m k /\ has (g, k) m' = has (g, k) m).
Proof. exact (fun HW HJ => DynJson7.null_member W J utf8_ok maxd fparse HW HJ strict n ty m jf f l). Qed.
Print Assumptions C80_null_clears.
(** ... but a google.protobuf.Value becomes the null value. *)
Theorem C80_null_value W J utf8_ok maxd fparse strict n ty m jf f l te d : wtypes_ok W -> jtypes_ok W J -> w_entry (wty W ty) = false -> known_of J ty = KNone -> In (jf, (f, l)) (jfields W J ty) ->
  scope_ok maxd 0 = true -> length m = w_slots (wty W ty) -> w_elem f = EMsg te d -> w_rep f = None -> known_of J te = KValue ->
  exists m' v f0 l0, read_json W J utf8_ok maxd fparse strict (S n) ty m (render (JObj [(j_json jf, JNull)])) = Ok m' /\
    has (f, l) m' = true /\ value (dyn_of f) l (slot_at m' l) = FMsg v /\
    hd_error (w_fields (wty W te)) = Some (f0, l0) /\ has (f0, l0) v = true /\ (forall k, l_slot k <> l_slot l -> slot_at m' k = slot_at m k).
Proof. exact (fun HW HJ => DynJson7.null_value_member W J utf8_ok maxd fparse HW HJ strict n ty m jf f l te d). Qed.
Print Assumptions C80_null_value.
(** The storage is that of all alternatives of a oneof: null for one that has no value
    removes the value of another. *)
Theorem C80_other_alternative_refuted : wtypes_ok dj_types /\ jtypes_ok dj_types dj_json /\
  exists k l m', nth_error (w_fields (wty dj_types 0)) 10 = Some k /\ nth_error (w_fields (wty dj_types 0)) 11 = Some l /\ typed dj_types 10 0 other_alternative /\
    has k other_alternative = false /\ has l other_alternative = true /\
    read_json dj_types dj_json any_text 8 dj_parse true 10 0 other_alternative (render (JObj [(txt "k", JNull)])) = Ok m' /\ has l m' = false.
Proof. exact (conj dj_ok (conj dj_json_ok null_alternative)). Qed.
Print Assumptions C80_other_alternative_refuted.
Example C80_case : read_json dj_types dj_json any_text 8 dj_parse true 10 0 dj_message (render (JObj [(txt "h", JNull); (txt "f", JNull); (txt "j", JNull)])) =
  Ok (put (put (put dj_message 7 (0, snd (nth 7 dj_message zero_slot))) 5 (0, snd (nth 5 dj_message zero_slot))) 9 (1, CMsg [(2, CInt 0)])).
Proof. vm_compute. reflexivity. Qed.

(** ** C81: the names of members *)
(** A member that is not the name of a field is an error or, if these are allowed, ignored
    whatever its value. *)
Theorem C81_unknown_member W J utf8_ok maxd fparse (strict : bool) n ty m ps key j qs : jtypes_ok W J -> w_entry (wty W ty) = false -> known_of J ty = KNone ->
  ~ In key (map j_json (jt_fields (jty J ty))) -> ~ In key (map j_name (jt_fields (jty J ty))) ->
  if strict then forall m', read_json W J utf8_ok maxd fparse strict n ty m (render (JObj (ps ++ (key, j) :: qs))) <> Ok m'
  else read_json W J utf8_ok maxd fparse strict n ty m (render (JObj (ps ++ (key, j) :: qs))) = read_json W J utf8_ok maxd fparse strict n ty m (render (JObj (ps ++ qs))).
Proof. exact (fun HJ => DynJson7.unknown_member W J utf8_ok maxd fparse HJ strict n ty m ps key j qs). Qed.
Print Assumptions C81_unknown_member.
(** The name of the field in the schema does as well as its JSON name, unless it is the
    JSON name of another. *)
Theorem C81_either_name W J utf8_ok maxd fparse strict n ty m x ps j qs : jtypes_ok W J -> w_entry (wty W ty) = false -> known_of J ty = KNone -> In x (jfields W J ty) -> NoDup (map j_name (jt_fields (jty J ty))) ->
  ~ In (j_name (fst x)) (remove (list_eq_dec Z.eq_dec) (j_json (fst x)) (map j_json (jt_fields (jty J ty)))) ->
  read_json W J utf8_ok maxd fparse strict n ty m (render (JObj (ps ++ (j_name (fst x), j) :: qs))) =
  read_json W J utf8_ok maxd fparse strict n ty m (render (JObj (ps ++ (j_json (fst x), j) :: qs))).
Proof. exact (fun HJ => DynJson7.either_name W J utf8_ok maxd fparse HJ strict n ty m x ps j qs). Qed.
Print Assumptions C81_either_name.
Example C81_case : exists jf f l, nth_error (jfields dj_types dj_json 0) 0 = Some (jf, (f, l)) /\ j_name jf = txt "an_int" /\ j_json jf = txt "anInt" /\
  ~ In (j_name jf) (remove (list_eq_dec Z.eq_dec) (j_json jf) (map j_json (jt_fields (jty dj_json 0)))) /\
  read_json dj_types dj_json any_text 8 dj_parse false 10 0 (new_slots dj_types 0) (render (JObj [(txt "an_int", JNum (txt "6")); (txt "unknown", dj_tree)])) = Ok (put (new_slots dj_types 0) 0 (1, CInt 6)).
Proof.
  do 3 eexists. split; [reflexivity|]. split; [reflexivity|]. split; [reflexivity|]. split; [|vm_compute; reflexivity].
  intros K. apply in_remove in K. destruct K as [K _]. cbn in K. repeat (destruct K as [K|K]; [discriminate K|]). exact K.
Qed.

(** ** C82: reading is defined *)
(** Whatever the text: reading fails, or the message is again one whose fields hold values
    of their types, as long as no null is read as a list of google.protobuf.Value. *)
Theorem C82_defined W J utf8_ok maxd fparse strict n ty m ts : wtypes_ok W -> jtypes_ok W J -> enums_fit J -> floats_fit fparse -> maxd + 2 <= Z.of_nat n -> 0 < Z.of_nat n ->
  sound W n ty m -> quiet W J ts -> calm J ty ts ->
  match read_json W J utf8_ok maxd fparse strict n ty m ts with Ok m' => sound W n ty m' | Err _ => True | _ => False end.
Proof. exact (fun HW HJ => DynJson7.read_defined W J utf8_ok maxd fparse HW HJ strict n ty m ts). Qed.
Print Assumptions C82_defined.
(** A new message is such, and those that are can be written (C77, C65). *)
Theorem C82_new W n ty : wtypes_ok W -> sound W (S n) ty (new_slots W ty).
Proof. exact (fun HW => sound_new W HW n ty). Qed.
Print Assumptions C82_new.
Theorem C82_typed W n ty m : sound W n ty m -> typed W n ty m.
Proof. exact (sound_typed W n ty m). Qed.
Print Assumptions C82_typed.
(** The exception: {"v":null} with a list v of google.protobuf.Value, null for a
    google.protobuf.ListValue, and {"w":[null]} with a list w of those. *)
Theorem C82_null_list_refuted : wtypes_ok dk_types /\ jtypes_ok dk_types dk_json /\ forall strict,
  read_json dk_types dk_json any_text 8 dj_parse strict 10 0 (new_slots dk_types 0) (render (JObj [(txt "v", JNull)])) = UB /\
  read_json dk_types dk_json any_text 8 dj_parse strict 10 4 (new_slots dk_types 4) (render JNull) = UB /\
  read_json dk_types dk_json any_text 8 dj_parse strict 10 0 (new_slots dk_types 0) (render (JObj [(txt "w", JArr [JNull])])) = UB.
Proof. exact (conj dk_ok (conj dk_json_ok null_lists)). Qed.
Print Assumptions C82_null_list_refuted.
Example C82_case : enums_fit dj_json /\ floats_fit dj_parse /\ nulls_ok dj_types dj_json /\ quiet dj_types dj_json (render dj_tree) /\ calm dj_json 0 (render dj_tree) /\
  read_json dj_types dj_json any_text 8 dj_parse true 10 0 (new_slots dj_types 0) (Comma :: render dj_tree) = Err BadMessage.
Proof. split; [exact dj_enums|]. split; [exact dj_floats|]. split; [exact dj_nulls|]. split; [apply dj_text|]. split; [apply dj_text|]. vm_compute. reflexivity. Qed.
