(** Properties of what the factory of dynamic messages prepares for JSON. *)
From Coq Require Import Ascii String.
Require Import Verif.Bits Verif.Varint Verif.CppText Verif.Pool Verif.PoolSpec Verif.DynSlots Verif.Dyn Verif.Schema Verif.Archive Verif.Decode Verif.Encode Verif.DynWire Verif.DynDecode Verif.DynView Verif.DynAgree.
Require Import Verif.PoolAttrs Verif.DynJson Verif.DynJsonSpec Verif.DynJsonSafe Verif.DynConvert Verif.Factory Verif.FactorySpec Verif.FactoryEx Verif.FactoryJson Verif.FactoryJsonSpec Verif.FactoryJsonEx.
Require Verif.Factory4 Verif.Factory5 Verif.Factory6 Verif.DynJson7 Verif.DynConvert4 Verif.DynJsonEx.
Local Open Scope list_scope.
Local Open Scope Z_scope.

(** ** C107: the factory knows names and well known types. *)
(** Every field has the names, the enum and the signedness of its descriptor; a message has a
    form of its own in JSON exactly if it is the message of that name in protobuf's own file. *)
Theorem C107_means fc fs pl W : representable fs -> initialize fc fs = Done (pl, W) -> Forall2 (json_means fs) (concat (map scoped_messages fs)) (json_types pl).
Proof. exact (fun R I => Factory5.json_types_mean fs pl R (Factory6.Hpl6 fc fs R pl W I)). Qed.
Print Assumptions C107_means.

(** The types are what the theorems about JSON ask for, if the descriptors are as protoc
    makes them. *)
Theorem C107_types fc fs pl W : representable fs -> initialize fc fs = Done (pl, W) -> json_names_distinct fs -> enum_names_good fs -> entries_good fs -> jtypes_ok W (json_types pl).
Proof. exact (fun R I => Factory6.factory_json fc fs R pl W I). Qed.
Print Assumptions C107_types.
Theorem C107_enums_fit fc fs pl W : representable fs -> initialize fc fs = Done (pl, W) ->
  Forall (fun e => Forall (fun v => fits_s 32 (snd v)) (ep_values (snd e))) (all_enums fs) -> enums_fit (json_types pl).
Proof. exact (fun R I => Factory6.factory_enums_fit fs pl R (Factory6.Hpl6 fc fs R pl W I)). Qed.
Print Assumptions C107_enums_fit.

(** From descriptors to JSON and back: a message that is written is read as the same. *)
Theorem C107_round_trip fc fs pl W utf8_ok le maxd fshow fparse strict n ty m ts : representable fs -> initialize fc fs = Done (pl, W) ->
  no_implicit_defaults fs -> json_names_distinct fs -> enum_names_good fs -> entries_good fs ->
  typed W n ty m -> printable W (json_types pl) utf8_ok fshow fparse n ty m -> write_json W (json_types pl) le maxd fshow n ty m = Ok ts ->
  exists m', read_json W (json_types pl) utf8_ok maxd fparse strict n ty (new_slots W ty) ts = Ok m' /\ same W n ty m m' /\ forall u md k, dyn_encode W u md k ty m' = dyn_encode W u md k ty m.
Proof.
  exact (fun R I D N E M => DynJson7.round_trip W (json_types pl) utf8_ok le maxd fshow fparse (Factory4.factory_wellformed fc fs R pl W I D) (Factory6.factory_json fc fs R pl W I N E M) strict n ty m ts).
Qed.
Print Assumptions C107_round_trip.
(** From descriptors and bytes to JSON: the conversion is defined. *)
Theorem C107_to_json fc fs pl W utf8_ok le maxj maxb fshow ty bs : representable fs -> initialize fc fs = Done (pl, W) ->
  no_implicit_defaults fs -> maps_plain fs -> closed_plain fs -> json_names_distinct fs -> enum_names_good fs -> entries_good fs ->
  (forall is64 t z, fc is64 t = Some z -> 0 <= z < 2 ^ (if is64 then 64 else 32)) ->
  Forall (fun e => Forall (fun v => fits_s 32 (snd v)) (ep_values (snd e))) (all_enums fs) -> Forall (fun p => all_bytes (fp_default p)) (message_fields fs) ->
  utf8_ok [] = true -> all_bytes bs -> w_entry (wty W ty) = false ->
  exists n, forall k, (n <= k)%nat -> match binpb_to_json W (json_types pl) utf8_ok le maxj maxb fshow k ty bs with Ok _ | Err _ => True | UB | Exn | NoFuel => False end.
Proof.
  intros R I D P C N E M F1 F2 F3 Hu Hb He.
  exact (DynConvert4.to_text W (json_types pl) utf8_ok le maxj maxb fshow (Factory4.factory_wellformed fc fs R pl W I D) (Factory6.factory_json fc fs R pl W I N E M) ty bs
    (Factory4.factory_readable fc fs R pl W I P C) Hu (Factory4.factory_defaults_fit fc fs R pl W I F1 F2 F3) Hb He).
Qed.
Print Assumptions C107_to_json.

(** ** A concrete case *)
Example C107_case : representable jx_files /\ initialize fx_no_floats jx_files = Done (fst jx_made, snd jx_made) /\ no_implicit_defaults jx_files /\ json_names_distinct jx_files /\ enum_names_good jx_files /\ entries_good jx_files.
Proof. split; [exact jx_representable|]. split; [exact jx_accepted|]. split; [exact jx_defaults|]. split; [exact jx_names|]. split; [exact jx_enums|exact jx_entries]. Qed.
(** The bytes of a message with a list value, a time, a wrapper, a map and an enum as JSON. *)
Example C107_case_json :
  binpb_to_json (snd jx_made) (json_types (fst jx_made)) (fun _ => true) true 100 100 DynJsonEx.dj_show 20 0
    [10; 6; 50; 4; 10; 2; 32; 1; 18; 2; 8; 1; 26; 2; 8; 9; 34; 5; 8; 3; 18; 1; 97; 40; 7] =
  Ok (render (JObj [(txt "v", JArr [JBool true]); (txt "t", JStr (txt "1970-01-01T00:00:01Z")); (txt "w", JNum (txt "9")); (txt "x", JObj [(txt "3", JStr (txt "a"))]); (txt "myEnum", JStr (txt "B"))])).
Proof. vm_compute. reflexivity. Qed.
(** If struct.proto is not the one of protobuf, google.protobuf.Value is a message like others. *)
Example C107_case_changed : map jt_known (json_types (fst jx_made)) = [KNone; KNone; KStruct; KNone; KValue; KListValue; KTimestamp] ++ repeat KWrapper 9 /\
  map jt_known (json_types (fst jx_changed)) = repeat KNone 7 ++ [KTimestamp] ++ repeat KWrapper 9.
Proof. split; [exact jx_known|exact jx_unknown]. Qed.

(** ** Findings *)
(** Two fields with one JSON name by default are accepted: a value of the second is written
    with that name and read as one of the first. *)
Theorem C107_same_name_refuted : exists fs pl W m ts m', representable fs /\ initialize fx_no_floats fs = Done (pl, W) /\
  write_json W (json_types pl) true 100 DynJsonEx.dj_show 10 0 m = Ok ts /\ read_json W (json_types pl) (fun _ => true) 100 DynJsonEx.dj_parse true 10 0 (new_slots W 0) ts = Ok m' /\
  dyn_encode W (fun _ => true) 100 10 0 m = Ok [16; 5] /\ dyn_encode W (fun _ => true) 100 10 0 m' = Ok [8; 5].
Proof.
  exists jx_same, (fst jx_same_made), (snd jx_same_made), [(-1, CInt 0); (1, CInt 5)]. do 2 eexists. split; [apply representable_check; reflexivity|]. split; [vm_compute; reflexivity|].
  split; [vm_compute; reflexivity|]. split; [vm_compute; reflexivity|]. split; vm_compute; reflexivity.
Qed.
Print Assumptions C107_same_name_refuted.
(** A descriptor without JSON names is accepted: the name of the member is empty, and the
    name by default is not known. *)
Theorem C107_no_name_refuted : exists fs pl W m, representable fs /\ initialize fx_no_floats fs = Done (pl, W) /\
  write_json W (json_types pl) true 100 DynJsonEx.dj_show 10 0 m = Ok (render (JObj [([], JNum (txt "5"))])) /\
  exists e, read_json W (json_types pl) (fun _ => true) 100 DynJsonEx.dj_parse true 10 0 (new_slots W 0) (render (JObj [(txt "fooBar", JNum (txt "5"))])) = Err e.
Proof.
  exists jx_bare, (fst jx_bare_made), (snd jx_bare_made), [(1, CInt 5)]. split; [apply representable_check; reflexivity|]. split; [vm_compute; reflexivity|].
  split; [vm_compute; reflexivity|]. eexists. vm_compute. reflexivity.
Qed.
Print Assumptions C107_no_name_refuted.
