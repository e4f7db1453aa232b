(** Properties of google.protobuf.Any in the JSON of messages made by the factory. *)
From Coq Require Import Ascii String.
Require Import Verif.Bits Verif.Varint Verif.CppText Verif.Pool Verif.PoolSpec Verif.DynSlots Verif.Dyn Verif.Schema Verif.Archive Verif.Decode Verif.Encode Verif.DynWire Verif.DynDecode Verif.DynView.
Require Import Verif.DynJson Verif.DynJsonSpec Verif.DynJsonTree Verif.DynAny Verif.DynAnySpec Verif.DynJson5 Verif.DynJsonSafe Verif.DynAnySafe.
Require Import Verif.Factory Verif.FactorySpec Verif.FactoryEx Verif.FactoryJson Verif.FactoryJsonSpec Verif.DynWireEx Verif.DynJsonEx Verif.DynJsonBad Verif.DynAnyEx Verif.FactoryAnyEx.
Require Verif.DynAny2 Verif.DynAny3 Verif.DynAnySafe Verif.Factory4 Verif.Factory6 Verif.Factory7.
Local Open Scope list_scope.
Local Open Scope Z_scope.

(** ** C109: an Any holds a message of the descriptor its URL names. *)
(** Types that are treated as Any have a type_url and a value and nothing else, whatever the descriptors. *)
Theorem C109_types fc fs pl W : representable fs -> initialize fc fs = Done (pl, W) -> atypes_ok W (json_types pl).
Proof. exact (fun R I => Factory7.factory_any fc fs R pl W I). Qed.
Print Assumptions C109_types.

(** The type a URL names is that of the message whose full name follows the last slash; the fields of the type are those of the
    descriptor of that message. *)
Theorem C109_resolves fc fs pl W url ty : representable fs -> initialize fc fs = Done (pl, W) ->
  (type_of (get_message_type pl) url = Ok ty <-> exists p name, url = p ++ 47 :: name /\ name <> [] /\ ~ In 47 name /\ nth_error (map fst (all_messages fs)) ty = Some name).
Proof. exact (fun R I => Factory7.url_resolves fc fs R pl W I url ty). Qed.
Print Assumptions C109_resolves.
Theorem C109_means fc fs pl W url ty : representable fs -> initialize fc fs = Done (pl, W) -> type_of (get_message_type pl) url = Ok ty ->
  exists p name m s, url = p ++ 47 :: name /\ In (name, m) (all_messages fs) /\ nth_error W ty = Some (wty W ty) /\ type_means fc fs (name, m, s) (wty W ty).
Proof. exact (fun R I => Factory7.url_means fc fs R pl W I url ty). Qed.
Print Assumptions C109_means.

(** What is written, with its Anys shown as the messages they hold, is read as the same message with the same bytes. *)
Theorem C109_round_trip fc fs pl W utf8_ok le maxd fshow fparse strict n ty m ts : representable fs -> initialize fc fs = Done (pl, W) ->
  no_implicit_defaults fs -> json_names_distinct fs -> enum_names_good fs -> entries_good fs ->
  typed W n ty m -> aprintable W (json_types pl) utf8_ok maxd fshow fparse (get_message_type pl) n ty m ->
  awrite_json W (json_types pl) utf8_ok le maxd fshow (get_message_type pl) n ty m = Ok ts ->
  exists m', aread_json W (json_types pl) utf8_ok maxd fparse (get_message_type pl) strict n ty (new_slots W ty) ts = Ok m' /\ same W n ty m m' /\
    forall u md k, dyn_encode W u md k ty m' = dyn_encode W u md k ty m.
Proof.
  exact (fun R I D N E M => DynAny2.any_round_trip W (json_types pl) utf8_ok le maxd fshow fparse (get_message_type pl) (Factory4.factory_wellformed fc fs R pl W I D) (Factory6.factory_json fc fs R pl W I N E M) (Factory7.factory_any fc fs R pl W I) strict n ty m ts).
Qed.
Print Assumptions C109_round_trip.

(** Reading any text is defined (for nulls, with the exception of C96). *)
Theorem C109_read_defined fc fs pl W utf8_ok maxd fparse strict n ty m ts : representable fs -> initialize fc fs = Done (pl, W) ->
  no_implicit_defaults fs -> json_names_distinct fs -> enum_names_good fs -> entries_good fs ->
  Forall (fun e => Forall (fun v => fits_s 32 (snd v)) (ep_values (snd e))) (all_enums fs) -> floats_fit fparse ->
  maxd + 2 <= Z.of_nat n -> 0 < Z.of_nat n -> sound W n ty m -> aquiet W (json_types pl) (get_message_type pl) ts -> calm (json_types pl) ty ts ->
  match aread_json W (json_types pl) utf8_ok maxd fparse (get_message_type pl) strict n ty m ts with Ok m' => sound W n ty m' | Err _ => True | _ => False end.
Proof.
  exact (fun R I D N E M V F => aread_defined W (json_types pl) utf8_ok maxd fparse (get_message_type pl) strict (Factory4.factory_wellformed fc fs R pl W I D) (Factory6.factory_json fc fs R pl W I N E M) (Factory7.factory_any fc fs R pl W I)
    (Factory6.factory_enums_fit fs pl R (Factory6.Hpl6 fc fs R pl W I) V) F n ty m ts).
Qed.
Print Assumptions C109_read_defined.

(** An Any with a URL that names no message of the descriptors is not written. *)
Theorem C109_unknown_refused fc fs pl W utf8_ok le maxd fshow n ty m f0 l0 f1 l1 url data : representable fs -> initialize fc fs = Done (pl, W) ->
  known_of (json_types pl) ty = KAny -> w_fields (wty W ty) = [(f0, l0); (f1, l1)] -> value (dyn_of f0) l0 (slot_at m l0) = FBytes url -> value (dyn_of f1) l1 (slot_at m l1) = FBytes data ->
  has (f0, l0) m = true -> url <> [] -> 0 <= maxd -> (forall p name, url = p ++ 47 :: name -> ~ In name (map fst (all_messages fs))) ->
  awrite_json W (json_types pl) utf8_ok le maxd fshow (get_message_type pl) (S n) ty m = Err BadMessage.
Proof. exact (fun R I => Factory7.unknown_refused fc fs R pl W I utf8_ok le maxd fshow n ty m f0 l0 f1 l1 url data). Qed.
Print Assumptions C109_unknown_refused.

(** A message with an Any that holds another message of the descriptors. *)
Example C109_case : representable ax_files /\ initialize fx_no_floats ax_files = Done (ax_pool, ax_types) /\ no_implicit_defaults ax_files /\ json_names_distinct ax_files /\ enum_names_good ax_files /\ entries_good ax_files /\
  typed ax_types 10 0 ax_message /\ aprintable ax_types (json_types ax_pool) any_text 8 dj_show dj_parse (get_message_type ax_pool) 10 0 ax_message /\
  awrite_json ax_types (json_types ax_pool) any_text true 8 dj_show (get_message_type ax_pool) 10 0 ax_message = Ok (render ax_tree).
Proof.
  rewrite ax_json_eq. exact (conj ax_representable (conj ax_accepted (conj ax_defaults (conj ax_names (conj ax_enums (conj ax_entries (conj ax_typed (conj ax_printable ax_written)))))))).
Qed.
Example C109_url_case : type_of (get_message_type ax_pool) (txt "x.y/p.Flat") = Ok 1%nat /\ type_of (get_message_type ax_pool) (txt "x.y/p.None") = Err BadMessage /\ type_of (get_message_type ax_pool) (txt "p.Flat") = Err BadMessage.
Proof. split; [vm_compute; reflexivity|]. split; vm_compute; reflexivity. Qed.
Example C109_read_case : Forall (fun e => Forall (fun v => fits_s 32 (snd v)) (ep_values (snd e))) (all_enums ax_files) /\ floats_fit dj_parse /\ sound ax_types 10 0 (new_slots ax_types 0) /\
  aquiet ax_types (json_types ax_pool) (get_message_type ax_pool) (render ax_tree) /\ calm (json_types ax_pool) 0 (render ax_tree) /\
  aread_json ax_types (json_types ax_pool) any_text 8 dj_parse (get_message_type ax_pool) true 10 0 (new_slots ax_types 0) (render ax_tree) = Ok ax_message.
Proof. rewrite ax_json_eq. exact ax_readable. Qed.
Example C109_refused_case : known_of (json_types ax_pool) 2 = KAny /\ map fst (all_messages ax_files) = [txt "p.M"; txt "p.Flat"; txt "google.protobuf.Any"] /\
  (exists f0 l0 f1 l1, w_fields (wty ax_types 2) = [(f0, l0); (f1, l1)] /\ value (dyn_of f0) l0 (slot_at ax_unknown l0) = FBytes (txt "x.y/p.None") /\ value (dyn_of f1) l1 (slot_at ax_unknown l1) = FBytes [] /\ has (f0, l0) ax_unknown = true) /\
  awrite_json ax_types (json_types ax_pool) any_text true 8 dj_show (get_message_type ax_pool) 10 2 ax_unknown = Err BadMessage.
Proof. rewrite ax_json_eq. exact ax_refused. Qed.
