(** C105: access to the fields of dynamic messages by name and number, with values of C++ types.

    [set_by E fuel t fs k v m]: the message and the error after set_field_by_name or set_field_by_number with
    [v] on the message [m] with the fields [fs]; [t] is the type the factory makes of them ([made]), [E] the types of messages and
    [fuel] bounds the depth of messages that are copied.  [get_by t fs k r m]: field_value_by_name or
    field_value_by_number for the type [r].  [look t i m]: whether field [i] is present, and its value (C61).
    [chain]: a chain of calls on an expected_message_mref.  Specification: DynAccessSpec.v. *)
From Coq Require Import Ascii String.
Require Import Verif.Bits Verif.CppText Verif.DynSlots Verif.DynSlotsProofs Verif.Dyn Verif.DynMain Verif.DynClone Verif.DynAccess Verif.DynAccessSpec Verif.DynAccess1 Verif.DynAccess2 Verif.DynAccess3 Verif.PropertiesDyn.
Local Open Scope Z_scope.

(** A name or number no field has is no_such_field, and changes nothing. *)
Theorem C105_no_field : forall E fuel t fs k, (forall f, In f fs -> ~ is_key k f) ->
  forall v r m, set_by E fuel t fs k v m = Some (m, Some NoSuchField) /\ get_by t fs k r m = inr NoSuchField.
Proof. exact no_field. Qed.
Print Assumptions C105_no_field.

(** Otherwise the call is for the first field that has it: it succeeds exactly if the type of the value suits this field, names are known
    and messages have its type, and fails with the error that says which of them is not the case. *)
Theorem C105_set : forall E fuel count t fs k i f v m m' e, made count (map dynf_of fs) t -> meant fs k i f ->
  set_by E fuel t fs k v m = Some (m', e) -> verdict (tf_type f) (tf_repeated f) v e.
Proof. intros E fuel count t fs k i f v m m' e M. exact (set_verdict E fuel count t fs M k i f v m m' e). Qed.
Print Assumptions C105_set.
Theorem C105_one_verdict : forall p rep v e e', verdict p rep v e -> verdict p rep v e' -> e' = e.
Proof. exact verdict_one. Qed.
Print Assumptions C105_one_verdict.
(** Every call ends; values that are not messages need no fuel. *)
Theorem C105_ends : forall E count t fs k v m, made count (map dynf_of fs) t ->
  (exists fuel r, set_by E fuel t fs k v m = Some r) /\ (~ is_messages v -> forall fuel, exists r, set_by E fuel t fs k v m = Some r).
Proof. intros E count t fs k v m M. split; [exact (set_by_ends E count t fs k v m M)|]. intros N fuel. exact (set_total E fuel count t fs M k v m N). Qed.
Print Assumptions C105_ends.

(** After a call that succeeds, the field has the value, names of values of enums being replaced by their numbers. *)
Theorem C105_value : forall E fuel count t fs k i f v m m', made count (map dynf_of fs) t -> length m = t_slots t -> meant fs k i f -> ~ is_messages v ->
  set_by E fuel t fs k v m = Some (m', None) -> exists x, means (tf_type f) v x /\ look t i m' = Some (shows x, x).
Proof. intros E fuel count t fs k i f v m m' M. exact (set_means E fuel count t fs M k i f v m m'). Qed.
Print Assumptions C105_value.
(** Messages are copied as C62 says. *)
Theorem C105_message : forall E fuel, env_single E -> forall count ty fs k i f ty' w m m', made count (map dynf_of fs) (E ty) -> typed E ty m -> meant fs k i f ->
  typed E ty' w -> (forall n, tidy (view E n ty' w) = true) -> set_by E fuel (E ty) fs k (AMsg ty' w) m = Some (m', None) ->
  exists r, look (E ty) i m' = Some (true, FMsg r) /\ forall n, view E n ty' r = copied (view E n ty' w).
Proof. exact set_one_message. Qed.
Print Assumptions C105_message.
Theorem C105_messages : forall E fuel, env_single E -> forall count ty fs k i f ty' ws m m', made count (map dynf_of fs) (E ty) -> typed E ty m -> meant fs k i f ->
  tf_type f = PMsg ty' -> arg_typed E (AMsgs ws) -> set_by E fuel (E ty) fs k (AMsgs ws) m = Some (m', None) ->
  exists rs, look (E ty) i m' = Some (shows (FMsgs rs), FMsgs rs) /\
  Forall2 (fun x y => (forall n, tidy (view E n ty' (snd x)) = true) -> forall n, view E n ty' y = copied (view E n ty' (snd x))) ws rs.
Proof. exact set_messages. Qed.
Print Assumptions C105_messages.

(** Other fields keep their values whether the call succeeds or fails; the alternatives in the same oneof are gone if it succeeds. *)
Theorem C105_others : forall E fuel count t fs k i f v m m' e j, made count (map dynf_of fs) t -> meant fs k i f ->
  set_by E fuel t fs k v m = Some (m', e) -> j <> i -> ~ alternatives (dfields (map dynf_of fs)) i j -> look t j m' = look t j m.
Proof. intros E fuel count t fs k i f v m m' e j M. exact (set_others E fuel count t fs M k i f v m m' e j). Qed.
Print Assumptions C105_others.
Theorem C105_alternatives : forall E fuel count t fs k i f v m m' j g, made count (map dynf_of fs) t -> length m = t_slots t -> meant fs k i f ->
  set_by E fuel t fs k v m = Some (m', None) -> nth_error fs j = Some g -> j <> i -> alternatives (dfields (map dynf_of fs)) i j ->
  look t j m' = Some (false, default_value (dynf_of g)).
Proof. intros E fuel count t fs k i f v m m' j g M. exact (set_drops E fuel count t fs M k i f v m m' j g). Qed.
Print Assumptions C105_alternatives.

(** A call that fails changes nothing, except with a list of names or of messages. *)
Theorem C105_failed : forall E fuel count t fs k v m m' e, made count (map dynf_of fs) t ->
  set_by E fuel t fs k v m = Some (m', Some e) -> ~ by_element v \/ e = NoSuchField \/ e = InvalidType -> m' = m.
Proof. intros E fuel count t fs k v m m' e M. exact (set_unchanged E fuel count t fs M k v m m' e). Qed.
Print Assumptions C105_failed.
(** With a list of names, the field is left with the numbers of those before the first unknown name. *)
Theorem C105_names_left : forall E fuel count t fs k i f vs l m m', made count (map dynf_of fs) t -> length m = t_slots t -> meant fs k i f -> tf_type f = PEnum vs ->
  set_by E fuel t fs k (AENames l) m = Some (m', Some InvalidEnumName) ->
  exists h b r zs, l = h ++ b :: r /\ ~ In b (map fst vs) /\ Forall2 (number_of vs) h zs /\ look t i m' = Some (shows (FInts zs), FInts zs).
Proof. exact names_left. Qed.
Print Assumptions C105_names_left.
(** Whatever happens, the message stays well typed: every field can be read. *)
Theorem C105_typed : forall E fuel, env_single E -> forall count ty fs k v m m' e, made count (map dynf_of fs) (E ty) -> typed E ty m -> arg_typed E v ->
  set_by E fuel (E ty) fs k v m = Some (m', e) -> typed E ty m'.
Proof. exact set_by_typed. Qed.
Print Assumptions C105_typed.

(** get answers with the value of the field exactly if the type asked for suits the field; for names of enums and for messages
    the value must have a name and the message must be present. *)
Theorem C105_get : forall E count ty fs k i f r m, made count (map dynf_of fs) (E ty) -> typed E ty m -> meant fs k i f ->
  exists present x, look (E ty) i m = Some (present, x) /\ answers (tf_type f) (tf_repeated f) present x r (get_by (E ty) fs k r m).
Proof. exact get_answers. Qed.
Print Assumptions C105_get.
Theorem C105_one_answer : forall p rep present x r a b, answers p rep present x r a -> answers p rep present x r b -> b = a.
Proof. exact answers_one. Qed.
Print Assumptions C105_one_answer.
(** What was set is what get returns for the same type, by name or by number; names of enums without aliases too. *)
Theorem C105_get_after_set : forall E fuel count t fs k k' i f v m m' r y, made count (map dynf_of fs) t -> length m = t_slots t -> meant fs k i f -> meant fs k' i f ->
  set_by E fuel t fs k v m = Some (m', None) -> back v r y -> asks (tf_type f) (tf_repeated f) r -> no_aliases (tf_type f) -> get_by t fs k' r m' = inl y.
Proof. exact get_back. Qed.
Print Assumptions C105_get_after_set.

(** A chain of calls stops at the first that fails: done() reports its error, the calls before it took effect, and those after it were not made. *)
Theorem C105_chain : forall E fuel t fs calls m m' e, chain E fuel t fs calls m = Some (m', e) ->
  (e = None /\ all_succeed E fuel t fs calls m m') \/
  (exists done k v rest m1 err, calls = done ++ (k, v) :: rest /\ all_succeed E fuel t fs done m m1 /\ set_by E fuel t fs k v m1 = Some (m', Some err) /\ e = Some err).
Proof. exact chain_is. Qed.
Print Assumptions C105_chain.

(** *** Examples and findings *)
Definition colours : list (bytes * Z) := [(txt "RED", 0); (txt "BLUE", 3); (txt "GREEN", 5)].
Definition access_fields : list tfield :=
  [TField (txt "n") 1 PInt32 false (Some 0%nat) true 7 []; TField (txt "s") 2 PString false None false 0 []; TField (txt "m") 3 (PMsg 1) false None true 0 [];
   TField (txt "ms") 4 (PMsg 1) true None false 0 []; TField (txt "e") 5 (PEnum colours) false None true 3 []; TField (txt "es") 6 (PEnum colours) true None false 0 []].
Example access_made : made 1 (map dynf_of access_fields) (simple_env 0).
Proof. exact made0. Qed.
Example access_meant : exists f, meant access_fields (ByName (txt "es")) 5 f /\ meant access_fields (ByNumber 6) 5 f.
Proof.
  eexists. split; (split; [reflexivity|split; [reflexivity|]]); intros j g Hj; do 5 (destruct j as [|j]; [cbn; intros [= <-] H; discriminate H|]); lia.
Qed.
Example access_set : exists m1 m2 m3 m4 m5,
  set_by simple_env 3 (simple_env 0) access_fields (ByName (txt "es")) (AENames [txt "GREEN"; txt "RED"]) (new_message (simple_env 0)) = Some (m1, None) /\
  get_by (simple_env 0) access_fields (ByNumber 6) RENums m1 = inl (FInts [5; 0]) /\
  set_by simple_env 3 (simple_env 0) access_fields (ByNumber 4) (AMsgs [(1%nat, inner_slots 4); (1%nat, inner_slots 0)]) m1 = Some (m2, None) /\
  set_by simple_env 3 (simple_env 0) access_fields (ByName (txt "m")) (AMsg 1 (inner_slots 9)) m2 = Some (m3, None) /\
  set_by simple_env 3 (simple_env 0) access_fields (ByName (txt "e")) (AEName (txt "BLUE")) m3 = Some (m4, None) /\
  get_by (simple_env 0) access_fields (ByName (txt "e")) REName m4 = inl (FBytes (txt "BLUE")) /\
  set_by simple_env 3 (simple_env 0) access_fields (ByName (txt "n")) (ANum NI64 1) m4 = Some (m5, Some InvalidType) /\
  set_by simple_env 3 (simple_env 0) access_fields (ByName (txt "m")) (AMsg 0 []) m4 = Some (m5, Some WrongMessageType) /\
  set_by simple_env 3 (simple_env 0) access_fields (ByName (txt "e")) (AEName (txt "PINK")) m4 = Some (m5, Some InvalidEnumName) /\ m5 = m4.
Proof.
  eexists. eexists. eexists. eexists. eexists.
  split; [vm_compute; reflexivity|]. split; [vm_compute; reflexivity|]. split; [vm_compute; reflexivity|]. split; [vm_compute; reflexivity|]. split; [vm_compute; reflexivity|].
  split; [vm_compute; reflexivity|]. split; [vm_compute; reflexivity|]. split; [vm_compute; reflexivity|]. split; [vm_compute; reflexivity|]. reflexivity.
Qed.
Example access_typed : typed simple_env 0 outer_slots /\ arg_typed simple_env (AMsgs [(1%nat, inner_slots 4); (1%nat, inner_slots 0)]) /\ no_aliases (PEnum colours).
Proof.
  split; [exact outer_typed|]. split; [constructor; [apply inner_typed|constructor; [apply inner_typed|constructor]]|].
  intros vs [= <-]. split; [|cbn; intros [K|[K|[K|[]]]]; discriminate K]. cbn. constructor; [cbn; lia|constructor; [cbn; lia|constructor; [cbn; lia|constructor]]].
Qed.
(** A oneof *)
Definition access_oneof : list tfield :=
  [TField (txt "a") 1 PInt64 false (Some 0%nat) true 0 []; TField (txt "b") 2 PString false (Some 0%nat) true 0 []; TField (txt "c") 3 (PMsg 1) false (Some 0%nat) true 0 [];
   TField (txt "d") 4 (PEnum colours) false (Some 0%nat) true 3 []; TField (txt "x") 5 PUInt32 false None false 0 []].
Example access_oneof_made : made 1 (map dynf_of access_oneof) (dyn_env 2) /\ alternatives (dfields (map dynf_of access_oneof)) 0 1.
Proof. split; [exact made2|]. exists 0%nat. split; reflexivity. Qed.
Example access_chain : exists m,
  chain dyn_env 3 (dyn_env 2) access_oneof [(ByName (txt "a"), ANum NI64 5); (ByNumber 5, ANum NU32 9); (ByName (txt "d"), AEName (txt "GREEN")); (ByName (txt "b"), AByt [1]); (ByName (txt "x"), ANum NU32 1)] (new_message (dyn_env 2)) = Some (m, Some InvalidType) /\
  get_by (dyn_env 2) access_oneof (ByName (txt "d")) REName m = inl (FBytes (txt "GREEN")) /\ get_by (dyn_env 2) access_oneof (ByName (txt "x")) (RNum NU32) m = inl (FInt 9) /\
  look (dyn_env 2) 0 m = Some (false, FInt 0).
Proof. eexists. split; [vm_compute; reflexivity|]. split; [vm_compute; reflexivity|]. split; vm_compute; reflexivity. Qed.

(** Finding: a call that fails because of an unknown name replaces the values of the field by those before it. *)
Theorem C105_names_refuted : exists E fuel t fs k l m m', t = simple_env 0 /\ made 1 (map dynf_of fs) t /\
  set_by E fuel t fs k (AENums [5; 3; 0]) (new_message t) = Some (m, None) /\ set_by E fuel t fs k (AENames l) m = Some (m', Some InvalidEnumName) /\
  get_by t fs k RENums m = inl (FInts [5; 3; 0]) /\ get_by t fs k RENums m' = inl (FInts [0]).
Proof.
  exists simple_env, 3%nat, (simple_env 0), access_fields, (ByName (txt "es")), [txt "RED"; txt "PINK"; txt "BLUE"]. eexists. eexists. split; [reflexivity|]. split; [exact access_made|].
  split; [vm_compute; reflexivity|]. split; [vm_compute; reflexivity|]. split; vm_compute; reflexivity.
Qed.
Print Assumptions C105_names_refuted.
(** Finding: a call that fails because a message of the list has another type gives the field the size of the list,
    some elements being those of the list, some old or empty. *)
Theorem C105_messages_refuted : exists E fuel t fs k l m', t = simple_env 0 /\ made 1 (map dynf_of fs) t /\
  set_by E fuel t fs k (AMsgs l) (new_message t) = Some (m', Some WrongMessageType) /\
  look t 3 (new_message t) = Some (false, FMsgs []) /\ look t 3 m' = Some (true, FMsgs [inner_slots 4; new_message (simple_env 1); new_message (simple_env 1)]).
Proof.
  exists simple_env, 3%nat, (simple_env 0), access_fields, (ByName (txt "ms")), [(1%nat, inner_slots 4); (0%nat, outer_slots); (1%nat, inner_slots 6)]. eexists. split; [reflexivity|]. split; [exact access_made|].
  split; [vm_compute; reflexivity|]. split; vm_compute; reflexivity.
Qed.
Print Assumptions C105_messages_refuted.
(** Finding: enum_numbers_span, documented as an argument of set for repeated enums, is accepted by no field. *)
Theorem C105_span_refuted : forall E fuel count t fs k i f l m m' e, made count (map dynf_of fs) t -> meant fs k i f ->
  set_by E fuel t fs k (ASpan l) m = Some (m', e) -> e = Some InvalidType /\ m' = m.
Proof.
  intros E fuel count t fs k i f l m m' e M H S. assert (V : e = Some InvalidType) by (eapply verdict_one; [|eapply C105_set; eauto]; exact (fun K => K)).
  split; [exact V|]. subst e. eapply C105_failed; eauto.
Qed.
Print Assumptions C105_span_refuted.
