(** Changing fields of dynamic messages with function objects.

    Modelled code: include/hpp_proto/dynamic_message/message_fields.hpp:420-438, field_refs.hpp:202-212,
    expected_message_mref.hpp:86-126.  Specification: DynModifySpec.v, and of C105 [meant] and [is_key]. *)
From Coq Require Import Ascii String.
Require Import Verif.Bits Verif.CppText Verif.DynSlots Verif.Dyn Verif.DynMain Verif.DynAccess Verif.DynAccessSpec Verif.DynModify Verif.DynModifySpec Verif.DynModify1 Verif.PropertiesCharArray.
Local Open Scope list_scope.
Local Open Scope Z_scope.

(** ** C115: modify_field calls the function object with the field that is meant, or fails and changes nothing *)
(** No field has the name or number. *)
Theorem C115_no_field : forall S t fs k (mu : mutator S) st m, (forall f, In f fs -> ~ is_key k f) -> modify_by S t fs k mu st m = Some (m, Some NoSuchField, st).
Proof. intros S t fs. exact (modify_none t fs). Qed.
Print Assumptions C115_no_field.
(** The function object cannot be called with fields of this type. *)
Theorem C115_refused : forall S count t fs k i f (mu : mutator S) st m, made count (map dynf_of fs) t -> meant fs k i f -> length m = t_slots t ->
  takes mu (tf_type f) (tf_repeated f) = false -> modify_by S t fs k mu st m = Some (m, Some InvalidType, st).
Proof. intros S count t fs k i f mu st m M. exact (modify_refused count t fs M k i f mu st m). Qed.
Print Assumptions C115_refused.
(** Else it runs once on what is stored for the field, the result is what it returns, also if that is an error, and fields
    which do not share a oneof with this one stay as they are. *)
Theorem C115_runs : forall S count t fs k i f (mu : mutator S) st m, made count (map dynf_of fs) t -> meant fs k i f -> length m = t_slots t ->
  takes mu (tf_type f) (tf_repeated f) = true ->
  exists l m', field t i = Some (dynf_of f, l) /\
    modify_by S t fs k mu st m = Some (m', snd (fst (run mu st f l (slot_at m l))), st) /\
    slot_at m' l = fst (fst (run mu st f l (slot_at m l))) /\
    forall j, j <> i -> ~ in_same_oneof fs i j -> look t j m' = look t j m.
Proof. intros S count t fs k i f mu st m M. exact (modify_runs count t fs M k i f mu st m). Qed.
Print Assumptions C115_runs.
(** With one that calls set, it is set_field. *)
Theorem C115_set : forall E fuel t fs k v m r, set_by E fuel t fs k v m = Some r -> modify_by unit t fs k (setter E fuel v) tt m = Some (r, tt).
Proof. intros E fuel t fs. exact (modify_sets t fs E fuel). Qed.
Print Assumptions C115_set.
(** A chain of set_field and modify_field stops at the first call that fails; done() is its error. *)
Theorem C115_chain : forall S E fuel t fs (cs : list (call S)) m m' e, calls_on E fuel S t fs cs m = Some (m', e) ->
  (e = None /\ succeed E fuel t fs cs m m') \/
  (exists done c rest m1 err, cs = done ++ c :: rest /\ succeed E fuel t fs done m m1 /\ call_on E fuel S t fs c m1 = Some (m', Some err) /\ e = Some err).
Proof. intros S E fuel t fs. exact (calls_are t fs E fuel). Qed.
Print Assumptions C115_chain.

(** The message of C114, string s = 1 and bytes d = 2, and a function object for string fields, which sets them to "x" and counts
    its calls. *)
Definition ca_count : mutator nat :=
  Mutator (fun p rep => match p with PString => negb rep | _ => false end) (fun n f l s => ((l_ordinal l, CBytes (txt "x")), None, S n)).
Example C115_case : exists m1, modify_by nat ca_type ca_fields (ByName (txt "s")) ca_count 0%nat (new_message ca_type) = Some (m1, None, 0%nat) /\
  look ca_type 0 m1 = Some (true, FBytes (txt "x")) /\ look ca_type 1 m1 = Some (false, FBytes []) /\
  modify_by nat ca_type ca_fields (ByNumber 2) ca_count 0%nat m1 = Some (m1, Some InvalidType, 0%nat) /\
  modify_by nat ca_type ca_fields (ByNumber 3) ca_count 0%nat m1 = Some (m1, Some NoSuchField, 0%nat) /\
  calls_on (fun _ => ca_type) 1 nat ca_type ca_fields [Modifies (ByNumber 1) ca_count 0%nat; Modifies (ByNumber 2) ca_count 0%nat; Sets (ByNumber 1) (AStr (txt "y"))] (new_message ca_type) = Some (m1, Some InvalidType).
Proof.
  assert (A : exists m1, modify_by nat ca_type ca_fields (ByName (txt "s")) ca_count 0%nat (new_message ca_type) = Some (m1, None, 0%nat)) by (eexists; vm_compute; reflexivity). destruct A as (m1 & A). exists m1. split; [exact A|].
  vm_compute in A. injection A as <-. split; [vm_compute; reflexivity|]. split; [vm_compute; reflexivity|]. split; [vm_compute; reflexivity|]. split; vm_compute; reflexivity.
Qed.

(** What a function object that is not a temporary records in itself is lost: the code calls a copy of it. *)
Theorem C115_state_refuted : ~ forall S count t fs k i f l (mu : mutator S) st m m' e st', made count (map dynf_of fs) t -> meant fs k i f -> field t i = Some (dynf_of f, l) -> length m = t_slots t ->
  takes mu (tf_type f) (tf_repeated f) = true -> modify_by S t fs k mu st m = Some (m', e, st') -> st' = snd (run mu st f l (slot_at m l)).
Proof.
  intros H. destruct (C115_runs nat 0 ca_type ca_fields (ByName (txt "s")) 0 _ ca_count 0%nat (new_message ca_type) ca_made ca_name eq_refl eq_refl) as (l & m' & F & Q & _).
  pose proof (H nat 0%nat ca_type ca_fields (ByName (txt "s")) 0%nat _ l ca_count 0%nat (new_message ca_type) m' _ 0%nat ca_made ca_name F eq_refl eq_refl Q) as Z. discriminate Z.
Qed.
Print Assumptions C115_state_refuted.
