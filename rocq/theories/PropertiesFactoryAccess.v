(** Properties of access by name and number to messages made by the factory.

    [access_fields fc pl ty] and [types_of W]: the fields and the storage of the types of the factory, for [set_by] and
    [get_by] of C105.  Specification: FactoryAccessSpec.v, DynAccessSpec.v. *)
From Coq Require Import Ascii String.
Require Import Verif.Bits Verif.CppText Verif.Pool Verif.PoolSpec Verif.PoolAttrs Verif.DynSlots Verif.DynSlotsProofs Verif.Dyn Verif.DynMain Verif.DynClone Verif.DynWire Verif.DynAccess Verif.DynAccessSpec.
Require Import Verif.Factory Verif.FactorySpec Verif.FactoryEx Verif.FactoryAccess Verif.FactoryAccessSpec.
Require Verif.Factory8.
Local Open Scope list_scope.
Local Open Scope Z_scope.

(** ** C110: fields of messages of the factory are those of the descriptor of that name or number. *)
(** The fields are those of the descriptor, with the types the descriptor says. *)
Theorem C110_fields fc fs pl W ty name m : representable fs -> initialize fc fs = Done (pl, W) -> nth_error (all_messages fs) ty = Some (name, m) -> Forall2 (shown fs) (mp_fields m) (access_fields fc pl ty).
Proof. exact (fun R I H => Factory8.access_shown fc fs R pl W I ty name m H). Qed.
Print Assumptions C110_fields.
(** A new message has them; the theorems of C61, C62 and C105 are about such types. *)
Theorem C110_types fc fs pl W ty name m : representable fs -> initialize fc fs = Done (pl, W) -> no_implicit_defaults fs -> nth_error (all_messages fs) ty = Some (name, m) ->
  made (mp_oneofs m) (map dynf_of (access_fields fc pl ty)) (types_of W ty) /\ env_made (types_of W) /\ DynClone.typed (types_of W) ty (new_message (types_of W ty)).
Proof. exact (fun R I D H => conj (Factory8.access_made fc fs R pl W I ty name m H D) (conj (Factory8.access_env fc fs R pl W I D) (Factory8.access_new fc fs R pl W I ty D))). Qed.
Print Assumptions C110_types.
(** A name or number no field of the descriptor has is refused, and nothing changes. *)
Theorem C110_unknown fc fs pl W ty name m k : representable fs -> initialize fc fs = Done (pl, W) -> nth_error (all_messages fs) ty = Some (name, m) ->
  (forall p, In p (mp_fields m) -> ~ key_of k p) ->
  forall E fuel t v r x, set_by E fuel t (access_fields fc pl ty) k v x = Some (x, Some NoSuchField) /\ get_by t (access_fields fc pl ty) k r x = inr NoSuchField.
Proof. exact (fun R I H => Factory8.access_unknown fc fs R pl W I ty name m H k). Qed.
Print Assumptions C110_unknown.

(** *** The field [p] of the descriptor, of type [t] *)
Section Field_.
  Context (fc : bool -> bytes -> option Z) (fs : list fileproto) (pl : pool) (W : list wtype) (ty : nat) (name : bytes) (m : mproto) (i : nat) (p : fproto) (t : ptype) (rep : bool).
  Hypothesis R : representable fs.
  Hypothesis In_ : initialize fc fs = Done (pl, W).
  Hypothesis D : no_implicit_defaults fs.
  Hypothesis H : nth_error (all_messages fs) ty = Some (name, m).
  Hypothesis Hp : nth_error (mp_fields m) i = Some p.
  Hypothesis Ht : field_type fs p t.
  Hypothesis Hr : rep = true <-> fp_label p = LABEL_REPEATED.
  Notation T := (types_of W ty).
  Notation F := (access_fields fc pl ty).
  (** Setting it succeeds if the value suits the type in the descriptor, and fails with the error that says why otherwise. *)
  Theorem C110_set E fuel k v x x' e : key_of k p -> set_by E fuel T F k v x = Some (x', e) -> verdict t rep v e.
  Proof. exact (Factory8.access_verdict fc fs R pl W In_ ty name m H D E fuel i p Hp t rep Ht Hr k v x x' e). Qed.
  (** The field then has the value. *)
  Theorem C110_value E fuel k v x x' : key_of k p -> length x = t_slots T -> ~ is_messages v -> set_by E fuel T F k v x = Some (x', None) -> exists y, means t v y /\ look T i x' = Some (shows y, y).
  Proof. exact (Factory8.access_value fc fs R pl W In_ ty name m H D E fuel i p Hp t rep Ht Hr k v x x'). Qed.
  (** What was set by name or number is what is read by name or number. *)
  Theorem C110_set_get E fuel k k' v x x' r y : key_of k p -> key_of k' p -> length x = t_slots T -> set_by E fuel T F k v x = Some (x', None) -> back v r y -> asks t rep r -> no_aliases t -> get_by T F k' r x' = inl y.
  Proof. exact (Factory8.access_set_get fc fs R pl W In_ ty name m H D E fuel i p Hp t rep Ht Hr k k' v x x' r y). Qed.
  Theorem C110_get k r x : key_of k p -> DynClone.typed (types_of W) ty x -> exists present y, look T i x = Some (present, y) /\ answers t rep present y r (get_by T F k r x).
  Proof. exact (Factory8.access_get fc fs R pl W In_ ty name m H D (types_of W) i p Hp t rep Ht Hr k r x). Qed.
  (** Another field [q] keeps its value, unless it is in the same oneof: then it is as in a new message. *)
  Theorem C110_others E fuel k v x x' e j q : key_of k p -> set_by E fuel T F k v x = Some (x', e) -> nth_error (mp_fields m) j = Some q -> j <> i -> ~ same_oneof p q -> look T j x' = look T j x.
  Proof. exact (Factory8.access_others fc fs R pl W In_ ty name m H D E fuel i p Hp k v x x' e j q). Qed.
  Theorem C110_oneof E fuel k v x x' j q : key_of k p -> length x = t_slots T -> set_by E fuel T F k v x = Some (x', None) -> nth_error (mp_fields m) j = Some q -> j <> i -> same_oneof p q ->
    exists d, look T j x' = Some (false, d) /\ look T j (new_message T) = Some (false, d).
  Proof. exact (Factory8.access_drops fc fs R pl W In_ ty name m H D E fuel i p Hp k v x x' j q). Qed.
End Field_.
Print Assumptions C110_set.
Print Assumptions C110_value.
Print Assumptions C110_set_get.
Print Assumptions C110_get.
Print Assumptions C110_others.
Print Assumptions C110_oneof.

(** proto2: message M with, among others, int32 i = 1 [default = -5], E e = 2, a oneof of string s = 4 and M m = 5. *)
Notation fx_env := (types_of (snd fx_made)).
Notation fx_fields := (access_fields fx_no_floats (fst fx_made) 0).
Example C110_case : representable fx_files /\ initialize fx_no_floats fx_files = Done (fst fx_made, snd fx_made) /\ no_implicit_defaults fx_files /\
  nth_error (all_messages fx_files) 0 = Some (txt "p.M", fx_M) /\
  (exists p q, nth_error (mp_fields fx_M) 3 = Some p /\ nth_error (mp_fields fx_M) 4 = Some q /\ field_type fx_files p PString /\ field_type fx_files q (PMsg 0) /\ same_oneof p q /\ key_of (ByName (txt "s")) p /\ key_of (ByNumber 4) p) /\
  exists p, nth_error (mp_fields fx_M) 1 = Some p /\ field_type fx_files p (PEnum [(txt "A", 3); (txt "B", 7)]) /\ no_aliases (PEnum [(txt "A", 3); (txt "B", 7)]).
Proof.
  split; [exact fx_representable|]. split; [exact fx_accepted|]. split; [exact fx_defaults|]. split; [reflexivity|]. split.
  - do 2 eexists. split; [reflexivity|]. split; [reflexivity|]. split; [apply FtPlain; cbn; tauto|]. split; [eapply (FtMessage _ _ (txt "p.M")); [cbn; tauto|reflexivity|reflexivity]|]. split; [exists 0; split; reflexivity|]. split; reflexivity.
  - eexists. split; [reflexivity|]. split; [eapply (FtEnum _ _ fx_E); [reflexivity|]; exists (txt "p.E"); split; [reflexivity|cbn; left; reflexivity]|].
    intros vs [= <-]. split; [repeat constructor; cbn; lia|cbn; intros [K|[K|[]]]; discriminate K].
Qed.
Example C110_calls : exists x1 x2 x3,
  set_by fx_env 3 (fx_env 0) fx_fields (ByNumber 5) (AMsg 0 (new_message (fx_env 0))) (new_message (fx_env 0)) = Some (x1, None) /\
  set_by fx_env 3 (fx_env 0) fx_fields (ByName (txt "s")) (AStr (txt "text")) x1 = Some (x2, None) /\
  set_by fx_env 3 (fx_env 0) fx_fields (ByName (txt "e")) (AEName (txt "B")) x2 = Some (x3, None) /\
  get_by (fx_env 0) fx_fields (ByNumber 4) RStr x3 = inl (FBytes (txt "text")) /\ get_by (fx_env 0) fx_fields (ByNumber 2) RENum x3 = inl (FInt 7) /\ get_by (fx_env 0) fx_fields (ByName (txt "i")) (RNum NI32) x3 = inl (FInt (-5)) /\
  set_by fx_env 3 (fx_env 0) fx_fields (ByName (txt "i")) (ANum NU32 5) x3 = Some (x3, Some InvalidType) /\ set_by fx_env 3 (fx_env 0) fx_fields (ByNumber 99) (ANum NU32 5) x3 = Some (x3, Some NoSuchField).
Proof.
  do 3 eexists. split; [vm_compute; reflexivity|]. split; [vm_compute; reflexivity|]. split; [vm_compute; reflexivity|]. split; [vm_compute; reflexivity|]. split; [vm_compute; reflexivity|]. split; [vm_compute; reflexivity|]. split; vm_compute; reflexivity.
Qed.
