(** Descriptor pools: which sets of files are accepted, what the pool then
    contains, and the attributes of its fields. *)
Require Import Verif.Bits Verif.Kahn Verif.KahnSpec Verif.KahnProofs Verif.Pool Verif.PoolSpec Verif.PoolProofs Verif.PoolProofs2 Verif.PoolMain Verif.PoolAttrs.

(** ** Import cycles *)

(** C49: on any import graph whose edges stay inside the set of files, the check
    terminates and passes exactly when no file imports itself, directly or not. *)
Theorem C49_cycles_found (deps : list (list nat)) :
  closed_graph deps -> exists b, acyclic_check deps = Some b /\ (b = true <-> ~ cyclic deps).
Proof. exact (check_spec deps). Qed.
Print Assumptions C49_cycles_found.

(** A diamond, and a cycle that is not reachable from the files without imports. *)
Example diamond_accepted : acyclic_check [[1; 2]; [3]; [3]; []]%nat = Some true. Proof. reflexivity. Qed.
Example diamond_closed : closed_graph [[1; 2]; [3]; [3]; []]%nat.
Proof.
  intros i j (ds & Hi & Hj). do 4 (destruct i as [|i]; [cbn in Hi; injection Hi as <-; cbn in Hj; cbn; lia|]). destruct i; discriminate.
Qed.
Example cycle_rejected : acyclic_check [[]; [2]; [3]; [1; 0]]%nat = Some false. Proof. reflexivity. Qed.

(** C49, for the pool: an accepted set of files has no import cycle. *)
Theorem C49_pool_acyclic fs p : representable fs -> init fs = Done p -> ~ exists n, clos_trans bytes (depends fs) n n.
Proof. intros H E. apply (vf_acyclic fs). apply (pool_accepts fs H). eauto. Qed.
Print Assumptions C49_pool_acyclic.

(** ** Validation *)

(** C50: building a pool succeeds exactly for the valid sets of files. *)
Theorem C50_accepts_valid fs : representable fs -> (exists p, init fs = Done p) <-> valid_files fs.
Proof. exact (pool_accepts fs). Qed.
Print Assumptions C50_accepts_valid.

(** C50: an accepted pool holds exactly the declared files, messages, enums and
    fields. *)
Theorem C50_contents fs p : representable fs -> init fs = Done p ->
  map fst (p_files p) = fs /\ map (fun d => (md_full d, md_proto d)) (s_mmap (p_state p)) = all_messages fs /\
  map (fun e => (ed_full e, ed_proto e)) (s_emap (p_state p)) = all_enums fs /\
  (forall q, In q (map fd_proto (p_fields p)) <-> In q (message_fields fs ++ extensions fs)).
Proof. exact (pool_contents fs p). Qed.
Print Assumptions C50_contents.

(** C50: looking up a full name finds the message, or enum, declared with that name
    and nothing else. *)
Theorem C50_message_lookup fs p : representable fs -> init fs = Done p -> forall n m,
  (exists d, get_message p n = Some d /\ md_proto d = m) <-> In (n, m) (all_messages fs).
Proof. exact (pool_lookup fs p). Qed.
Print Assumptions C50_message_lookup.
Theorem C50_enum_lookup fs p : representable fs -> init fs = Done p -> forall n e,
  (exists d, get_enum p n = Some d /\ ed_proto d = e) <-> In (n, e) (all_enums fs).
Proof. exact (pool_enum_lookup fs p). Qed.
Print Assumptions C50_enum_lookup.

(** C56: for every set of files, valid or not, building the pool stops, and no
    vector grows past the capacity reserved for it (which would leave pointers
    between descriptors dangling). *)
Theorem C56_storage_stable fs : representable fs -> init fs = Invalid \/ exists p, init fs = Done p.
Proof. exact (pool_rejects fs). Qed.
Print Assumptions C56_storage_stable.

(** ** Field attributes *)

(** C57: the attributes of every field are those the features in scope prescribe,
    the innermost scope that sets a feature winning. *)
Theorem C57_field_attributes fs p : representable fs -> init fs = Done p ->
  Forall2 (fun d x => let '(q, entry, scopes) := x in fd_proto d = q /\ attributes q entry scopes (fd_attrs d)) (p_fields p) (scoped_fields fs).
Proof. exact (pool_attributes fs p). Qed.
Print Assumptions C57_field_attributes.
Theorem C57_closed_enums fs p : representable fs -> init fs = Done p ->
  Forall2 (fun d x => let '(full, e, scopes) := x in ed_full d = full /\ ed_proto d = e /\ (ed_closed d = true <-> feature ft_enum scopes = ENUM_CLOSED))
    (s_emap (p_state p)) (scoped_enums fs).
Proof. exact (pool_enums fs p). Qed.
Print Assumptions C57_closed_enums.

(** ** An accepted set of files

    [a.proto] (proto3, package [p]): message [M] with a field, a repeated field
    marked [packed = false], a oneof of a string and a message, a nested message and
    a nested enum.  [b.proto] (proto2) imports it and extends [M]. *)
Definition none := Features 0 0 0 0 0.
Definition fld name num label type tname ext one packed := FProto [name] num label type tname ext [] one false packed [] none.
Definition msg_N := MProto [78] [fld 120 1 1 14 [46; 112; 46; 77; 46; 69] [] None None] [] [] [] 0 false none.
Definition enum_E := EProto [69] [([65], 0); ([66], 1)] none.
Definition msg_M := MProto [77]
  [fld 105 1 1 5 [] [] None None; fld 118 2 3 5 [] [] None (Some false); fld 115 3 1 9 [] [] (Some 0) None; fld 110 4 1 11 [46; 112; 46; 77; 46; 78] [] (Some 0) None]
  [] [msg_N] [enum_E] 1 false none.
Definition file_a := FileProto [97] [112] [] [msg_M] [] [] proto3_text 0 none.
Definition file_b := FileProto [98] [] [[97]] [] [EProto [70] [([67], 1)] none] [fld 101 100 3 5 [] [46; 112; 46; 77] None None] [] 0 none.
Definition example_files := [file_b; file_a].
Example example_representable : representable example_files. Proof. apply representable_check. reflexivity. Qed.
Example example_accepted : match init example_files with Done p => map fd_attrs (p_fields p) | _ => [] end =
  [FAttr false false false false false false; FAttr false true true false false false; FAttr true false false true false false;
   FAttr true false false false false false; FAttr false false false false false false; FAttr false true false false false false].
Proof. reflexivity. Qed.
Definition example_pool := match init example_files with Done p => p | _ => Pool [] (State [] [] [] [] 0) [] end.
Example example_built : init example_files = Done example_pool. Proof. vm_compute. reflexivity. Qed.
Example example_valid : valid_files example_files.
Proof. apply C50_accepts_valid; [exact example_representable|]. exists example_pool. exact example_built. Qed.
(** Rejected: the extension made to extend a message that does not exist; an import
    cycle; a field number from the reserved range. *)
Example example_bad_extendee : init [FileProto [98] [] [] [] [] [fld 101 100 3 5 [] [46; 112; 46; 77] None None] [] 0 none] = Invalid. Proof. reflexivity. Qed.
Example example_bad_cycle : init [file_b; FileProto [97] [112] [[98]] [msg_M] [] [] proto3_text 0 none] = Invalid. Proof. reflexivity. Qed.
Example example_bad_number : init [FileProto [98] [] [] [MProto [77] [fld 105 19500 1 5 [] [] None None] [] [] [] 0 false none] [] [] [] 0 none] = Invalid. Proof. reflexivity. Qed.

(** C57, protobuf's packing rule: fields that do not say [packed = false] follow it. *)
Theorem C57_packed_rule fs p : representable fs -> init fs = Done p ->
  Forall2 (fun d x => let '(q, _, scopes) := x in fp_packed q <> Some false -> (fa_packed (fd_attrs d) = true <-> packed_rule q scopes)) (p_fields p) (scoped_fields fs).
Proof. exact (pool_packed_rule fs p). Qed.
Print Assumptions C57_packed_rule.

(** C57: a field that says [packed = false] where the features say packed is packed
    all the same. *)
Theorem C57_packed_false_ignored_refuted :
  exists fs p, representable fs /\ init fs = Done p /\
    ~ Forall2 (fun d x => let '(q, _, scopes) := x in fa_packed (fd_attrs d) = true <-> packed_rule q scopes) (p_fields p) (scoped_fields fs).
Proof.
  exists example_files, example_pool. split; [exact example_representable|]. split; [exact example_built|]. intros K.
  pose (q := fld 118 2 3 5 [] [] None (Some false)).
  assert (K3 := Forall2_at _ _ _ K 1 (FDsc q (FAttr false true true false false false)) (q, false, [language_defaults file_a; none; none; none])
    ltac:(vm_compute; reflexivity) ltac:(vm_compute; reflexivity)).
  destruct K3 as [K3 _]. destruct (K3 eq_refl) as (_ & _ & K4). discriminate K4.
Qed.
Print Assumptions C57_packed_false_ignored_refuted.
