(** Oneofs of dynamic messages as a whole.

    Modelled code: include/hpp_proto/dynamic_message/message_fields.hpp:174-183 (has_oneof), 446-459 (clear_field with a oneof
    descriptor), factory_addons.hpp:257-263, descriptor_pool.hpp:1230-1238; the calls that change fields are
    those of C61 and C105, reading is that of C66 and DynJson.v, cloning that of C62. *)
From Coq Require Import Ascii String.
Require Import Verif.Bits Verif.CppText Verif.Pool Verif.PoolSpec Verif.PoolAttrs Verif.DynSlots Verif.Dyn Verif.DynMain Verif.DynWire Verif.DynDecode Verif.DynAccess Verif.DynOneof Verif.DynOneofSpec.
Require Import Verif.Factory Verif.FactorySpec Verif.FactoryEx Verif.FactoryAccess.
Require Verif.Archive Verif.DynOneof1 Verif.DynOneof2.
Local Open Scope list_scope.
Local Open Scope Z_scope.

(** ** C111: has_oneof tells whether one of the fields of the oneof is present, and clearing the oneof clears just these. *)
Section Any_type.
  Variables (count : nat) (W : list wtype) (ty : nat) (fs : list tfield).
  Notation t := (types_of W ty).
  Hypothesis M : made count (map dynf_of fs) t.
  (** Whatever calls a message comes from: has_oneof holds exactly if a field of the oneof is present, and then no other one is. *)
  Theorem C111_has o m : reached count W ty fs m ->
    has_oneof count t (Some o) m = true <-> exists i, member t i o /\ present t i m /\ forall j, member t j o -> present t j m -> j = i.
  Proof. exact (DynOneof1.reached_has count W ty fs M o m). Qed.
  (** After clearing the oneof none of its fields is present, they read as defaults, and has_oneof does not hold. *)
  Theorem C111_clear o m : reached count W ty fs m ->
    has_oneof count t (Some o) (clear_oneof count t (Some o) m) = false /\
    forall i, member t i o -> exists f l, field t i = Some (f, l) /\ look t i (clear_oneof count t (Some o) m) = Some (false, DynMain.default_value f).
  Proof. exact (fun R => conj (DynOneof1.reached_clear count W ty fs M o m R) (fun i => DynOneof1.cleared count _ t M o i m (DynOneof1.reached_length count W ty fs M m R))). Qed.
  (** Fields that are not in it keep presence and value; with the descriptor of another message that is all fields. *)
  Theorem C111_others d j m : (forall o, d = Some o -> ~ member t j o) -> look t j (clear_oneof count t d m) = look t j m.
  Proof. exact (DynOneof1.others_stay count _ t M d j m). Qed.
  (** active_oneof_index of a field of the oneof, whichever one: the position of the field that is present, negative if none is.
      [Z.of_nat (length fs) <= 2 ^ 31]: positions are int32. *)
  Theorem C111_active i o m : Z.of_nat (length fs) <= 2 ^ 31 -> reached count W ty fs m -> member t i o ->
    (forall j, active_index t i m = Some (Z.of_nat j) <-> member t j o /\ present t j m) /\
    (active_index t i m = Some (-1) <-> forall j, member t j o -> ~ present t j m).
  Proof. exact (DynOneof1.reached_active count W ty fs M i o m). Qed.
  (** Of a field that is in no oneof, its own position if it is present, and negative if not. *)
  Theorem C111_active_own i f l m : Z.of_nat (length fs) <= 2 ^ 31 -> reached count W ty fs m -> field t i = Some (f, l) -> y_oneof f = None ->
    (present t i m -> active_index t i m = Some (Z.of_nat i)) /\ (~ present t i m -> active_index t i m = Some (-1)).
  Proof. exact (fun B R Hi Ho => conj (DynOneof1.reached_active_own count W ty fs M i f l m B Hi Ho) (DynOneof1.reached_active_none count W ty fs M i f l m R Hi Ho)). Qed.
End Any_type.
Print Assumptions C111_has.
Print Assumptions C111_clear.
Print Assumptions C111_others.
Print Assumptions C111_active.
Print Assumptions C111_active_own.

(** The same on the descriptors a factory is made from: field [p] is in the oneof whose index it has. *)
Section Factory_.
  Variables (fc : bool -> bytes -> option Z) (fs : list fileproto) (pl : pool) (W : list wtype) (ty : nat) (name : bytes) (m : mproto).
  Hypothesis R : representable fs.
  Hypothesis In_ : initialize fc fs = Done (pl, W).
  Hypothesis D : no_implicit_defaults fs.
  Hypothesis H : nth_error (all_messages fs) ty = Some (name, m).
  Notation T := (types_of W ty).
  Theorem C111_factory_has o x : reached (mp_oneofs m) W ty (access_fields fc pl ty) x ->
    has_oneof (mp_oneofs m) T (Some o) x = true <->
    exists i p, nth_error (mp_fields m) i = Some p /\ fp_oneof p = Some (Z.of_nat o) /\ present T i x /\
      forall j q, nth_error (mp_fields m) j = Some q -> fp_oneof q = Some (Z.of_nat o) -> present T j x -> j = i.
  Proof. exact (DynOneof2.proto_has fc fs pl W ty name m R In_ D H o x). Qed.
  (** Clearing: the fields of the oneof are as in a new message, the others as before. *)
  Theorem C111_factory_clear o i p x : reached (mp_oneofs m) W ty (access_fields fc pl ty) x -> nth_error (mp_fields m) i = Some p ->
    (fp_oneof p = Some (Z.of_nat o) -> look T i (clear_oneof (mp_oneofs m) T (Some o) x) = look T i (new_message T)) /\
    (fp_oneof p <> Some (Z.of_nat o) -> look T i (clear_oneof (mp_oneofs m) T (Some o) x) = look T i x).
  Proof. exact (DynOneof2.proto_cleared fc fs pl W ty name m R In_ D H o i p x). Qed.
  (** active_oneof_index of field [i]: the position [j] that is present of the fields of its oneof, or of itself if it is in none; negative if there is no such one. *)
  Theorem C111_factory_active i p x : Z.of_nat (length (mp_fields m)) <= 2 ^ 31 -> reached (mp_oneofs m) W ty (access_fields fc pl ty) x -> nth_error (mp_fields m) i = Some p ->
    (forall j, active_index T i x = Some (Z.of_nat j) <->
       present T j x /\ exists q, nth_error (mp_fields m) j = Some q /\ (j = i \/ fp_oneof p <> None /\ fp_oneof q = fp_oneof p)) /\
    (active_index T i x = Some (-1) <->
       forall j q, nth_error (mp_fields m) j = Some q -> j = i \/ fp_oneof p <> None /\ fp_oneof q = fp_oneof p -> ~ present T j x).
  Proof. exact (DynOneof2.proto_active fc fs pl W ty name m R In_ D H i p x). Qed.
End Factory_.
Print Assumptions C111_factory_has.
Print Assumptions C111_factory_clear.
Print Assumptions C111_factory_active.

(** The message M of C110, with a oneof of string s = 4 [default = "hi"] and M m = 5: setting m, then s, then the field i, which is in no oneof. *)
Notation fx_T := (types_of (snd fx_made) 0).
Notation fx_F := (access_fields fx_no_floats (fst fx_made) 0).
Example C111_type : representable fx_files /\ initialize fx_no_floats fx_files = Done (fst fx_made, snd fx_made) /\ no_implicit_defaults fx_files /\ nth_error (all_messages fx_files) 0 = Some (txt "p.M", fx_M).
Proof. exact (conj fx_representable (conj fx_accepted (conj fx_defaults eq_refl))). Qed.
Example C111_case : exists x1 x2 x3,
  reached (mp_oneofs fx_M) (snd fx_made) 0 fx_F x3 /\
  set_by (types_of (snd fx_made)) 3 fx_T fx_F (ByNumber 5) (AMsg 0 (new_message fx_T)) (new_message fx_T) = Some (x1, None) /\
  set_by (types_of (snd fx_made)) 3 fx_T fx_F (ByName (txt "s")) (AStr (txt "text")) x1 = Some (x2, None) /\
  set_by (types_of (snd fx_made)) 3 fx_T fx_F (ByName (txt "i")) (ANum NI32 9) x2 = Some (x3, None) /\
  has_oneof (mp_oneofs fx_M) fx_T (Some 0%nat) (new_message fx_T) = false /\
  has_oneof (mp_oneofs fx_M) fx_T (Some 0%nat) x3 = true /\
  has_oneof (mp_oneofs fx_M) fx_T (Some 0%nat) (clear_oneof (mp_oneofs fx_M) fx_T (Some 0%nat) x3) = false /\
  look fx_T 0 (clear_oneof (mp_oneofs fx_M) fx_T (Some 0%nat) x3) = Some (true, FInt 9) /\
  look fx_T 3 x3 = Some (true, FBytes (txt "text")) /\ look fx_T 3 (clear_oneof (mp_oneofs fx_M) fx_T (Some 0%nat) x3) = Some (false, FBytes (txt "hi")).
Proof.
  assert (A : exists x1, set_by (types_of (snd fx_made)) 3 fx_T fx_F (ByNumber 5) (AMsg 0 (new_message fx_T)) (new_message fx_T) = Some (x1, None)) by (eexists; vm_compute; reflexivity). destruct A as (x1 & A).
  assert (B : exists x2, set_by (types_of (snd fx_made)) 3 fx_T fx_F (ByName (txt "s")) (AStr (txt "text")) x1 = Some (x2, None)) by (vm_compute in A; injection A as <-; eexists; vm_compute; reflexivity). destruct B as (x2 & B).
  assert (C : exists x3, set_by (types_of (snd fx_made)) 3 fx_T fx_F (ByName (txt "i")) (ANum NI32 9) x2 = Some (x3, None)) by (vm_compute in A; injection A as <-; vm_compute in B; injection B as <-; eexists; vm_compute; reflexivity). destruct C as (x3 & C).
  exists x1, x2, x3. split; [exact (RSetBy _ _ _ _ _ _ _ _ _ _ _ (RSetBy _ _ _ _ _ _ _ _ _ _ _ (RSetBy _ _ _ _ _ _ _ _ _ _ _ (RNew _ _ _ _) A) B) C)|].
  split; [exact A|]. split; [exact B|]. split; [exact C|]. vm_compute in A. injection A as <-. vm_compute in B. injection B as <-. vm_compute in C. injection C as <-.
  split; [vm_compute; reflexivity|]. split; [vm_compute; reflexivity|]. split; [vm_compute; reflexivity|]. split; [vm_compute; reflexivity|]. split; vm_compute; reflexivity.
Qed.
(** Read from the bytes of s = "A" followed by an empty m: the oneof is set, with m. *)
Example C111_read : exists x, reached (mp_oneofs fx_M) (snd fx_made) 0 fx_F x /\ dyn_read (snd fx_made) (fun _ => true) 100 0 [34; 1; 65; 42; 0] = Archive.Ok x /\
  has_oneof (mp_oneofs fx_M) fx_T (Some 0%nat) x = true /\ option_map fst (look fx_T 3 x) = Some false /\ option_map fst (look fx_T 4 x) = Some true /\
  active_index fx_T 3 x = Some 4 /\ active_index fx_T 4 x = Some 4 /\ active_index fx_T 0 x = Some (-1).
Proof.
  assert (A : exists x, dyn_read (snd fx_made) (fun _ => true) 100 0 [34; 1; 65; 42; 0] = Archive.Ok x) by (eexists; vm_compute; reflexivity). destruct A as (x & A). exists x. split; [exact (RRead _ _ _ _ _ _ _ _ A)|]. split; [exact A|].
  vm_compute in A. injection A as <-. split; [vm_compute; reflexivity|]. split; [vm_compute; reflexivity|]. split; [vm_compute; reflexivity|]. split; [vm_compute; reflexivity|]. split; vm_compute; reflexivity.
Qed.
