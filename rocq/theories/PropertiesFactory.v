(** Properties of the factory of dynamic messages. *)
From Coq Require Import Ascii String.
Require Import Verif.Bits Verif.Varint Verif.CppText Verif.Pool Verif.PoolSpec Verif.DynSlots Verif.Dyn Verif.Schema Verif.Archive Verif.Decode Verif.Encode Verif.DynWire.
Require Import Verif.WellTyped Verif.DynView Verif.DynDecode Verif.DynAgree Verif.DynMain Verif.PoolAttrs Verif.Factory Verif.FactorySpec Verif.FactoryEx.
Require Verif.DynDecode4 Verif.Factory4.
Local Open Scope list_scope.
Local Open Scope Z_scope.

(** ** C106: the factory makes of a set of descriptors the types it describes. *)
(** A set of files is accepted exactly if it is valid, the members of every oneof stand
    together and every default value is good. *)
Theorem C106_accepts fc fs : representable fs -> (exists r, initialize fc fs = Done r) <-> usable fc fs.
Proof. exact (Factory4.factory_accepts fc fs). Qed.
Print Assumptions C106_accepts.
(** Otherwise it is refused with an error. *)
Theorem C106_refuses fc fs : representable fs -> initialize fc fs = Invalid \/ exists r, initialize fc fs = Done r.
Proof. exact (Factory4.factory_rejects fc fs). Qed.
Print Assumptions C106_refuses.

(** Every message type has the fields of its descriptor, with their numbers, types, labels,
    packing, oneofs, presence and default values. *)
Theorem C106_types fc fs pl W : representable fs -> initialize fc fs = Done (pl, W) -> Forall2 (type_means fc fs) (concat (map scoped_messages fs)) W.
Proof. exact (fun R I => Factory4.factory_types fc fs R pl W I). Qed.
Print Assumptions C106_types.

(** The types are found by their full names. *)
Theorem C106_lookup fc fs pl W n : representable fs -> initialize fc fs = Done (pl, W) ->
  (forall ty, get_message_type pl n = Some ty <-> nth_error (map fst (all_messages fs)) ty = Some n) /\ (get_message_type pl n = None <-> ~ In n (map fst (all_messages fs))).
Proof. intros R I. split; [exact (fun ty => Factory4.factory_lookup fc fs R pl W I n ty)|exact (Factory4.factory_unknown fc fs R pl W I n)]. Qed.
Print Assumptions C106_lookup.

(** The tag stored for a field is its number and the wire type its values are written with. *)
Theorem C106_tags fc fs pl W : representable fs -> initialize fc fs = Done (pl, W) ->
  Forall2 (fun x t => map serialized_tag (fields_of (dsc_of x)) = map (fun fl => stag (fst fl)) (w_fields t)) (concat (map scoped_messages fs)) W.
Proof. exact (fun R I => Factory4.factory_tags fc fs R pl W I). Qed.
Print Assumptions C106_tags.

(** Field numbers are distinct, and every message type that is referred to exists. *)
Theorem C106_numbers fc fs pl W t : representable fs -> initialize fc fs = Done (pl, W) -> In t W -> NoDup (map (fun fl => w_num (fst fl)) (w_fields t)).
Proof. exact (fun R I => Factory4.factory_numbers fc fs R pl W I t). Qed.
Print Assumptions C106_numbers.
Theorem C106_closed fc fs pl W t f l ty d : representable fs -> initialize fc fs = Done (pl, W) -> In t W -> In (f, l) (w_fields t) -> w_elem f = EMsg ty d -> (ty < length W)%nat.
Proof. exact (fun R I => Factory4.factory_closed fc fs R pl W I t f l ty d). Qed.
Print Assumptions C106_closed.

(** The types are what the theorems about dynamic messages ask for. *)
Theorem C106_wellformed fc fs pl W : representable fs -> initialize fc fs = Done (pl, W) -> no_implicit_defaults fs -> wtypes_ok W.
Proof. exact (fun R I => Factory4.factory_wellformed fc fs R pl W I). Qed.
Print Assumptions C106_wellformed.
Theorem C106_readable fc fs pl W : representable fs -> initialize fc fs = Done (pl, W) -> maps_plain fs -> closed_plain fs -> readable W.
Proof. exact (fun R I => Factory4.factory_readable fc fs R pl W I). Qed.
Print Assumptions C106_readable.
(** Default values are values of the type, if std::from_chars gives 4 or 8 bytes, and the
    descriptor holds int32 numbers and bytes. *)
Theorem C106_defaults_fit fc fs pl W : representable fs -> initialize fc fs = Done (pl, W) ->
  (forall is64 t z, fc is64 t = Some z -> 0 <= z < 2 ^ (if is64 then 64 else 32)) ->
  Forall (fun e => Forall (fun v => fits_s 32 (snd v)) (ep_values (snd e))) (all_enums fs) -> Forall (fun p => all_bytes (fp_default p)) (message_fields fs) -> defaults_fit W.
Proof. exact (fun R I => Factory4.factory_defaults_fit fc fs R pl W I). Qed.
Print Assumptions C106_defaults_fit.

(** A new message has no fields, and they read as the descriptor's default values: the
    first value of an enum, if nothing else is said. *)
Theorem C106_new fc fs pl W : representable fs -> initialize fc fs = Done (pl, W) -> no_implicit_defaults fs -> Forall2 (new_reads fc fs) (concat (map scoped_messages fs)) W.
Proof. exact (fun R I => Factory4.factory_new fc fs R pl W I). Qed.
Print Assumptions C106_new.

(** From descriptors and bytes to fields: a dynamic message reads what generated code of the
    same schema reads. *)
Theorem C106_reads fc fs pl W utf8_ok maxd ty bs : representable fs -> initialize fc fs = Done (pl, W) -> no_implicit_defaults fs -> maps_plain fs -> closed_plain fs -> utf8_ok [] = true ->
  match decode_bytes (env_of W) utf8_ok maxd ty (default_msg (env_of W) ty) bs with
  | Ok v => exists m, dyn_read W utf8_ok maxd ty bs = Ok m /\ agree W ty m v
  | Err _ => exists e, dyn_read W utf8_ok maxd ty bs = Err e
  | UB | Exn | NoFuel => False
  end.
Proof.
  exact (fun R I N M C Hu => DynDecode4.read_same W utf8_ok maxd (Factory4.factory_wellformed fc fs R pl W I N) (Factory4.factory_readable fc fs R pl W I M C) Hu ty bs).
Qed.
Print Assumptions C106_reads.

(** ** A concrete case *)
(** The files of FactoryEx.v are accepted and meet every condition; a new message shows the
    first value of the enum, and what it reads it holds. *)
Example C106_case : representable fx_files /\ initialize fx_no_floats fx_files = Done (fst fx_made, snd fx_made) /\ no_implicit_defaults fx_files /\ maps_plain fx_files /\ closed_plain fx_files.
Proof. split; [exact fx_representable|]. split; [exact fx_accepted|]. split; [exact fx_defaults|]. split; [exact fx_maps|exact fx_closed]. Qed.
Example C106_case_names : get_message_type (fst fx_made) (txt "p.M.XEntry") = Some 1%nat /\ get_message_type (fst fx_made) (txt "p.X") = None.
Proof. split; vm_compute; reflexivity. Qed.
Example C106_case_read : exists m, dyn_read (snd fx_made) (fun _ => true) 100 0 [8; 7; 34; 1; 97; 58; 2; 8; 1; 50; 4; 1; 0; 0; 0] = Ok m /\
  map (fun fl => has_value (dyn_of (fst fl)) (snd fl) (slot_at m (snd fl))) (w_fields (wty (snd fx_made) 0)) = [true; false; false; true; false; true; true; false; false] /\
  map (fun fl => match w_elem (fst fl) with EMsg _ _ => FNone | _ => value (dyn_of (fst fl)) (snd fl) (slot_at m (snd fl)) end) (w_fields (wty (snd fx_made) 0)) =
    [FInt 7; FInt 3; FInt 7; FBytes [97]; FNone; FInts [1]; FNone; FInt 1; FInt 4294967295].
Proof. eexists. split; [vm_compute; reflexivity|]. split; vm_compute; reflexivity. Qed.

(** ** Findings *)
(** A default value for a field without presence, which protoc refuses, is accepted: set to
    that value the field is present, but not written. *)
Theorem C106_implicit_default_refuted : exists fs pl W f l m, representable fs /\ initialize fx_no_floats fs = Done (pl, W) /\ w_fields (wty W 0) = [(f, l)] /\
  set_slot (dyn_of f) l (IInt 5) zero_slot = Some (slot_at m l) /\ has_value (dyn_of f) l (slot_at m l) = true /\ value (dyn_of f) l (slot_at m l) = FInt 5 /\
  dyn_encode W (fun _ => true) 100 1 0 m = Ok [] /\ value (dyn_of f) l zero_slot = FInt 0.
Proof.
  exists fx_implicit, (fst fx_implicit_made), (snd fx_implicit_made). do 2 eexists. exists [(1, CInt 5)]. split; [apply representable_check; reflexivity|]. split; [vm_compute; reflexivity|]. split; [vm_compute; reflexivity|].
  split; [vm_compute; reflexivity|]. split; [vm_compute; reflexivity|]. split; [vm_compute; reflexivity|]. split; vm_compute; reflexivity.
Qed.
Print Assumptions C106_implicit_default_refuted.
(** A map entry of one field is accepted: reading an entry is undefined. *)
Theorem C106_short_entry_refuted : exists fs pl W bs, representable fs /\ initialize fx_no_floats fs = Done (pl, W) /\ no_implicit_defaults fs /\ dyn_read W (fun _ => true) 100 0 bs = UB.
Proof.
  exists fx_short, (fst fx_short_made), (snd fx_short_made), [10; 0]. split; [apply representable_check; reflexivity|]. split; [vm_compute; reflexivity|]. split; [|vm_compute; reflexivity].
  unfold no_implicit_defaults. repeat (apply Forall_cons; [|]); try apply Forall_nil; intros Hr; right; reflexivity.
Qed.
Print Assumptions C106_short_entry_refuted.
