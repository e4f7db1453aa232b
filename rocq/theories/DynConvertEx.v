(** The schema of DynJsonEx can be read in binary. *)
From Coq Require Import Ascii String.
Require Import Verif.Bits Verif.Varint Verif.DynSlots Verif.Dyn Verif.Schema Verif.Archive Verif.Decode Verif.Encode Verif.DynWire Verif.WellTyped Verif.DecodeSafe Verif.DynView Verif.DynDecode Verif.DynAgree Verif.DynDecodeEx Verif.DynWireEx.
Require Import Verif.DynJson Verif.DynJsonSpec Verif.DynJsonSafe Verif.DynJsonEx Verif.DynConvert Verif.DynJsonBad Verif.CppText.
Local Open Scope string_scope.
Local Open Scope list_scope.
Local Open Scope Z_scope.

Lemma dj_readable : readable dj_types.
Proof.
  assert (K : forall f, elem_closed (w_elem f) = false -> match w_elem f with EMsg ty d => w_entry (wty dj_types ty) = false \/ (w_rep f <> None /\ d = false) | _ => True end -> readable_field dj_types f).
  { intros f H1 H2. split; [congruence|]. intros ty d He Hn. rewrite He in H2. destruct H2 as [H2|H2]; [congruence|exact H2]. }
  unfold readable, dj_types. repeat (apply Forall_cons; [split; [cbn [w_fields]; repeat (apply Forall_cons; [apply K; cbn; try exact I; try reflexivity; first [left; reflexivity|right; split; [discriminate|reflexivity]]|]); apply Forall_nil|first [discriminate|intros _; do 2 eexists; split; reflexivity]]|]). apply Forall_nil.
Qed.
Lemma dj_fit : defaults_fit dj_types.
Proof. unfold defaults_fit, dj_types. repeat (apply Forall_cons; [cbn [w_fields]; repeat (apply Forall_cons; [cbn [fst w_elem scalar]; fit|]); apply Forall_nil|]). apply Forall_nil. Qed.
Definition dj_binary : bytes := Eval vm_compute in match json_to_binpb dj_types dj_json any_text 8 8 dj_parse true 10 0 (render dj_tree) with Ok bs => bs | _ => [] end.
Lemma dj_to_binary : json_to_binpb dj_types dj_json any_text 8 8 dj_parse true 10 0 (render dj_tree) = Ok dj_binary.
Proof. vm_compute. reflexivity. Qed.
Lemma dj_to_text : binpb_to_json dj_types dj_json any_text true 8 8 dj_show 10 0 dj_binary = Ok (render dj_tree).
Proof. vm_compute. reflexivity. Qed.
Lemma dj_binary_bytes : all_bytes dj_binary.
Proof. unfold dj_binary, all_bytes, is_byte. repeat (apply Forall_cons; [lia|]). apply Forall_nil. Qed.
Definition dj_again : list slot := Eval vm_compute in match dyn_read dj_types any_text 8 0 dj_binary with Ok m => m | _ => [] end.
Lemma dj_from_binary : dyn_read dj_types any_text 8 0 dj_binary = Ok dj_again.
Proof. vm_compute. reflexivity. Qed.
Lemma dj_again_printable : printable dj_types dj_json any_text dj_show dj_parse 10 0 dj_again.
Proof. change any_text with (fun _ : bytes => true). printed. Qed.
Ltac well :=
  cbn beta; lazymatch goal with
  | |- typed _ _ _ _ => split; [reflexivity|cbn [w_fields wty nth dj_types]; well]
  | |- Forall _ [] => apply Forall_nil
  | |- Forall _ (_ :: _) => apply Forall_cons; [well|well]
  | |- slot_ok _ _ _ _ => let Hh := fresh in intros Hh; vm_compute in Hh; first [discriminate Hh|clear Hh; cbn [fst snd]; held; well]
  | |- is_byte _ => unfold is_byte; lia
  | |- fits _ _ => cbn [fits]; first [unfold in_vtype, fits_s, fits_u, fix_size; lia|unfold all_bytes; well]
  | |- _ /\ _ => split; [reflexivity|well]
  | |- ?g => idtac g
  end.
Lemma dj_again_typed : typed dj_types 10 0 dj_again.
Proof. well. Qed.
Lemma dj_again_written : dyn_encode dj_types any_text 8 10 0 dj_again = Ok dj_binary.
Proof. vm_compute. reflexivity. Qed.
Lemma zero_wrapper : let ts := render (JObj [(txt "i", JNum (txt "0"))]) in
  (m <- read_json dj_types dj_json any_text 8 dj_parse true 10 0 (new_slots dj_types 0) ts ;; write_json dj_types dj_json true 8 dj_show 10 0 m) = Ok ts /\
  exists bs ts', json_to_binpb dj_types dj_json any_text 8 8 dj_parse true 10 0 ts = Ok bs /\ binpb_to_json dj_types dj_json any_text true 8 8 dj_show 10 0 bs = Ok ts' /\ forall j, ts' <> render j.
Proof. intros ts. split; [vm_compute; reflexivity|]. do 2 eexists. split; [vm_compute; reflexivity|]. split; [vm_compute; reflexivity|]. intros j. apply no_value_after_colon. Qed.
