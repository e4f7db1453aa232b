(** The examples of PropertiesDynDecode.v. *)
Require Import Verif.Bits Verif.Varint Verif.DynSlots Verif.Dyn Verif.Schema Verif.Archive Verif.Decode Verif.Encode Verif.DynWire.
Require Import Verif.DecodeSafe Verif.WellTyped Verif.DynView Verif.DynDecode Verif.DynAgree Verif.DynWireEx.

Lemma dw_readable : readable dw_types.
Proof.
  assert (K : forall f, elem_closed (w_elem f) = false -> match w_elem f with EMsg ty _ => w_entry (wty dw_types ty) = false | _ => True end -> readable_field dw_types f).
  { intros f H1 H2. split; [congruence|]. intros ty d He Hn. rewrite He in H2. congruence. }
  apply Forall_cons; [|apply Forall_cons; [|apply Forall_nil]]; (split; [|discriminate]).
  - cbn [w_fields dw_types]. repeat (apply Forall_cons; [apply K; cbn; auto|]). apply Forall_nil.
  - cbn [w_fields dw_types]. apply Forall_cons; [|apply Forall_nil]. split; [cbn; auto|cbn; discriminate].
Qed.

(** A map from int32 to string, whose entries are read without their second field. *)
Definition de_map : list wtype :=
  Eval vm_compute in [dw_type 0 [WField 1 (EMsg 1 false) (Some false) None false 0 []]; (fun t => WType (w_fields t) (w_slots t) true) (dw_type 0 [WField 1 (EVar VI32) None None true 0 []; WField 2 (EBytes true false) None None true 0 []])].
Lemma de_readable : readable de_map.
Proof.
  apply Forall_cons; [|apply Forall_cons; [|apply Forall_nil]].
  - split; [|discriminate]. apply Forall_cons; [|apply Forall_nil]. split; [discriminate|]. intros ty d He _. injection He as <- <-. split; [discriminate|reflexivity].
  - split; [|intros _; do 2 eexists; split; reflexivity]. repeat (apply Forall_cons; [split; discriminate|]). apply Forall_nil.
Qed.
Lemma de_ok : wtypes_ok de_map.
Proof.
  apply Forall_cons; [|apply Forall_cons; [|apply Forall_nil]].
  - exists 0%nat, [WField 1 (EMsg 1 false) (Some false) None false 0 []]. split; [apply Forall_cons; [discriminate|apply Forall_nil]|]. split; [|reflexivity].
    apply Forall_cons; [|apply Forall_nil]. split; [cbn; lia|]. split; [discriminate|]. split; [discriminate|auto].
  - exists 0%nat, [WField 1 (EVar VI32) None None true 0 []; WField 2 (EBytes true false) None None true 0 []]. split; [apply Forall_cons; [discriminate|apply Forall_cons; [discriminate|apply Forall_nil]]|]. split; [|reflexivity].
    repeat (apply Forall_cons; [split; [cbn; lia|]; split; [discriminate|]; split; discriminate|]). apply Forall_nil.
Qed.
(** The descriptor of a map entry that lacks the second field. *)
Definition de_short : list wtype :=
  Eval vm_compute in [dw_type 0 [WField 1 (EMsg 1 false) (Some false) None false 0 []]; (fun t => WType (w_fields t) (w_slots t) true) (dw_type 0 [WField 1 (EVar VI32) None None true 0 []])].
Lemma de_short_ok : wtypes_ok de_short.
Proof.
  apply Forall_cons; [|apply Forall_cons; [|apply Forall_nil]].
  - exists 0%nat, [WField 1 (EMsg 1 false) (Some false) None false 0 []]. split; [apply Forall_cons; [discriminate|apply Forall_nil]|]. split; [|reflexivity].
    apply Forall_cons; [|apply Forall_nil]. split; [cbn; lia|]. split; [discriminate|]. split; [discriminate|auto].
  - exists 0%nat, [WField 1 (EVar VI32) None None true 0 []]. split; [apply Forall_cons; [discriminate|apply Forall_nil]|]. split; [|reflexivity].
    repeat (apply Forall_cons; [split; [cbn; lia|]; split; [discriminate|]; split; discriminate|]). apply Forall_nil.
Qed.
(** A single field without presence. *)
Definition de_plain : list wtype := Eval vm_compute in [dw_type 0 [WField 1 (EVar VI32) None None false 0 []]].
Lemma de_plain_ok : wtypes_ok de_plain.
Proof.
  apply Forall_cons; [|apply Forall_nil]. exists 0%nat, [WField 1 (EVar VI32) None None false 0 []]. split; [apply Forall_cons; [discriminate|apply Forall_nil]|]. split; [|reflexivity].
  apply Forall_cons; [|apply Forall_nil]. split; [cbn; lia|]. split; [discriminate|]. split; [discriminate|auto].
Qed.
Lemma de_plain_readable : readable de_plain.
Proof. apply Forall_cons; [|apply Forall_nil]. split; [|discriminate]. apply Forall_cons; [|apply Forall_nil]. split; discriminate. Qed.

Ltac fit := unfold fits, in_vtype, fits_s, fits_u, fix_size, all_bytes, is_byte; cbn [w_elem w_default fst w_dint w_dbytes]; try (intros K; discriminate K); intros _; cbn [w_default w_elem w_dint w_dbytes]; try lia; repeat (first [apply Forall_nil | apply Forall_cons; [lia|]]).
Lemma dw_fit : defaults_fit dw_types.
Proof. apply Forall_cons; [|apply Forall_cons; [|apply Forall_nil]]; cbn [w_fields dw_types]; repeat (apply Forall_cons; [cbn [fst w_elem scalar]; fit|]); apply Forall_nil. Qed.
Lemma de_fit : defaults_fit de_map.
Proof. apply Forall_cons; [|apply Forall_cons; [|apply Forall_nil]]; cbn [w_fields de_map]; repeat (apply Forall_cons; [cbn [fst w_elem scalar]; fit|]); apply Forall_nil. Qed.
Lemma dw_no_maps : no_maps dw_types.
Proof. repeat (apply Forall_cons; [reflexivity|]). apply Forall_nil. Qed.
