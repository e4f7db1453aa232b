(** Reading what the dynamic encoder wrote, and the example. *)
Require Import Verif.Bits Verif.Varint Verif.DynSlots Verif.Dyn Verif.Schema Verif.Archive Verif.Decode Verif.Encode Verif.DynWire.
Require Import Verif.DynSlotsProofs Verif.DecodeSafe Verif.WellTyped Verif.EncodeSpec Verif.EncodeProofs Verif.RoundTrip Verif.DynView Verif.DynEncode1 Verif.DynEncode2 Verif.DynEncode3 Verif.DynEncode4 Verif.DynWireEx.
Require Import Verif.Output Verif.OutputSpec Verif.EncodeMain.

Lemma read_back W utf8_ok maxd limit n ty m bs : wtypes_ok W -> utf8_ok [] = true -> typed W n ty m -> clean W utf8_ok n ty m ->
  generated (env_of W) -> maxd <= limit -> canonical (env_of W) limit 1 ty (val_of W n ty m) ->
  dyn_encode W utf8_ok maxd n ty m = Ok bs ->
  decode_bytes (env_of W) utf8_ok limit ty (default_msg (env_of W) ty) bs = Ok (val_of W n ty m).
Proof.
  intros HW Hu Ht Hc Hg Hl Hcan He. rewrite (dyn_encode_ok W utf8_ok maxd HW n ty m Ht) in He.
  eapply (round_trip (env_of W) utf8_ok maxd limit); [exact Hg|rewrite desc_env; reflexivity|exact Hl|apply val_wt; assumption|exact Hcan|exact He].
Qed.

Definition dw_small : list slot := [zero_slot; zero_slot; zero_slot; (2, CMsg [zero_slot]); zero_slot; zero_slot; zero_slot; zero_slot].
Lemma dw_small_typed : typed dw_types 2 0 dw_small.
Proof. slots. apply dw_typed1. Qed.
Lemma dw_small_clean u : clean dw_types u 2 0 dw_small.
Proof.
  repeat (apply Forall_cons; [intros Hh; vm_compute in Hh; try discriminate Hh; clear Hh; cbn [fst snd]; held|]); try apply Forall_nil.
Qed.
Lemma exhausted : exists W m, wtypes_ok W /\ typed W 2 0 m /\ wt_msg (env_of W) (fun _ => true) 0 (val_of W 2 0 m) /\
  dyn_encode W (fun _ => true) 100 2 0 m = Ok [34; 0] /\
  option_map (@concat Z) (match dyn_write_chunked W (fun _ => true) 100 (fun _ _ => 0%nat) 2 0 m with Ok r => r | _ => None end) = Some [] /\
  write_sink (env_of W) (fun _ => true) 100 Chunked 0 (fun _ _ => 0%nat) (fun _ => 0) 0 (val_of W 2 0 m) = Ok None.
Proof.
  exists dw_types, dw_small. split; [exact dw_ok|]. split; [exact dw_small_typed|]. split; [apply val_wt; [exact dw_ok|reflexivity|exact dw_small_typed|apply dw_small_clean]|].
  split; [vm_compute; reflexivity|]. split; vm_compute; reflexivity.
Qed.

Lemma dw_generated : generated (env_of dw_types).
Proof.
  constructor.
  - intros [|[|ty]]; unfold desc_of; cbn [env_of map dw_types nth]; [..|destruct ty; apply Forall_nil]; cbn [m_unk m_fields desc_of_wtype w_fields members_of w_oneof map Nat.eqb];
      repeat (apply Forall_cons; [first [discriminate | repeat (apply Forall_cons; [reflexivity|]); apply Forall_nil]|]); apply Forall_nil.
  - intros [|[|ty]] f n; unfold desc_of; cbn [env_of map dw_types nth]; [| |destruct ty; intros []]; cbn; intros H; repeat (destruct H as [<-|H]; [cbn [nums map fst In]; intros K; repeat (destruct K as [<-|K]; [lia|]); destruct K|]); destruct H.
  - intros [|[|ty]]; unfold desc_of; cbn [env_of map dw_types nth]; [| |destruct ty; constructor]; cbn; repeat (constructor; [cbn; intuition discriminate|]); constructor.
  - intros [|[|ty]] num e assoc; unfold desc_of; cbn [env_of map dw_types nth]; [| |destruct ty; intros []]; cbn; intros H; repeat (destruct H as [H|H]; [discriminate H|]); destruct H.
  - intros [|[|ty]] f; unfold desc_of; cbn [env_of map dw_types nth]; [| |destruct ty; intros []]; cbn; intros H; repeat (destruct H as [<-|H]; [cbn; auto|]); try destruct H.
    intros num ty' delim K. repeat (destruct K as [K|K]; [try discriminate K; injection K as <- <- <-; reflexivity|]). destruct K.
Qed.

Lemma dw_canonical : canonical (env_of dw_types) 100 1 0 dw_value.
Proof.
  assert (K : forall c, canonical (env_of dw_types) 100 2 1 (VMsg [c] [])).
  { intros c. constructor.
    - split; [|constructor]. intros f c' H Ho. unfold holds in H. cbn in H. destruct H as [[= <- <-]|[]]. destruct c; [reflexivity|discriminate].
    - intros f c' ty' v' H Hs. unfold holds in H. cbn in H. destruct H as [[= <- <-]|[]]. inversion Hs. }
  constructor.
  - split; [|constructor]. intros f c H Ho. unfold holds in H. cbn in H. repeat (destruct H as [[= <- <-]|H]; [try discriminate Ho; reflexivity|]). destruct H.
  - intros f c ty' v' H Hs. unfold holds in H. cbn in H. change (1 + 1) with 2.
    repeat (destruct H as [[= <- <-]|H]; [inversion Hs; subst; repeat (match goal with Q : In _ _ |- _ => destruct Q as [<-|Q] | Q : In _ [] |- _ => destruct Q end); try apply K|]); try contradiction.
    match goal with Q : nth_error _ _ = Some _ |- _ => injection Q as <- <- <- end. apply K.
Qed.
