(** A message of [ex_env] that meets the hypotheses of the encoding properties. *)
From Coq Require Import Sorted.
Require Import Verif.Bits Verif.Varint Verif.VarintSpec.
Require Import Verif.Schema Verif.Archive Verif.Decode Verif.DecodeSafe Verif.WireGrammar Verif.DecodeTerms Verif.WellTyped Verif.StoredTags Verif.DecodeMain Verif.DecodeMain3 Verif.ExampleSchema.
Require Import Verif.Encode Verif.EncodeSpec Verif.EncodeProofs Verif.RoundTrip Verif.Reencode.

Lemma ex_generated k : k <> UPairs -> generated (ex_env k).
Proof.
  intros Hk. constructor.
  - apply ex_safe. exact Hk.
  - intros [|[|[|ty]]] f n; unfold desc_of; cbn [ex_env nth ex_root ex_entry ex_open m_fields In]; [| | |destruct ty; intros []];
      intros H; repeat (destruct H as [<-|H]; [cbn [nums map fst In]; intros K; repeat (destruct K as [<-|K]; [lia|]); destruct K|]); destruct H.
  - intros [|[|[|ty]]]; unfold desc_of; cbn [ex_env nth ex_root ex_entry ex_open m_fields]; [| | |destruct ty; constructor];
      cbn [map nums concat app fst]; repeat (constructor; [cbn; intuition discriminate|]); constructor.
  - intros [|[|[|ty]]] num e assoc; unfold desc_of; cbn [ex_env nth ex_root ex_entry ex_open m_fields In]; [| | |destruct ty; intros []];
      intros H; repeat (destruct H as [H|H]; [try discriminate|]); try contradiction.
    injection H as <- <- <-. do 5 eexists. split; [reflexivity|]. split; [|reflexivity]. reflexivity.
  - intros [|[|[|ty]]] f; unfold desc_of; cbn [ex_env nth ex_root ex_entry ex_open m_fields In]; [| | |destruct ty; intros []];
      intros H; repeat (destruct H as [<-|H]; [cbn; auto|]); try contradiction.
    intros num ty' delim K. cbn in K. repeat (destruct K as [K|K]; [try discriminate; injection K as <- <- <-; reflexivity|]). destruct K.
Qed.

(** [a = 5; s = "hi"; r = [-1, 1, -2]; child = {a = 9}; m = {"a": 4}; t = "x"; g = {s = "z"}; d = 1.0]
    with two kept fields: number 20, and the value 7 of the closed enum [e]. *)
Definition ex_bytes : bytes :=
  [8; 5; 160; 1; 7; 18; 2; 104; 105; 26; 2; 1; 2; 24; 3; 42; 5; 10; 1; 97; 16; 4; 48; 1; 58; 1; 120; 72; 7; 34; 2; 8; 9;
   91; 18; 1; 122; 92; 97; 0; 0; 0; 0; 0; 0; 240; 63].
Definition ex_value : val := VMsg
  [[VInt 5]; [VBytes [104; 105]]; [VInt (-1); VInt 1; VInt (-2)]; [VMsg [[VInt 9]; [VBytes []]; []; []; []; []; []; []; []; [VInt 0]] []];
   [VMsg [[VBytes [97]]; [VInt 4]] []]; [VAlt 1 (VBytes [120])]; []; [];
   [VMsg [[]; [VBytes [122]]; []; []; []; []; []; []; []; [VInt 0]] []]; [VInt 0x3FF0000000000000]] [(0, [160; 1; 7; 72; 7])].
(** What the encoder writes for it. *)
Definition ex_written : bytes :=
  [8; 5; 18; 2; 104; 105; 26; 3; 1; 2; 3; 34; 2; 8; 9; 42; 5; 10; 1; 97; 16; 4; 58; 1; 120; 91; 18; 1; 122; 92;
   97; 0; 0; 0; 0; 0; 0; 240; 63; 160; 1; 7; 72; 7].

Lemma ex_decoded : decode_bytes (ex_env UBytes) any_utf8 100 0 (default_msg (ex_env UBytes) 0) ex_bytes = Ok ex_value.
Proof. vm_compute. reflexivity. Qed.
Lemma ex_encoded : encode_bytes (ex_env UBytes) any_utf8 100 0 ex_value = Ok ex_written.
Proof. vm_compute. reflexivity. Qed.

Lemma ex_wt : wt_msg (ex_env UBytes) any_utf8 0 ex_value.
Proof.
  eapply (p_wt (ex_env UBytes) any_utf8 100); [apply ex_safe; discriminate|apply ex_shape|apply ex_defaults|..|exact ex_decoded].
  all: try reflexivity; try (apply bytesb_ok; vm_compute; reflexivity); try (apply no_pad_short; vm_compute; reflexivity).
  apply ex_defaults.
Qed.
Lemma ex_omitted : everywhere (ex_env UBytes) (fun _ => omitted_default (ex_env UBytes)) 1 0 ex_value.
Proof.
  assert (K : forall d v, (exists a s x, v = VMsg [a; [VBytes s]; []; []; []; []; []; []; []; [VInt x]] [] /\ x = 0) ->
    everywhere (ex_env UBytes) (fun _ => omitted_default (ex_env UBytes)) d 0 v).
  { intros d v (a & s & x & -> & ->). constructor.
    - intros f c H Ho. unfold holds, desc_of in H. cbn in H. repeat (destruct H as [[= <- <-]|H]; [try discriminate; try reflexivity; destruct a, s; try discriminate; reflexivity|]). destruct H.
    - intros f c ty' v' H Hs. unfold holds, desc_of in H. cbn in H. repeat (destruct H as [[= <- <-]|H]; [inversion Hs; subst; match goal with Q : In _ _ |- _ => destruct Q end|]). destruct H. }
  constructor.
  - intros f c H Ho. unfold holds, desc_of in H. cbn in H. repeat (destruct H as [[= <- <-]|H]; [try discriminate; reflexivity|]). destruct H.
  - intros f c ty' v' H Hs. unfold holds, desc_of in H. cbn in H.
    repeat (destruct H as [[= <- <-]|H]; [inversion Hs; subst; try (match goal with Q : In _ _ |- _ => destruct Q as [<-|Q]; try destruct Q end)|]); try contradiction.
    + apply K. do 3 eexists. split; reflexivity.
    + constructor.
      * intros f c H Ho. unfold holds, desc_of in H. cbn in H. repeat (destruct H as [[= <- <-]|H]; [try discriminate; reflexivity|]). destruct H.
      * intros f c ty' v' H Hs'. unfold holds, desc_of in H. cbn in H. repeat (destruct H as [[= <- <-]|H]; [inversion Hs'|]). destruct H.
    + discriminate.
    + apply K. do 3 eexists. split; reflexivity.
Qed.
Lemma ex_stored : everywhere (ex_env UBytes) (fun d ty v => stored_ok (ex_env UBytes) 100 d ty (msg_unk v)) 1 0 ex_value.
Proof.
  eapply (decoded_stored (ex_env UBytes) any_utf8 100); [apply ex_generated; discriminate|..|exact ex_decoded].
  all: try reflexivity; try (apply bytesb_ok; vm_compute; reflexivity); try (apply no_pad_short; vm_compute; reflexivity).
  apply default_ev. apply ex_generated; discriminate.
Qed.
Lemma ex_canonical : canonical (ex_env UBytes) 100 1 0 ex_value.
Proof. apply everywhere_and; [apply ex_omitted|apply ex_stored]. Qed.
