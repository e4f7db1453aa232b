(** A message with extensions, used for the concrete cases of the extension properties. *)
From Coq Require Import Sorted.
Require Import Verif.Bits Verif.Varint Verif.VarintSpec.
Require Import Verif.Schema Verif.Archive Verif.Decode Verif.DecodeSafe Verif.WireGrammar Verif.DecodeTerms Verif.WellTyped Verif.StoredTags Verif.DecodeMain Verif.ExampleSchema.
Require Import Verif.Encode Verif.EncodeSpec Verif.EncodeProofs Verif.RoundTrip Verif.AnyExt Verif.AnyExtMain.

(** <<
  message Extendee { optional int32 a = 1; extensions 100 to 200; }
  extend Extendee { optional int32 x = 100; repeated int32 y = 101 [packed]; }
>> *)
Definition ext_env (k : ukind) : env :=
  [ MDesc [Field 1 (EVar VI32) COpt] k false; MDesc [Field 100 (EVar VI32) COpt] UNone false; MDesc [Field 101 (EVar VI32) (CRep true)] UNone false ].

Lemma ext_generated k : generated (ext_env k).
Proof.
  constructor.
  - intros [|[|[|ty]]]; unfold desc_of; cbn [ext_env nth]; [| | |destruct ty; cbn; constructor]; repeat (constructor; cbn; try discriminate; auto).
  - intros [|[|[|ty]]] f n; unfold desc_of; cbn [ext_env nth m_fields In]; [| | |destruct ty; intros []];
      intros H; repeat (destruct H as [<-|H]; [cbn [nums map fst In]; intros K; repeat (destruct K as [<-|K]; [lia|]); destruct K|]); destruct H.
  - intros [|[|[|ty]]]; unfold desc_of; cbn [ext_env nth m_fields]; [| | |destruct ty; constructor];
      cbn [map nums concat app fst]; repeat (constructor; [cbn; intuition discriminate|]); constructor.
  - intros [|[|[|ty]]] num e assoc; unfold desc_of; cbn [ext_env nth m_fields In]; [| | |destruct ty; intros []];
      intros H; repeat (destruct H as [H|H]; [try discriminate|]); try contradiction.
  - intros [|[|[|ty]]] f; unfold desc_of; cbn [ext_env nth m_fields In]; [| | |destruct ty; intros []];
      intros H; repeat (destruct H as [<-|H]; [cbn; auto|]); try contradiction.
Qed.

Lemma ext_defaults k : wt_defaults (ext_env k) any_utf8.
Proof.
  intros [|[|[|ty]]]; unfold wt_msg, default_msg, desc_of; cbn [ext_env nth]; constructor; unfold desc_of; cbn;
    try (destruct k; cbn; repeat constructor; fail); try (destruct ty; cbn; repeat constructor; fail).
Qed.

Lemma ext_x k : ext_type (ext_env k) 1 100.
Proof. do 2 eexists. reflexivity. Qed.
Lemma ext_y k : ext_type (ext_env k) 2 101.
Proof. do 2 eexists. reflexivity. Qed.

Definition x_value (z : Z) : val := VMsg [[VInt z]] [].
Definition y_value (zs : list Z) : val := VMsg [map VInt zs] [].

Lemma x_wt k z : in_vtype VI32 z -> wt_msg (ext_env k) any_utf8 1 (x_value z).
Proof. intros H. constructor; [|reflexivity|constructor]. unfold desc_of; cbn [ext_env nth m_fields]. apply CScons; [apply CLopt1, WTvar; exact H|apply CSnil]. Qed.

(** No message of this schema has message members. *)
Lemma ext_no_sub k ty v f c ty' v' : holds (ext_env k) ty v f c -> sub_msg f c ty' v' -> False.
Proof.
  unfold holds. intros H K. apply in_combine_l in H. destruct ty as [|[|[|ty]]]; unfold desc_of in H; cbn [ext_env nth m_fields In] in H;
    [destruct H as [<-|[]]..|destruct ty; destruct H]; inversion K.
Qed.

Lemma x_canonical k z : canonical (ext_env k) 100 1 1 (x_value z).
Proof.
  constructor; [split|intros f c ty' v' H K; exfalso; eapply ext_no_sub; eauto]; [|constructor].
  intros f c H Ho. unfold holds, desc_of in H. cbn in H. destruct H as [[= <- <-]|[]]; discriminate.
Qed.

(** [{a = 7}] with extension [y = [3, 4]]. *)
Definition e_value : val := VMsg [[VInt 7]] [(101, [170; 6; 2; 3; 4])].
Lemma e_wt k : ext_store k -> wt_msg (ext_env k) any_utf8 0 e_value.
Proof.
  intros Hk. constructor.
  - unfold desc_of; cbn [ext_env nth m_fields]. apply CScons; [apply CLopt1, WTvar; unfold in_vtype, fits_s; lia|apply CSnil].
  - unfold desc_of; cbn [ext_env nth m_unk]. destruct Hk as [-> | ->]; cbn; repeat constructor; intros [].
  - repeat constructor; cbn; unfold is_byte; lia.
Qed.
Lemma e_canonical k : canonical (ext_env k) 100 1 0 e_value.
Proof.
  constructor; [split|intros f c ty' v' H K; exfalso; eapply ext_no_sub; eauto].
  - intros f c H Ho. unfold holds, desc_of in H. cbn in H. destruct H as [[= <- <-]|[]]; discriminate.
  - cbn [msg_unk e_value]. constructor; [|constructor]. cbn [fst snd]. exists [(101, [170; 6; 2; 3; 4])]. split; [reflexivity|]. split; [discriminate|].
    constructor; [|constructor]. cbn [fst snd]. split; [|right; reflexivity]. left. split.
    + exists [170; 6], 810, [2; 3; 4]. split; [reflexivity|]. split; [split; [cbn; lia|split; [cbn; lia|reflexivity]]|]. split; [reflexivity|]. split.
      * apply (PLen 100 1 810 [2] [3; 4]); [reflexivity|cbn; lia|cbn; lia|reflexivity].
      * right; right. discriminate.
    + split; [lia|]. unfold desc_of; cbn [ext_env nth m_fields]. repeat constructor.
Qed.
