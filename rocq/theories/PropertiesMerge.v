(** C34: what merge() does, for every schema and every pair of messages.

    [merge_msg E mv ty a b] is the message [a] after merge(a, b); [mv] tells
    whether [b] was passed as an rvalue.  The expected result is given by the
    relation [merges] (MergeSpec.v).  [settled E ty v]: no floating point member
    without presence holds -0.0, at any depth.  [generated], [wt_msg],
    [canonical]: see PropertiesEncode.v. *)
From Coq Require Import Sorted.
Require Import Verif.Bits Verif.Varint.
Require Import Verif.Schema Verif.Archive Verif.Decode Verif.DecodeSafe Verif.WellTyped Verif.Encode Verif.EncodeSpec Verif.RoundTrip Verif.Presence.
Require Import Verif.DecodeMain Verif.DecodeMain3 Verif.StoredTags Verif.DecodeTerms Verif.Reencode Verif.ExampleSchema Verif.ExampleMessage.
Require Import Verif.Merge Verif.MergeSpec.
Require Verif.MergeLaws Verif.MergeMain Verif.MergeRun.

(** ** C34: singular fields of the source win, messages merge, repeated fields are
    appended, map entries replace, extensions are appended per number. *)
Theorem C34_meaning E utf8_ok : generated E -> wt_defaults E utf8_ok -> forall mv, no_flat_store E ->
  forall ty b, wt_msg E utf8_ok ty b -> settled E ty b -> forall a, wt_msg E utf8_ok ty a ->
  merges E ty a b (merge_msg E mv ty a b).
Proof. exact (MergeMain.merge_merges E utf8_ok). Qed.
Print Assumptions C34_meaning.

(** Merging into an empty message copies. *)
Theorem C34_into_empty E utf8_ok : generated E -> forall mv ty v, wt_msg E utf8_ok ty v -> settled E ty v ->
  merge_msg E mv ty (default_msg E ty) v = v.
Proof. exact (MergeLaws.merge_left E utf8_ok). Qed.
Print Assumptions C34_into_empty.

(** Merging an empty message changes nothing, provided the type has no required
    scalar and does not keep unknown fields as bytes. *)
Theorem C34_empty_source E utf8_ok : generated E -> forall mv, no_required E -> wt_defaults E utf8_ok -> no_flat_store E ->
  forall ty a, m_entry (desc_of E ty) = false -> wt_msg E utf8_ok ty a -> merge_msg E mv ty a (default_msg E ty) = a.
Proof. exact (MergeLaws.merge_right E utf8_ok). Qed.
Print Assumptions C34_empty_source.

(** Merging is associative when no oneof has a message alternative. *)
Theorem C34_associative E utf8_ok : generated E -> forall mv, scalar_oneofs E -> wt_defaults E utf8_ok ->
  forall ty c, wt_msg E utf8_ok ty c -> settled E ty c -> forall a b, wt_msg E utf8_ok ty a -> wt_msg E utf8_ok ty b -> settled E ty b ->
  merge_msg E mv ty (merge_msg E mv ty a b) c = merge_msg E mv ty a (merge_msg E mv ty b c).
Proof. exact (MergeLaws.merge_assoc E utf8_ok). Qed.
Print Assumptions C34_associative.

(** Copying and moving the source give the same message. *)
Theorem C34_copy_or_move E utf8_ok : generated E -> forall ty v, wt_msg E utf8_ok ty v -> settled E ty v -> forall a,
  merge_msg E true ty a v = merge_msg E false ty a v.
Proof. exact (MergeLaws.merge_moved E utf8_ok). Qed.
Print Assumptions C34_copy_or_move.

(** Merging is what parsing the concatenated encodings does, for types that keep
    no unknown fields or keep them per number. *)
Theorem C34_merge_is_concatenation E utf8_ok limit : generated E -> forall mv maxd ty a b bs1 bs2,
  m_entry (desc_of E ty) = false -> (forall ty, m_unk (desc_of E ty) = UNone \/ m_unk (desc_of E ty) = UMap) ->
  wt_defaults E utf8_ok -> maxd <= limit -> wt_msg E utf8_ok ty a -> canonical E limit 1 ty a -> wt_msg E utf8_ok ty b -> canonical E limit 1 ty b ->
  encode_bytes E utf8_ok maxd ty a = Ok bs1 -> encode_bytes E utf8_ok maxd ty b = Ok bs2 ->
  decode_bytes E utf8_ok limit ty (default_msg E ty) (bs1 ++ bs2) = Ok (merge_msg E mv ty a b).
Proof. exact (MergeRun.merge_concat E utf8_ok limit). Qed.
Print Assumptions C34_merge_is_concatenation.

(** Parsing an encoded message into an existing one merges it. *)
Theorem C34_merge_is_parsing E utf8_ok limit : generated E -> forall mv maxd ty a b bs,
  m_entry (desc_of E ty) = false -> (forall ty, m_unk (desc_of E ty) = UNone \/ m_unk (desc_of E ty) = UMap) ->
  wt_defaults E utf8_ok -> maxd <= limit -> wt_msg E utf8_ok ty a -> wt_msg E utf8_ok ty b -> canonical E limit 1 ty b ->
  encode_bytes E utf8_ok maxd ty b = Ok bs -> decode_bytes E utf8_ok limit ty a bs = Ok (merge_msg E mv ty a b).
Proof. exact (MergeRun.merge_decode E utf8_ok limit). Qed.
Print Assumptions C34_merge_is_parsing.

(** *** A case *)
(** [a = {a = 5; r = [-1]; child = {a = 9}; m = {"a": 4}; 20: 7}],
    [b = {s = "hi"; r = [1]; child = {s = "z"}; m = {"a": 7, "b": 1}; t = "x"; 20: 8}]. *)
Definition mg_child (a : list val) (s : bytes) : val := VMsg [a; [VBytes s]; []; []; []; []; []; []; []; [VInt 0]] [].
Definition mg_a : val := VMsg [[VInt 5]; [VBytes []]; [VInt (-1)]; [mg_child [VInt 9] []]; [VMsg [[VBytes [97]]; [VInt 4]] []]; []; []; []; []; [VInt 0]] [(20, [160; 1; 7])].
Definition mg_b : val := VMsg [[]; [VBytes [104; 105]]; [VInt 1]; [mg_child [] [122]];
  [VMsg [[VBytes [97]]; [VInt 7]] []; VMsg [[VBytes [98]]; [VInt 1]] []]; [VAlt 1 (VBytes [120])]; []; []; []; [VInt 0]] [(20, [160; 1; 8])].
Definition mg_ab : val := VMsg [[VInt 5]; [VBytes [104; 105]]; [VInt (-1); VInt 1]; [mg_child [VInt 9] [122]];
  [VMsg [[VBytes [97]]; [VInt 7]] []; VMsg [[VBytes [98]]; [VInt 1]] []]; [VAlt 1 (VBytes [120])]; []; []; []; [VInt 0]] [(20, [160; 1; 7; 160; 1; 8])].
Definition mg_env := ex_env UMap.

Local Ltac cases H := repeat (destruct H as [[= <- <-]|H]; [|]); try destruct H.
Local Lemma mg_settled v : In v [mg_a; mg_b] -> everywhere mg_env (fun _ => omitted_default mg_env) 1 0 v.
Proof.
  assert (K : forall d a s, everywhere mg_env (fun _ => omitted_default mg_env) d 0 (mg_child a s)).
  { intros d a s. constructor.
    - intros f c H Ho. unfold holds, desc_of in H. cbn in H. cases H; try discriminate; try reflexivity; destruct a, s; try discriminate; reflexivity.
    - intros f c ty' v' H Hs. unfold holds, desc_of in H. cbn in H. cases H; inversion Hs; subst; match goal with Q : In _ _ |- _ => destruct Q end. }
  assert (K2 : forall d x y, everywhere mg_env (fun _ => omitted_default mg_env) d 1 (VMsg [[x]; [y]] [])).
  { intros d x y. constructor.
    - intros f c H Ho. unfold holds, desc_of in H. cbn in H. cases H; discriminate.
    - intros f c ty' v' H Hs. unfold holds, desc_of in H. cbn in H. cases H; inversion Hs. }
  intros [<-|[<-|[]]]; (constructor;
    [intros f c H Ho; unfold holds, desc_of in H; cbn in H; cases H; try discriminate; reflexivity|
     intros f c ty' v' H Hs; unfold holds, desc_of in H; cbn in H; cases H; inversion Hs; subst;
     repeat (match goal with
             | Q : In _ (_ :: _) |- _ => destruct Q as [<-|Q]; [apply K || apply K2|]
             | Q : In _ [] |- _ => destruct Q
             end); try discriminate]).
Qed.
Local Lemma mg_decoded v : In v [mg_a; mg_b] -> exists bs, encode_bytes mg_env any_utf8 100 0 v = Ok bs /\
  decode_bytes mg_env any_utf8 100 0 (default_msg mg_env 0) bs = Ok v /\ all_bytes bs /\ short_stored mg_env 0 bs.
Proof.
  intros [<-|[<-|[]]]; (eexists; split; [vm_compute; reflexivity|]; split; [vm_compute; reflexivity|]; split;
    [apply bytesb_ok; vm_compute; reflexivity|apply no_pad_short; vm_compute; reflexivity]).
Qed.
Local Lemma mg_ok v : In v [mg_a; mg_b] -> wt_msg mg_env any_utf8 0 v /\ canonical mg_env 100 1 0 v.
Proof.
  intros Hv. destruct (mg_decoded v Hv) as (bs & _ & Hd & Hb & Hs). split.
  - eapply (p_wt mg_env any_utf8 100); [apply ex_safe; discriminate|apply ex_shape|apply ex_defaults|..|exact Hd]; auto. apply ex_defaults.
  - apply everywhere_and; [apply mg_settled; exact Hv|].
    eapply (decoded_stored mg_env any_utf8 100); [apply ex_generated; discriminate|..|exact Hd]; auto. apply default_ev. apply ex_generated; discriminate.
Qed.

Example C34_case : generated mg_env /\ wt_defaults mg_env any_utf8 /\ no_flat_store mg_env /\ no_required mg_env /\
  (forall v, In v [mg_a; mg_b] -> wt_msg mg_env any_utf8 0 v /\ canonical mg_env 100 1 0 v /\ settled mg_env 0 v) /\
  (forall mv, merge_msg mg_env mv 0 mg_a mg_b = mg_ab).
Proof.
  split; [apply ex_generated; discriminate|]. split; [apply ex_defaults|]. split.
  { intros [|[|[|ty]]]; try discriminate. unfold desc_of, mg_env. cbn. destruct ty; discriminate. }
  split.
  { intros [|[|[|ty]]] num e ex d; unfold desc_of, mg_env; cbn [ex_env nth ex_root ex_entry ex_open m_fields m_entry In]; intros He H; try discriminate.
    - intros _. destruct H as [H|[H|[H|[H|[H|[H|[H|[H|[H|[H|[]]]]]]]]]]]; try discriminate H; injection H as E1 E2 E3 E4; subst; (split; [reflexivity|]); [reflexivity|].
      unfold equals_default, ieee_equal, nan_bits. cbn. split; [lia|]. split; [lia|]. left; reflexivity.
    - repeat (destruct H as [H|H]; [discriminate|]). destruct H.
    - destruct ty; destruct H. }
  split.
  { intros v Hv. destruct (mg_ok v Hv) as [A B]. split; [exact A|]. split; [exact B|]. eapply MergeRun.canonical_settled; eauto. }
  intros [|]; vm_compute; reflexivity.
Qed.

(** A schema with a scalar oneof and a recursive message member. *)
Definition mo_env : env := [MDesc [Oneof [(1, EVar VI32); (2, EBool)]; Field 3 (EMsg 0 false) COpt] UMap false].
Definition mo (alt : list val) (sub : list val) : val := VMsg [alt; sub] [].
Example C34_associative_case : generated mo_env /\ scalar_oneofs mo_env /\ wt_defaults mo_env any_utf8 /\
  (forall v, In v [mo [VAlt 0 (VInt 1)] [mo [VAlt 1 (VInt 0)] []]; mo [] [mo [VAlt 0 (VInt 2)] []]; mo [VAlt 1 (VInt 1)] []] ->
    wt_msg mo_env any_utf8 0 v /\ settled mo_env 0 v).
Proof.
  assert (G : generated mo_env).
  { split.
    - intros [|[|ty]]; unfold desc_of; cbn; repeat constructor; discriminate.
    - intros [|[|ty]] f n; unfold desc_of; cbn; intros H; try contradiction. destruct H as [<-|[<-|[]]]; cbn; intros H; repeat (destruct H as [<-|H]; [lia|]); destruct H.
    - intros [|[|ty]]; unfold desc_of; cbn; repeat (constructor; [cbn; intuition discriminate|]); constructor.
    - intros [|[|ty]] num e assoc; unfold desc_of; cbn; intros H; try contradiction. destruct H as [H|[H|[]]]; discriminate.
    - intros [|[|ty]] f; unfold desc_of; cbn; intros H; try contradiction. destruct H as [<-|[<-|[]]]; cbn; [|auto].
      intros num ty' delim [H|[H|[]]]; discriminate. }
  split; [exact G|]. split.
  { intros [|[|ty]] alts num ty' delim; unfold desc_of; cbn; intros H; try contradiction. destruct H as [H|[H|[]]]; [|discriminate].
    injection H as <-. intros [H|[H|[]]]; discriminate. }
  split.
  { intros [|[|ty]]; unfold desc_of; cbn; repeat constructor. }
  assert (Hst : forall alt v, (forall w, v = [w] -> settled mo_env 0 w) -> (length v <= 1)%nat -> settled mo_env 0 (mo alt v)).
  { intros alt v Hv Hl. constructor.
    - intros f c H Ho. unfold holds, desc_of in H. cbn in H. destruct H as [[= <- <-]|[[= <- <-]|[]]]; cbn in *.
      + destruct alt; [reflexivity|discriminate].
      + destruct v; [reflexivity|discriminate].
    - intros f c ty' v' H Hs. unfold holds, desc_of in H. cbn in H. destruct H as [[= <- <-]|[[= <- <-]|[]]]; inversion Hs as [num d ty0 cx c0 v0 Hi|alts i num ty0 d v0 Hn]; subst.
      + destruct i as [|[|[|i]]]; discriminate.
      + destruct v as [|w [|]]; cbn in Hi, Hl; [contradiction| |lia]. destruct Hi as [<-|[]]. apply Hv. reflexivity. }
  assert (W1 : forall z, -10 <= z <= 10 -> cell mo_env any_utf8 (Oneof [(1, EVar VI32); (2, EBool)]) [VAlt 0 (VInt z)]).
  { intros z Hz. apply (CLone1 _ _ _ 0 1 (EVar VI32)); [reflexivity|]. constructor. cbn. unfold fits_s. lia. }
  assert (W2 : forall z, z = 0 \/ z = 1 -> cell mo_env any_utf8 (Oneof [(1, EVar VI32); (2, EBool)]) [VAlt 1 (VInt z)]).
  { intros z Hz. apply (CLone1 _ _ _ 1 2 EBool); [reflexivity|]. constructor. exact Hz. }
  assert (W : forall alt v, cell mo_env any_utf8 (Oneof [(1, EVar VI32); (2, EBool)]) alt -> cell mo_env any_utf8 (Field 3 (EMsg 0 false) COpt) v ->
    wt_msg mo_env any_utf8 0 (mo alt v)).
  { intros alt v H1 H2. constructor; unfold desc_of; cbn; repeat constructor; assumption. }
  intros v [<-|[<-|[<-|[]]]]; split.
  - apply W; [apply W1; lia|]. constructor. apply W; [apply W2; lia|constructor].
  - apply Hst; [|cbn; lia]. intros w [= <-]. apply Hst; [discriminate|cbn; lia].
  - apply W; [constructor|]. constructor. apply W; [apply W1; lia|constructor].
  - apply Hst; [|cbn; lia]. intros w [= <-]. apply Hst; [discriminate|cbn; lia].
  - apply W; [apply W2; lia|constructor].
  - apply Hst; [discriminate|cbn; lia].
Qed.

(** ** What does not hold *)
Local Lemma no_members E : (forall ty, m_fields (desc_of E ty) = []) -> generated E.
Proof.
  intros H. split.
  - intros ty. rewrite H. constructor.
  - intros ty f n. rewrite H. intros [].
  - intros ty. rewrite H. constructor.
  - intros ty num e assoc. rewrite H. intros [].
  - intros ty f. rewrite H. intros [].
Qed.

(** Kept unknown fields are replaced, not merged: merging an empty message
    deletes those of the destination. *)
Theorem C34_unknown_fields_lost_refuted : exists E ty a, generated E /\ wt_msg E any_utf8 ty a /\
  a <> default_msg E ty /\ merge_msg E false ty a (default_msg E ty) = default_msg E ty.
Proof.
  exists [MDesc [] UBytes false], 0%nat, (VMsg [] [(0, [8; 1])]). split.
  - apply no_members. intros [|[|ty]]; reflexivity.
  - split; [|split; [discriminate|reflexivity]]. constructor; unfold desc_of; cbn.
    + constructor.
    + split; [lia|repeat constructor].
    + constructor; [|constructor]. apply bytesb_ok. reflexivity.
Qed.
Print Assumptions C34_unknown_fields_lost_refuted.

(** A required member is always overwritten, even by a source that never set it. *)
Theorem C34_required_reset_refuted : exists E ty a, generated E /\ wt_msg E any_utf8 ty a /\
  a <> default_msg E ty /\ merge_msg E false ty a (default_msg E ty) = default_msg E ty.
Proof.
  exists [MDesc [Field 1 (EVar VI32) (CPlain true (VInt 0))] UNone false], 0%nat, (VMsg [[VInt 5]] []). split.
  - constructor.
    + intros [|[|ty]]; unfold desc_of; cbn; try constructor; [intros K; discriminate K|constructor].
    + intros [|[|ty]] f n; unfold desc_of; cbn; intros H; try contradiction. destruct H as [<-|[]]. cbn. intros [<-|[]]. lia.
    + intros [|[|ty]]; unfold desc_of; cbn; repeat constructor. intros [].
    + intros [|[|ty]] num e assoc; unfold desc_of; cbn; intros H; try contradiction. destruct H as [H|[]]. discriminate.
    + intros [|[|ty]] f; unfold desc_of; cbn; intros H; try contradiction. destruct H as [<-|[]]. exact I.
  - split; [|split; [discriminate|reflexivity]]. repeat (constructor; unfold desc_of; cbn); unfold fits_s; lia.
Qed.
Print Assumptions C34_required_reset_refuted.

(** With a message alternative in a oneof, merging is not associative. *)
Theorem C34_associative_oneof_refuted : exists a b c,
  (forall v, In v [a; b; c] -> wt_msg (ex_env UNone) any_utf8 0 v) /\
  merge_msg (ex_env UNone) false 0 (merge_msg (ex_env UNone) false 0 a b) c <>
  merge_msg (ex_env UNone) false 0 a (merge_msg (ex_env UNone) false 0 b c).
Proof.
  exists (VMsg [[]; [VBytes []]; []; []; []; [VAlt 2 (mg_child [VInt 1] [])]; []; []; []; [VInt 0]] []),
    (VMsg [[]; [VBytes []]; []; []; []; [VAlt 0 (VInt 1)]; []; []; []; [VInt 0]] []),
    (VMsg [[]; [VBytes []]; []; []; []; [VAlt 2 (mg_child [] [122])]; []; []; []; [VInt 0]] []).
  split; [|vm_compute; discriminate].
  assert (W : forall v bs, decode_bytes (ex_env UNone) any_utf8 100 0 (default_msg (ex_env UNone) 0) bs = Ok v -> all_bytes bs -> short_stored (ex_env UNone) 0 bs ->
    wt_msg (ex_env UNone) any_utf8 0 v).
  { intros v bs Hd Hb Hs. eapply (p_wt (ex_env UNone) any_utf8 100); [apply ex_safe; discriminate|apply ex_shape|apply ex_defaults|..|exact Hd]; auto. apply ex_defaults. }
  intros v [<-|[<-|[<-|[]]]]; [apply (W _ [66; 2; 8; 1])|apply (W _ [48; 1])|apply (W _ [66; 3; 18; 1; 122])];
    (reflexivity || (apply bytesb_ok; reflexivity) || (apply no_pad_short; vm_compute; reflexivity)).
Qed.
Print Assumptions C34_associative_oneof_refuted.

(** Copying (but not moving) a repeated message member turns -0.0 into 0.0. *)
Theorem C34_copied_negative_zero_refuted : exists E ty v, generated E /\ wt_msg E any_utf8 ty v /\
  merge_msg E true ty (default_msg E ty) v = v /\ merge_msg E false ty (default_msg E ty) v <> v.
Proof.
  exists [MDesc [Field 1 (EMsg 1 false) (CRep false)] UNone false; MDesc [Field 1 (EFix true true) (CPlain false (VInt 0))] UNone false], 0%nat,
    (VMsg [[VMsg [[VInt (2 ^ 63)]] []]] []). split.
  - constructor.
    + intros [|[|[|ty]]]; unfold desc_of; cbn; try constructor; try (intros K; discriminate K); constructor.
    + intros [|[|[|ty]]] f n; unfold desc_of; cbn; intros H; try contradiction; destruct H as [<-|[]]; cbn; intros [<-|[]]; lia.
    + intros [|[|[|ty]]]; unfold desc_of; cbn; repeat constructor; intros [].
    + intros [|[|[|ty]]] num e assoc; unfold desc_of; cbn; intros H; try contradiction; destruct H as [H|[]]; discriminate.
    + intros [|[|[|ty]]] f; unfold desc_of; cbn; intros H; try contradiction; destruct H as [<-|[]]; cbn; auto.
  - split; [|split; [vm_compute; reflexivity|vm_compute; discriminate]].
    repeat (constructor; unfold desc_of; cbn); lia.
Qed.
Print Assumptions C34_copied_negative_zero_refuted.

(** Extensions kept as a list of pairs may end up with two entries for one number. *)
Theorem C34_pairs_duplicated_refuted : exists E ty a b, generated E /\ wt_msg E any_utf8 ty a /\ wt_msg E any_utf8 ty b /\
  ~ wt_msg E any_utf8 ty (merge_msg E false ty a b).
Proof.
  exists [MDesc [] UPairs false], 0%nat, (VMsg [] [(7, [56; 1])]), (VMsg [] [(7, [56; 2])]). split.
  - apply no_members. intros [|[|ty]]; reflexivity.
  - split; [|split].
    + repeat (constructor; unfold desc_of; cbn); try lia; intros [].
    + repeat (constructor; unfold desc_of; cbn); try lia; intros [].
    + intros H. remember (merge_msg _ _ _ _ _) as m eqn:Em in H. vm_compute in Em. subst m.
      inversion H as [| | | | |? ? fs u Hc Hst Hb]; subst. unfold desc_of in Hst. cbn in Hst. inversion Hst as [|? ? Hn _]; subst. apply Hn. left; reflexivity.
Qed.
Print Assumptions C34_pairs_duplicated_refuted.
