(** The encoder's guarantees in the form the properties state them. *)
From Coq Require Import Sorted.
Require Import Verif.Bits Verif.Varint Verif.VarintSpec Verif.VarintProofs Verif.VarintFacts Verif.VarintMain.
Require Import Verif.Schema Verif.Archive Verif.Decode Verif.DecodeSafe Verif.Wire Verif.WireFacts Verif.WireGrammar Verif.GrammarFacts Verif.DecodeSpec1 Verif.DecodeSpec4.
Require Import Verif.DecodeLaws Verif.DecodeLaws2 Verif.FieldSpec Verif.DecodeOcc Verif.WellTyped Verif.DecodeTerms Verif.DecodeMain Verif.DecodeMain3 Verif.StoredTags.
Require Import Verif.Encode Verif.EncodeSpec Verif.EncodeProofs Verif.EncodeProofs2 Verif.RoundTrip Verif.RoundTrip2 Verif.EncodeMain Verif.Reencode Verif.Presence.

Section Main.
  Context (E : env) (utf8_ok : bytes -> bool) (maxd : Z).
  Hypothesis L : legal_numbers E.

  (** ** Sizes *)
  Theorem e_size ty v bs : wt_msg E utf8_ok ty v -> encode_bytes E utf8_ok maxd ty v = Ok bs -> fst (sz_msg E ty v) = zlen bs.
  Proof.
    intros Hw H. destruct (encoded E utf8_ok maxd ty v bs L Hw H) as (-> & _ & _). eapply size_eq; eauto.
  Qed.

  Theorem e_plan_size ty v s ws : wt_msg E utf8_ok ty v -> plan E utf8_ok maxd ty v = Ok (s, ws) -> s = zlen (flat ws).
  Proof.
    intros Hw H. pose proof (plan_eq E utf8_ok utf8_ok maxd L ty v Hw) as K. destruct (cnt_msg E maxd 0 ty v); [|congruence].
    destruct (max_message_size <=? zlen (enc_msg E ty v)); [congruence|]. destruct K as [(ws' & K1 & K2)|[K _]]; congruence.
  Qed.

  (** ** The size cache *)
  Theorem e_cache ty v n : wt_msg E (fun _ => true) ty v -> cnt_msg E maxd 0 ty v = Some n ->
    length (snd (sz_msg E ty v)) = n /\
    (zlen (enc_msg E ty v) < max_message_size -> forall rest,
      match ser_msg E utf8_ok maxd 0 ty v (snd (sz_msg E ty v) ++ rest) with
      | Ok (_, c) => c = rest
      | Err _ => exists b, utf8_ok b = false
      | UB | Exn | NoFuel => False
      end).
  Proof.
    intros Hw Hc. split; [eapply count_eq; eauto|]. intros Hl rest.
    destruct (ser_eq E (fun _ => true) utf8_ok maxd L ty v Hw 0 ltac:(congruence) Hl rest) as [(ws & -> & _)|[-> (b & _ & Hb)]]; eauto.
  Qed.

  Theorem e_no_ub ty v : wt_msg E (fun _ => true) ty v -> plan E utf8_ok maxd ty v <> UB /\ plan E utf8_ok maxd ty v <> Exn.
  Proof.
    intros Hw. pose proof (plan_eq E (fun _ => true) utf8_ok maxd L ty v Hw) as K. destruct (cnt_msg E maxd 0 ty v); [|rewrite K; split; discriminate].
    destruct (max_message_size <=? zlen (enc_msg E ty v)); [rewrite K; split; discriminate|]. destruct K as [(ws' & K1 & K2)|[K _]]; [rewrite K1|rewrite K]; split; discriminate.
  Qed.

  (** ** Outcomes *)
  Lemma depth_range n : 0 <= maxd < 2 ^ 32 - 1 -> scope_ok maxd (Z.of_nat n - 1) = false <-> maxd + 1 < Z.of_nat n.
  Proof. intros Hm. unfold scope_ok. rewrite andb_false_iff, negb_false_iff. rewrite Z.leb_gt, Z.eqb_eq. lia. Qed.

  Theorem e_outcome ty v : 0 <= maxd < 2 ^ 32 - 1 -> wt_msg E utf8_ok ty v ->
    encode_bytes E utf8_ok maxd ty v = 
      (if cnt_msg E maxd 0 ty v then if max_message_size <=? zlen (enc_msg E ty v) then Err TooLarge else Ok (enc_msg E ty v) else Err BadMessage) /\
    (cnt_msg E maxd 0 ty v = None <-> exists n, nested E ty v n /\ maxd + 1 < Z.of_nat n).
  Proof.
    intros Hm Hw. split.
    - pose proof (plan_eq E utf8_ok utf8_ok maxd L ty v Hw) as K. unfold encode_bytes. destruct (cnt_msg E maxd 0 ty v); [|rewrite K; reflexivity].
      destruct (max_message_size <=? zlen (enc_msg E ty v)); [rewrite K; reflexivity|].
      destruct K as [(ws' & K1 & K2)|[_ (b & K1 & K2)]]; [rewrite K1, <- K2; reflexivity|congruence].
    - rewrite count_depth. split; intros (n & H1 & H2); exists n; split; auto; apply depth_range in H2; auto.
  Qed.

  Theorem e_too_large ty v : 0 <= maxd < 2 ^ 32 - 1 -> wt_msg E utf8_ok ty v ->
    encode_bytes E utf8_ok maxd ty v = Err TooLarge <->
    2 ^ 31 - 1 <= zlen (enc_msg E ty v) /\ forall n, nested E ty v n -> Z.of_nat n <= maxd + 1.
  Proof.
    intros Hm Hw. destruct (e_outcome ty v Hm Hw) as [-> K]. destruct (cnt_msg E maxd 0 ty v).
    - assert (Hd : forall m, nested E ty v m -> Z.of_nat m <= maxd + 1).
      { intros m Hn. destruct (Z_le_gt_dec (Z.of_nat m) (maxd + 1)); [assumption|]. assert (Some n = None) by (apply K; exists m; split; auto; lia). discriminate. }
      unfold max_message_size. destruct (Z.leb_spec (2 ^ 31 - 1) (zlen (enc_msg E ty v))); split; try tauto; try discriminate; intros [? _]; lia.
    - split; [discriminate|]. intros [_ Hd]. destruct (proj1 K eq_refl) as (n & Hn & Hlt). specialize (Hd n Hn). lia.
  Qed.

  Theorem e_too_deep ty v : 0 <= maxd < 2 ^ 32 - 1 -> wt_msg E utf8_ok ty v ->
    encode_bytes E utf8_ok maxd ty v = Err BadMessage <-> exists n, nested E ty v n /\ maxd + 1 < Z.of_nat n.
  Proof.
    intros Hm Hw. destruct (e_outcome ty v Hm Hw) as [-> K]. rewrite <- K. destruct (cnt_msg E maxd 0 ty v); [|tauto].
    destruct (max_message_size <=? _); split; discriminate.
  Qed.

  Theorem e_written ty v : 0 <= maxd < 2 ^ 32 - 1 -> wt_msg E utf8_ok ty v ->
    (forall n, nested E ty v n -> Z.of_nat n <= maxd + 1) -> zlen (enc_msg E ty v) < 2 ^ 31 - 1 ->
    encode_bytes E utf8_ok maxd ty v = Ok (enc_msg E ty v).
  Proof.
    intros Hm Hw Hd Hl. destruct (e_outcome ty v Hm Hw) as [-> K]. destruct (cnt_msg E maxd 0 ty v).
    - unfold max_message_size. destruct (Z.leb_spec (2 ^ 31 - 1) (zlen (enc_msg E ty v))); [lia|reflexivity].
    - destruct (proj1 K eq_refl) as (n & Hn & Hlt). specialize (Hd n Hn). lia.
  Qed.

  (** A string that is not UTF-8 in a validated field is refused. *)
  Theorem e_utf8 ty v bs : wt_msg E (fun _ => true) ty v -> encode_bytes E utf8_ok maxd ty v = Ok bs -> bs = enc_msg E ty v.
  Proof.
    intros Hw H. pose proof (plan_eq E (fun _ => true) utf8_ok maxd L ty v Hw) as K. unfold encode_bytes in H.
    destruct (cnt_msg E maxd 0 ty v); [|rewrite K in H; discriminate].
    destruct (max_message_size <=? zlen (enc_msg E ty v)); [rewrite K in H; discriminate|].
    destruct K as [(ws & K1 & K2)|[K _]]; [rewrite K1 in H; injection H as <-; exact K2|rewrite K in H; discriminate].
  Qed.

  (** ** Kept unknown fields are written back *)
  Theorem e_unknown ty v bs : wt_msg E utf8_ok ty v -> m_unk (desc_of E ty) <> UNone -> encode_bytes E utf8_ok maxd ty v = Ok bs ->
    bs = enc_msg E ty (VMsg (msg_fields v) []) ++ kept_bytes (msg_unk v).
  Proof.
    intros Hw Hk H. destruct (encoded E utf8_ok maxd ty v bs L Hw H) as (-> & _ & _). inversion Hw; subst. cbn [enc_msg msg_fields msg_unk].
    unfold enc_unknown, kept_bytes. destruct (m_unk (desc_of E ty)); [congruence|..]; rewrite app_nil_r; reflexivity.
  Qed.
End Main.

(** ** Field numbers above 2^25 *)
(** The number under which field [num] is read. *)
Definition read_number (num : Z) : Z := 15 * 2 ^ 25 + num mod 2 ^ 25.

Theorem e_misread num wt : 2 ^ 25 <= num < 2 ^ 29 -> 0 <= wt < 8 -> tag_reads (tagb num wt) (8 * read_number num + wt).
Proof.
  intros Hn Hw. unfold tagb. destruct (vint_spec (8 * num + wt) ltac:(lia)) as (A & B & C).
  assert (Hlen : length (vint (8 * num + wt)) = 5%nat).
  { apply Nat2Z.inj. unfold zlen in C. rewrite C. change (2 ^ 25) with 33554432 in *. change (2 ^ 29) with 536870912 in *.
    do 4 (rewrite varint_size_step by lia). rewrite varint_size_small by lia. reflexivity. }
  split; [exact A|]. split; [lia|]. revert A B Hlen. generalize (vint (8 * num + wt)). intros l A B Hlen.
  destruct l as [|b0 [|b1 [|b2 [|b3 [|b4 [|]]]]]]; try discriminate. rewrite tag_value_5. unfold read_number.
  cbn [b128] in *. change (15 mod 128) with 15. change (2 ^ 25) with 33554432 in *. change (2 ^ 29) with 536870912 in *. lia.
Qed.

Section Lost.
  Context (E : env) (utf8_ok : bytes -> bool) (limit : Z).

  Theorem e_lost : safe_env E -> forall ty cur a b num e x, 2 ^ 25 <= num < 2 ^ 29 -> unknown_to E ty (read_number num) ->
    wt E utf8_ok e x -> scalar e = true -> zlen (enc_scalar e x) < 2 ^ 31 ->
    let f := enc_elem (enc_msg E) num e x in
    fields limit a -> fields limit b -> all_bytes (bytes_of a) -> all_bytes (bytes_of b) -> m_entry (desc_of E ty) = false -> 
    short_stored E ty (bytes_of a ++ f ++ bytes_of b) -> short_stored E ty (bytes_of a ++ bytes_of b) ->
    forall v w, decode_bytes E utf8_ok limit ty cur (bytes_of a ++ f ++ bytes_of b) = Ok v ->
      decode_bytes E utf8_ok limit ty cur (bytes_of a ++ bytes_of b) = Ok w -> msg_fields v = msg_fields w.
  Proof.
    intros Hs ty cur a b num e x Hn Hu Hw Hsc Hl f Ha Hb Hba Hbb He Hs1 Hs2 v w Hv Hd.
    assert (Hf : f = tagb num (elem_wt e) ++ enc_scalar e x) by (unfold f; destruct e; try discriminate; reflexivity).
    assert (Hone : one_field limit 1 (read_number num) f).
    { pose proof (wt_range e) as Hr. pose proof (e_misread num (elem_wt e) Hn Hr) as Ht.
      assert (Hrn : 0 <= read_number num) by (unfold read_number; lia).
      destruct (tag_parts (read_number num) (elem_wt e) Hrn Hr) as [T1 T2].
      exists (tagb num (elem_wt e)), (8 * read_number num + elem_wt e), (enc_scalar e x). split; [exact Hf|]. split; [exact Ht|]. split; [exact T2|].
      eapply scalar_payload_grammar; [destruct Hu; lia|]. eapply (scalar_encoded E); eauto. }
    assert (Hbytes : all_bytes f).
    { rewrite Hf. apply Forall_app. split; [apply vint_bytes; pose proof (wt_range e); lia|]. eapply scalar_bytes; eauto. }
    assert (Hu1 : bytes_of a ++ f ++ bytes_of b = bytes_of (a ++ [(read_number num, f)] ++ b)).
    { rewrite !fields_bytes_app. f_equal. f_equal. unfold bytes_of. cbn. symmetry. apply app_nil_r. }
    rewrite Hu1 in *. rewrite <- fields_bytes_app in *.
    destruct (p_insert E utf8_ok limit Hs ty cur a [(read_number num, f)] b) as [P1 _]; auto.
    - apply Forall_app. split; [exact Ha|]. constructor; [exact Hone|exact Hb].
    - rewrite <- Hu1. apply Forall_app. split; [exact Hba|]. apply Forall_app. split; auto.
    - destruct (P1 v Hv) as (w' & Hw' & Heq). congruence.
  Qed.
End Lost.
