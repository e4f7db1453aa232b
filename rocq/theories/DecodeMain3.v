(** The decoding properties with hypotheses about the input alone. *)
From Coq Require Import Sorted.
Require Import Verif.Bits Verif.Varint Verif.VarintSpec Verif.VarintProofs Verif.VarintFacts Verif.VarintMain.
Require Import Verif.Schema Verif.Archive Verif.Decode Verif.DecodeSafe Verif.Wire Verif.WireFacts.
Require Import Verif.DecodeSpec1 Verif.DecodeSpec2 Verif.DecodeSpec3 Verif.DecodeSpec4 Verif.DecodeLaws Verif.DecodeLaws2.
Require Import Verif.FieldSpec Verif.DecodeOcc Verif.WireGrammar Verif.GrammarFacts Verif.WellTyped Verif.DecodeTerms Verif.DecodeMain.
Require Import Verif.DecodeWt Verif.DecodeMain2 Verif.DepthLaws Verif.DepthMain Verif.StoredTags.

Section Main3.
  Context (E : env) (utf8_ok : bytes -> bool) (limit : Z).
  Hypothesis Hse : safe_env E.
  Notation dec := (decode_bytes E utf8_ok limit).

  Lemma p_concat ty cur a b v : all_bytes a -> all_bytes b -> m_entry (desc_of E ty) = false ->
    short_stored E ty a -> short_stored E ty b -> dec ty cur a = Ok v -> same_result (dec ty cur (a ++ b)) (dec ty v b).
  Proof. intros Ha Hb He H1 H2 H. apply dec_concat; auto; apply exact_stored; auto. Qed.

  Lemma p_last_wins ty cur i num e c pre tb pb x post v : 0 < num -> m_entry (desc_of E ty) = false ->
    member E ty num i (Field num e c) -> singular (Field num e c) -> elem_closed e = false ->
    fields limit pre -> tag_bytes num (elem_wt e) tb -> scalar_payload utf8_ok e pb x -> fields limit post ->
    Forall (fun y => forall f, ~ member E ty (fst y) i f) post ->
    all_bytes (bytes_of pre) -> all_bytes (bytes_of post) ->
    short_stored E ty (bytes_of pre ++ (tb ++ pb) ++ bytes_of post) ->
    dec ty cur (bytes_of pre ++ (tb ++ pb) ++ bytes_of post) = Ok v -> nth i (msg_fields v) [] = [x].
  Proof.
    intros Hn He Hm Ha Hb Hpre Ht Hp Hpost Ho B1 B2 Hs H.
    assert (Hx : exact_unknown E utf8_ok limit ty cur (bytes_of pre ++ (tb ++ pb) ++ bytes_of post)).
    { apply exact_stored; auto. apply all_bytes_app; split; [auto|]. apply all_bytes_app; split; [|auto]. eapply scalar_field_bytes; eauto. }
    eapply (last_wins E utf8_ok limit Hse) with (e := e) (c := c) (pre := pre) (post := post); eauto.
  Qed.

  Lemma p_last_wins_oneof ty cur i num alts j e pre tb pb x post v : 0 < num -> m_entry (desc_of E ty) = false ->
    member E ty num i (Oneof alts) -> find_alt num alts 0 = Some (j, e) ->
    fields limit pre -> tag_bytes num (elem_wt e) tb -> scalar_payload utf8_ok e pb x -> fields limit post ->
    Forall (fun y => forall f, ~ member E ty (fst y) i f) post ->
    all_bytes (bytes_of pre) -> all_bytes (bytes_of post) ->
    short_stored E ty (bytes_of pre ++ (tb ++ pb) ++ bytes_of post) ->
    dec ty cur (bytes_of pre ++ (tb ++ pb) ++ bytes_of post) = Ok v -> nth i (msg_fields v) [] = [VAlt j x].
  Proof.
    intros Hn He Hm Ha Hpre Ht Hp Hpost Ho B1 B2 Hs H.
    assert (Hx : exact_unknown E utf8_ok limit ty cur (bytes_of pre ++ (tb ++ pb) ++ bytes_of post)).
    { apply exact_stored; auto. apply all_bytes_app; split; [auto|]. apply all_bytes_app; split; [|auto]. eapply scalar_field_bytes; eauto. }
    eapply (last_wins_oneof E utf8_ok limit Hse) with (alts := alts) (e := e) (pre := pre) (post := post); eauto.
  Qed.

  Lemma p_repeated_same ty cur i num e pk pre bs1 bs2 xs post : 0 < num -> m_entry (desc_of E ty) = false ->
    member E ty num i (Field num e (CRep pk)) ->
    rep_enc utf8_ok num e bs1 xs -> rep_enc utf8_ok num e bs2 xs ->
    fields limit pre -> fields limit post -> all_bytes (bytes_of pre) -> all_bytes (bytes_of post) ->
    (i < length (msg_fields cur))%nat ->
    short_stored E ty (bytes_of pre ++ bs1 ++ bytes_of post) -> short_stored E ty (bytes_of pre ++ bs2 ++ bytes_of post) ->
    same_result (dec ty cur (bytes_of pre ++ bs1 ++ bytes_of post)) (dec ty cur (bytes_of pre ++ bs2 ++ bytes_of post)).
  Proof.
    intros Hn He Hm H1 H2 Hpre Hpost B1 B2 Hi S1 S2 v.
    assert (Hb : forall bs, rep_enc utf8_ok num e bs xs -> all_bytes (bytes_of pre ++ bs ++ bytes_of post)).
    { intros bs Hbs. apply all_bytes_app; split; [auto|]. apply all_bytes_app; split; [|auto]. eapply rep_enc_bytes; eauto. }
    split; intros H; [eapply (repeated_same E utf8_ok limit Hse) with (bs1 := bs1)|eapply (repeated_same E utf8_ok limit Hse) with (bs1 := bs2)]; eauto;
      apply exact_stored; auto.
  Qed.

  Lemma p_retained ty cur l v : fields limit l -> all_bytes (bytes_of l) -> m_entry (desc_of E ty) = false ->
    no_closed_enum E ty -> m_unk (desc_of E ty) <> UNone -> store_ok (m_unk (desc_of E ty)) (msg_unk cur) ->
    short_stored E ty (bytes_of l) -> dec ty cur (bytes_of l) = Ok v ->
    (m_unk (desc_of E ty) = UBytes -> kept_bytes (msg_unk v) = kept_bytes (msg_unk cur) ++ bytes_of (unknowns E ty l)) /\
    (m_unk (desc_of E ty) = UMap \/ m_unk (desc_of E ty) = UPairs -> forall n,
      kept_for n (msg_unk v) = kept_for n (msg_unk cur) ++ bytes_of (filter (fun x => fst x =? n) (unknowns E ty l))).
  Proof. intros. eapply retained; eauto. apply exact_stored; auto. Qed.

  Lemma p_insert ty cur a u b : fields limit (a ++ u ++ b) -> all_bytes (bytes_of (a ++ u ++ b)) -> m_entry (desc_of E ty) = false ->
    Forall (fun x => unknown_to E ty (fst x)) u ->
    short_stored E ty (bytes_of (a ++ u ++ b)) -> short_stored E ty (bytes_of (a ++ b)) ->
    (forall v, dec ty cur (bytes_of (a ++ u ++ b)) = Ok v ->
       exists w, dec ty cur (bytes_of (a ++ b)) = Ok w /\ msg_fields w = msg_fields v) /\
    (forall w, dec ty cur (bytes_of (a ++ b)) = Ok w ->
       exists v, dec ty cur (bytes_of (a ++ u ++ b)) = Ok v /\ msg_fields v = msg_fields w).
  Proof.
    intros Hf Hb He Hu S1 S2. split; intros v H.
    - eapply insert_unknown; eauto. apply exact_stored; auto.
    - eapply insert_unknown_conv; eauto.
      + assert (Hd : m_unk (desc_of E ty) = UNone \/ m_unk (desc_of E ty) <> UNone)
          by (destruct (m_unk (desc_of E ty)); auto; right; discriminate). destruct Hd as [|Hd]; [auto|]. right. rewrite Forall_forall. intros x Hx.
        pose proof Hf as Hf'. unfold fields in Hf'. rewrite Forall_forall in Hf', Hu.
        assert (Hin : In x (a ++ u ++ b)) by (apply in_or_app; right; apply in_or_app; auto).
        destruct (Hf' _ Hin) as (tb & tag & p & Hxp & Ht & Hn & Hp). exists tb, tag, p. repeat split; auto; try apply Ht.
        apply S1. apply in_split in Hin. destruct Hin as (l1 & l2 & Hl).
        assert (Hx2 : unknown_to E ty (tag_number tag)) by (rewrite Hn; auto).
        eapply (STHere E ty _ tb tag p); [|exact Hx2|exact Hd].
        rewrite Hl in Hf |- *. apply Forall_app in Hf. destruct Hf as [F1 F2]. inversion F2; subst.
        exists limit, 1, l1, l2. split; [exact F1|]. split; [assumption|]. split; [exact Ht|]. split; [exact Hp|].
        unfold bytes_of. rewrite map_app, concat_app. cbn [map concat]. rewrite Hxp. reflexivity.
      + apply exact_stored; auto. unfold bytes_of in *. rewrite !map_app, !concat_app, !all_bytes_app in *. tauto.
  Qed.

  (** A proper prefix of a field is rejected. *)
  Lemma p_truncated ty cur num f p q : one_field limit 1 num f -> all_bytes p -> p ++ q = f -> p <> [] -> q <> [] ->
    m_entry (desc_of E ty) = false -> rejected (dec ty cur p).
  Proof.
    intros Hf Hb Hpq Hp Hq He. destruct (dec_outcome E utf8_ok limit Hse ty cur p) as [[v H]|H]; [|exact H]. exfalso.
    destruct (accepted_prefix E utf8_ok limit Hse ty cur [(num, f)] p q v) as (l1 & l2 & Hl & -> & ->); auto.
    - constructor; [exact Hf|constructor].
    - unfold bytes_of. cbn. rewrite app_nil_r. exact Hpq.
    - destruct l1 as [|x l1]; [apply Hp; reflexivity|]. cbn in Hl. injection Hl as _ Hl. symmetry in Hl. apply app_eq_nil in Hl. destruct Hl as [_ ->].
      apply Hq. reflexivity.
  Qed.

  (** Skipping. *)
  Lemma p_skip d tag bs rest : all_bytes bs ->
    (exists z, skip_one zops limit (S (length bs)) d tag (Zip [] bs) = Ok z /\ za z = rest) <-> exists p, bs = p ++ rest /\ payload limit d tag p.
  Proof.
    intros Hb. pose proof (skip_one_spec limit (S (length bs)) d tag (Zip [] bs) Hb (Nat.lt_succ_diag_r _)) as K. cbn [za] in K. split.
    - intros (z & Hz & <-). destruct (tok_pay (grpB limit d) tag bs) as [[[q sub] r]| | |] eqn:Kp; cbn [skips] in K.
      + destruct (proj1 (grammar_sound limit (S (length bs))) _ _ _ _ _ _ (Nat.lt_succ_diag_r _) Hb Kp) as (p & -> & Hp).
        rewrite Hz in K. injection K as ->. rewrite (pos_za (Zip [] (p ++ r)) p r eq_refl). eauto.
      + destruct K as [e K]. congruence.
      + exfalso. unfold tok_pay in Kp. destruct (tag =? 0); [discriminate|].
        destruct (_ =? _); [destruct (scan 10 bs); discriminate|].
        destruct (_ =? _); [destruct (scan 6 bs); try discriminate; unfold tok_take in Kp; destruct (_ <=? _)%nat; discriminate|].
        destruct (_ =? _); [unfold tok_take in Kp; destruct (_ <=? _)%nat; discriminate|].
        destruct (_ =? _).
        * unfold grpB in Kp. destruct (scope_ok limit d); [|discriminate].
          destruct (tokB limit (Some (tag_number tag)) (d + 1) bs) as [[? ?]| | |] eqn:Kt; try discriminate.
          exact (tokB_no_dev limit _ _ _ _ (Nat.lt_succ_diag_r _) Kt).
        * destruct (_ =? _); [|discriminate]. unfold tok_take in Kp; destruct (_ <=? _)%nat; discriminate.
      + contradiction.
    - intros (p & -> & Hp). destruct (proj1 (grammar_complete limit) _ _ _ Hp rest) as (q & sub & Kp). rewrite Kp in K. cbn [skips] in K.
      eexists. split; [exact K|]. rewrite (pos_za (Zip [] (p ++ rest)) p rest eq_refl). reflexivity.
  Qed.

  Lemma p_skip_fails d tag bs : all_bytes bs -> (forall p rest, bs = p ++ rest -> ~ payload limit d tag p) ->
    exists e, skip_one zops limit (S (length bs)) d tag (Zip [] bs) = Err e.
  Proof.
    intros Hb Hn. pose proof (skip_one_spec limit (S (length bs)) d tag (Zip [] bs) Hb (Nat.lt_succ_diag_r _)) as K. cbn [za] in K.
    destruct (tok_pay (grpB limit d) tag bs) as [[[q sub] r]| | |] eqn:Kp; cbn [skips] in K.
    - destruct (proj1 (grammar_sound limit (S (length bs))) _ _ _ _ _ _ (Nat.lt_succ_diag_r _) Hb Kp) as (p & -> & Hp).
      exfalso. exact (Hn _ _ eq_refl Hp).
    - exact K.
    - exfalso. unfold tok_pay in Kp. destruct (tag =? 0); [discriminate|].
      destruct (_ =? _); [destruct (scan 10 bs); discriminate|].
      destruct (_ =? _); [destruct (scan 6 bs); try discriminate; unfold tok_take in Kp; destruct (_ <=? _)%nat; discriminate|].
      destruct (_ =? _); [unfold tok_take in Kp; destruct (_ <=? _)%nat; discriminate|].
      destruct (_ =? _).
      + unfold grpB in Kp. destruct (scope_ok limit d); [|discriminate].
        destruct (tokB limit (Some (tag_number tag)) (d + 1) bs) as [[? ?]| | |] eqn:Kt; try discriminate.
        exact (tokB_no_dev limit _ _ _ _ (Nat.lt_succ_diag_r _) Kt).
      + destruct (_ =? _); [|discriminate]. unfold tok_take in Kp; destruct (_ <=? _)%nat; discriminate.
    - contradiction.
  Qed.

  Lemma p_limit_mono limit' ty cur bs v : all_bytes bs -> m_entry (desc_of E ty) = false -> limit <= limit' ->
    short_stored E ty bs -> dec ty cur bs = Ok v -> decode_bytes E utf8_ok limit' ty cur bs = Ok v.
  Proof. intros. eapply limit_mono; eauto. apply exact_stored; auto. Qed.

  Lemma p_nested ty cur i num f ty' tb lb b v : 0 < limit < 2 ^ 32 - 1 -> 0 < num ->
    m_entry (desc_of E ty) = false -> m_entry (desc_of E ty') = false -> all_bytes b ->
    message_member E ty num i f ty' ->
    tag_bytes num WT_LEN tb -> len_bytes (zlen b) lb -> short_stored E ty' b ->
    dec ty cur (tb ++ lb ++ b) = Ok v <->
    exists w, decode_bytes E utf8_ok (limit - 1) ty' (held E num f ty' (nth i (msg_fields cur) [])) b = Ok w /\
      v = VMsg (set_nth i (holding num f w) (msg_fields cur)) (msg_unk cur).
  Proof. intros. eapply nested_value; eauto. apply exact_stored; auto. Qed.

  (** A message field occurring twice is read like one occurrence with both contents. *)
  Lemma p_nested_merge ty cur i num f ty' tb1 lb1 b1 tb2 lb2 b2 tb lb v1 : 0 < limit < 2 ^ 32 - 1 -> 0 < num ->
    m_entry (desc_of E ty) = false -> m_entry (desc_of E ty') = false -> all_bytes b1 -> all_bytes b2 ->
    message_member E ty num i f ty' ->
    tag_bytes num WT_LEN tb1 -> len_bytes (zlen b1) lb1 -> tag_bytes num WT_LEN tb2 -> len_bytes (zlen b2) lb2 ->
    tag_bytes num WT_LEN tb -> len_bytes (zlen (b1 ++ b2)) lb ->
    short_stored E ty' b1 -> short_stored E ty' b2 ->
    dec ty cur (tb1 ++ lb1 ++ b1) = Ok v1 ->
    same_result (dec ty cur ((tb1 ++ lb1 ++ b1) ++ (tb2 ++ lb2 ++ b2))) (dec ty cur (tb ++ lb ++ (b1 ++ b2))).
  Proof.
    intros Hl Hn He He' B1 B2 Hm T1 L1 T2 L2 T L S1 S2 H1.
    pose proof (exact_stored E utf8_ok (limit - 1) Hse) as Hex.
    assert (Hbb : forall t l x, tag_bytes num WT_LEN t -> len_bytes (zlen x) l -> all_bytes x -> all_bytes (t ++ l ++ x)).
    { intros t l x Ht Hlen Hx. rewrite !all_bytes_app. repeat split; auto; [eapply tag_bytes_all; eauto|].
      destruct Hlen as (Hv & _). apply varint_bytes; auto. }
    assert (Hxo : forall c t l x, tag_bytes num WT_LEN t -> len_bytes (zlen x) l -> all_bytes x ->
      exact_unknown E utf8_ok (limit - 1) ty' (held E num f ty' (nth i (msg_fields c) [])) x ->
      exact_unknown E utf8_ok limit ty c (t ++ l ++ x)).
    { intros c t l x Ht Hlen Hx Hu. unfold exact_unknown in *.
      rewrite (spec_nested E utf8_ok Hse limit ty c i num f ty' t l x ltac:(lia) ltac:(lia) Hn Hx He' Hm Ht Hlen).
      apply tbind_not_dev; [exact Hu|]. intros; discriminate. }
    assert (N1 := H1). apply (p_nested ty cur i num f ty' tb1 lb1 b1 v1 Hl Hn He He' B1 Hm T1 L1 S1) in N1.
    destruct N1 as (w & Hw & ->).
    set (c1 := VMsg (set_nth i (holding num f w) (msg_fields cur)) (msg_unk cur)) in *.
    assert (Hh : held E num f ty' (nth i (msg_fields c1) []) = w).
    { unfold c1. cbn [msg_fields]. rewrite DecodeSpec3.nth_set_nth. destruct Hm as [_ Hm]. unfold held, holding.
      destruct f as [n0 e c|alts]; [reflexivity|]. destruct Hm as [j ->]. rewrite Nat.eqb_refl. reflexivity. }
    assert (X1 : exact_unknown E utf8_ok limit ty cur (tb1 ++ lb1 ++ b1)) by (apply Hxo; auto).
    assert (X2 : exact_unknown E utf8_ok limit ty c1 (tb2 ++ lb2 ++ b2)) by (apply Hxo; auto).
    pose proof (dec_concat E utf8_ok limit Hse ty cur _ _ _ (Hbb _ _ _ T1 L1 B1) (Hbb _ _ _ T2 L2 B2) He X1 X2 H1) as K.
    set (h0 := held E num f ty' (nth i (msg_fields cur) [])) in *.
    pose proof (dec_concat E utf8_ok (limit - 1) Hse ty' h0 b1 b2 w B1 B2 He' (Hex _ _ _ B1 S1) (Hex _ _ _ B2 S2) Hw) as K'.
    assert (X12 : exact_unknown E utf8_ok (limit - 1) ty' h0 (b1 ++ b2)).
    { unfold exact_unknown. apply (dec_ok_iff E utf8_ok (limit - 1) Hse) in Hw; auto.
      rewrite (spec_app E utf8_ok (limit - 1) Hse ty' h0 b1 b2 w B1 B2 He' Hw). apply Hex; auto. }
    assert (B12 : all_bytes (b1 ++ b2)) by (apply all_bytes_app; auto).
    intros v. rewrite (K v).
    rewrite (nested_value E utf8_ok Hse limit ty cur i num f ty' tb lb (b1 ++ b2) v Hl Hn He He' B12 Hm T L X12). fold h0.
    rewrite (p_nested ty c1 i num f ty' tb2 lb2 b2 v Hl Hn He He' B2 Hm T2 L2 S2). rewrite Hh.
    unfold c1. cbn [msg_fields msg_unk].
    split; intros (u & U1 & ->); exists u; (split; [apply (K' u); exact U1|]); rewrite DecodeSpec3.set_set_nth; reflexivity.
  Qed.

  Lemma p_reorder ty cur l l' : fields limit l -> fields limit l' -> m_entry (desc_of E ty) = false ->
    all_bytes (bytes_of l) -> all_bytes (bytes_of l') -> (forall k, concerning E ty k l = concerning E ty k l') ->
    short_stored E ty (bytes_of l) -> short_stored E ty (bytes_of l') ->
    same_result (dec ty cur (bytes_of l)) (dec ty cur (bytes_of l')).
  Proof.
    intros F1 F2 He B1 B2 Hk S1 S2 v. split; intros H; [eapply (reorder E utf8_ok limit Hse) with (l := l)|eapply (reorder E utf8_ok limit Hse) with (l := l')]; eauto; apply exact_stored; auto.
  Qed.

  Lemma p_wt ty cur bs v : map_shape E -> wt_defaults E utf8_ok -> all_bytes bs -> m_entry (desc_of E ty) = false -> short_stored E ty bs ->
    wt_msg E utf8_ok ty cur -> dec ty cur bs = Ok v -> wt_msg E utf8_ok ty v.
  Proof. intros. eapply decode_wt; eauto. apply exact_stored; auto. Qed.

  Lemma p_map ty cur i num e l v : fields limit l -> all_bytes (bytes_of l) -> m_entry (desc_of E ty) = false ->
    map_shape E -> wt_defaults E utf8_ok -> wt_msg E utf8_ok ty cur -> member E ty num i (Field num e (CMap true)) ->
    short_stored E ty (bytes_of l) -> dec ty cur (bytes_of l) = Ok v ->
    StronglySorted key_lt (map entry_key (nth i (msg_fields v) [])) /\
    exists ws, Forall2 (fun x w => exists v', dec ty (default_msg E ty) (snd x) = Ok v' /\ nth i (msg_fields v') [] = [w])
      (filter (fun x => fst x =? num) l) ws /\
      forall k, is_key k -> map_get k (nth i (msg_fields v) []) =
        match last_with k ws with Some w => Some w | None => map_get k (nth i (msg_fields cur) []) end.
  Proof. intros. eapply map_last_wins; eauto. apply exact_stored; auto. Qed.
End Main3.
