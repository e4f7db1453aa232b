(** The recursion limit is exact. *)
Require Import Verif.Bits Verif.Varint Verif.VarintSpec Verif.VarintProofs Verif.VarintFacts Verif.VarintMain.
Require Import Verif.Schema Verif.Archive Verif.Decode Verif.DecodeSafe Verif.Wire Verif.WireFacts.
Require Import Verif.DecodeSpec1 Verif.DecodeSpec2 Verif.DecodeSpec3 Verif.DecodeSpec4 Verif.DecodeLaws Verif.DecodeLaws2.
Require Import Verif.FieldSpec Verif.DecodeOcc Verif.WireGrammar Verif.GrammarFacts Verif.DecodeTerms Verif.DecodeMain Verif.DepthLaws.

Lemma tag_bytes_reads num wt tb : tag_bytes num wt tb -> tag_reads tb (8 * num + wt).
Proof.
  intros (Hv & Hl & Hb). split; [exact Hv|]. split; [lia|]. rewrite tag_value_small by auto. symmetry; exact Hb.
Qed.
Lemma varint_bytes tb : is_varint tb -> all_bytes tb.
Proof. apply is_varint_all_bytes. Qed.
Lemma tag_bytes_all num wt tb : tag_bytes num wt tb -> all_bytes tb.
Proof. intros (Hv & _). apply varint_bytes; auto. Qed.

Lemma group_levels_bytes k b : group_levels k b -> all_bytes b.
Proof. induction 1; [constructor|]. rewrite !all_bytes_app. eauto using tag_bytes_all. Qed.
Lemma levels_bytes E k ty b : levels E k ty b -> all_bytes b.
Proof.
  induction 1 as [| | |]; [constructor| | |]; rewrite !all_bytes_app;
    repeat split; eauto using tag_bytes_all, group_levels_bytes.
  match goal with H : len_bytes _ _ |- _ => destruct H as (Hv & _) end. apply varint_bytes; auto.
Qed.

(** ** Unknown groups within the limit *)
Lemma group_levels_grammar limit k b : group_levels k b -> forall d num eb, 0 < num -> tag_bytes num WT_EGROUP eb ->
  d + Z.of_nat k - 1 <= limit < 2 ^ 32 - 1 -> group limit d num (b ++ eb).
Proof.
  induction 1 as [|k num tb eb b Hn Ht He Hg IH]; intros d num' eb' Hn' He' Hd.
  - cbn [app]. destruct (tag_parts num' WT_EGROUP ltac:(lia) ltac:(unfold WT_EGROUP; lia)) as [T1 T2].
    eapply GEnd; [apply tag_bytes_reads; exact He'|exact T1|exact T2].
  - destruct (tag_parts num WT_SGROUP ltac:(lia) ltac:(unfold WT_SGROUP; lia)) as [T1 T2].
    replace ((tb ++ b ++ eb) ++ eb') with (tb ++ (b ++ eb) ++ eb') by (rewrite <- !app_assoc; reflexivity).
    eapply GField; [apply tag_bytes_reads; exact Ht| |].
    + apply PGroup; [exact T1|split; lia|]. rewrite T2. apply IH; auto. lia.
    + destruct (tag_parts num' WT_EGROUP ltac:(lia) ltac:(unfold WT_EGROUP; lia)) as [T1' T2'].
      eapply GEnd; [apply tag_bytes_reads; exact He'|exact T1'|exact T2'].
Qed.

Section Accept.
  Context (E : env) (utf8_ok : bytes -> bool).
  Hypothesis Hse : safe_env E.

  Lemma levels_accept k ty b : levels E k ty b -> m_entry (desc_of E ty) = false ->
    forall limit, Z.of_nat k <= limit < 2 ^ 32 - 1 -> forall cur, exists v, spec_decode E utf8_ok limit ty cur b = TOk v.
  Proof.
    induction 1 as [ty|k ty num ty' tb lb b Hh He Ht Hlen Hl IH|k ty num ty' tb eb b Hh He Ht Hen Hl IH|k ty num tb eb b Hu Hn Hs Ht Hen Hg];
      intros He0 limit Hlim cur.
    - unfold spec_decode. replace (scope_ok limit 0) with true by (unfold scope_ok; destruct (Z.leb_spec 0 limit); [reflexivity|lia]).
      cbn [negb]. rewrite tokB_eq. cbn [tbind]. cbn. eauto.
    - apply (nested_accept E utf8_ok Hse limit ty num ty'); auto; [lia|eapply levels_bytes; eauto|]. intros sv. apply IH; auto. lia.
    - apply (group_accept E utf8_ok Hse limit ty num ty'); auto; [lia|eapply levels_bytes; eauto|]. intros sv. apply IH; auto. lia.
    - destruct (tag_parts num WT_SGROUP ltac:(lia) ltac:(unfold WT_SGROUP; lia)) as [T1 T2].
      assert (Hp : payload limit 1 (8 * num + WT_SGROUP) (b ++ eb)).
      { apply PGroup; [exact T1|split; lia|]. rewrite T2. apply (group_levels_grammar limit k); auto. lia. }
      set (f := (num, tb ++ b ++ eb)).
      assert (Hf : fields limit [f]).
      { constructor; [|constructor]. exists tb, (8 * num + WT_SGROUP), (b ++ eb). cbn. split; [reflexivity|].
        split; [apply tag_bytes_reads; exact Ht|]. split; [exact T2|exact Hp]. }
      assert (Hb : tb ++ b ++ eb = bytes_of [f]) by (unfold bytes_of; cbn; rewrite app_nil_r; reflexivity).
      rewrite Hb.
      assert (Hbb : all_bytes (bytes_of [f])) by (rewrite <- Hb, !all_bytes_app; repeat split; eauto using tag_bytes_all, group_levels_bytes).
      destruct (ap_unknown_short E utf8_ok limit ty (ap_body E utf8_ok limit 0) (msg_fields cur) (msg_unk cur) [f]) as [u' Hr].
      { right. constructor; [|constructor]. exists tb, (8 * num + WT_SGROUP), (b ++ eb). cbn. split; [reflexivity|].
        split; [apply tag_bytes_reads; exact Ht|]. split; [exact T2|]. split; [exact Hp|exact Hs]. }
      { exact Hf. }
      { constructor; [exact Hu|constructor]. }
      exists (VMsg (msg_fields cur) u'). apply (reads_spec E utf8_ok limit Hse); auto.
      split; [unfold scope_ok; destruct (Z.leb_spec 0 limit); [reflexivity|lia]|].
      exists 0%nat, (msg_fields cur), u'. auto.
  Qed.
End Accept.

(** ** One level too many *)
Lemma scope_no maxd d : maxd < d -> scope_ok maxd d = false.
Proof. intros H. unfold scope_ok. destruct (Z.leb_spec d maxd); [lia|reflexivity]. Qed.
Lemma scope_le maxd d : scope_ok maxd d = true -> d <= maxd.
Proof. unfold scope_ok. rewrite andb_true_iff, Z.leb_le. tauto. Qed.

Lemma za_tag z num wt tb rest : all_bytes (za z) -> tag_bytes num wt tb -> za z = tb ++ rest ->
  z_tag z = Ok (8 * num + wt, pos z rest) /\ za (pos z rest) = rest /\ all_bytes (za (pos z rest)) /\
  (length rest < length (za z))%nat /\ (zlen (za z) <=? 0) = false.
Proof.
  intros Hb Ht Hz. pose proof (z_tag_spec z Hb) as K. rewrite Hz in K. rewrite (tok_tag_bytes _ _ _ rest Ht) in K.
  split; [exact K|]. rewrite (pos_za _ _ _ Hz). split; [reflexivity|]. rewrite Hz, all_bytes_app in Hb. split; [tauto|].
  destruct Ht as (Hv & _). destruct tb as [|x t]; [destruct Hv|]. rewrite Hz. cbn [app]. rewrite zlen_cons.
  cbn [length]. pose proof (zlen_nonneg (t ++ rest)). split; [|lia]. rewrite app_length. lia.
Qed.

Section TooDeep.
  Context (E : env) (utf8_ok : bytes -> bool) (maxd : Z).

  Lemma skip_too_deep k b : group_levels k b -> forall fuel num depth z rest, za z = b ++ rest -> all_bytes (za z) ->
    (length (za z) < fuel)%nat -> maxd < depth + Z.of_nat k - 1 -> (0 < k)%nat ->
    skip_group_loop zops maxd fuel num depth z = Err TooLarge.
  Proof.
    induction 1 as [|k num tb eb b Hn Ht He Hg IH]; intros fuel num' depth z rest Hz Hb Hf Hm Hk; [lia|].
    destruct fuel as [|fuel]; [lia|]. cbn [skip_group_loop]. cbn [a_avail zops a_tag].
    rewrite <- !app_assoc in Hz. destruct (za_tag z num WT_SGROUP tb _ Hb Ht Hz) as (K1 & K2 & K3 & K4 & K5).
    rewrite K5, K1. cbn [bind]. destruct (tag_parts num WT_SGROUP ltac:(lia) ltac:(unfold WT_SGROUP; lia)) as [T1 T2].
    rewrite T1, T2. change (WT_SGROUP =? WT_EGROUP) with false. cbn [andb].
    rewrite K2 in *. destruct (Z.leb_spec (zlen (b ++ eb ++ rest)) 0) as [Hle|_].
    { exfalso. destruct He as (Hv & _). destruct eb; [destruct Hv|]. unfold zlen in Hle. rewrite !app_length in Hle. cbn in Hle. lia. }
    unfold do_skip_field. destruct (Z.eqb_spec (8 * num + WT_SGROUP) 0); [unfold WT_SGROUP in *; lia|]. cbv zeta. rewrite T1.
    change (WT_SGROUP =? WT_VARINT) with false. change (WT_SGROUP =? WT_LEN) with false. change (WT_SGROUP =? WT_I64) with false.
    change (WT_SGROUP =? WT_SGROUP) with true. cbv iota. rewrite T2.
    destruct (scope_ok maxd depth) eqn:Ks; [|reflexivity]. apply scope_le in Ks.
    rewrite (IH fuel num (depth + 1) (pos z (b ++ eb ++ rest)) (eb ++ rest)); [reflexivity|exact K2| |rewrite K2; lia|lia|lia].
    rewrite K2. exact K3.
  Qed.

  Lemma za_len z lb p rest : all_bytes (za z) -> len_bytes (zlen p) lb -> za z = lb ++ p ++ rest ->
    z_varint VU32 z = Ok (zlen p, pos z (p ++ rest)) /\ za (pos z (p ++ rest)) = p ++ rest.
  Proof.
    intros Hb (Hv & Hl & Hb' & Hr) Hz. rewrite z_varint_spec by auto. cbn [max_len]. rewrite Hz.
    rewrite (scan_is_varint 6) by auto. rewrite firstn_app_len, skipn_app_len, Hb'. cbn [meaning].
    rewrite (pos_za z lb) by auto. split; [|reflexivity]. f_equal. f_equal. apply Z.mod_small. pose proof (zlen_nonneg p). lia.
  Qed.

  (** A field holding one message fails when that message does. *)
  Lemma dec_field_fails fuel ty num ty' delim tag depth fs unk z e : holds_message E ty num ty' delim -> tag_number tag = num ->
    tag_type tag = elem_wt (EMsg ty' delim) ->
    (forall sv, dec_message zops E maxd (dec_loop zops E utf8_ok maxd fuel) ty' delim sv tag depth z = Err e) ->
    dec_by_tag zops E utf8_ok maxd (dec_loop zops E utf8_ok maxd fuel) fuel ty tag depth fs unk z = Err e.
  Proof.
    intros (Hn & i & f & Hm & Hf) Htn Htt H. unfold dec_by_tag. cbv zeta. rewrite Htn. destruct (Z.eqb_spec num 0); [lia|].
    unfold member in Hm. rewrite Hm. unfold dec_field. destruct f as [n0 e0 [ex d| |pk|assoc]|alts]; try contradiction.
    - subst e0. cbn [dec_value]. rewrite H. reflexivity.
    - subst e0. cbn [dec_value]. rewrite H. reflexivity.
    - destruct Hf as [j Hj]. rewrite Htn, Hj. unfold dec_oneof. cbv zeta. cbn [dec_value]. rewrite H. reflexivity.
  Qed.

  Lemma levels_too_deep k ty b : levels E k ty b -> forall fuel mode fs unk depth z rest, za z = b ++ rest -> all_bytes (za z) ->
    (length (za z) < fuel)%nat -> maxd < depth + Z.of_nat k - 1 -> (0 < k)%nat ->
    dec_loop zops E utf8_ok maxd fuel mode ty fs unk depth z = Err TooLarge.
  Proof.
    induction 1 as [ty|k ty num ty' tb lb b Hh He Ht Hlen Hl IH|k ty num ty' tb eb b Hh He Ht Hen Hl IH|k ty num tb eb b Hu Hn Hs Ht Hen Hg];
      intros fuel mode fs unk depth z rest Hz Hb Hf Hm Hk; [lia| | |].
    - destruct fuel as [|fuel]; [lia|]. cbn [dec_loop]. cbn [a_avail zops a_tag]. rewrite <- !app_assoc in Hz.
      destruct (za_tag z num WT_LEN tb _ Hb Ht Hz) as (K1 & K2 & K3 & K4 & K5). rewrite K5, K1. cbn [bind].
      assert (Hn : 0 < num) by apply Hh.
      destruct (tag_parts num WT_LEN ltac:(lia) ltac:(unfold WT_LEN; lia)) as [T1 T2].
      replace (match mode with Some n => _ | None => false end) with false
        by (destruct mode; [rewrite T1; change (WT_LEN =? WT_EGROUP) with false|]; reflexivity).
      rewrite (dec_field_fails fuel ty num ty' false _ depth fs unk _ TooLarge Hh T2 T1); [reflexivity|].
      intros sv. unfold dec_message. rewrite T1. change (negb (WT_LEN =? WT_LEN)) with false. cbv iota.
      unfold dec_sized. cbn [a_varint zops a_avail a_split].
      set (z1 := pos z (lb ++ b ++ rest)) in *.
      destruct (za_len z1 lb b rest) as [L1 L2]; [exact K3|exact Hlen|exact K2|].
      rewrite L1. cbn [bind]. rewrite He, andb_false_r. set (z2 := pos z1 (b ++ rest)) in *. rewrite L2.
      assert (Hd : forall z', za z' = b -> dec_msg zops E maxd (dec_loop zops E utf8_ok maxd fuel) ty' sv depth z' = Err TooLarge).
      { intros z' Hz'. unfold dec_msg. destruct (scope_ok maxd depth) eqn:Ks; [|reflexivity]. apply scope_le in Ks.
        cbn [negb]. rewrite He. cbn [andb bind]. apply (IH fuel None _ _ (depth + 1) z' []); [rewrite app_nil_r; exact Hz'| | |lia|lia].
        - rewrite Hz'. eapply levels_bytes; eauto.
        - rewrite Hz'. rewrite !app_length in K4. lia. }
      unfold zlen at 2. rewrite app_length. destruct (Z.ltb_spec (zlen b) (Z.of_nat (length b + length rest))) as [Hlt|Hge].
      + unfold z_split. rewrite Hd; [reflexivity|]. cbn [za]. rewrite L2. unfold zlen. rewrite Nat2Z.id, firstn_app_len. reflexivity.
      + unfold zlen in *. assert (rest = []) by (destruct rest; [reflexivity|cbn in Hge; lia]). subst rest.
        rewrite app_nil_r, Z.eqb_refl.
        apply Hd. rewrite L2. apply app_nil_r.
    - destruct fuel as [|fuel]; [lia|]. cbn [dec_loop]. cbn [a_avail zops a_tag]. rewrite <- !app_assoc in Hz.
      destruct (za_tag z num WT_SGROUP tb _ Hb Ht Hz) as (K1 & K2 & K3 & K4 & K5). rewrite K5, K1. cbn [bind].
      assert (Hn : 0 < num) by apply Hh.
      destruct (tag_parts num WT_SGROUP ltac:(lia) ltac:(unfold WT_SGROUP; lia)) as [T1 T2].
      replace (match mode with Some n => _ | None => false end) with false
        by (destruct mode; [rewrite T1; change (WT_SGROUP =? WT_EGROUP) with false|]; reflexivity).
      rewrite (dec_field_fails fuel ty num ty' true _ depth fs unk _ TooLarge Hh T2 T1); [reflexivity|].
      intros sv. unfold dec_message. rewrite T1. change (negb (WT_SGROUP =? WT_SGROUP)) with false. cbv iota. unfold dec_group.
      destruct (scope_ok maxd depth) eqn:Ks; [|reflexivity]. apply scope_le in Ks.
      apply (IH fuel _ _ _ (depth + 1) _ (eb ++ rest)); [exact K2| | |lia|lia].
      + exact K3.
      + rewrite K2. lia.
    - destruct fuel as [|fuel]; [lia|]. cbn [dec_loop]. cbn [a_avail zops a_tag]. rewrite <- !app_assoc in Hz.
      destruct (za_tag z num WT_SGROUP tb _ Hb Ht Hz) as (K1 & K2 & K3 & K4 & K5). rewrite K5, K1. cbn [bind].
      destruct (tag_parts num WT_SGROUP ltac:(lia) ltac:(unfold WT_SGROUP; lia)) as [T1 T2].
      replace (match mode with Some n => _ | None => false end) with false
        by (destruct mode; [rewrite T1; change (WT_SGROUP =? WT_EGROUP) with false|]; reflexivity).
      unfold dec_by_tag. cbv zeta. rewrite T2. destruct (Z.eqb_spec num 0); [lia|].
      rewrite find_field_none by apply Hu. cbn [a_avail zops]. rewrite K2.
      destruct (Z.ltb_spec 0 (zlen (b ++ eb ++ rest))) as [_|Hle].
      2: { exfalso. destruct Hen as (Hv & _). destruct eb; [destruct Hv|]. unfold zlen in Hle. rewrite !app_length in Hle. cbn in Hle. lia. }
      assert (Hsk : skip_one zops maxd fuel depth (8 * num + WT_SGROUP) (pos z (b ++ eb ++ rest)) = Err TooLarge).
      { unfold skip_one, do_skip_field. destruct (Z.eqb_spec (8 * num + WT_SGROUP) 0); [unfold WT_SGROUP in *; lia|]. cbv zeta. rewrite T1.
        change (WT_SGROUP =? WT_VARINT) with false. change (WT_SGROUP =? WT_LEN) with false. change (WT_SGROUP =? WT_I64) with false.
        change (WT_SGROUP =? WT_SGROUP) with true. cbv iota. rewrite T2. unfold do_skip_group.
        destruct (scope_ok maxd depth) eqn:Ks; [|reflexivity]. apply scope_le in Ks.
        apply (skip_too_deep k b Hg fuel num (depth + 1) _ (eb ++ rest)); [exact K2|exact K3|rewrite K2; lia|lia|lia]. }
      unfold skip_field, skip_fields_match_tag. rewrite Hsk. destruct (m_unk (desc_of E ty)); reflexivity.
  Qed.
End TooDeep.

Theorem depth_exact E utf8_ok (Hse : safe_env E) limit k ty b : levels E k ty b -> m_entry (desc_of E ty) = false ->
  0 <= limit < 2 ^ 32 - 1 -> forall cur,
  (Z.of_nat k <= limit -> exists v, decode_bytes E utf8_ok limit ty cur b = Ok v) /\
  (limit < Z.of_nat k -> decode_bytes E utf8_ok limit ty cur b = Err TooLarge).
Proof.
  intros Hl He Hlim cur. pose proof (levels_bytes _ _ _ _ Hl) as Hb. split; intros Hk.
  - destruct (levels_accept E utf8_ok Hse k ty b Hl He limit ltac:(lia) cur) as [v Hv]. exists v.
    apply dec_of_spec; auto.
  - unfold decode_bytes, decode, dec_msg.
    replace (scope_ok limit 0) with true by (unfold scope_ok; destruct (Z.leb_spec 0 limit); [reflexivity|lia]).
    cbn [negb]. rewrite He. cbn [andb bind].
    rewrite (levels_too_deep E utf8_ok limit k ty b Hl (S (length b)) None _ _ (0 + 1) (Zip [] b) []); [reflexivity| | | |lia|lia]; cbn [za].
    + symmetry; apply app_nil_r.
    + exact Hb.
    + lia.
Qed.

Theorem limit_mono E utf8_ok (Hse : safe_env E) limit limit' ty cur bs v : all_bytes bs -> m_entry (desc_of E ty) = false -> limit <= limit' ->
  exact_unknown E utf8_ok limit ty cur bs ->
  decode_bytes E utf8_ok limit ty cur bs = Ok v -> decode_bytes E utf8_ok limit' ty cur bs = Ok v.
Proof.
  intros Hb He Hm Hx H. apply dec_ok_iff in H; auto. apply dec_of_spec; auto. eapply spec_limit; eauto.
Qed.

Theorem nested_value E utf8_ok (Hse : safe_env E) limit ty cur i num f ty' tb lb b v : 0 < limit < 2 ^ 32 - 1 -> 0 < num ->
  m_entry (desc_of E ty) = false -> m_entry (desc_of E ty') = false -> all_bytes b ->
  message_member E ty num i f ty' ->
  tag_bytes num WT_LEN tb -> len_bytes (zlen b) lb ->
  exact_unknown E utf8_ok (limit - 1) ty' (held E num f ty' (nth i (msg_fields cur) [])) b ->
  decode_bytes E utf8_ok limit ty cur (tb ++ lb ++ b) = Ok v <->
  exists w, decode_bytes E utf8_ok (limit - 1) ty' (held E num f ty' (nth i (msg_fields cur) [])) b = Ok w /\
    v = VMsg (set_nth i (holding num f w) (msg_fields cur)) (msg_unk cur).
Proof.
  intros Hl Hn He He' Hb Hm Ht Hlen Hx.
  assert (Hbb : all_bytes (tb ++ lb ++ b)).
  { rewrite !all_bytes_app. repeat split; auto; [eapply tag_bytes_all; eauto|]. destruct Hlen as (Hv & _). apply varint_bytes; auto. }
  pose proof (spec_nested E utf8_ok Hse limit ty cur i num f ty' tb lb b ltac:(lia) ltac:(lia) Hn Hb He' Hm Ht Hlen) as K.
  assert (Hxo : exact_unknown E utf8_ok limit ty cur (tb ++ lb ++ b)).
  { unfold exact_unknown in *. rewrite K. apply tbind_not_dev; [exact Hx|]. intros; discriminate. }
  rewrite dec_ok_iff by auto. rewrite K. split.
  - intros H. apply tbind_ok in H. destruct H as [w [H1 H2]]. injection H2 as <-. exists w. split; [|reflexivity]. apply dec_of_spec; auto.
  - intros (w & H1 & ->). apply dec_ok_iff in H1; auto. rewrite H1. reflexivity.
Qed.
