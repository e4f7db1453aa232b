(** The recursion limit: what one level of nesting costs. *)
Require Import Verif.Bits Verif.Varint Verif.VarintSpec Verif.VarintProofs Verif.VarintFacts Verif.VarintMain.
Require Import Verif.Schema Verif.Archive Verif.Decode Verif.DecodeSafe Verif.Wire Verif.WireFacts.
Require Import Verif.DecodeSpec1 Verif.DecodeSpec2 Verif.DecodeSpec3 Verif.DecodeSpec4 Verif.DecodeLaws Verif.DecodeLaws2.
Require Import Verif.FieldSpec Verif.DecodeOcc Verif.WireGrammar Verif.GrammarFacts Verif.DecodeTerms Verif.DecodeMain.

(** ** One level deeper with one more level allowed is the same *)
Lemma scope_shift m d : m < 2 ^ 32 - 2 -> scope_ok (m + 1) (d + 1) = scope_ok m d.
Proof.
  intros H. unfold scope_ok. destruct (Z.leb_spec d m), (Z.leb_spec (d + 1) (m + 1)); try lia; cbn [andb]; try reflexivity.
Qed.

Lemma tok_shift m f : m < 2 ^ 32 - 2 -> forall mode d bs, tok (m + 1) f mode (d + 1) bs = tok m f mode d bs.
Proof.
  intros Hm. induction f as [|f IH]; intros mode d bs; [reflexivity|]. rewrite !tok_S. destruct bs as [|b t]; [reflexivity|].
  destruct (tok_tag (b :: t)) as [[[tb tag] bs1]| | |]; try reflexivity. cbn [tbind].
  destruct (match mode with Some num => _ | None => _ end); [reflexivity|].
  assert (Hg : tok_pay (grp (m + 1) f (d + 1)) tag bs1 = tok_pay (grp m f d) tag bs1).
  { apply tok_pay_ext. intros num. unfold grp. rewrite scope_shift, IH by auto. reflexivity. }
  rewrite Hg; clear Hg. destruct (tok_pay _ tag bs1) as [[[p sub] bs2]| | |]; try reflexivity. cbn [tbind]. rewrite IH. reflexivity.
Qed.
Lemma tokB_shift m mode d bs : m < 2 ^ 32 - 2 -> tokB (m + 1) mode (d + 1) bs = tokB m mode d bs.
Proof. intros. apply tok_shift; auto. Qed.

Section Shift.
  Context (E : env) (utf8_ok : bytes -> bool) (m : Z).
  Hypothesis Hm : m < 2 ^ 32 - 2.

  Lemma ap_recs_shift (b b' : nat -> Z -> state -> list Wire.rec -> tres state) :
    (forall ty d st rs, b' ty (d + 1) st rs = b ty d st rs) ->
    forall ty d rs st, ap_recs E utf8_ok (m + 1) b' ty (d + 1) st rs = ap_recs E utf8_ok m b ty d st rs.
  Proof.
    intros Hb ty d rs. induction rs as [|r t IH]; intros st; [reflexivity|]. cbn [ap_recs].
    assert (Hv : forall e cur, ap_value E utf8_ok (m + 1) b' e cur (d + 1) r = ap_value E utf8_ok m b e cur d r).
    { intros e cur. unfold ap_value. destruct (negb _); [reflexivity|]. destruct e as [| | | | |ty' delim]; try reflexivity.
      unfold ap_message. cbv zeta. rewrite Hb, scope_shift by auto. destruct delim; [reflexivity|].
      destruct (_ && _); [reflexivity|]. destruct (negb _); [reflexivity|]. rewrite tokB_shift by auto.
      destruct (tokB m None (d + 1) (r_pay r)) as [[rs rest]| | |]; try reflexivity. cbn [tbind]. rewrite Hb. reflexivity. }
    assert (Hr : ap_rec E utf8_ok (m + 1) b' ty (d + 1) st r = ap_rec E utf8_ok m b ty d st r).
    { unfold ap_rec. destruct st as [fs u]. cbv zeta. destruct (_ =? 0); [reflexivity|].
      destruct (find_field _ _ _) as [[i f]|]; [|reflexivity].
      assert (Hf : ap_field E utf8_ok (m + 1) b' (m_unk (desc_of E ty)) f (d + 1) (nth i fs []) u r =
                   ap_field E utf8_ok m b (m_unk (desc_of E ty)) f d (nth i fs []) u r).
      { unfold ap_field. destruct f as [num e [ex dv| |pk|assoc]|alts]; rewrite ?Hv; try reflexivity.
        destruct (find_alt _ _ _) as [[j e]|]; [|reflexivity]. cbv zeta. rewrite Hv. reflexivity. }
      rewrite Hf. reflexivity. }
    rewrite Hr. clear Hr. destruct (ap_rec _ _ _ _ _ _ _ _); cbn [tbind]; try reflexivity. apply IH.
  Qed.

  Lemma ap_body_shift f : forall ty d st rs, ap_body E utf8_ok (m + 1) f ty (d + 1) st rs = ap_body E utf8_ok m f ty d st rs.
  Proof. induction f as [|f IH]; intros; [reflexivity|]. cbn [ap_body]. apply ap_recs_shift. exact IH. Qed.
End Shift.

(** ** A length-delimited nested message *)
Section Nested.
  Context (E : env) (utf8_ok : bytes -> bool).
  Hypothesis Hse : safe_env E.

  (** Reading a nested message under [limit] is reading its content under [limit - 1]. *)
  Lemma spec_nested limit ty cur i num f ty' tb lb b : limit < 2 ^ 32 - 1 -> 0 <= limit -> 0 < num -> all_bytes b ->
    m_entry (desc_of E ty') = false ->
    message_member E ty num i f ty' ->
    tag_bytes num WT_LEN tb -> len_bytes (zlen b) lb ->
    spec_decode E utf8_ok limit ty cur (tb ++ lb ++ b) =
    (v <~ spec_decode E utf8_ok (limit - 1) ty' (held E num f ty' (nth i (msg_fields cur) [])) b ;;
     TOk (VMsg (set_nth i (holding num f v) (msg_fields cur)) (msg_unk cur))).
  Proof.
    intros Hl Hl0 Hn Hb He [Hm Hs] Ht Hlen.
    assert (H0 : scope_ok limit 0 = true) by (unfold scope_ok; destruct (Z.leb_spec 0 limit); [reflexivity|lia]).
    pose proof (tok_pay_lenb utf8_ok (grpB limit 1) num lb b [] Hn Hlen) as Kp. rewrite app_nil_r in Kp.
    rewrite (spec_one _ _ _ _ _ _ _ H0 (tokB_one _ _ _ _ _ _ _ _ Ht Kp)).
    rewrite (apr_field _ _ _ _ _ _ _ _ _ WT_LEN _ _ _ _ _ _ Hn ltac:(unfold WT_LEN; lia) Hm).
    set (sv := held E num f ty' (nth i (msg_fields cur) [])).
    set (body := ap_body E utf8_ok limit (length (tb ++ lb ++ b))).
    assert (Hv : ap_value E utf8_ok limit body (EMsg ty' false) sv 1 (Rec tb (8 * num + WT_LEN) (lb ++ b) b []) =
      spec_decode E utf8_ok (limit - 1) ty' sv b).
    { unfold ap_value. cbn [r_tag r_pay elem_wt]. destruct (tag_parts num WT_LEN ltac:(lia) ltac:(unfold WT_LEN; lia)) as [-> _].
      rewrite Z.eqb_refl. cbn [negb]. unfold ap_message. cbv zeta. rewrite He. cbn [andb r_pay]. unfold spec_decode.
      pose proof (scope_shift (limit - 1) 0 ltac:(lia)) as Hsc. replace (limit - 1 + 1) with limit in Hsc by lia.
      change (0 + 1) with 1 in Hsc. rewrite Hsc. destruct (negb _) eqn:Kn; [reflexivity|].
      pose proof (tokB_shift (limit - 1) None 1 b ltac:(lia)) as Htk. replace (limit - 1 + 1) with limit in Htk by lia. rewrite Htk.
      destruct (tokB (limit - 1) None 1 b) as [[rs rest]| | |] eqn:Ktk; try reflexivity. cbn [tbind].
      pose proof (spec_no_fuel E utf8_ok (limit - 1) Hse ty' sv b Hb He) as Hnf. unfold spec_decode in Hnf.
      rewrite Kn, Ktk in Hnf. cbn [tbind] in Hnf.
      pose proof (ap_body_shift E utf8_ok (limit - 1) ltac:(lia) (length (tb ++ lb ++ b)) ty' 1 (msg_fields sv, msg_unk sv) rs) as Hsh.
      replace (limit - 1 + 1) with limit in Hsh by lia. unfold body. rewrite Hsh.
      assert (Hle : (S (length b) <= length (tb ++ lb ++ b))%nat).
      { rewrite !app_length. destruct Ht as (Hv & _). destruct tb; [destruct Hv|]. cbn. lia. }
      pose proof (ap_body_mono E utf8_ok (limit - 1) _ _ ty' 1 (msg_fields sv, msg_unk sv) rs Hle) as Hmono.
      unfold le_t in Hmono. rewrite Hmono; [reflexivity|]. intros K. rewrite K in Hnf. apply Hnf. reflexivity. }
    assert (Hf : ap_field E utf8_ok limit body (m_unk (desc_of E ty)) f 1 (nth i (msg_fields cur) []) (msg_unk cur)
                   (Rec tb (8 * num + WT_LEN) (lb ++ b) b []) =
      (v <~ spec_decode E utf8_ok (limit - 1) ty' sv b ;; TOk (holding num f v, msg_unk cur))).
    { unfold ap_field. destruct f as [n0 e c|alts].
      - destruct c as [ex d| |pk|assoc]; try contradiction; subst e;
          change (start_val E (EMsg ty' false) (nth i (msg_fields cur) [])) with sv; rewrite Hv;
          destruct (spec_decode E utf8_ok (limit - 1) ty' sv b) as [v| | |]; reflexivity.
      - cbn [r_tag]. destruct (tag_parts num WT_LEN ltac:(lia) ltac:(unfold WT_LEN; lia)) as [_ ->].
        destruct Hs as [j Hj]. unfold holding. rewrite Hj.
        assert (Hsv : start_val E (EMsg ty' false) (match nth i (msg_fields cur) [] with
                        | VAlt j0 v :: _ => if Nat.eqb j j0 then [v] else [] | _ => [] end) = sv).
        { unfold sv, held. rewrite Hj. destruct (nth i (msg_fields cur) []) as [|[| | |j0 v] t]; try reflexivity.
          destruct (Nat.eqb j j0); reflexivity. }
        cbv zeta. rewrite Hsv, Hv. destruct (spec_decode E utf8_ok (limit - 1) ty' sv b) as [v| | |]; reflexivity. }
    rewrite Hf. destruct (spec_decode E utf8_ok (limit - 1) ty' sv b) as [v| | |]; reflexivity.
  Qed.
End Nested.

(** ** More levels allowed: nothing changes for what was accepted *)
Lemma scope_mono m m' d : m <= m' -> scope_ok m d = true -> scope_ok m' d = true.
Proof. unfold scope_ok. rewrite !andb_true_iff, !Z.leb_le. intros H [H1 H2]. split; [lia|exact H2]. Qed.

Lemma tok_limit_mono m m' f : m <= m' -> forall mode d bs x, tok m f mode d bs = TOk x -> tok m' f mode d bs = TOk x.
Proof.
  intros Hm. induction f as [|f IH]; intros mode d bs x; [discriminate|]. rewrite !tok_S. destruct bs as [|b t]; [auto|].
  destruct (tok_tag (b :: t)) as [[[tb tag] bs1]| | |]; cbn [tbind]; try discriminate.
  destruct (match mode with Some num => _ | None => _ end); [auto|].
  intros H. apply tbind_ok in H. destruct H as [[[p sub] bs2] [Hp H]]. apply tbind_ok in H. destruct H as [[rs rest] [H2 H]].
  injection H as <-.
  assert (Hp' : tok_pay (grp m' f d) tag bs1 = TOk (p, sub, bs2)).
  { revert Hp. unfold tok_pay. destruct (tag =? 0); [discriminate|]. destruct (_ =? WT_VARINT); [auto|].
    destruct (_ =? WT_LEN); [auto|]. destruct (_ =? WT_I64); [auto|]. destruct (_ =? WT_SGROUP); [|auto].
    intros H. apply tbind_ok in H. destruct H as [[rs' r'] [Hg H]]. unfold grp in *.
    destruct (scope_ok m d) eqn:Ks; [|discriminate]. rewrite (scope_mono m m' d Hm Ks).
    rewrite (IH _ _ _ _ Hg). exact H. }
  rewrite Hp'. cbn [tbind]. rewrite (IH _ _ _ _ H2). reflexivity.
Qed.

Section Mono.
  Context (E : env) (utf8_ok : bytes -> bool) (m m' : Z).
  Hypothesis Hm : m <= m'.

  Definition ok_le {T} (a b : tres T) : Prop := forall x, a = TOk x -> b = TOk x.
  Lemma ok_le_bind {A B} (a b : tres A) (k k' : A -> tres B) : ok_le a b -> (forall x, ok_le (k x) (k' x)) -> ok_le (tbind a k) (tbind b k').
  Proof. intros H1 H2 x H. apply tbind_ok in H. destruct H as [y [Hy H]]. rewrite (H1 _ Hy). cbn. apply H2. exact H. Qed.
  Lemma ok_le_refl {T} (a : tres T) : ok_le a a. Proof. intros x H; exact H. Qed.

  Lemma ap_recs_limit (b b' : nat -> Z -> state -> list Wire.rec -> tres state) :
    (forall ty d st rs, ok_le (b ty d st rs) (b' ty d st rs)) ->
    forall ty d rs st, ok_le (ap_recs E utf8_ok m b ty d st rs) (ap_recs E utf8_ok m' b' ty d st rs).
  Proof.
    intros Hb ty d rs. induction rs as [|r t IH]; intros st; [apply ok_le_refl|]. cbn [ap_recs].
    apply ok_le_bind; [|intros; apply IH].
    assert (Hv : forall e cur, ok_le (ap_value E utf8_ok m b e cur d r) (ap_value E utf8_ok m' b' e cur d r)).
    { intros e cur. unfold ap_value. destruct (negb _); [apply ok_le_refl|]. destruct e as [| | | | |ty' delim]; try apply ok_le_refl.
      unfold ap_message. cbv zeta. destruct delim.
      - apply ok_le_bind; [apply Hb|]. intros [? ?]. apply ok_le_refl.
      - destruct (_ && _); [apply ok_le_refl|]. destruct (scope_ok m d) eqn:Ks; cbn [negb]; [|intros x; discriminate].
        rewrite (scope_mono m m' d Hm Ks). cbn [negb]. apply ok_le_bind.
        + intros x. apply tok_limit_mono. exact Hm.
        + intros [rs rest]. apply ok_le_bind; [apply Hb|]. intros [? ?]. apply ok_le_refl. }
    unfold ap_rec. destruct st as [fs u]. cbv zeta. destruct (_ =? 0); [apply ok_le_refl|].
    destruct (find_field _ _ _) as [[i f]|]; [|apply ok_le_refl]. apply ok_le_bind; [|intros [? ?]; apply ok_le_refl].
    unfold ap_field. destruct f as [num e [ex dv| |pk|assoc]|alts].
    - apply ok_le_bind; [apply Hv|]. intros; apply ok_le_refl.
    - apply ok_le_bind; [apply Hv|]. intros; apply ok_le_refl.
    - destruct (packable e && _); [apply ok_le_refl|]. apply ok_le_bind; [apply Hv|]. intros; apply ok_le_refl.
    - apply ok_le_bind; [apply Hv|]. intros; apply ok_le_refl.
    - destruct (find_alt _ _ _) as [[j e]|]; [|apply ok_le_refl]. cbv zeta. apply ok_le_bind; [apply Hv|]. intros; apply ok_le_refl.
  Qed.

  Lemma ap_body_limit f : forall ty d st rs, ok_le (ap_body E utf8_ok m f ty d st rs) (ap_body E utf8_ok m' f ty d st rs).
  Proof. induction f as [|f IH]; intros; [apply ok_le_refl|]. cbn [ap_body]. apply ap_recs_limit. exact IH. Qed.

  Lemma spec_limit ty cur bs : ok_le (spec_decode E utf8_ok m ty cur bs) (spec_decode E utf8_ok m' ty cur bs).
  Proof.
    unfold spec_decode. destruct (scope_ok m 0) eqn:Ks; cbn [negb]; [|intros x; discriminate].
    rewrite (scope_mono m m' 0 Hm Ks). cbn [negb]. apply ok_le_bind; [intros x; apply tok_limit_mono; exact Hm|].
    intros [rs rest]. apply ok_le_bind; [apply ap_body_limit|]. intros [? ?]; apply ok_le_refl.
  Qed.
End Mono.

(** ** Groups *)
Lemma tokB_close m : forall n num d b rs eb rest, (length b < n)%nat -> tokB m None d b = TOk (rs, []) -> 0 <= num ->
  tag_bytes num WT_EGROUP eb -> tokB m (Some num) d (b ++ eb ++ rest) = TOk (rs, rest).
Proof.
  induction n as [|n IH]; intros num d b rs eb rest Hl H Hn He; [lia|]. rewrite tokB_eq in H. destruct b as [|b0 t].
  - injection H as <-. cbn [app]. rewrite tokB_eq. pose proof (tok_tag_bytes num WT_EGROUP eb rest He) as Kt.
    destruct (eb ++ rest) as [|y l] eqn:K; [destruct He as (Hv & _); apply app_eq_nil in K; destruct K as [-> _]; destruct Hv|].
    rewrite Kt. cbn [tbind]. destruct (tag_parts num WT_EGROUP Hn ltac:(unfold WT_EGROUP; lia)) as [-> ->].
    rewrite !Z.eqb_refl. reflexivity.
  - apply tbind_ok in H. destruct H as [[[tb tag] bs1] [H1 H]]. apply tbind_ok in H. destruct H as [[[p sub] bs2] [H2 H]].
    apply tbind_ok in H. destruct H as [[rs' r'] [H3 H]]. injection H as <- ->.
    rewrite tokB_eq. cbn [app]. change (b0 :: t ++ eb ++ rest) with ((b0 :: t) ++ eb ++ rest).
    rewrite (tok_tag_app _ _ _ _ (eb ++ rest) H1). cbn [tbind].
    assert (Ke : (tag_type tag =? WT_EGROUP) = false).
    { apply Z.eqb_neq. intros K. unfold tok_pay in H2. rewrite K in H2. destruct (tag =? 0); discriminate H2. }
    rewrite Ke. cbn [andb].
    rewrite (tok_pay_app _ (grpB m d) _ _ _ _ _ (eb ++ rest) (fun num rs r => grpB_app _ _ num _ rs r _) H2). cbn [tbind].
    destruct (tok_tag_ok _ _ _ _ H1) as (n1 & _ & Hn1 & Hn2 & _ & _ & Hr & _).
    destruct (tok_pay_ok _ _ _ _ _ _ (fun num rs r => grpB_consumes' _ _ num _ rs r) H2) as (c & Hc & _).
    assert (Hl2 : (length bs2 < n)%nat).
    { rewrite Hr in Hc. apply (f_equal (@length Z)) in Hc. rewrite skipn_length, app_length in Hc. lia. }
    rewrite (IH num d bs2 rs' eb rest Hl2 H3 Hn He). cbn [tbind]. f_equal. f_equal. f_equal.
    unfold used. subst bs1. rewrite Hc, !app_length.
    replace (length c + length bs2 + (length eb + length rest) - (length bs2 + (length eb + length rest)))%nat with (length c) by lia.
    replace (length c + length bs2 - length bs2)%nat with (length c) by lia. rewrite <- !app_assoc.
    rewrite !firstn_app_len. reflexivity.
Qed.

Section Levels.
  Context (E : env) (utf8_ok : bytes -> bool).
  Hypothesis Hse : safe_env E.

  Lemma ap_field_msg m body ty num ty' delim depth fs u r : holds_message E ty num ty' delim -> tag_number (r_tag r) = num ->
    exists sv g, ap_rec E utf8_ok m body ty depth (fs, u) r =
      (v <~ ap_value E utf8_ok m body (EMsg ty' delim) sv depth r ;; TOk (g v, u)).
  Proof.
    intros (Hn & i & f & Hm & Hf) Hr. unfold ap_rec. rewrite Hr. destruct (Z.eqb_spec num 0); [lia|].
    unfold member in Hm. rewrite Hm. unfold ap_field. destruct f as [n0 e [ex d| |pk|assoc]|alts]; try contradiction.
    - subst e. match goal with |- context [ap_value _ _ _ _ _ ?s _ _] => exists s end. exists (fun v => set_nth i [v] fs).
      destruct (ap_value _ _ _ _ _ _ _ _); reflexivity.
    - subst e. match goal with |- context [ap_value _ _ _ _ _ ?s _ _] => exists s end. exists (fun v => set_nth i [v] fs).
      destruct (ap_value _ _ _ _ _ _ _ _); reflexivity.
    - destruct Hf as [j Hj]. rewrite Hr, Hj. cbv zeta. match goal with |- context [ap_value _ _ _ _ _ ?s _ _] => exists s end. exists (fun v => set_nth i [VAlt j v] fs).
      destruct (ap_value _ _ _ _ _ _ _ _); reflexivity.
  Qed.

  (** The value of a nested message or group read under [limit], given its records. *)
  Lemma ap_value_inner limit sv ty' b rs r F delim : 0 < limit < 2 ^ 32 - 1 -> all_bytes b -> m_entry (desc_of E ty') = false ->
    tokB (limit - 1) None 1 b = TOk (rs, []) -> (S (length b) <= F)%nat ->
    tag_type (r_tag r) = elem_wt (EMsg ty' delim) -> (if delim then r_sub r = rs else r_pay r = b) ->
    ap_value E utf8_ok limit (ap_body E utf8_ok limit F) (EMsg ty' delim) sv 1 r = spec_decode E utf8_ok (limit - 1) ty' sv b.
  Proof.
    intros Hl Hb He Htk HF Hw Hr.
    assert (H0 : scope_ok (limit - 1) 0 = true) by (unfold scope_ok; destruct (Z.leb_spec 0 (limit - 1)); [reflexivity|lia]).
    assert (Hbody : ('(fs, unk) <~ ap_body E utf8_ok limit F ty' 2 (msg_fields sv, msg_unk sv) rs ;; TOk (VMsg fs unk)) =
      spec_decode E utf8_ok (limit - 1) ty' sv b).
    { pose proof (spec_no_fuel E utf8_ok (limit - 1) Hse ty' sv b Hb He) as Hnf. unfold spec_decode in *.
      rewrite H0, Htk in *. cbn [negb tbind] in *.
      pose proof (ap_body_shift E utf8_ok (limit - 1) ltac:(lia) F ty' 1 (msg_fields sv, msg_unk sv) rs) as Hsh.
      replace (limit - 1 + 1) with limit in Hsh by lia. change (1 + 1) with 2 in Hsh. rewrite Hsh.
      pose proof (ap_body_mono E utf8_ok (limit - 1) _ _ ty' 1 (msg_fields sv, msg_unk sv) rs HF) as Hmono.
      unfold le_t in Hmono. rewrite Hmono; [reflexivity|]. intros K. rewrite K in Hnf. apply Hnf. reflexivity. }
    unfold ap_value. rewrite Hw, Z.eqb_refl. cbn [negb]. unfold ap_message. cbv zeta. destruct delim.
    - rewrite Hr. exact Hbody.
    - rewrite He, Hr. cbn [andb].
      assert (H1 : scope_ok limit 1 = true).
      { unfold scope_ok. destruct (Z.leb_spec 1 limit); [|lia]. cbn [andb]. destruct (Z.eqb_spec 1 (2 ^ 32 - 1)); [lia|reflexivity]. }
      rewrite H1. cbn [negb]. pose proof (tokB_shift (limit - 1) None 1 b ltac:(lia)) as Hs.
      replace (limit - 1 + 1) with limit in Hs by lia. change (1 + 1) with 2 in *. rewrite Hs, Htk. cbn [tbind]. exact Hbody.
  Qed.

  Lemma spec_tok m ty cur b v : spec_decode E utf8_ok m ty cur b = TOk v -> exists rs, tokB m None 1 b = TOk (rs, []).
  Proof.
    unfold spec_decode. destruct (negb _); [discriminate|]. intros H. apply tbind_ok in H. destruct H as [[rs rest] [H _]].
    exists rs. pose proof H as K. unfold tokB in K. apply tok_raws in K. destruct K as (e & _ & _ & ->). exact H.
  Qed.

  Lemma nested_accept limit ty num ty' tb lb b : 0 < limit < 2 ^ 32 - 1 -> all_bytes b -> m_entry (desc_of E ty') = false ->
    holds_message E ty num ty' false -> tag_bytes num WT_LEN tb -> len_bytes (zlen b) lb ->
    (forall sv, exists v, spec_decode E utf8_ok (limit - 1) ty' sv b = TOk v) ->
    forall cur, exists v, spec_decode E utf8_ok limit ty cur (tb ++ lb ++ b) = TOk v.
  Proof.
    intros Hl Hb He Hh Ht Hlen H cur. assert (Hn : 0 < num) by apply Hh.
    assert (H0 : scope_ok limit 0 = true) by (unfold scope_ok; destruct (Z.leb_spec 0 limit); [reflexivity|lia]).
    pose proof (tok_pay_lenb utf8_ok (grpB limit 1) num lb b [] Hn Hlen) as Kp. rewrite app_nil_r in Kp.
    rewrite (spec_one _ _ _ _ _ _ _ H0 (tokB_one _ _ _ _ _ _ _ _ Ht Kp)).
    destruct (tag_parts num WT_LEN ltac:(lia) ltac:(unfold WT_LEN; lia)) as [T1 T2].
    destruct (ap_field_msg limit (ap_body E utf8_ok limit (length (tb ++ lb ++ b))) ty num ty' false 1 (msg_fields cur) (msg_unk cur)
      (Rec tb (8 * num + WT_LEN) (lb ++ b) b []) Hh T2) as (sv & g & ->).
    destruct (H sv) as [v Hv]. destruct (spec_tok _ _ _ _ _ Hv) as [rs Hrs].
    rewrite (ap_value_inner limit sv ty' b rs _ _ false Hl Hb He Hrs); [rewrite Hv; cbn [tbind]; eauto| |exact T1|reflexivity].
    rewrite !app_length. destruct Ht as (Kv & _). destruct tb; [destruct Kv|]. cbn. lia.
  Qed.

  Lemma group_accept limit ty num ty' tb eb b : 0 < limit < 2 ^ 32 - 1 -> all_bytes b -> m_entry (desc_of E ty') = false ->
    holds_message E ty num ty' true -> tag_bytes num WT_SGROUP tb -> tag_bytes num WT_EGROUP eb ->
    (forall sv, exists v, spec_decode E utf8_ok (limit - 1) ty' sv b = TOk v) ->
    forall cur, exists v, spec_decode E utf8_ok limit ty cur (tb ++ b ++ eb) = TOk v.
  Proof.
    intros Hl Hb He Hh Ht Hen H cur. assert (Hn : 0 < num) by apply Hh.
    assert (H0 : scope_ok limit 0 = true) by (unfold scope_ok; destruct (Z.leb_spec 0 limit); [reflexivity|lia]).
    assert (H1 : scope_ok limit 1 = true).
    { unfold scope_ok. destruct (Z.leb_spec 1 limit); [|lia]. cbn [andb]. destruct (Z.eqb_spec 1 (2 ^ 32 - 1)); [lia|reflexivity]. }
    destruct (tag_parts num WT_SGROUP ltac:(lia) ltac:(unfold WT_SGROUP; lia)) as [T1 T2].
    destruct (H cur) as [v0 Hv0]. destruct (spec_tok _ _ _ _ _ Hv0) as [rs Hrs].
    assert (Kg : tokB limit (Some num) 2 (b ++ eb) = TOk (rs, [])).
    { pose proof (tokB_shift (limit - 1) None 1 b ltac:(lia)) as Hs. replace (limit - 1 + 1) with limit in Hs by lia.
      change (1 + 1) with 2 in Hs. rewrite Hrs in Hs.
      pose proof (tokB_close limit (S (length b)) num 2 b rs eb [] ltac:(lia) Hs ltac:(lia) Hen) as K. rewrite app_nil_r in K. exact K. }
    assert (Kp : exists p, tok_pay (grpB limit 1) (8 * num + WT_SGROUP) (b ++ eb) = TOk (p, rs, [])).
    { rewrite tok_pay_wt by (unfold WT_SGROUP; lia). rewrite T1. unfold grpB. rewrite H1, T2.
      change (1 + 1) with 2. rewrite Kg. eexists. reflexivity. }
    destruct Kp as [p Kp]. rewrite (spec_one _ _ _ _ _ _ _ H0 (tokB_one _ _ _ _ _ _ _ _ Ht Kp)).
    destruct (ap_field_msg limit (ap_body E utf8_ok limit (length (tb ++ b ++ eb))) ty num ty' true 1 (msg_fields cur) (msg_unk cur)
      (Rec tb (8 * num + WT_SGROUP) (b ++ eb) p rs) Hh T2) as (sv & g & ->).
    destruct (H sv) as [v Hv].
    rewrite (ap_value_inner limit sv ty' b rs _ _ true Hl Hb He Hrs); [rewrite Hv; cbn [tbind]; eauto| |exact T1|reflexivity].
    rewrite !app_length. destruct Ht as (Kv & _). destruct tb; [destruct Kv|]. cbn. lia.
  Qed.
End Levels.
