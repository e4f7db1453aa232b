(** [short_stored] is enough for the decoder to agree with the record level specification. *)
Require Import Verif.Bits Verif.Varint Verif.VarintSpec Verif.VarintProofs Verif.VarintFacts Verif.VarintMain.
Require Import Verif.Schema Verif.Archive Verif.Decode Verif.DecodeSafe Verif.Wire Verif.WireFacts.
Require Import Verif.DecodeSpec1 Verif.DecodeSpec2 Verif.DecodeSpec3 Verif.DecodeSpec4 Verif.DecodeLaws Verif.DecodeLaws2.
Require Import Verif.FieldSpec Verif.DecodeOcc Verif.WireGrammar Verif.GrammarFacts Verif.WellTyped Verif.DecodeTerms Verif.DecodeMain Verif.DecodeWt.

Section Stored.
  Context (E : env) (utf8_ok : bytes -> bool) (limit : Z).
  Hypothesis Hse : safe_env E.
  Notation tokB := (tokB limit).
  Notation grpB := (grpB limit).
  Notation apb := (ap_body E utf8_ok limit).
  Notation aprs := (ap_recs E utf8_ok limit).

  Inductive rwf : Z -> Wire.rec -> Prop :=
  | RWF d tb tag pb p sub : tag_reads tb tag -> payload limit d tag pb -> all_bytes p ->
      (tag_type tag = WT_LEN -> exists lb, is_varint lb /\ pb = lb ++ p) ->
      (tag_type tag = WT_SGROUP -> exists eb, is_varint eb /\ pb = raws sub ++ eb) ->
      Forall (rwf (d + 1)) sub -> rwf d (Rec tb tag pb p sub).

  Lemma tok_rwf : forall n,
    (forall d tag bs q sub rest, (length bs < n)%nat -> all_bytes bs -> tok_pay (grpB d) tag bs = TOk (q, sub, rest) ->
       forall tb, tag_reads tb tag -> rwf d (Rec tb tag (used bs rest) q sub) /\ exists c, bs = c ++ rest) /\
    (forall d mode bs rs rest, (length bs < n)%nat -> all_bytes bs -> tokB mode d bs = TOk (rs, rest) -> Forall (rwf d) rs).
  Proof.
    induction n as [|n [IHp IHt]]; [split; intros; lia|].
    assert (Ht : forall d mode bs rs rest, (length bs < S n)%nat -> all_bytes bs -> tokB mode d bs = TOk (rs, rest) -> Forall (rwf d) rs).
    { intros d mode bs rs rest Hl Hb H. rewrite tokB_eq in H. destruct bs as [|b t].
      { destruct mode; [discriminate|]. injection H as <- <-. constructor. }
      apply tbind_ok in H. destruct H as [[[tb tag] bs1] [H1 H]]. destruct (tok_tag_sound _ _ _ _ Hb H1) as [Htr Happ].
      rewrite Happ in Hb, Hl. apply all_bytes_app in Hb. destruct Hb as [_ Hb].
      assert (Hl1 : (length bs1 < n)%nat).
      { rewrite app_length in Hl. destruct Htr as (Hv & _). apply varint_nonempty in Hv. lia. }
      destruct (match mode with Some num => _ | None => _ end); [injection H as <- <-; constructor|].
      apply tbind_ok in H. destruct H as [[[p sub] bs2] [H2 H]]. apply tbind_ok in H. destruct H as [[rs' r'] [H3 H]]. injection H as <- <-.
      destruct (IHp _ _ _ _ _ _ Hl1 Hb H2 _ Htr) as [Hr [c Hc]]. constructor; [exact Hr|].
      subst bs1. rewrite app_length in Hl1. apply all_bytes_app in Hb. eapply (IHt d mode bs2); [lia|apply Hb|exact H3]. }
    split; [|exact Ht].
    intros d tag bs q sub rest Hl Hb H tb Htr.
    destruct (proj1 (grammar_sound limit (S n)) _ _ _ _ _ _ Hl Hb H) as (pb & Happ & Hpb).
    split; [|eauto].
    assert (Htag0 : tag <> 0).
    { intros ->. unfold tok_pay in H. cbn in H. discriminate. }
    rewrite tok_pay_wt in H by exact Htag0. rewrite Happ, used_app.
    assert (Hbp : all_bytes pb) by (rewrite Happ in Hb; apply all_bytes_app in Hb; apply Hb).
    destruct (Z.eqb_spec (tag_type tag) WT_VARINT) as [K|K1].
    { destruct (scan 10 bs) eqn:Ks; try discriminate. injection H as <- <- <-.
      constructor; auto; [apply all_bytes_firstn; auto|rewrite K; discriminate|rewrite K; discriminate]. }
    destruct (Z.eqb_spec (tag_type tag) WT_LEN) as [K|K2].
    { destruct (scan 6 bs) eqn:Ks; try discriminate. apply tbind_ok in H. destruct H as [[q' r] [H1 H]]. injection H as <- <- <-.
      apply tok_take_ok in H1. destruct H1 as [H1 _]. destruct (scan_found _ _ _ Hb Ks) as (_ & _ & Hv).
      assert (Heq : pb = firstn n0 bs ++ q').
      { apply (app_inv_tail r). rewrite <- Happ, <- app_assoc, <- H1, firstn_skipn. reflexivity. }
      constructor; auto.
      - rewrite Heq in Hbp. apply all_bytes_app in Hbp. apply Hbp.
      - intros _. eauto.
      - rewrite K. discriminate. }
    destruct (Z.eqb_spec (tag_type tag) WT_I64) as [K|K3].
    { apply tbind_ok in H. destruct H as [[q' r] [H1 H]]. injection H as <- <- <-. apply tok_take_ok in H1. destruct H1 as [H1 H2].
      rewrite H1 in Happ. apply app_inv_tail in Happ. subst q'. constructor; auto; rewrite K; discriminate. }
    destruct (Z.eqb_spec (tag_type tag) WT_SGROUP) as [K|K4].
    { apply tbind_ok in H. destruct H as [[rs r] [H1 H]]. injection H as <- <- <-. unfold WireFacts.grpB in H1.
      destruct (scope_ok limit d); [|discriminate]. pose proof (Ht _ _ _ _ _ Hl Hb H1) as Hrs.
      apply tok_raws in H1. destruct H1 as (e & H1 & tag' & H2 & _).
      rewrite H1 in Hb. rewrite H1, app_assoc in Happ. apply app_inv_tail in Happ. subst pb. apply all_bytes_app in Hb. destruct Hb as [_ Hb].
      destruct (tok_tag_sound _ _ _ _ Hb H2) as [(Hv & _) _].
      constructor; auto; [constructor|rewrite K; discriminate|]. intros _. eauto. }
    destruct (Z.eqb_spec (tag_type tag) WT_I32) as [K|K5]; [|discriminate].
    apply tbind_ok in H. destruct H as [[q' r] [H1 H]]. injection H as <- <- <-. apply tok_take_ok in H1. destruct H1 as [H1 H2].
    rewrite H1 in Happ. apply app_inv_tail in Happ. subst q'. constructor; auto; rewrite K; discriminate.
  Qed.

  Lemma rwf_fields d rs : Forall (rwf d) rs -> fields_at limit d (map rec_num_raw rs) /\ bytes_of (map rec_num_raw rs) = raws rs.
  Proof.
    induction 1 as [|r rs Hr Hrs [IH1 IH2]]; [split; [constructor|reflexivity]|]. split.
    - cbn [map]. constructor; [|exact IH1]. destruct Hr as [d tb tag pb p sub Ht Hp _ _ _ _]. exists tb, tag, pb. auto.
    - unfold bytes_of in *. cbn [map concat]. rewrite IH2. reflexivity.
  Qed.

  Lemma rwf_has d rs r : Forall (rwf d) rs -> In r rs -> has_field (raws rs) (r_tb r) (r_tag r) (r_pb r).
  Proof.
    intros H Hin. apply in_split in Hin. destruct Hin as (l1 & l2 & ->).
    apply Forall_app in H. destruct H as [H1 H2]. inversion H2 as [|? ? Hr H3]; subst.
    destruct (rwf_fields _ _ H1) as [F1 B1]. destruct (rwf_fields _ _ H3) as [F3 B3].
    exists limit, d, (map rec_num_raw l1), (map rec_num_raw l2). split; [exact F1|]. split; [exact F3|].
    destruct Hr as [d tb tag pb p sub Ht Hp _ _ _ _]. cbn [r_tb r_tag r_pb]. split; [exact Ht|]. split; [exact Hp|].
    rewrite B1, B3. unfold raws. rewrite map_app, concat_app. reflexivity.
  Qed.

  Section NoDev.
    Variable body : nat -> Z -> state -> list Wire.rec -> tres state.
    Hypothesis Hbody : forall ty d st rs, Forall (rwf d) rs -> short_stored E ty (raws rs) -> body ty d st rs <> TDev.

    Lemma ap_value_nd e cur d r ty rs : Forall (rwf d) rs -> In r rs -> short_stored E ty (raws rs) ->
      reads_as E ty (tag_number (r_tag r)) e -> ap_value E utf8_ok limit body e cur d r <> TDev.
    Proof.
      intros Hrs Hin Hsh Hre. pose proof (rwf_has _ _ _ Hrs Hin) as Hhas. pose proof (proj1 (Forall_forall _ _) Hrs _ Hin) as Hr.
      unfold ap_value. destruct (Z.eqb_spec (tag_type (r_tag r)) (elem_wt e)) as [Kt|]; cbn [negb]; [|discriminate]. destruct e; try discriminate.
      - destruct (_ <=? _)%nat; discriminate.
      - destruct (_ && _); discriminate.
      - destruct Hr as [d tb tag pb p sub Ht Hp Hbp Hlen Hgrp Hsub]. cbn [r_tag r_tb r_pb] in *.
        unfold ap_message. cbv zeta. cbn [r_pay r_sub]. destruct delim; cbn [elem_wt] in Kt.
        + apply tbind_not_dev; [|intros [? ?]; discriminate]. destruct (Hgrp Kt) as (eb & Hv & ->). apply Hbody; [exact Hsub|].
          intros tb' Htb'. apply Hsh. eapply STGroup; eauto.
        + destruct (_ && _); [discriminate|]. destruct (negb _); [discriminate|].
          destruct (tokB None (d + 1) p) as [[rs' rest]| | |] eqn:K; cbn [tbind]; try discriminate.
          * apply tbind_not_dev; [|intros [? ?]; discriminate].
            pose proof (proj2 (tok_rwf (S (length p))) _ _ _ _ _ (Nat.lt_succ_diag_r _) Hbp K) as Hrs'.
            destruct (tok_raws _ _ _ _ _ _ _ K) as (e & Hpe & -> & ->). rewrite !app_nil_r in Hpe.
            apply Hbody; [exact Hrs'|]. rewrite <- Hpe. intros tb' Htb'. destruct (Hlen Kt) as (lb & Hv & Hpl). subst pb.
            apply Hsh. eapply STMsg; eauto.
          * exfalso. exact (tokB_no_dev limit _ _ _ _ (Nat.lt_succ_diag_r _) K).
    Qed.

    Lemma ap_field_nd f d cur u r ty i rs : Forall (rwf d) rs -> In r rs -> short_stored E ty (raws rs) ->
      member E ty (tag_number (r_tag r)) i f -> field_safe (m_unk (desc_of E ty)) f ->
      ap_field E utf8_ok limit body (m_unk (desc_of E ty)) f d cur u r <> TDev.
    Proof.
      intros Hrs Hin Hsh Hm Hs.
      assert (Hv : forall e cur, reads_as E ty (tag_number (r_tag r)) e -> ap_value E utf8_ok limit body e cur d r <> TDev).
      { intros e c He. eapply ap_value_nd; eauto. }
      unfold ap_field. destruct f as [num e [ex dv| |pk|assoc]|alts].
      - assert (He : reads_as E ty (tag_number (r_tag r)) e) by (exists i; eexists; split; [exact Hm|reflexivity]).
        apply tbind_not_dev; [apply Hv; exact He|]. intros x. destruct e as [| | |[l|]| |]; try discriminate.
        destruct (ex && _); discriminate.
      - assert (He : reads_as E ty (tag_number (r_tag r)) e) by (exists i; eexists; split; [exact Hm|reflexivity]).
        apply tbind_not_dev; [apply Hv; exact He|]. intros x. destruct e as [| | |[l|]| |]; try discriminate.
        destruct (enum_valid _ _); [discriminate|]. rewrite unknown_enum_eq by (apply Hs; reflexivity). discriminate.
      - assert (He : reads_as E ty (tag_number (r_tag r)) e) by (exists i; eexists; split; [exact Hm|reflexivity]).
        destruct (packable e && _).
        + unfold ap_packed. destruct e; try discriminate.
          * destruct (varints _ _ _); discriminate.
          * destruct (varints _ _ _); discriminate.
          * cbv zeta. destruct (_ =? 0); discriminate.
          * destruct (varints _ _ _); [|discriminate]. rewrite filter_enum_eq; [discriminate|].
            intros Hc. apply Hs. destruct closed; [reflexivity|congruence].
        + apply tbind_not_dev; [apply Hv; exact He|]. intros x. destruct e as [| | |[l|]| |]; try discriminate.
          cbv zeta. destruct (enum_valid _ _); [discriminate|]. rewrite unknown_enum_eq by (apply Hs; reflexivity). discriminate.
      - assert (He : reads_as E ty (tag_number (r_tag r)) e) by (exists i; eexists; split; [exact Hm|reflexivity]).
        apply tbind_not_dev; [apply Hv; exact He|]. intros x; discriminate.
      - destruct (find_alt _ _ _) as [[j e]|] eqn:Ka; [|discriminate]. cbv zeta.
        apply tbind_not_dev; [apply Hv; exists i, (Oneof alts); split; [exact Hm|exists j; exact Ka]|]. intros x.
        replace (is_closed e) with false; [discriminate|]. cbn [field_safe] in Hs. symmetry.
        apply find_alt_nth in Ka. destruct Ka as [_ Ka]. apply nth_error_In in Ka. rewrite Forall_forall in Hs. apply (Hs _ Ka).
    Qed.

    Lemma ap_recs_nd ty d rs0 rs : Forall (rwf d) rs0 -> (forall r, In r rs -> In r rs0) -> short_stored E ty (raws rs0) ->
      forall st, aprs body ty d st rs <> TDev.
    Proof.
      intros Hrs0 Hin Hsh. induction rs as [|r t IH]; intros st; [discriminate|]. cbn [ap_recs].
      apply tbind_not_dev; [|apply IH; intros r' Hr'; apply Hin; right; exact Hr'].
      pose proof (Hin r (or_introl eq_refl)) as Hr.
      unfold ap_rec. destruct st as [fs u]. cbv zeta. destruct (Z.eqb_spec (tag_number (r_tag r)) 0) as [|Hnz]; [discriminate|].
      destruct (find_field _ _ _) as [[i f]|] eqn:Kf.
      - apply tbind_not_dev; [|intros [? ?]; discriminate]. eapply ap_field_nd; eauto.
        exact (find_field_safe E Hse _ _ _ _ Kf).
      - assert (Hu : ap_unknown (m_unk (desc_of E ty)) u r <> TDev).
        { unfold ap_unknown. pose proof (rwf_has _ _ _ Hrs0 Hr) as Hhas. pose proof (proj1 (Forall_forall _ _) Hrs0 _ Hr) as Hw.
          assert (K : m_unk (desc_of E ty) <> UNone -> zlen (r_tb r) = varint_size_u (r_tag r)).
          { intros Hk. apply shortest_size; [destruct Hw; auto|]. apply Hsh. eapply STHere; eauto.
            split; [exact Hnz|]. eapply find_field_none_inv; eauto. }
          destruct (m_unk (desc_of E ty)); try discriminate; rewrite K, Z.eqb_refl by discriminate; discriminate. }
        destruct (ap_unknown _ _ _); try discriminate. congruence.
    Qed.
  End NoDev.

  Lemma ap_body_nd f : forall ty d st rs, Forall (rwf d) rs -> short_stored E ty (raws rs) -> apb f ty d st rs <> TDev.
  Proof.
    induction f as [|f IH]; intros ty d st rs Hrs Hsh; [discriminate|]. cbn [ap_body]. eapply ap_recs_nd; eauto.
  Qed.

  Lemma exact_stored ty cur bs : all_bytes bs -> short_stored E ty bs -> exact_unknown E utf8_ok limit ty cur bs.
  Proof.
    intros Hb Hsh. unfold exact_unknown, spec_decode. destruct (negb _); [discriminate|].
    destruct (tokB None 1 bs) as [[rs rest]| | |] eqn:K; cbn [tbind]; try discriminate.
    - pose proof (proj2 (tok_rwf (S (length bs))) _ _ _ _ _ (Nat.lt_succ_diag_r _) Hb K) as Hrs.
      destruct (tok_raws _ _ _ _ _ _ _ K) as (e & Hpe & -> & ->). rewrite !app_nil_r in Hpe.
      apply tbind_not_dev; [|intros [? ?]; discriminate]. apply ap_body_nd; [exact Hrs|]. rewrite <- Hpe. exact Hsh.
    - exfalso. exact (tokB_no_dev limit _ _ _ _ (Nat.lt_succ_diag_r _) K).
  Qed.
End Stored.

(** A simple test that implies [short_stored]: no byte with the continuation bit
    is followed by a zero byte. *)
Fixpoint no_pad (bs : bytes) : bool :=
  match bs with
  | [] => true
  | a :: t => match t with b :: _ => negb ((128 <=? a) && (b =? 0)) | [] => true end && no_pad t
  end.

Lemma no_pad_cons a t : no_pad (a :: t) = true -> no_pad t = true.
Proof. cbn [no_pad]. rewrite andb_true_iff. tauto. Qed.
Lemma no_pad_suffix p q : no_pad (p ++ q) = true -> no_pad q = true.
Proof. induction p as [|a p IH]; [auto|]. intros H. apply IH. eapply no_pad_cons. exact H. Qed.
Lemma no_pad_prefix p q : no_pad (p ++ q) = true -> no_pad p = true.
Proof.
  induction p as [|a p IH]; intros H; [reflexivity|]. cbn [app no_pad] in *.
  rewrite andb_true_iff in *. destruct H as [H1 H2]. split; [|apply IH; exact H2]. destruct p; [reflexivity|exact H1].
Qed.
Lemma no_pad_infix p m q : no_pad (p ++ m ++ q) = true -> no_pad m = true.
Proof. intros H. eapply no_pad_prefix. eapply no_pad_suffix. exact H. Qed.

Lemma no_pad_shortest tb : is_varint tb -> no_pad tb = true -> shortest tb.
Proof.
  intros Hv Hn. unfold shortest. destruct (Nat.eq_dec (length tb) 1) as [|H1]; [auto|]. right; right.
  revert Hv Hn H1. induction tb as [|a [|b t] IH]; intros Hv Hn Hl; [destruct Hv|cbn in Hl; lia|].
  destruct t as [|c t].
  - cbn [no_pad last] in *. cbn [is_varint] in Hv. intros ->. rewrite (proj2 (Z.leb_le 128 a)) in Hn by lia. discriminate.
  - change (last (a :: b :: c :: t) 0) with (last (b :: c :: t) 0). apply IH; [apply Hv|eapply no_pad_cons; exact Hn|cbn; lia].
Qed.

Lemma stored_no_pad E ty bs tb : stored_tag E ty bs tb -> no_pad bs = true -> is_varint tb /\ no_pad tb = true.
Proof.
  assert (Hf : forall bs tb tag p, has_field bs tb tag p -> no_pad bs = true -> is_varint tb /\ no_pad (tb ++ p) = true).
  { intros bs0 tb0 tag p (limit & d & pre & post & _ & _ & (Hv & _) & _ & ->) Hn. split; [exact Hv|]. eapply no_pad_infix. exact Hn. }
  induction 1 as [ty bs tb tag p Hh _ _|ty bs tb tag lb c ty' tb' Hh _ _ _ _ IH|ty bs tb tag c eb ty' tb' Hh _ _ _ _ IH]; intros Hn.
  - destruct (Hf _ _ _ _ Hh Hn) as [H1 H2]. split; [exact H1|]. eapply no_pad_prefix. exact H2.
  - destruct (Hf _ _ _ _ Hh Hn) as [_ H2]. apply IH. apply no_pad_suffix in H2. apply no_pad_suffix in H2. exact H2.
  - destruct (Hf _ _ _ _ Hh Hn) as [_ H2]. apply IH. apply no_pad_suffix in H2. apply no_pad_prefix in H2. exact H2.
Qed.

Lemma no_pad_short E ty bs : no_pad bs = true -> short_stored E ty bs.
Proof. intros Hn tb H. destruct (stored_no_pad _ _ _ _ H Hn). apply no_pad_shortest; auto. Qed.

Lemma keeps_nothing_short E ty bs : keeps_nothing E -> short_stored E ty bs.
Proof.
  intros Hk tb H. exfalso. induction H as [ty bs tb tag p _ _ H| |]; auto.
Qed.
