(** The record splitter accepts exactly the grammar. *)
Require Import Verif.Bits Verif.Varint Verif.VarintSpec Verif.VarintProofs Verif.VarintFacts Verif.VarintMain.
Require Import Verif.Schema Verif.Archive Verif.Decode Verif.DecodeSafe Verif.Wire Verif.WireFacts.
Require Import Verif.DecodeSpec1 Verif.DecodeSpec2 Verif.DecodeSpec3 Verif.DecodeSpec4 Verif.DecodeLaws Verif.DecodeLaws2.
Require Import Verif.FieldSpec Verif.DecodeOcc Verif.WireGrammar.

Lemma tok_tag_reads tb tag rest : tag_reads tb tag -> tok_tag (tb ++ rest) = TOk (tb, tag, rest).
Proof.
  intros (Hv & Hl & Ht). unfold tok_tag. rewrite (scan_is_varint 5) by (auto; lia).
  rewrite firstn_app_len, skipn_app_len, Ht. reflexivity.
Qed.

Lemma tok_tag_sound bs tb tag rest : all_bytes bs -> tok_tag bs = TOk (tb, tag, rest) ->
  tag_reads tb tag /\ bs = tb ++ rest.
Proof.
  intros Hb H. destruct (tok_tag_ok _ _ _ _ H) as (n & Hs & Hn & Hl & Htb & Htag & Hrest & Happ).
  split; [|exact Happ]. destruct (scan_found _ _ _ Hb Hs) as (_ & Hn' & Hv). rewrite <- Htb in Hv.
  repeat split; auto. subst tb. rewrite firstn_length. lia.
Qed.

Lemma tag_nz tag : tag_type tag <> 0 -> tag <> 0.
Proof. intros H ->. apply H. reflexivity. Qed.

Lemma tok_pay_wt g tag bs : tag <> 0 ->
  tok_pay g tag bs =
  (if tag_type tag =? WT_VARINT then
    match scan 10 bs with Found n => TOk (firstn n bs, [], skipn n bs) | _ => TErr end
  else if tag_type tag =? WT_LEN then
    match scan 6 bs with
    | Found n =>
        '(p, rest) <~ tok_take (Z.to_nat (b128 (firstn n bs) mod 2 ^ 32)) (skipn n bs) ;; TOk (p, [], rest)
    | _ => TErr
    end
  else if tag_type tag =? WT_I64 then '(p, rest) <~ tok_take 8 bs ;; TOk (p, [], rest)
  else if tag_type tag =? WT_SGROUP then '(rs, rest) <~ g (tag_number tag) bs ;; TOk ([], rs, rest)
  else if tag_type tag =? WT_I32 then '(p, rest) <~ tok_take 4 bs ;; TOk (p, [], rest)
  else TErr).
Proof. intros H. unfold tok_pay. destruct (Z.eqb_spec tag 0); [congruence|reflexivity]. Qed.

Lemma may_nest_ok limit d : may_nest limit d <-> scope_ok limit d = true.
Proof. unfold may_nest, scope_ok. rewrite andb_true_iff, negb_true_iff, Z.leb_le, Z.eqb_neq. reflexivity. Qed.

Section Grammar.
  Context (maxd : Z).
  Notation tokB := (tokB maxd).
  Notation grpB := (grpB maxd).

  Lemma grammar_complete :
    (forall d tag p, payload maxd d tag p -> forall rest, exists q sub, tok_pay (grpB d) tag (p ++ rest) = TOk (q, sub, rest)) /\
    (forall d num p, group maxd d num p -> forall rest, exists rs, tokB (Some num) d (p ++ rest) = TOk (rs, rest)).
  Proof.
    apply payload_group_ind.
    - intros d tag p H0 Hw Hv Hl rest. rewrite tok_pay_wt, Hw by auto.
      change (WT_VARINT =? WT_VARINT) with true. cbv iota.
      rewrite (scan_is_varint 10) by (auto; lia). rewrite firstn_app_len, skipn_app_len. eauto.
    - intros d tag p Hw Hl rest. rewrite tok_pay_wt, Hw by (apply tag_nz; rewrite Hw; discriminate). cbn.
      rewrite tok_take_len by auto. cbn. eauto.
    - intros d tag lb p Hw Hv Hl Hb rest. rewrite tok_pay_wt, Hw by (apply tag_nz; rewrite Hw; discriminate).
      change (WT_LEN =? WT_VARINT) with false. change (WT_LEN =? WT_LEN) with true. cbv iota.
      rewrite <- app_assoc, (scan_is_varint 6) by (auto; lia). rewrite firstn_app_len, skipn_app_len, Hb.
      rewrite tok_take_len by (unfold zlen; lia). cbn. eauto.
    - intros d tag p Hw Hs Hg IH rest. rewrite tok_pay_wt, Hw by (apply tag_nz; rewrite Hw; discriminate).
      change (WT_SGROUP =? WT_VARINT) with false. change (WT_SGROUP =? WT_LEN) with false.
      change (WT_SGROUP =? WT_I64) with false. change (WT_SGROUP =? WT_SGROUP) with true. cbv iota.
      destruct (IH rest) as [rs Hrs]. unfold WireFacts.grpB. apply may_nest_ok in Hs. rewrite Hs, Hrs. cbn. eauto.
    - intros d tag p Hw Hl rest. rewrite tok_pay_wt, Hw by (apply tag_nz; rewrite Hw; discriminate). cbn.
      rewrite tok_take_len by auto. cbn. eauto.
    - intros d num tb tag Ht Hw Hn rest. pose proof (tok_tag_reads _ _ rest Ht) as K. rewrite tokB_eq.
      destruct (tb ++ rest) eqn:Kb; [destruct Ht as (Hv & _); destruct tb; [destruct Hv|discriminate]|]. rewrite <- Kb in *.
      rewrite K. cbn [tbind]. rewrite Hw, Hn, !Z.eqb_refl. cbn. eauto.
    - intros d num tb tag p rest Ht Hp IHp Hg IHg rest'. rewrite <- !app_assoc.
      pose proof (tok_tag_reads _ _ (p ++ rest ++ rest') Ht) as K. rewrite tokB_eq.
      destruct (tb ++ p ++ rest ++ rest') eqn:Kb; [destruct Ht as (Hv & _); destruct tb; [destruct Hv|discriminate]|]. rewrite <- Kb in *.
      rewrite K. cbn [tbind].
      replace (tag_type tag =? WT_EGROUP) with false
        by (inversion Hp; subst; match goal with H : tag_type tag = _ |- _ => rewrite H end; reflexivity).
      cbn [andb]. destruct (IHp (rest ++ rest')) as (q & sub & ->). cbn [tbind]. destruct (IHg rest') as (rs & ->). cbn. eauto.
  Qed.

  Lemma grammar_sound : forall n,
    (forall d tag bs q sub rest, (length bs < n)%nat -> all_bytes bs -> tok_pay (grpB d) tag bs = TOk (q, sub, rest) ->
       exists p, bs = p ++ rest /\ payload maxd d tag p) /\
    (forall d num bs rs rest, (length bs < n)%nat -> all_bytes bs -> tokB (Some num) d bs = TOk (rs, rest) ->
       exists p, bs = p ++ rest /\ group maxd d num p).
  Proof.
    induction n as [|n [IHp IHg]]; [split; intros; lia|].
    assert (Hgrp : forall d num bs rs rest, (length bs < S n)%nat -> all_bytes bs -> tokB (Some num) d bs = TOk (rs, rest) ->
       exists p, bs = p ++ rest /\ group maxd d num p).
    { intros d num bs rs rest Hl Hb H. rewrite tokB_eq in H. destruct bs as [|b t]; [discriminate|].
      destruct (tok_tag (b :: t)) as [[[tb tag] bs1]| | |] eqn:Kt; cbn [tbind] in H; try discriminate.
      destruct (tok_tag_sound _ _ _ _ Hb Kt) as [Ht Happ]. rewrite Happ in *. clear b t Kt Happ.
      apply all_bytes_app in Hb. destruct Hb as [_ Hb].
      assert (Hl1 : (length bs1 < n)%nat).
      { rewrite app_length in Hl. destruct Ht as (Hv & _). destruct tb; [destruct Hv|]. cbn in Hl. lia. }
      destruct ((tag_type tag =? WT_EGROUP) && (tag_number tag =? num)) eqn:Ke.
      - injection H as <- <-. apply andb_true_iff in Ke. destruct Ke as [K1 K2]. apply Z.eqb_eq in K1, K2.
        exists tb. split; [reflexivity|]. eapply GEnd; eauto.
      - destruct (tok_pay (grpB d) tag bs1) as [[[q sub] bs2]| | |] eqn:Kp; cbn [tbind] in H; try discriminate.
        destruct (tokB (Some num) d bs2) as [[rs2 rest2]| | |] eqn:K2; cbn [tbind] in H; try discriminate.
        injection H as <- <-.
        destruct (IHp _ _ _ _ _ _ Hl1 Hb Kp) as (p & -> & Hp). apply all_bytes_app in Hb. destruct Hb as [_ Hb].
        assert (Hl2 : (length bs2 < n)%nat) by (rewrite app_length in Hl1; lia).
        destruct (IHg _ _ _ _ _ Hl2 Hb K2) as (g & -> & Hg).
        exists (tb ++ p ++ g). rewrite <- !app_assoc. split; [reflexivity|]. eapply GField; eauto. }
    split; [|exact Hgrp].
    intros d tag bs q sub rest Hl Hb H. destruct (Z.eqb_spec tag 0) as [->|H0]; [discriminate|].
    rewrite tok_pay_wt in H by auto.
    destruct (Z.eqb_spec (tag_type tag) WT_VARINT) as [Hw|_].
    { destruct (scan 10 bs) as [| |m] eqn:K; try discriminate. injection H as <- <- <-.
      exists (firstn m bs). split; [symmetry; apply firstn_skipn|]. destruct (scan_found _ _ _ Hb K) as (_ & Hm & Hv).
      apply PVarint; auto. rewrite firstn_length. lia. }
    destruct (Z.eqb_spec (tag_type tag) WT_LEN) as [Hw|_].
    { destruct (scan 6 bs) as [| |m] eqn:K; try discriminate. apply tbind_ok in H. destruct H as [[p r] [H1 H]].
      injection H as <- <- <-. destruct (scan_found _ _ _ Hb K) as (Hm' & Hm & Hv).
      destruct (tok_take_ok _ _ _ _ H1) as [H2 H3]. exists (firstn m bs ++ p). rewrite <- app_assoc, <- H2.
      split; [symmetry; apply firstn_skipn|]. apply PLen; auto.
      - rewrite firstn_length. lia.
      - unfold zlen. rewrite H3, Z2Nat.id; [reflexivity|]. apply Z.mod_pos_bound. reflexivity. }
    destruct (Z.eqb_spec (tag_type tag) WT_I64) as [Hw|_].
    { apply tbind_ok in H. destruct H as [[p r] [H1 H]]. injection H as <- <- <-.
      destruct (tok_take_ok _ _ _ _ H1) as [H2 H3]. exists p. split; [exact H2|]. apply PI64; auto. }
    destruct (Z.eqb_spec (tag_type tag) WT_SGROUP) as [Hw|_].
    { apply tbind_ok in H. destruct H as [[rs r] [H1 H]]. injection H as <- <- <-.
      unfold WireFacts.grpB in H1. destruct (scope_ok maxd d) eqn:Ks; [|discriminate].
      destruct (Hgrp _ _ _ _ _ Hl Hb H1) as (p & -> & Hg). exists p. split; [reflexivity|]. apply PGroup; auto. apply may_nest_ok; auto. }
    destruct (Z.eqb_spec (tag_type tag) WT_I32) as [Hw|_]; [|discriminate].
    apply tbind_ok in H. destruct H as [[p r] [H1 H]]. injection H as <- <- <-.
    destruct (tok_take_ok _ _ _ _ H1) as [H2 H3]. exists p. split; [exact H2|]. apply PI32; auto.
  Qed.

  (** One field: one record. *)
  Lemma one_field_tok d num f : one_field maxd d num f -> forall rest,
    exists r, r_raw r = f /\ tag_number (r_tag r) = num /\
      tokB None d (f ++ rest) = ('(rs, x) <~ tokB None d rest ;; TOk (r :: rs, x)).
  Proof.
    intros (tb & tag & p & -> & Ht & Hn & Hp) rest.
    destruct (proj1 grammar_complete _ _ _ Hp rest) as (q & sub & K).
    exists (Rec tb tag p q sub). split; [reflexivity|]. split; [exact Hn|].
    rewrite <- app_assoc. rewrite tokB_eq. pose proof (tok_tag_reads _ _ (p ++ rest) Ht) as Kt.
    destruct (tb ++ p ++ rest) eqn:Kb; [destruct Ht as (Hv & _); destruct tb; [destruct Hv|discriminate]|]. rewrite <- Kb in *.
    rewrite Kt. cbn [tbind]. rewrite K. cbn [tbind]. rewrite used_app. reflexivity.
  Qed.

  Definition rec_num_raw (r : Wire.rec) : Z * bytes := (tag_number (r_tag r), r_raw r).

  Lemma fields_tok l : fields maxd l -> exists rs, tokB None 1 (bytes_of l) = TOk (rs, []) /\ map rec_num_raw rs = l.
  Proof.
    induction 1 as [|[num f] l Hf Hl (rs & IH1 & IH2)].
    - exists []. rewrite tokB_eq. split; reflexivity.
    - cbn [fst snd] in Hf. destruct (one_field_tok _ _ _ Hf (bytes_of l)) as (r & Hr1 & Hr2 & Hr).
      exists (r :: rs). unfold bytes_of. cbn [map concat snd]. fold (bytes_of l). rewrite Hr, IH1. cbn [tbind]. split; [reflexivity|].
      cbn [map]. rewrite IH2. unfold rec_num_raw. rewrite Hr1, Hr2. reflexivity.
  Qed.

  Lemma tok_fields : forall n bs rs, (length bs < n)%nat -> all_bytes bs -> tokB None 1 bs = TOk (rs, []) ->
    fields maxd (map rec_num_raw rs) /\ bs = bytes_of (map rec_num_raw rs).
  Proof.
    induction n as [|n IH]; intros bs rs Hl Hb H; [lia|]. rewrite tokB_eq in H.
    destruct bs as [|b t]; [injection H as <-; split; [constructor|reflexivity]|].
    destruct (tok_tag (b :: t)) as [[[tb tag] bs1]| | |] eqn:Kt; cbn [tbind] in H; try discriminate.
    destruct (tok_tag_sound _ _ _ _ Hb Kt) as [Ht Happ]. rewrite Happ in *. clear b t Kt Happ.
    apply all_bytes_app in Hb. destruct Hb as [_ Hb].
    destruct (tok_pay (grpB 1) tag bs1) as [[[q sub] bs2]| | |] eqn:Kp; cbn [tbind] in H; try discriminate.
    destruct (tokB None 1 bs2) as [[rs2 rest2]| | |] eqn:K2; cbn [tbind] in H; try discriminate.
    injection H as <- ->.
    destruct (proj1 (grammar_sound (S (length bs1))) _ _ _ _ _ _ (Nat.lt_succ_diag_r _) Hb Kp) as (p & -> & Hp).
    apply all_bytes_app in Hb. destruct Hb as [_ Hb].
    assert (Hl1 : (length bs2 < n)%nat).
    { rewrite !app_length in Hl. destruct Ht as (Hv & _). destruct tb; [destruct Hv|]. cbn in Hl. lia. }
    destruct (IH _ _ Hl1 Hb K2) as [Hf He]. rewrite used_app. cbn [map]. split.
    - constructor; [|exact Hf]. cbn. exists tb, tag, p. auto.
    - unfold bytes_of, r_raw. cbn [map concat snd rec_num_raw r_tb r_pb]. fold (bytes_of (map rec_num_raw rs2)).
      unfold r_raw. cbn [r_tb r_pb]. rewrite <- He, <- app_assoc. reflexivity.
  Qed.
End Grammar.
