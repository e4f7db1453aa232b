(** Unpacked repeated fields: counting and decoding the elements through an
    archive that satisfies the laws agrees with the reference archive. *)
Require Import Verif.Bits Verif.Varint Verif.VarintSpec Verif.VarintFacts.
Require Import Verif.Schema Verif.Archive Verif.Decode Verif.DecodeSafe Verif.DecodeSpec1.
Require Import Verif.SimLaws Verif.SimSkip Verif.SimValue.
Local Open Scope nat_scope.

Section Rep.
  Context {A : Type} (AR : aops A) (T : bytes) (E : env) (utf8_ok : bytes -> bool) (maxd : Z).
  Context (St : bool -> nat -> nat -> A -> Prop) (Tg : bool -> Z -> nat -> nat -> A -> Prop)
          (Ln : bool -> nat -> nat -> A -> Prop) (L : laws AR T St Tg Ln).
  Notation zz := (zz T). Notation slice := (slice T).
  Notation rel := (rel AR T St). Notation reld := (reld AR T St). Notation rel_skip := (rel_skip T St).
  Notation safe_over := (safe_over St).
  Let sta := st_avail AR T St Tg Ln L. Let stl := st_lim AR T St Tg Ln L.
  Let stp := st_pos AR T St Tg Ln L.
  Let tgs := tg_st AR T St Tg Ln L. Let lns := ln_st AR T St Tg Ln L.

  Lemma bad_bind {X Y} x e (r : res X) (k : X -> res Y) : bad x e r -> bad x e (bind r k).
  Proof. destruct x; cbn; [intros ->; reflexivity|apply is_err_bind]. Qed.

  Lemma zz_inj lim p q : p <= lim -> q <= lim -> lim <= length T -> zz lim p = zz lim q -> p = q.
  Proof.
    intros Hp Hq Hl H. apply (f_equal (fun z => zlen (za z))) in H. rewrite !zz_avail in H by lia. lia.
  Qed.

  Section One.
    Variables (f : nat) (e : elem) (tag depth : Z).
    Variables (onez : list val -> list (Z * bytes) -> zip -> res (list val * list (Z * bytes) * zip))
              (onea : list val -> list (Z * bytes) -> A -> res (list val * list (Z * bytes) * A)).
    Hypothesis Htag : tag <> 0%Z.
    Hypothesis Hwt : tag_type tag = elem_wt e.
    Hypothesis Hone : forall x cur unk lim p a, Tg x tag lim p a -> length T - p < f ->
      rel (okov AR St x e) x lim p (onez cur unk (zz lim p)) (onea cur unk a).
    (* decoding an element ends where skipping it ends *)
    Hypothesis Hsame : forall cur unk lim p y z', lim <= length T -> length T - p < f ->
      onez cur unk (zz lim p) = Ok (y, z') -> skip_one zops maxd f depth tag (zz lim p) = Ok z'.
    Hypothesis Hsafe : forall cur unk lim p, lim <= length T -> length T - p < f ->
      oe (fun _ => True) (onez cur unk (zz lim p)).
    Hypothesis Hstate : elem_wt e = WT_VARINT -> forall x lim p a cur unk y a', Tg x tag lim p a ->
      onea cur unk a = Ok (y, a') -> skip_one AR maxd f depth tag a = Ok a'.
    Hypothesis Hno : elem_wt e <> WT_SGROUP -> elem_wt e <> WT_VARINT -> forall x lim p q a cur unk y a', Tg x tag lim p a -> length T - p < f ->
      skip_one zops maxd f depth tag (zz lim p) = Ok (zz lim q) -> p <= q -> q <= lim ->
      onea cur unk a = Ok (y, a') -> (0 <= a_avail AR a')%Z.
    Hypothesis Hgrp : elem_wt e = WT_SGROUP -> forall cur unk a, (a_avail AR a < 0)%Z -> 0 < f -> is_err (onea cur unk a).

    Notation ca k a := (count_loop AR maxd k f depth tag a).
    Notation cz k z := (count_loop zops maxd k f depth tag z).
    Definition zrun (k : nat) (z : zip) cur unk := n <- cz k z ;; dec_elements zops onez n cur unk z.

    Lemma dec_elements_1 {B} (BR : aops B) one cur unk (b : B) : dec_elements BR one 1 cur unk b = one cur unk b.
    Proof. cbn [dec_elements]. destruct (one cur unk b) as [[[? ?] ?]| | | |]; reflexivity. Qed.
    Lemma dec_elements_SS {B} (BR : aops B) one n cur unk (b : B) : dec_elements BR one (S (S n)) cur unk b =
      ('(cur1, unk1, b1) <- one cur unk b ;; '(_, b2) <- a_tag BR b1 ;; dec_elements BR one (S n) cur1 unk1 b2).
    Proof. reflexivity. Qed.

    Lemma count_pos {B} (BR : aops B) k b c : count_loop BR maxd k f depth tag b = Ok c -> exists c', c = S c'.
    Proof.
      destruct k; cbn [count_loop]; [discriminate|]. destruct (skip_one _ _ _ _ _ _) as [b1| | | |]; cbn [bind]; try discriminate.
      destruct (_ =? 0)%Z; [intros [= <-]; eauto|].
      destruct (a_tag BR b1) as [[t b2]| | | |]; cbn [bind]; try discriminate.
      destruct (t =? tag)%Z; [|intros [= <-]; eauto].
      destruct (count_loop _ _ _ _ _ _ b2); cbn [bind]; try discriminate. intros [= <-]; eauto.
    Qed.

    (** One round of counting over the reference archive. *)
    Lemma cz_end k lim p q : lim <= length T -> p <= q -> q <= lim ->
      skip_one zops maxd f depth tag (zz lim p) = Ok (zz lim q) ->
      (q = lim \/ forall w kk, shift_mix SMTAG (slice q lim) = POk w kk -> wrapU 32 w <> tag) ->
      cz (S k) (zz lim p) = Ok 1.
    Proof.
      intros Hl Hpq Hq Hs Ho. cbn [count_loop]. rewrite Hs. cbn [bind a_avail a_tag zops]. rewrite zz_avail by lia.
      destruct (Z.eqb_spec (Z.of_nat lim - Z.of_nat q) 0); [reflexivity|].
      destruct Ho as [->|Ho]; [lia|]. unfold z_tag. cbn [za SimLaws.zz].
      destruct (shift_mix SMTAG (slice q lim)) as [| |w kk] eqn:F; cbn [z_parse bind].
      1, 2: destruct (Z.eqb_spec 0 tag); [congruence|reflexivity].
      destruct (Z.eqb_spec (wrapU 32 w) tag); [exfalso; eapply Ho; eauto|reflexivity].
    Qed.
    Lemma cz_next k lim p q w kk : lim <= length T -> p <= q -> q < lim ->
      skip_one zops maxd f depth tag (zz lim p) = Ok (zz lim q) ->
      shift_mix SMTAG (slice q lim) = POk w kk -> wrapU 32 w = tag ->
      cz (S k) (zz lim p) = (c <- cz k (zz lim (q + kk)) ;; Ok (S c)).
    Proof.
      intros Hl Hpq Hq Hs F Hw. cbn [count_loop]. rewrite Hs. cbn [bind a_avail a_tag zops]. rewrite zz_avail by lia.
      destruct (Z.eqb_spec (Z.of_nat lim - Z.of_nat q) 0); [lia|]. unfold z_tag. cbn [za SimLaws.zz]. rewrite F.
      pose proof (sm_tag_len T _ _ _ _ Hl F). cbn [z_parse bind]. rewrite zz_adv by lia.
      rewrite Hw, Z.eqb_refl. reflexivity.
    Qed.
    Lemma ztag_next lim q w kk : lim <= length T ->
      shift_mix SMTAG (slice q lim) = POk w kk -> a_tag zops (zz lim q) = Ok (wrapU 32 w, zz lim (q + kk)).
    Proof.
      intros Hl F. cbn [a_tag zops]. unfold z_tag. cbn [za SimLaws.zz]. rewrite F.
      pose proof (sm_tag_len T _ _ _ _ Hl F). cbn [z_parse]. rewrite zz_adv by lia. reflexivity.
    Qed.

    Lemma zrun_end k lim p q cur unk : lim <= length T -> p <= q -> q <= lim ->
      skip_one zops maxd f depth tag (zz lim p) = Ok (zz lim q) ->
      (q = lim \/ forall w kk, shift_mix SMTAG (slice q lim) = POk w kk -> wrapU 32 w <> tag) ->
      zrun (S k) (zz lim p) cur unk = onez cur unk (zz lim p).
    Proof. intros. unfold zrun. rewrite (cz_end k lim p q) by auto. cbn [bind]. apply dec_elements_1. Qed.

    Lemma zrun_next k lim p q w kk cur unk cur1 unk1 : lim <= length T -> p <= q -> q < lim ->
      skip_one zops maxd f depth tag (zz lim p) = Ok (zz lim q) ->
      shift_mix SMTAG (slice q lim) = POk w kk -> wrapU 32 w = tag ->
      onez cur unk (zz lim p) = Ok (cur1, unk1, zz lim q) ->
      zrun (S k) (zz lim p) cur unk = zrun k (zz lim (q + kk)) cur1 unk1.
    Proof.
      intros Hl Hpq Hq Hs F Hw H1. unfold zrun. rewrite (cz_next k lim p q w kk) by auto.
      destruct (cz k (zz lim (q + kk))) as [c| | | |] eqn:Kc; cbn [bind]; auto.
      destruct (count_pos _ _ _ _ Kc) as [c' ->]. rewrite dec_elements_SS, H1. cbn [bind].
      rewrite (ztag_next lim q w kk Hl F). reflexivity.
    Qed.

    Lemma slice_le lim p : lim <= length T -> length (slice p lim) <= length T - p.
    Proof. intros H. rewrite slice_len by lia. lia. Qed.

    Lemma zrun_one_err k lim p cur unk : lim <= length T -> length T - p < k -> length T - p < f ->
      is_err (onez cur unk (zz lim p)) -> is_err (zrun k (zz lim p) cur unk).
    Proof.
      intros Hl Hk Hf [er He]. unfold zrun.
      pose proof (count_loop_safe maxd k f depth tag (zz lim p)) as Hc. cbn [za SimLaws.zz] in Hc.
      pose proof (slice_le lim p Hl). specialize (Hc ltac:(lia) ltac:(lia)).
      destruct (cz k (zz lim p)) as [c|er'| | |] eqn:Kc; cbn [oe] in Hc; try tauto; cbn [bind]; eauto.
      destruct (count_pos _ _ _ _ Kc) as [c' ->]. cbn [dec_elements]. rewrite He. cbn. eauto.
    Qed.

    Lemma count_exact : forall k lim p a, Tg true tag lim p a -> length T - p < k -> length T - p < f ->
      cz k (zz lim p) = ca k a.
    Proof.
      induction k as [|k IH]; intros lim p a HT Hk Hf; [lia|].
      pose proof (stl _ _ _ _ (tgs _ _ _ _ _ HT)) as Hl.
      pose proof (skip_one_rel AR T maxd St Tg Ln L true f depth tag lim p a HT Hf) as Hs.
      cbn [count_loop]. destruct (skip_one AR maxd f depth tag a) as [a1|er| | |]; cbn [SimSkip.rel_skip bind] in *; try tauto.
      2: { cbn in Hs. rewrite Hs. reflexivity. }
      destruct Hs as [(q & Hq & Hq' & -> & HS)|(Hx & _)]; [|discriminate]. cbn [bind].
      rewrite (sta _ _ _ _ HS). cbn [a_avail a_tag zops]. rewrite zz_avail by lia.
      destruct (Z.eqb_spec (Z.of_nat lim - Z.of_nat q) 0); [reflexivity|].
      destruct (l_tag _ _ _ _ _ L _ _ _ _ HS) as (v & a2 & Ht & K). rewrite Ht. unfold z_tag. cbn [za SimLaws.zz].
      destruct (shift_mix SMTAG (slice q lim)) as [| |w kk] eqn:F; cbn [z_parse bind].
      1, 2: destruct K as [[-> _]|[Hx _]]; [|discriminate]; destruct (Z.eqb_spec 0 tag); [congruence|reflexivity].
      destruct K as [-> K]. pose proof (sm_tag_len T _ _ _ _ Hl F).
      destruct (Z.eqb_spec (wrapU 32 w) tag) as [Ev|]; [|reflexivity]. rewrite zz_adv by lia.
      rewrite Ev in K. rewrite (IH lim (q + kk) a2) by (auto; lia). reflexivity.
    Qed.

    (** Beyond the limit an element is never accepted, except varints, which only
        overrun further. *)
    Lemma over_tag x lim q a : St x lim q a -> lim < q -> exists v a2, a_tag AR a = Ok (v, a2) /\ (a_avail AR a2 < 0)%Z /\
      (v = 0%Z \/ exists q', q < q' /\ lim < q' /\ Tg false v lim q' a2).
    Proof.
      intros HS Hq. destruct (l_tag _ _ _ _ _ L _ _ _ _ HS) as (v & a2 & Ht & K).
      rewrite slice_nil in K by lia. cbn [shift_mix next] in K.
      exists v, a2. split; [auto|]. destruct K as [[-> K]|(_ & _ & q' & H1 & H2 & K)].
      - split; [lia|auto].
      - split; [rewrite (sta _ _ _ _ (tgs _ _ _ _ _ K)); lia|right; eauto].
    Qed.

    Lemma skip_over lim p a : Tg false tag lim p a -> lim < p -> length T - p < f -> elem_wt e <> WT_VARINT ->
      is_err (skip_one AR maxd f depth tag a).
    Proof.
      intros HT Hp Hf Hv. pose proof (tgs _ _ _ _ _ HT) as HS. unfold skip_one, do_skip_field.
      destruct (Z.eqb_spec tag 0); [congruence|]. rewrite Hwt.
      destruct (Z.eqb_spec (elem_wt e) WT_VARINT); [congruence|].
      assert (Hsk : forall x q b n, St x lim q b -> lim < q -> (0 <= n)%Z -> is_err (a_skip AR n b)).
      { intros x q b m Hb Hq Hm. pose proof (l_skip _ _ _ _ _ L _ m _ _ _ Hb Hm) as K.
        replace (_ <=? _)%Z with false in K by lia. rewrite K. auto. }
      destruct (_ =? WT_LEN)%Z.
      { destruct (len_cases AR T utf8_ok St Tg Ln L _ _ _ _ _ HT) as [H1 _|len q a1 H1 _ H0 _ Hq Hq' HL|len k a1 _ _ _ _ Hk _]; [| |lia]; rewrite H1; cbn [bind]; auto.
        eapply Hsk; [apply lns; eauto|auto|auto]. }
      destruct (_ =? WT_I64)%Z; [eapply Hsk; eauto; lia|].
      destruct (_ =? WT_SGROUP)%Z.
      { unfold do_skip_group. destruct (scope_ok _ _); [|auto]. destruct f; [lia|]. cbn [skip_group_loop].
        rewrite (sta _ _ _ _ HS). replace (_ <=? 0)%Z with true by lia. auto. }
      destruct (_ =? WT_I32)%Z; [eapply Hsk; eauto; lia|]. auto.
    Qed.

    Lemma varint_over : elem_wt e = WT_VARINT -> forall k cur unk lim p a, Tg false tag lim p a -> length T - p < k -> length T - p < f ->
      (forall a1, skip_one AR maxd f depth tag a = Ok a1 -> exists q, p < q /\ lim < q /\ St false lim q a1) ->
      match ca k a with
      | Ok n => match dec_elements AR onea n cur unk a with
                | Ok (_, a') => (a_avail AR a' < 0)%Z
                | Err _ => True
                | _ => False
                end
      | Err _ => True
      | _ => False
      end.
    Proof.
      intros Hv. induction k as [|k IH]; intros cur unk lim p a HT Hk Hf Ho; [lia|].
      pose proof (skip_one_rel AR T maxd St Tg Ln L false f depth tag lim p a HT Hf) as Hs.
      assert (H1 : match onea cur unk a with Ok (_, a1) => skip_one AR maxd f depth tag a = Ok a1 | Err _ => True | _ => False end).
      { pose proof (Hone _ cur unk _ _ _ HT Hf) as Hr. destruct (onea cur unk a) as [[y a1]| | | |] eqn:K; cbn [SimValue.rel] in Hr; auto.
        eapply Hstate; eauto. }
      cbn [count_loop]. destruct (skip_one AR maxd f depth tag a) as [a1|er| | |]; cbn [SimSkip.rel_skip bind] in *; try tauto.
      clear Hs. destruct (Ho _ eq_refl) as (q & Hq & Hq' & HS). rewrite (sta _ _ _ _ HS).
      destruct (Z.eqb_spec (Z.of_nat lim - Z.of_nat q) 0); [lia|].
      destruct (over_tag _ _ _ _ HS Hq') as (v & a2 & Ht & Hav & Hor). rewrite Ht. cbn [bind].
      assert (Hend : match dec_elements AR onea 1 cur unk a with Ok (_, a') => (a_avail AR a' < 0)%Z | Err _ => True | _ => False end).
      { rewrite dec_elements_1. destruct (onea cur unk a) as [[y a1']| | | |]; auto. injection H1 as <-. rewrite (sta _ _ _ _ HS). lia. }
      destruct (Z.eqb_spec v tag) as [->|]; [|exact Hend].
      destruct Hor as [->|(q' & Hqq & Hqq' & K)]; [congruence|].
      pose proof (stp _ _ _ _ (tgs _ _ _ _ _ K)). pose proof (stp _ _ _ _ HS).
      assert (Hnx : forall cur unk, match ca k a2 with
        | Ok n => match dec_elements AR onea n cur unk a2 with Ok (_, a') => (a_avail AR a' < 0)%Z | Err _ => True | _ => False end
        | Err _ => True | _ => False end).
      { intros c u. apply (IH c u lim q'); auto; try lia. intros a3 H3.
        pose proof (skip_one_rel AR T maxd St Tg Ln L false f depth tag lim q' a2 K ltac:(lia)) as Hs. rewrite H3 in Hs.
        cbn [SimSkip.rel_skip] in Hs. destruct Hs as [(r & ? & ? & _)|(_ & _ & r & ? & ? & ?)]; [lia|eauto]. }
      pose proof (Hnx cur unk) as Hn0.
      destruct (ca k a2) as [c| | | |] eqn:Kc; cbn [bind]; auto.
      destruct (count_pos _ _ _ _ Kc) as [c' ->]. rewrite dec_elements_SS.
      destruct (onea cur unk a) as [[[c1 u1] a1']| | | |]; cbn [bind]; auto. injection H1 as <-.
      rewrite Ht. cbn [bind]. apply Hnx.
    Qed.

    Lemma badd_err {X} x (r : res (X * zip)) er : bad x er r -> badd x er r.
    Proof. apply bad_badd. Qed.

    Lemma rep_rel x : forall k cur unk lim p a b, Tg x tag lim p a -> Tg x tag lim p b ->
      (elem_wt e = WT_VARINT -> b = a) -> length T - p < k -> length T - p < f ->
      match ca k a with
      | Ok n => reld x lim p (zrun k (zz lim p) cur unk) (dec_elements AR onea n cur unk b)
      | Err er => badd x er (zrun k (zz lim p) cur unk)
      | _ => False
      end.
    Proof.
      induction k as [|k IH]; intros cur unk lim p a b HTa HTb Hab Hk Hf; [lia|].
      pose proof (tgs _ _ _ _ _ HTa) as HSa. pose proof (stl _ _ _ _ HSa) as Hl.
      pose proof (skip_one_rel AR T maxd St Tg Ln L x f depth tag lim p a HTa Hf) as Hs.
      pose proof (Hone _ cur unk _ _ _ HTb Hf) as Hb.
      destruct (skip_one AR maxd f depth tag a) as [a1|er| | |] eqn:Ks; cbn [SimSkip.rel_skip] in Hs; try tauto.
      2: { cbn [count_loop]. rewrite Ks. cbn [bind]. apply bad_badd. unfold zrun. cbn [count_loop]. do 2 apply bad_bind. exact Hs. }
      destruct Hs as [(q & Hq & Hq' & Hsz & HS)|(-> & Hsz & q & Hq & Hq' & HS)].
      2: { (* the element overran the limit *)
        assert (Hz : is_err (zrun (S k) (zz lim p) cur unk)) by (unfold zrun; cbn [count_loop]; apply is_err_bind, is_err_bind, Hsz).
        destruct (Z.eq_dec (elem_wt e) WT_VARINT) as [Hv|Hv].
        - rewrite (Hab Hv) in *. 
          assert (Ho : forall a2, skip_one AR maxd f depth tag a = Ok a2 -> exists q, p < q /\ lim < q /\ St false lim q a2).
          { intros a2 H2. rewrite Ks in H2. injection H2 as <-. eauto. }
          pose proof (varint_over Hv (S k) cur unk lim p a HTa Hk Hf Ho) as V.
          destruct (ca (S k) a) as [n| | | |]; try tauto; [|cbn; auto].
          destruct (dec_elements AR onea n cur unk a) as [[y a']| | | |]; try tauto; cbn; auto.
        - cbn [count_loop]. rewrite Ks. cbn [bind]. rewrite (sta _ _ _ _ HS).
          destruct (Z.eqb_spec (Z.of_nat lim - Z.of_nat q) 0); [lia|].
          destruct (over_tag _ _ _ _ HS Hq') as (v & a2 & Ht & Hav & Hor). rewrite Ht. cbn [bind].
          assert (H1 : reld false lim p (zrun (S k) (zz lim p) cur unk) (dec_elements AR onea 1 cur unk b)).
          { rewrite dec_elements_1. destruct (onea cur unk b) as [[y b1]| | | |]; cbn [SimValue.rel] in Hb; try tauto; cbn; auto.
            destruct Hb as [(r & ? & ? & Hz1 & _)|(Hav' & _)]; [|auto].
            rewrite (Hsame _ _ _ _ _ _ Hl Hf Hz1) in Hsz. destruct Hsz; discriminate. }
          destruct (Z.eqb_spec v tag) as [->|]; [|exact H1].
          destruct Hor as [->|(q' & Hqq & Hqq' & K)]; [congruence|].
          pose proof (stp _ _ _ _ (tgs _ _ _ _ _ K)). pose proof (stp _ _ _ _ HS).
          destruct k as [|k]; [lia|]. cbn [count_loop].
          destruct (skip_over _ _ _ K Hqq' ltac:(lia) Hv) as [er ->]. cbn. auto. }
      (* the element was skipped within the limit *)
      assert (Hend : (q = lim \/ forall w kk, shift_mix SMTAG (slice q lim) = POk w kk -> wrapU 32 w <> tag) ->
        reld x lim p (zrun (S k) (zz lim p) cur unk) (dec_elements AR onea 1 cur unk b)).
      { intros Ho. rewrite (zrun_end k lim p q) by auto. rewrite dec_elements_1. eapply rel_reld; exact Hb. }
      assert (Hnov : elem_wt e <> WT_SGROUP -> forall y b1, onea cur unk b = Ok (y, b1) -> (0 <= a_avail AR b1)%Z).
      { intros Hg y b1 H1. destruct (Z.eq_dec (elem_wt e) WT_VARINT) as [Hv|Hv].
        - rewrite (Hab Hv) in *. rewrite (Hstate Hv _ _ _ _ _ _ _ _ HTa H1) in Ks. injection Ks as ->. rewrite (sta _ _ _ _ HS). lia.
        - eapply Hno; eauto. }
      cbn [count_loop]. rewrite Ks. cbn [bind]. rewrite (sta _ _ _ _ HS).
      destruct (Z.eqb_spec (Z.of_nat lim - Z.of_nat q) 0); [apply Hend; lia|].
      destruct (l_tag _ _ _ _ _ L _ _ _ _ HS) as (v & a2 & Ht & K). rewrite Ht. cbn [bind].
      destruct (shift_mix SMTAG (slice q lim)) as [| |w kk] eqn:F in K.
      1, 2: assert (Hnt : forall w kk, shift_mix SMTAG (slice q lim) = POk w kk -> wrapU 32 w <> tag) by (intros w kk Hx; congruence);
        destruct K as [[-> _]|(-> & Hne & q2 & Hq2 & Hq2' & K)];
        [destruct (Z.eqb_spec 0 tag); [congruence|]; apply Hend; right; exact Hnt|];
        destruct (Z.eqb_spec v tag) as [->|]; [|apply Hend; right; exact Hnt];
        assert (Hd : doomed (zz lim q)) by
          (split; [cbn [za SimLaws.zz]; intros Hnil; apply (f_equal (@length Z)) in Hnil; rewrite slice_len in Hnil by lia; cbn in Hnil; lia
                  | cbn [za SimLaws.zz]; apply no_tag_of; rewrite F; exact I]);
        assert (Hbz : badd false BadMessage (zrun (S k) (zz lim p) cur unk)) by
          (rewrite (zrun_end k lim p q) by auto; pose proof (Hsafe cur unk lim p Hl Hf) as Hsf;
           destruct (onez cur unk (zz lim p)) as [[y z']| | | |] eqn:K1; cbn [oe] in Hsf; try tauto; cbn; [right|left; eauto];
           pose proof (Hsame _ _ _ _ _ _ Hl Hf K1) as Hz'; rewrite Hsz in Hz'; injection Hz' as <-; eauto);
        pose proof (stp _ _ _ _ (tgs _ _ _ _ _ K)); pose proof (stp _ _ _ _ HS);
        (destruct (Z.eq_dec (elem_wt e) WT_VARINT) as [Hv|Hv];
        [ rewrite (Hab Hv) in *;
          assert (Hvo : forall cur unk, match ca k a2 with
            | Ok n => match dec_elements AR onea n cur unk a2 with Ok (_, a') => (a_avail AR a' < 0)%Z | Err _ => True | _ => False end
            | Err _ => True | _ => False end) by
            (intros c u; apply (varint_over Hv k c u lim q2); auto; try lia; intros a3 H3;
             pose proof (skip_one_rel AR T maxd St Tg Ln L false f depth tag lim q2 a2 K ltac:(lia)) as Hs; rewrite H3 in Hs;
             cbn [SimSkip.rel_skip] in Hs; destruct Hs as [(r & ? & ? & _)|(_ & _ & r & ? & ? & ?)]; [lia|eauto]);
          pose proof (Hvo cur unk) as Hv0;
          destruct (ca k a2) as [c| | | |] eqn:Kc; try contradiction; cbn [bind]; [|exact Hbz];
          destruct (count_pos _ _ _ _ Kc) as [c' ->]; rewrite dec_elements_SS;
          destruct (onea cur unk a) as [[[c1 u1] a1']| | | |] eqn:K1; cbn [SimValue.rel] in Hb; try contradiction; cbn [bind];
          [ pose proof (Hstate Hv _ _ _ _ _ _ _ _ HTa K1) as Hst; rewrite Ks in Hst; injection Hst as <-; rewrite Ht; cbn [bind];
            specialize (Hvo c1 u1); destruct (dec_elements AR onea (S c') c1 u1 a2) as [[y a']| | | |]; try tauto; cbn; auto
          | cbn; auto ]
        | destruct k as [|k]; [lia|]; cbn [count_loop];
          destruct (skip_over _ _ _ K Hq2' ltac:(lia) Hv) as [er ->]; cbn; auto ]).
      destruct K as [-> K]. pose proof (sm_tag_len T _ _ _ _ Hl F) as Hkk.
      destruct (Z.eqb_spec (wrapU 32 w) tag) as [Ev|Hnv].
      2: { apply Hend. right. intros w' kk' Hw. rewrite F in Hw. injection Hw as <- <-. exact Hnv. }
      rewrite Ev in K.
      assert (Hqk : length T - (q + kk) < k /\ length T - (q + kk) < f) by (pose proof (stp _ _ _ _ (tgs _ _ _ _ _ K)); lia).
      destruct Hqk as [Hqk Hqf].
      assert (IHz : forall c1 u1 b2, Tg x tag lim (q + kk) b2 -> (elem_wt e = WT_VARINT -> b2 = a2) -> 
        match ca k a2 with
        | Ok n => reld x lim (q + kk) (zrun k (zz lim (q + kk)) c1 u1) (dec_elements AR onea n c1 u1 b2)
        | Err er => badd x er (zrun k (zz lim (q + kk)) c1 u1)
        | _ => False end) by (intros; apply IH; auto).
      pose proof (IHz cur unk a2 K ltac:(auto)) as IH0.
      assert (Hce : x = true -> cz k (zz lim (q + kk)) = ca k a2) by (intros ->; apply count_exact; auto).
      destruct (ca k a2) as [c|er| | |] eqn:Kc; try tauto; cbn [bind] in *.
      - destruct (count_pos _ _ _ _ Kc) as [c' ->]. rewrite dec_elements_SS.
        destruct (onea cur unk b) as [[[c1 u1] b1]|er| | |] eqn:K1; cbn [SimValue.rel] in Hb; try tauto; cbn [bind].
        + destruct Hb as [(q1 & Hq1 & Hq1' & Hz1 & Hb1)|(Hav & Hso & Hz1)].
          * pose proof (Hsame _ _ _ _ _ _ Hl Hf Hz1) as Hz'. rewrite Hsz in Hz'. injection Hz' as Hz'.
            assert (q1 = q) by (symmetry; apply (zz_inj lim); auto; unfold SimLaws.zz; f_equal; congruence). subst q1.
            rewrite (zrun_next k lim p q w kk cur unk c1 u1) by (auto; lia).
            destruct (l_tag _ _ _ _ _ L _ _ _ _ Hb1) as (v & b2 & Htb & Kb). rewrite F in Kb. destruct Kb as [-> Kb]. rewrite Ev in Kb.
            rewrite Htb. cbn [bind].
            assert (Hbv : elem_wt e = WT_VARINT -> b2 = a2).
            { intros Hv. rewrite (Hab Hv) in *. pose proof (Hstate Hv _ _ _ _ _ _ _ _ HTa K1) as Hst. rewrite Ks in Hst. injection Hst as <-. congruence. }
            specialize (IHz c1 u1 b2 Kb Hbv).
            destruct (dec_elements AR onea (S c') c1 u1 b2) as [[y a']| | | |]; cbn [SimValue.reld] in *; auto.
            destruct IHz as [(r & ? & ? & ? & ?)|?]; [left; exists r; repeat split; auto; lia|auto].
          * destruct (Z.eq_dec (elem_wt e) WT_SGROUP) as [Hg|Hg]; [|specialize (Hnov Hg _ _ eq_refl); lia].
            assert (Hsoft : soft AR e = false) by (destruct e as [| |[]| | |]; try discriminate; reflexivity).
            destruct (Hso Hsoft) as (-> & lim' & q' & HS').
            assert (Hlq : lim' < q') by (rewrite (sta _ _ _ _ HS') in Hav; lia).
            destruct (over_tag _ _ _ _ HS' Hlq) as (v & b2 & -> & Hav2 & _). cbn [bind].
            destruct (Hgrp Hg c1 u1 b2 Hav2 ltac:(lia)) as [er Her].
            cbn [dec_elements]. rewrite Her. cbn. left.
            apply zrun_one_err; auto.
        + destruct x; cbn [badd bad] in *.
          * unfold zrun. rewrite (cz_next k lim p q w kk) by (auto; lia).
            rewrite (Hce eq_refl). cbn [bind dec_elements]. rewrite Hb. reflexivity.
          * left. apply zrun_one_err; auto.
      - destruct x; cbn [badd] in *.
        + unfold zrun. rewrite (cz_next k lim p q w kk) by (auto; lia). rewrite (Hce eq_refl). reflexivity.
        + pose proof (Hsafe cur unk lim p Hl Hf) as Hsf.
          destruct (onez cur unk (zz lim p)) as [[[c1 u1] z']|er'| | |] eqn:K1; cbn [oe] in Hsf; try tauto.
          * pose proof (Hsame _ _ _ _ _ _ Hl Hf K1) as Hz'. rewrite Hsz in Hz'. injection Hz' as Hz'.
            assert (z' = zz lim q) by (unfold SimLaws.zz; rewrite <- Hz'; reflexivity). subst z'.
            rewrite (zrun_next k lim p q w kk cur unk c1 u1) by (auto; lia).
            exact (IHz c1 u1 a2 K ltac:(auto)).
          * left. apply zrun_one_err; auto. rewrite K1. eauto.
    Qed.
  End One.
End Rep.
