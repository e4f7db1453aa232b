(** What reading a message stores can be written and read again. *)
From Coq Require Import Sorted.
Require Import Verif.Bits Verif.Varint Verif.VarintSpec Verif.VarintProofs Verif.VarintFacts Verif.VarintMain.
Require Import Verif.Schema Verif.Archive Verif.Decode Verif.DecodeSafe Verif.Wire Verif.WireFacts Verif.WireGrammar Verif.GrammarFacts Verif.DecodeSpec1 Verif.DecodeSpec4.
Require Import Verif.DecodeLaws Verif.DecodeLaws2 Verif.FieldSpec Verif.DecodeOcc Verif.WellTyped Verif.DecodeTerms Verif.DecodeMain Verif.DecodeWt Verif.StoredTags Verif.DecodeMain3.
Require Import Verif.Encode Verif.EncodeSpec Verif.EncodeProofs Verif.EncodeProofs2 Verif.RoundTrip Verif.RoundTrip2 Verif.EncodeMain.

Lemma nth_set_nth_ne j : forall i x l, i <> j -> nth j (set_nth i x l) [] = nth j l [].
Proof.
  induction j as [|j IH]; intros [|i] x [|h t] H; try congruence; cbn; auto.
  - destruct j; reflexivity.
  - rewrite IH by congruence. destruct j; reflexivity.
Qed.

Lemma size_shortest tb tag : tag_reads tb tag -> zlen tb = varint_size_u tag -> shortest tb.
Proof.
  intros (Hv & Hl & ->) Hs. unfold shortest. destruct (Nat.eq_dec (length tb) 1) as [|H1]; [auto|]. destruct (Nat.eq_dec (length tb) 5) as [|H5]; [auto|].
  right; right. intros H0. rewrite tag_value_small in Hs by lia.
  assert (H2 : (2 <= length tb)%nat) by (destruct tb as [|? [|? ?]]; cbn in *; try lia; destruct Hv).
  assert (Hb : b128 tb < 2 ^ (7 * (zlen tb - 1))).
  { clear Hs. assert (Hne : tb <> []) by (destruct tb; [cbn in H2; lia|discriminate]). destruct (exists_last Hne) as (l & x & ->).
    rewrite last_last in H0. subst x.
    assert (K0 : b128 (l ++ [0]) = b128 l) by (clear; induction l as [|b l IH]; [reflexivity|]; cbn [app b128]; rewrite IH; reflexivity).
    rewrite K0, zlen_app. change (zlen [0]) with 1. replace (zlen l + 1 - 1) with (zlen l) by lia. apply b128_bound. }
  pose proof (b128_nonneg tb) as Hnn.
  pose proof (varint_size_u_bounds (zlen tb - 1) (b128 tb) ltac:(lia) ltac:(unfold zlen; lia)). lia.
Qed.

Section Reencode.
  Context (E : env) (utf8_ok : bytes -> bool) (limit : Z).
  Hypothesis G : generated E.
  Notation tokB := (tokB limit).
  Notation apb := (ap_body E utf8_ok limit).
  Notation aprs := (ap_recs E utf8_ok limit).
  Notation rwf := (rwf limit).
  Notation ev := (everywhere E (fun d ty v => stored_ok E limit d ty (msg_unk v))).

  Definition subs_ok (d : Z) (f : field) (c : list val) : Prop := forall ty v, sub_msg f c ty v -> ev (d + 1) ty v.
  Definition si (d : Z) (ty : nat) (st : state) : Prop :=
    stored_ok E limit d ty (snd st) /\ forall i f, nth_error (m_fields (desc_of E ty)) i = Some f -> subs_ok d f (nth i (fst st) []).

  Lemma combine_nth_error {A B} (l : list A) (m : list B) a b : In (a, b) (combine l m) -> exists i, nth_error l i = Some a /\ nth_error m i = Some b.
  Proof.
    revert m. induction l as [|x l IH]; intros [|y m] H; cbn in H; try contradiction. destruct H as [[= -> ->]|H].
    - exists 0%nat. auto.
    - destruct (IH _ H) as [i Hi]. exists (S i). exact Hi.
  Qed.
  Lemma nth_error_combine {A B} (l : list A) (m : list B) i a b : nth_error l i = Some a -> nth_error m i = Some b -> In (a, b) (combine l m).
  Proof.
    revert l m. induction i as [|i IH]; intros [|x l] [|y m]; cbn; try discriminate; intros H1 H2.
    - injection H1 as ->. injection H2 as ->. left; reflexivity.
    - right. auto.
  Qed.

  Lemma si_ev d ty fs u : si d ty (fs, u) -> ev d ty (VMsg fs u).
  Proof.
    intros [H1 H2]. constructor; [exact H1|]. intros f c ty' v' Hh Hs. apply combine_nth_error in Hh. destruct Hh as (i & Hi & Hc). cbn [msg_fields] in Hc.
    apply (H2 i f Hi). cbn [fst]. rewrite (nth_error_nth _ _ _ Hc). exact Hs.
  Qed.
  Lemma ev_si d ty v : ev d ty v -> si d ty (msg_fields v, msg_unk v).
  Proof.
    intros H. inversion H as [? ? ? H1 H2]; subst. split; [exact H1|]. intros i f Hi ty' v' Hs. cbn [fst] in Hs.
    destruct (nth_error (msg_fields v) i) as [c|] eqn:Hc.
    - rewrite (nth_error_nth _ _ _ Hc) in Hs. eapply H2; [|exact Hs]. eapply nth_error_combine; eauto.
    - exfalso. apply nth_error_None in Hc. rewrite nth_overflow in Hs by exact Hc. inversion Hs; subst. contradiction.
  Qed.

  Lemma default_ev ty : forall d, ev d ty (default_msg E ty).
  Proof.
    remember (default_msg E ty) as v eqn:Hv. revert ty v Hv. 
    apply (nested_ind_msg E (fun ty v => v = default_msg E ty -> forall d, ev d ty v)). intros ty v IH -> d.
    constructor; [constructor|]. intros f c ty' v' Hh Hs. apply (IH f c ty' v' Hh Hs).
    unfold holds, default_msg in Hh. cbn [msg_fields] in Hh. apply combine_nth_error in Hh. destruct Hh as (i & Hi & Hc).
    rewrite nth_error_map, Hi in Hc. cbn in Hc. injection Hc as <-. apply nth_error_In in Hi. pose proof (gen_messages E G ty f Hi) as K.
    inversion Hs; subst; cbn [field_default] in *.
    destruct c; cbn [In] in *; try contradiction. destruct K as [_ ->].
    match goal with H : _ \/ False |- _ => destruct H as [<-|[]] end. reflexivity.
  Qed.

  (** ** The store *)
  Lemma stored_add d ty num b u : stored_field E limit d ty num b -> stored_ok E limit d ty u ->
    stored_ok E limit d ty (unk_add (m_unk (desc_of E ty)) num b u).
  Proof.
    intros Hb Hu. unfold stored_ok in *. destruct (m_unk (desc_of E ty)) eqn:Hk; cbn [unk_add].
    - exact Hu.
    - assert (Hnew : forall n l, Forall (fun x => stored_field E limit d ty (fst x) (snd x) /\ (UBytes = UBytes \/ fst x = n)) l ->
        Forall (fun x => stored_field E limit d ty (fst x) (snd x) /\ (UBytes = UBytes \/ fst x = n)) (l ++ [(num, b)])).
      { intros n l Hl. apply Forall_app. split; [exact Hl|]. constructor; [|constructor]. cbn. auto. }
      destruct u as [|[n c] u]; cbn [ubytes_add].
      + constructor; [|constructor]. exists [(num, b)]. unfold bytes_of; cbn. rewrite app_nil_r. split; [reflexivity|]. split; [discriminate|]. apply (Hnew 0 []). constructor.
      + inversion Hu as [|? ? (l & H1 & H2 & H3) H4]; subst. constructor; [|exact H4]. exists (l ++ [(num, b)]). cbn [fst snd] in *. subst c.
        split; [rewrite fields_bytes_app; unfold bytes_of; cbn; rewrite app_nil_r; reflexivity|]. split; [destruct l; discriminate|]. auto.
    - induction u as [|[n c] u IH]; cbn [umap_add].
      + constructor; [|constructor]. exists [(num, b)]. unfold bytes_of; cbn. rewrite app_nil_r. split; [reflexivity|]. split; [discriminate|]. constructor; cbn; auto.
      + inversion Hu as [|? ? (l & H1 & H2 & H3) H4]; subst. destruct (Z.eqb_spec n num) as [->|].
        * constructor; [|exact H4]. exists (l ++ [(num, b)]). cbn [fst snd] in *. subst c.
          split; [rewrite fields_bytes_app; unfold bytes_of; cbn; rewrite app_nil_r; reflexivity|]. split; [destruct l; discriminate|].
          apply Forall_app. split; [exact H3|]. constructor; cbn; auto.
        * destruct (num <? n).
          -- constructor; [|exact Hu]. exists [(num, b)]. unfold bytes_of; cbn. rewrite app_nil_r. split; [reflexivity|]. split; [discriminate|]. constructor; cbn; auto.
          -- constructor; [exists l; auto|]. auto.
    - induction u as [|[n c] u IH]; cbn [upairs_add].
      + constructor; [|constructor]. exists [(num, b)]. unfold bytes_of; cbn. rewrite app_nil_r. split; [reflexivity|]. split; [discriminate|]. constructor; cbn; auto.
      + inversion Hu as [|? ? (l & H1 & H2 & H3) H4]; subst. destruct (Z.eqb_spec n num) as [->|].
        * constructor; [|exact H4]. exists (l ++ [(num, b)]). cbn [fst snd] in *. subst c.
          split; [rewrite fields_bytes_app; unfold bytes_of; cbn; rewrite app_nil_r; reflexivity|]. split; [destruct l; discriminate|].
          apply Forall_app. split; [exact H3|]. constructor; cbn; auto.
        * constructor; [exists l; auto|]. auto.
  Qed.

  Lemma enum_stored d ty num i l c z u u' : member E ty num i (Field num (EEnum (Some l)) c) -> in_vtype VI64 z ->
    enum_valid (Some l) (to_enum z) = false -> match c with COpt => True | CRep _ => in_vtype VI32 z | _ => False end ->
    stored_ok E limit d ty u -> lift (unknown_enum (m_unk (desc_of E ty)) num z u) = TOk u' -> stored_ok E limit d ty u'.
  Proof.
    intros Hm Hz Hv Hc Hu H. destruct (find_field_spec _ _ _ _ _ Hm) as [Hin _].
    assert (Hn : 1 <= num < 2 ^ 25) by (eapply gen_numbers; eauto; left; reflexivity).
    assert (Hb : pack_varint VU32 (make_tag num WT_VARINT) = tagb num WT_VARINT).
    { unfold tagb. rewrite make_tag_sum by (unfold WT_VARINT; lia). apply pack_small; [reflexivity|unfold WT_VARINT; change (2 ^ enc_bits VU32) with (128 * 2 ^ 25); lia]. }
    unfold unknown_enum in H. rewrite Hb in H.
    assert (K : u' = unk_add (m_unk (desc_of E ty)) num (tagb num WT_VARINT ++ pack_varint VI64 z) u).
    { destruct (m_unk (desc_of E ty)); cbn [lift] in H; try (injection H as <-; reflexivity). destruct (existsb _ u); cbn [lift] in H; [injection H as <-; reflexivity|discriminate]. }
    subst u'. apply stored_add; [|exact Hu]. right. exists i, l, c, z. auto.
  Qed.

  Lemma filter_stored d ty num i l pk : member E ty num i (Field num (EEnum (Some l)) (CRep pk)) -> forall zs u r u',
    Forall (in_vtype VI32) zs -> stored_ok E limit d ty u -> lift (filter_enum (m_unk (desc_of E ty)) num (Some l) zs u) = TOk (r, u') -> stored_ok E limit d ty u'.
  Proof.
    intros Hm. induction zs as [|z zs IH]; intros u r u' Hz Hu H; cbn [filter_enum] in H; [injection H as <- <-; exact Hu|].
    inversion Hz as [|? ? Hz1 Hz2]; subst. destruct (enum_valid (Some l) z) eqn:Hv.
    - destruct (filter_enum _ num (Some l) zs u) as [[r1 u1]| | | |] eqn:K; cbn in H; try discriminate. injection H as <- <-.
      eapply (IH u r1); eauto. rewrite K. reflexivity.
    - destruct (unknown_enum _ num z u) as [u1| | | |] eqn:K; cbn [bind lift] in H; try discriminate.
      eapply IH; [exact Hz2| |exact H].
      assert (Hid : to_enum z = z) by (unfold to_enum; apply wrapS_id; [lia|exact Hz1]).
      eapply (enum_stored d ty num i l (CRep pk) z u u1); eauto.
      + apply i32_i64. exact Hz1.
      + rewrite Hid. exact Hv.
      + rewrite K. reflexivity.
  Qed.

  Section Apply.
    Variable body : nat -> Z -> state -> list Wire.rec -> tres state.
    Hypothesis Hbody : forall ty d st rs st', Forall (rwf d) rs -> si d ty st -> body ty d st rs = TOk st' -> si d ty st'.

    Lemma value_ev ty delim cur d r v : rwf d r -> ev (d + 1) ty cur -> ap_value E utf8_ok limit body (EMsg ty delim) cur d r = TOk v -> ev (d + 1) ty v.
    Proof.
      intros Hr Hc. unfold ap_value. destruct (negb _); [discriminate|]. unfold ap_message. cbv zeta.
      destruct Hr as [d tb tag pb p sub Ht Hp Hbp Hlen Hgrp Hsub]. cbn [r_tag r_tb r_pb r_pay r_sub] in *. apply ev_si in Hc. destruct delim.
      - intros H. apply tbind_ok in H. destruct H as [[fs u] [H1 H]]. injection H as <-. apply si_ev. eapply Hbody; eauto.
      - destruct (_ && _); [discriminate|]. destruct (negb _); [discriminate|]. intros H. apply tbind_ok in H. destruct H as [[rs rest] [H1 H]].
        apply tbind_ok in H. destruct H as [[fs u] [H2 H]]. injection H as <-. apply si_ev. eapply Hbody; [|exact Hc|exact H2].
        exact (proj2 (tok_rwf utf8_ok limit (S (length p))) _ _ _ _ _ (Nat.lt_succ_diag_r _) Hbp H1).
    Qed.

    Lemma value_int e cur d r v : match e with EEnum _ => True | _ => False end -> ap_value E utf8_ok limit body e cur d r = TOk v ->
      exists z, v = VInt z /\ in_vtype VI64 z.
    Proof.
      destruct e; try tauto. intros _. unfold ap_value. destruct (negb _); [discriminate|]. intros [= <-]. eexists. split; [reflexivity|]. exact (meaning_range VI64 _).
    Qed.

    Lemma no_sub num e c vs d : scalar e = true -> subs_ok d (Field num e c) vs.
    Proof. intros Hs ty v H. inversion H; subst. discriminate. Qed.

    Lemma field_si ty d i f cur u r c u' : member E ty (tag_number (r_tag r)) i f -> rwf d r -> subs_ok d f cur -> stored_ok E limit d ty u ->
      ap_field E utf8_ok limit body (m_unk (desc_of E ty)) f d cur u r = TOk (c, u') -> subs_ok d f c /\ stored_ok E limit d ty u'.
    Proof.
      intros Hm Hr Hs Hu H. destruct f as [num e [ex dv| |pk|assoc]|alts]; cbn [ap_field] in H.
      - apply tbind_ok in H. destruct H as [v [Hv H]]. destruct (scalar e) eqn:Hsc.
        + split; [apply no_sub; exact Hsc|]. destruct e as [| | |[l|]| |]; try discriminate; try (injection H as <- <-; exact Hu).
          destruct (ex && _); [discriminate|]. injection H as <- <-. exact Hu.
        + destruct e as [| | | | |ty' delim]; try discriminate. injection H as <- <-. split; [|exact Hu]. intros ty2 v2 Hsub. inversion Hsub; subst. match goal with K : In v2 _ |- _ => rename K into Hi2 end.
          destruct Hi2 as [<-|[]]. cbn [enum_val]. eapply value_ev; [exact Hr| |exact Hv].
          destruct cur as [|x cur]; cbn [start_val elem_default]; [apply default_ev|]. apply Hs. constructor. left; reflexivity.
      - apply tbind_ok in H. destruct H as [v [Hv H]]. destruct (scalar e) eqn:Hsc.
        + split; [apply no_sub; exact Hsc|]. destruct e as [| | |[l|]| |]; try discriminate; try (injection H as <- <-; exact Hu).
          apply value_int in Hv; [|exact I]. destruct Hv as (z & -> & Hz). cbn [int_of] in H.
          destruct (enum_valid (Some l) (to_enum z)) eqn:Hev; [injection H as <- <-; exact Hu|].
          apply tbind_ok in H. destruct H as [u1 [H1 H]]. injection H as <- <-.
          assert (Hnum : tag_number (r_tag r) = num) by (destruct (find_field_spec _ _ _ _ _ Hm) as [_ K]; symmetry; apply Z.eqb_eq; exact K). rewrite Hnum in Hm.
          eapply (enum_stored d ty num i l COpt z); eauto.
        + destruct e as [| | | | |ty' delim]; try discriminate. injection H as <- <-. split; [|exact Hu]. intros ty2 v2 Hsub. inversion Hsub; subst. match goal with K : In v2 _ |- _ => rename K into Hi2 end.
          destruct Hi2 as [<-|[]]. cbn [enum_val]. eapply value_ev; [exact Hr| |exact Hv].
          destruct cur as [|x cur]; cbn [start_val elem_default]; [apply default_ev|]. apply Hs. constructor. left; reflexivity.
      - assert (Hnum : tag_number (r_tag r) = num) by (destruct (find_field_spec _ _ _ _ _ Hm) as [_ K]; symmetry; apply Z.eqb_eq; exact K).
        destruct (scalar e) eqn:Hsc.
        + split; [apply no_sub; exact Hsc|]. destruct (packable e && _) eqn:Kp.
          * unfold ap_packed in H. destruct e as [t| |is64 fl|[l|]|utf8 view|ty' delim]; try discriminate.
            -- destruct (varints _ _ _); [|discriminate]. injection H as <- <-. exact Hu.
            -- destruct (varints _ _ _); [|discriminate]. injection H as <- <-. exact Hu.
            -- cbv zeta in H. destruct (_ =? 0); [|discriminate]. injection H as <- <-. exact Hu.
            -- destruct (varints _ _ _) as [bl|]; [|discriminate]. apply tbind_ok in H. destruct H as [[r1 u1] [H1 H]]. injection H as <- <-.
               rewrite Hnum in Hm. eapply filter_stored; [exact Hm| |exact Hu|exact H1].
               apply Forall_forall. intros x Hx. apply in_map_iff in Hx. destruct Hx as (b & <- & _). apply wrapS_range. lia.
            -- destruct (varints _ _ _) as [bl|]; [|discriminate]. apply tbind_ok in H. destruct H as [[r1 u1] [H1 H]]. injection H as <- <-.
               assert (K : forall zs r2 u2, lift (filter_enum (m_unk (desc_of E ty)) num None zs u) = TOk (r2, u2) -> u2 = u).
               { induction zs as [|z zs IH]; intros r2 u2 K; cbn [filter_enum enum_valid] in K; [cbn in K; congruence|].
                 destruct (filter_enum _ num None zs u) as [[r3 u3]| | | |] eqn:K2; cbn in K; try discriminate. injection K as <- <-. eapply IH; reflexivity. }
               apply K in H1. subst u1. exact Hu.
          * apply tbind_ok in H. destruct H as [v [Hv H]]. destruct e as [| | |[l|]| |]; try discriminate; try (injection H as <- <-; exact Hu).
            apply value_int in Hv; [|exact I]. destruct Hv as (z & -> & Hz). cbn [int_of] in H. cbv zeta in H.
            destruct (enum_valid (Some l) (to_enum z)) eqn:Hev; [injection H as <- <-; exact Hu|].
            apply tbind_ok in H. destruct H as [u1 [H1 H]]. injection H as <- <-. rewrite Hnum in Hm, H1.
            assert (Hr32 : in_vtype VI32 (to_enum z)) by (apply wrapS_range; lia).
            eapply (enum_stored d ty num i l (CRep pk) (to_enum z)); eauto.
            -- apply i32_i64. exact Hr32.
            -- replace (to_enum (to_enum z)) with (to_enum z); [exact Hev|]. unfold to_enum at 2. symmetry. apply wrapS_id; [lia|exact Hr32].
        + destruct e as [| | | | |ty' delim]; try discriminate. cbn [packable andb] in H. apply tbind_ok in H. destruct H as [v [Hv H]]. injection H as <- <-.
          split; [|exact Hu]. intros ty2 v2 Hsub. inversion Hsub; subst. match goal with K : In v2 _ |- _ => rename K into Hi2 end. apply in_app_iff in Hi2. destruct Hi2 as [Hi2|[<-|[]]].
          * apply Hs. constructor. exact Hi2.
          * cbn [enum_val]. eapply value_ev; [exact Hr| |exact Hv]. apply default_ev.
      - apply tbind_ok in H. destruct H as [v [Hv H]]. injection H as <- <-. split; [|exact Hu]. intros ty2 v2 Hsub. inversion Hsub; subst. match goal with K : In v2 _ |- _ => rename K into Hi2 end.
        assert (Hv2 : ev (d + 1) ty2 v) by (eapply value_ev; [exact Hr| |exact Hv]; apply default_ev).
        assert (K : v2 = v \/ In v2 cur). { destruct assoc; [apply map_put_in in Hi2; tauto|]. apply in_app_iff in Hi2. cbn in Hi2. intuition. }
        destruct K as [->|K]; [exact Hv2|]. apply Hs. constructor. exact K.
      - destruct (find_alt _ alts 0) as [[j e]|] eqn:Ka; [|discriminate]. cbv zeta in H. apply tbind_ok in H. destruct H as [v [Hv H]].
        destruct (is_closed e); [discriminate|]. injection H as <- <-. split; [|exact Hu]. intros ty2 v2 Hsub. inversion Hsub as [|? ? ? ? ? ? ? Hi2]; subst.
        apply find_alt_nth in Ka. rewrite Nat.sub_0_r in Ka. destruct Ka as [_ Ka]. rewrite Ka in Hi2. injection Hi2 as <- ->. cbn [enum_val].
        eapply value_ev; [exact Hr| |exact Hv]. destruct cur as [|[| | |j2 x] cur]; try apply default_ev.
        destruct (Nat.eqb_spec j j2) as [<-|]; [|apply default_ev]. cbn [start_val]. apply Hs. econstructor. exact Ka.
    Qed.

    Lemma recs_si ty d rs : Forall (rwf d) rs -> forall st st', si d ty st -> ap_recs E utf8_ok limit body ty d st rs = TOk st' -> si d ty st'.
    Proof.
      induction 1 as [|r rs Hr Hrs IH]; intros st st' Hst H; cbn [ap_recs] in H; [injection H as <-; exact Hst|].
      apply tbind_ok in H. destruct H as [st1 [H1 H]]. apply (IH st1); [|exact H]. clear IH H Hrs rs st'.
      destruct st as [fs u]. unfold ap_rec in H1. cbv zeta in H1. destruct Hst as [A B]. cbn [fst snd] in *.
      destruct (Z.eqb_spec (tag_number (r_tag r)) 0) as [|Hn0]; [discriminate|].
      destruct (find_field _ _ 0) as [[i f]|] eqn:Kf.
      - apply tbind_ok in H1. destruct H1 as [[c u1] [H1 H2]]. injection H2 as <-. pose proof (find_field_nth0 _ _ _ _ Kf) as [Kn _].
        eapply field_si in H1; eauto. destruct H1 as [H1 H2]. split; [exact H2|]. cbn [fst]. intros j g Hg.
        destruct (Nat.eq_dec i j) as [<-|Hne]; [|rewrite nth_set_nth_ne by exact Hne; eauto].
        rewrite nth_set_nth. rewrite Kn in Hg. injection Hg as <-. exact H1.
      - apply tbind_ok in H1. destruct H1 as [u1 [H1 H2]]. injection H2 as <-. split; [|exact B]. cbn [snd].
        unfold ap_unknown in H1. destruct Hr as [d tb tag pb p sub Ht Hp _ _ _ _]. cbn [r_tag r_tb] in *.
        assert (Hadd : zlen tb = varint_size_u tag -> stored_ok E limit d ty (unk_add (m_unk (desc_of E ty)) (tag_number tag) (r_raw (Rec tb tag pb p sub)) u)).
        { intros Hsz. apply stored_add; [|exact A]. left. split.
          - exists tb, tag, pb. split; [reflexivity|]. repeat split; try apply Ht; auto. eapply size_shortest; eauto.
          - split; [exact Hn0|]. eapply find_field_none_inv; eauto. }
        destruct (m_unk (desc_of E ty)) eqn:Kk; [injection H1 as <-; exact A|..];
          (destruct (Z.eqb_spec (zlen tb) (varint_size_u tag)) as [Hsz|]; [|discriminate]; injection H1 as <-; apply Hadd; exact Hsz).
    Qed.
  End Apply.

  Lemma body_si f : forall ty d st rs st', Forall (rwf d) rs -> si d ty st -> apb f ty d st rs = TOk st' -> si d ty st'.
  Proof.
    induction f as [|f IH]; intros ty d st rs st' Hr Hs H; [discriminate|]. cbn [ap_body] in H. eapply recs_si; eauto.
  Qed.

  Theorem decoded_stored ty cur bs v : all_bytes bs -> m_entry (desc_of E ty) = false -> short_stored E ty bs ->
    ev 1 ty cur -> decode_bytes E utf8_ok limit ty cur bs = Ok v -> ev 1 ty v.
  Proof.
    intros Hb He Hs Hc H. pose proof (exact_stored E utf8_ok limit (gen_safe E G) ty cur bs Hb Hs) as Hx.
    apply (dec_ok_iff E utf8_ok limit (gen_safe E G) ty cur bs v Hb He Hx) in H. unfold spec_decode in H. destruct (negb _); [discriminate|].
    apply tbind_ok in H. destruct H as [[rs rest] [H1 H]]. apply tbind_ok in H. destruct H as [[fs u] [H2 H]]. injection H as <-. apply si_ev.
    eapply body_si; [|apply ev_si; exact Hc|exact H2].
    exact (proj2 (tok_rwf utf8_ok limit (S (length bs))) _ _ _ _ _ (Nat.lt_succ_diag_r _) Hb H1).
  Qed.

  Lemma generated_shape : map_shape E.
  Proof.
    intros ty num e assoc H. destruct (gen_maps E G ty num e assoc H) as (ty' & ek & dk & ev & dv & -> & Hs & Hd).
    exists ty', 1, ek, dk, [Field 2 ev (CPlain true dv)]. rewrite Hd. auto.
  Qed.

  Lemma everywhere_and P Q d ty v : everywhere E P d ty v -> everywhere E Q d ty v -> everywhere E (fun d ty v => P d ty v /\ Q d ty v) d ty v.
  Proof.
    intros H1 H2. revert d H1 H2. pattern ty, v. revert ty v.
    refine (nested_ind_msg E _ _). intros ty v IH d H1 H2. inversion H1; subst. inversion H2; subst. constructor; [auto|]. eauto.
  Qed.

  (** Reading, writing and reading again gives the same message. *)
  Theorem reread maxd ty bs v bs' : m_entry (desc_of E ty) = false -> maxd <= limit -> wt_defaults E utf8_ok ->
    all_bytes bs -> short_stored E ty bs ->
    decode_bytes E utf8_ok limit ty (default_msg E ty) bs = Ok v -> everywhere E (fun _ => omitted_default E) 1 ty v ->
    encode_bytes E utf8_ok maxd ty v = Ok bs' -> decode_bytes E utf8_ok limit ty (default_msg E ty) bs' = Ok v.
  Proof.
    intros He Hml Hdef Hb Hs Hd Ho Hw. eapply round_trip; eauto.
    - eapply p_wt; eauto; [apply (gen_safe E G)|apply generated_shape].
    - apply everywhere_and; [exact Ho|]. eapply decoded_stored; eauto. apply default_ev.
  Qed.
End Reencode.
