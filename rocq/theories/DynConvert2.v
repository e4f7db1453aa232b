(** What a dynamic message reads from binary can be written as JSON. *)
Require Import Verif.Bits Verif.Varint Verif.DynSlots Verif.Dyn Verif.Schema Verif.Archive Verif.Decode Verif.Encode Verif.DynWire.
Require Import Verif.DynSlotsProofs Verif.DecodeSafe Verif.WellTyped Verif.EncodeSpec Verif.DynView Verif.DynEncode1 Verif.DynEncode3 Verif.DynDecode Verif.DynDecode1 Verif.DynAgree Verif.DynDecode2 Verif.DynDecode3 Verif.DynDecode4 Verif.DecodeTerms Verif.DecodeMain3 Verif.DynRelay.
Require Import Verif.DynJson Verif.DynJsonSpec Verif.DynJsonSafe.

Section Whole.
  Context (W : list wtype) (utf8_ok : bytes -> bool) (maxd : Z).
  Notation E := (env_of W).
  Hypothesis HW : wtypes_ok W.
  Hypothesis Hread : readable W.
  Hypothesis Hutf8 : utf8_ok [] = true.
  Hypothesis Hdef : defaults_fit W.

  Lemma single_plain ty f l te d m : In (f, l) (w_fields (wty W ty)) -> w_rep f = None -> w_elem f = EMsg te d -> finished W te m.
  Proof.
    intros Hi R Ef En. exfalso. unfold wty in Hi. destruct (nth_in_or_default ty W (WType [] 0 false)) as [H|H]; [|rewrite H in Hi; destruct Hi].
    pose proof Hread as K. unfold readable in K. rewrite Forall_forall in K. destruct (K _ H) as [F _]. rewrite Forall_forall in F. destruct (F _ Hi) as [_ G]. destruct (G te d Ef En) as [G1 _]. auto.
  Qed.
  Lemma complete_whole n ty m m' : sound W (S (S n)) ty m -> complete W ty m = Ok m' -> whole W (S (S n)) ty m'.
  Proof.
    intros Hm H. pose proof Hm as [Hl Hf]. unfold complete in H. destruct (w_entry (wty W ty)) eqn:En; [|injection H as <-; split; [exact Hm|intros K; congruence]].
    destruct (nth_error (w_fields (wty W ty)) 1) as [[f l]|] eqn:Hn; [|discriminate]. apply Ok_inj in H. subst m'. pose proof (nth_error_In _ _ Hn) as Hi.
    assert (Hr : is_rep f = false).
    { unfold wty in Hn, En. destruct (nth_in_or_default ty W (WType [] 0 false)) as [K|K]; [|rewrite K in Hn; discriminate Hn].
      pose proof Hread as K2. unfold readable in K2. rewrite Forall_forall in K2. destruct (K2 _ K) as [_ F]. destruct (F En) as (f' & l' & Hn' & R'). rewrite Hn in Hn'. injection Hn' as <- <-. unfold is_rep. rewrite R'. reflexivity. }
    rewrite Hr. cbn [orb]. assert (Hp : w_rep f = None) by (unfold is_rep in Hr; destruct (w_rep f); [discriminate|reflexivity]).
    destruct (has_value (dyn_of f) l (slot_at m l)) eqn:Hh.
    { split; [exact Hm|]. intros _ f' l' Hn'. rewrite Hn in Hn'. injection Hn' as <- <-. exact Hh. }
    destruct (field_facts W HW Hread ty f l Hi) as (_ & _ & Hs & _ & _).
    assert (Ho : fst (default_slot W f l) = l_ordinal l) by reflexivity.
    split.
    - apply (sound_put W HW (S n) ty m f l _ Hm Hi); [|right; exact Ho]. split; [|congruence].
      intros Hv. unfold value. rewrite Hv, andb_false_r. unfold dyn_of, default_slot. cbn [y_kind snd]. rewrite Hr.
      pose proof (default_fits W Hdef ty f l Hi) as Hd. unfold w_default in Hd. destruct (w_elem f) as [| | | | |te d] eqn:Hel; cbn [kind_of] in *; try (apply Hd; reflexivity). split; [apply (sound_new W HW)|]. apply (single_plain ty f l te d _ Hi Hp Hel).
    - intros _ f' l' Hn'. rewrite Hn in Hn'. injection Hn' as <- <-. unfold slot_at. rewrite put_same by lia. rewrite singular_has by exact Hp. rewrite Ho. apply Z.eqb_refl.
  Qed.

  Lemma member_whole k ty b c m : In b (members_of (w_fields (wty W ty))) -> same_member W (agree W) m b c -> cell E utf8_ok (member_field b) c -> (csize c <= k)%nat ->
    (forall ty m v, (vsize v <= k)%nat -> wt_msg E utf8_ok ty v -> agree W ty m v -> sound W (S k) ty m) ->
    forall x, In x (mfields b) -> slot_sound (whole W (S k)) (fst x) (snd x) (slot_at m (snd x)).
  Proof.
    intros Hb Hm Hc Hk IH x Hx. destruct Hm as [f l vs Hm|o g Hm|o g i f l v H1 H2 H3]; cbn [mfields member_field] in *.
    - pose proof (member_in W ty _ _ Hb Hx) as Fx. destruct Hx as [<-|[]]. cbn [fst snd]. destruct Hm as [Hp Hh Hx|v Hp Hh Hx Hd|v Hp Hh H|p vs Hp Hs H1 H2 H3|p ty' d ms vs Hp He Hv Hl Hms].
      + split; [|congruence]. intros K. congruence.
      + split; [|congruence]. intros K. congruence.
      + split; [|congruence]. rewrite Hp in Hc. assert (Hw : exists x, wt E utf8_ok (loosen x (w_elem f)) v).
        { destruct (w_explicit f); inversion Hc; subst; [|eauto]. exists true. assert (L : loosen true (w_elem f) = w_elem f) by (destruct (w_elem f) as [| | |[]| |]; reflexivity). rewrite L. assumption. }
        destruct Hw as [x Hw]. destruct H as [v Hs H|ty' d m' v He Hv Ha].
        * eapply single_ok; eauto. eapply wt_fits; eauto.
        * intros _. rewrite Hv, He. rewrite He in Hw. cbn [loosen] in Hw. split; [|apply (single_plain ty f l ty' d m' Fx Hp He)]. apply IH with (v := v); [|destruct d; inversion Hw; subst; constructor; assumption|exact Ha]. pose proof (csize_in v [v] (or_introl eq_refl)). lia.
      + split; [|intros _; rewrite H2; unfold zlen; lia]. eapply several_ok; eauto. rewrite Hp in Hc. inversion Hc; subst. match goal with H : elems _ _ _ _ |- _ => apply elems_all in H; revert H end. apply Forall_impl. intros v Hw.
        apply (wt_fits W utf8_ok true); [|exact Hs]. destruct (w_elem f) as [| | |[]| |]; exact Hw.
      + split; [|intros _; rewrite Hl; unfold zlen; lia]. intros _. rewrite Hv, He. split; [symmetry; exact Hl|]. rewrite Hp in Hc. inversion Hc; subst. match goal with H : elems _ _ _ _ |- _ => apply elems_all in H; rename H into Hw end. rewrite He in Hw.
        assert (Hk' : Forall (fun v => vsize v <= k)%nat vs) by (apply Forall_forall; intros v Hin; pose proof (csize_in v vs Hin); lia). clear - Hms Hw Hk' IH HW Hread Hdef Hutf8.
        revert Hw Hk'. induction Hms as [|m' v ms vs (m0 & Ha & Hcm) _ IHms]; intros Hw Hk'; [constructor|]. inversion Hw as [|? ? Hw1 Hw2]; subst. inversion Hk' as [|? ? Hk1 Hk2]; subst. constructor; [|auto].
        assert (T : sound W (S k) ty' m0) by (apply IH with (v := v); [exact Hk1|destruct d; inversion Hw1; subst; constructor; assumption|exact Ha]).
        pose proof (DynRelay.vsize_pos utf8_ok v). destruct k as [|k]; [lia|]. eapply complete_whole; eauto.
    - destruct x as [f l]. cbn [fst snd] in *. pose proof (member_in W ty _ _ Hb Hx) as F1. pose proof (members_wf (w_fields (wty W ty))) as Hw. rewrite Forall_forall in Hw. specialize (Hw _ Hb). destruct Hw as [_ Hw]. rewrite Forall_forall in Hw.
      destruct (field_facts W HW Hread ty f l F1) as (_ & R1 & _). split; [|intros K; destruct K; exact (R1 _ (Hw _ Hx))]. intros K. rewrite (Hm _ _ Hx) in K. discriminate.
    - destruct x as [f' l']. cbn [fst snd]. assert (Hin : In (f, l) g) by (eapply nth_error_In; eauto).
      pose proof (member_in W ty _ _ Hb Hx) as F1. pose proof (member_in W ty _ _ Hb Hin) as F2.
      pose proof (members_wf (w_fields (wty W ty))) as Hwf. rewrite Forall_forall in Hwf. specialize (Hwf _ Hb). destruct Hwf as [_ Hwf]. rewrite Forall_forall in Hwf.
      destruct (field_facts W HW Hread ty f' l' F1) as (_ & R1' & _). pose proof (R1' _ (Hwf _ Hx)) as Rf'. split; [|intros K; destruct K; exact Rf'].
      destruct (In_nth_error _ _ Hx) as [j Hj]. destruct (Nat.eq_dec j i) as [->|Hji].
      + rewrite H1 in Hj. injection Hj as <- <-. inversion Hc as [| | | | | |? ? ? ? ? Hn Hw]; subst. rewrite nth_error_map, H1 in Hn. cbn [option_map fst] in Hn. injection Hn as <- <-.
        destruct H3 as [v Hs H|ty' d m' v He Hv Ha].
        * eapply single_ok; eauto. apply (wt_fits W utf8_ok true); [|exact Hs]. destruct (w_elem f) as [| | |[]| |]; exact Hw.
        * intros _. rewrite Hv, He. rewrite He in Hw. split; [|apply (single_plain ty f l ty' d m' F2 Rf' He)]. apply IH with (v := v); [|destruct d; inversion Hw; subst; constructor; assumption|exact Ha]. cbn [csize fold_right vsize] in Hk. lia.
      + intros K. exfalso. pose proof (group_slots _ _ _ (wty_ok W ty HW) Hb) as Gs. destruct (fop_index _ _ (fun a b Hab => conj (eq_sym (proj1 Hab)) (fun q => proj2 Hab (eq_sym q))) Gs _ _ _ _ Hji Hj H1) as [S1 S2]. cbn [snd] in S1, S2.
        destruct (DynRelay.same_slot W HW Hread ty _ _ F1 F2 S1) as [Heq|(R1 & R2 & _)]; [injection Heq; intros; congruence|]. cbn [fst] in R1, R2. rewrite singular_has in K by exact R1. rewrite singular_has in H2 by exact R2. unfold slot_at in *. rewrite S1 in K. apply Z.eqb_eq in K, H2. congruence.
  Qed.
  Lemma agree_sound n : forall ty m v, (vsize v <= n)%nat -> wt_msg E utf8_ok ty v -> agree W ty m v -> sound W (S n) ty m.
  Proof.
    induction n as [|k IH]; intros ty m v Hk Hw Ha; [pose proof (DynRelay.vsize_pos utf8_ok v); lia|]. destruct Ha as [ty m vs Hl Hms]. split; [exact Hl|]. inversion Hw as [| | | | |? ? ? ? Hc _ _]; subst. apply cells_nth in Hc. rewrite desc_env in Hc. cbn [m_fields desc_of_wtype] in Hc.
    apply Forall_forall. intros x Hx. rewrite <- (members_fields (w_fields (wty W ty))) in Hx. apply in_flat_map in Hx. destruct Hx as (b & Hb & Hx). destruct (In_nth_error _ _ Hb) as [j Hj].
    destruct (Forall2_nth_l _ _ _ Hms _ _ Hj) as (c & Hc1 & Hm). assert (Hj' : nth_error (map member_field (members_of (w_fields (wty W ty)))) j = Some (member_field b)) by (rewrite nth_error_map, Hj; reflexivity).
    apply (member_whole k ty b c m Hb Hm (Forall2_nth_both _ _ _ Hc _ _ _ Hj' Hc1)); [|exact IH|exact Hx].
    apply nth_error_In in Hc1. cbn [vsize] in Hk. pose proof (in_sum csize vs c Hc1). unfold csize in *. lia.
  Qed.
  Theorem read_sound ty bs m : all_bytes bs -> dyn_read W utf8_ok maxd ty bs = Ok m -> exists n, forall k, (n <= k)%nat -> sound W k ty m.
  Proof.
    intros Hb H. destruct (DynRelay.read_value W utf8_ok maxd HW Hread Hutf8 _ _ _ H) as (v & Hv & Ha). exists (S (vsize v)). intros k Hk. destruct k as [|k]; [lia|]. eapply agree_sound; eauto; [lia|]. eapply DynRelay.read_wt; eauto.
  Qed.
End Whole.
