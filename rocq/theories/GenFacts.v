(** What has been declared when a message is defined. *)
Require Import List Arith Bool Lia Permutation.
Require Import Verif.Archive Verif.Gen Verif.GenSpec Verif.GenBase Verif.GenDeps Verif.GenOrder Verif.GenLevel Verif.GenEmit.
Import ListNotations.
Local Open Scope nat_scope.

Section Pool.
Variable P : pool.
Hypothesis W : wf P.
Hypothesis X : no_file_extensions P.
Variable file : nat.
Variable A : Prop.

Notation G0 := (resolve_dependencies P).
Notation deps0 := (deps (resolve_dependencies P)).

(** What the order of a scope gives: every need is met by an earlier sibling or, if [A]
    allows it, by a forward declaration; singular fields of siblings not declared
    earlier are recursive. *)
Hypothesis Hlev : forall scope st order st',
  let view := messages_of P file scope in
  (forall x, In x view -> deps st x = deps0 x /\ fwd st x = []) -> order_messages P view st = Ok (order, st') ->
  forall l1 m l2, order = l1 ++ m :: l2 ->
    (forall d, In d (deps0 m) -> In d l1 \/ (A /\ In d (fwd st' m))) /\
    (forall f d, f < nflds P -> f_msg (fget P f) = Some m -> f_type (fget P f) = TMsg d -> f_rep (fget P f) = false -> In d (deps0 m) ->
       recs st' f = true \/ In d l1).

(** everything in [E] is defined *)
Definition done (C : list event) E :=
  forall x, x < nmsgs P -> sub P E x -> entry P x = false -> (exists us, In (EDef x us) C) /\ In (EScope x) C.
Definition met (C : list event) E := done C E \/ (A /\ In (EFwd E) C).

Lemma done_app C C' E : done C E -> done (C ++ C') E.
Proof.
  intros H x Hx Hs Ee. destruct (H x Hx Hs Ee) as [[us U] V]. split; [exists us|]; apply in_or_app; left; assumption.
Qed.
Lemma met_app C C' E : met C E -> met (C ++ C') E.
Proof. intros [H|[HA H]]; [left; apply done_app; exact H | right; split; [exact HA | apply in_or_app; left; exact H]]. Qed.
Lemma complete_done C (Q : nat -> Prop) es E : complete P Q es -> (forall x, sub P E x -> Q x) -> done (C ++ es) E.
Proof.
  intros [_ [D Sc]] HQ x Hx Hs Ee. split.
  - assert (H : In x (defs es)) by (apply D; split; [exact Hx|]; split; [apply HQ; exact Hs | exact Ee]).
    apply defs_In in H as [us H]. exists us. apply in_or_app. right. exact H.
  - apply in_or_app. right. apply Sc; [exact Hx | apply HQ; exact Hs | exact Ee].
Qed.

Definition facts (C : list event) (m : nat) (us : list use) : Prop := exists st2,
  us = uses P st2 m /\ m < nmsgs P /\ fileof P m = file /\ entry P m = false /\
  (forall f, recs G0 f = true -> recs st2 f = true) /\
  (forall x, x < nmsgs P -> inside P m x -> entry P x = false -> (exists us, In (EDef x us) C) /\ In (EScope x) C) /\
  (forall D, D < nmsgs P -> sub P D m -> In (EScope D) C) /\
  (forall D E, D < nmsgs P -> sub P D m -> In E (deps0 D) -> met C E) /\
  (forall f d, f < nflds P -> f_msg (fget P f) = Some m -> f_type (fget P f) = TMsg d -> f_rep (fget P f) = false -> In d (deps0 m) ->
     recs st2 f = true \/ done C d).

Definition all_facts (C es : list event) := forall a x us b, es = a ++ EDef x us :: b -> facts (C ++ a) x us.

Lemma all_facts_app C e1 e2 : all_facts C e1 -> all_facts (C ++ e1) e2 -> all_facts C (e1 ++ e2).
Proof.
  intros H1 H2 a x us b E. apply app_split in E as [[l [E1 E2]]|[l [E1 E2]]].
  - eapply H1. exact E1.
  - rewrite E1, app_assoc. eapply H2. exact E2.
Qed.

Definition fresh_below (m : nat) (st : gst) := forall x, x < nmsgs P -> inside P m x -> deps st x = deps0 x /\ fwd st x = [].
Definition grown (st : gst) := forall f, recs G0 f = true -> recs st f = true.

(** what is known before a message of the file is processed *)
Record context (C : list event) (m : nat) (st : gst) : Prop := {
  ctx_fresh : fresh_below m st;
  ctx_grown : grown st;
  ctx_scope : forall D, D < nmsgs P -> inside P D m -> In (EScope D) C;
  ctx_needs : forall D E, D < nmsgs P -> inside P D m -> In E (deps0 D) -> met C E;
  ctx_own : forall E, In E (deps0 m) -> done C E \/ (A /\ In E (fwd st m));
  ctx_fields : forall f d, f < nflds P -> f_msg (fget P f) = Some m -> f_type (fget P f) = TMsg d -> f_rep (fget P f) = false -> In d (deps0 m) ->
     recs st f = true \/ done C d
}.

Section List_.
Variable k : nat.
Hypothesis IH : forall m st C es st', m < nmsgs P -> fileof P m = file ->
  (forall x, x < nmsgs P -> sub P m x -> length (pathof P x) < k + length (pathof P m)) ->
  context C m st -> process P k m st = Ok (es, st') -> all_facts C es.

(** the messages of one scope: [before] are done, [ms] are left *)
Lemma list_facts scope order st1 : Permutation order (messages_of P file scope) ->
  (forall c, In c order -> forall x, x < nmsgs P -> sub P c x -> length (pathof P x) < k + length (pathof P c)) ->
  (forall c x, In c order -> x < nmsgs P -> inside P c x -> deps st1 x = deps0 x /\ fwd st1 x = []) -> grown st1 ->
  forall C0, (forall c D, In c order -> D < nmsgs P -> inside P D c -> In (EScope D) C0) ->
  (forall c D E, In c order -> D < nmsgs P -> inside P D c -> In E (deps0 D) -> met C0 E) ->
  (forall l1 m l2, order = l1 ++ m :: l2 ->
    (forall d, In d (deps0 m) -> In d l1 \/ (A /\ In d (fwd st1 m))) /\
    (forall f d, f < nflds P -> f_msg (fget P f) = Some m -> f_type (fget P f) = TMsg d -> f_rep (fget P f) = false -> In d (deps0 m) ->
       recs st1 f = true \/ In d l1)) ->
  forall ms before st C es st', order = before ++ ms ->
    same_outside P (fun x => exists m, In m before /\ inside P m x) st1 st ->
    (exists C', C = C0 ++ C') -> (forall c, In c before -> done C c) ->
    process_list (process P k) ms st = Ok (es, st') -> all_facts C es.
Proof.
  intros Pm Hlen Hfresh Hgrown C0 Hsc Hne Hord. induction ms as [|m ms IHl]; intros before st C es st' Eo Hs HC Hb; cbn [process_list].
  - intros E. injection E as <- <-. intros a x us b E. destruct a; discriminate.
  - intros E. apply bind_Ok in E as [[e s1] [E1 E]]. apply bind_Ok in E as [[es2 s2] [E2 E]]. injection E as <- <-.
    assert (Hm : In m order) by (rewrite Eo; apply in_or_app; right; left; reflexivity).
    assert (Hmm : In m (messages_of P file scope)) by (exact (Permutation_in _ Pm Hm)).
    assert (Hnd : NoDup order) by (apply (Permutation_NoDup (Permutation_sym Pm)); apply messages_NoDup).
    destruct (proj1 (messages_In P W _ _ _) Hmm) as [Hmn [Fm _]].
    assert (Apart : forall c, In c before -> c <> m).
    { intros c Hc ->. rewrite Eo in Hnd. apply NoDup_remove_2 in Hnd. apply Hnd. apply in_or_app. left. exact Hc. }
    assert (Hbm : forall c, In c before -> In c (messages_of P file scope)).
    { intros c Hc. apply (Permutation_in _ Pm). rewrite Eo. apply in_or_app. left. exact Hc. }
    assert (Not : forall x, sub P m x -> ~ exists c, In c before /\ inside P c x).
    { intros x Hx [c [Hc Hi]]. apply (Apart c Hc). eapply (siblings_apart P W file scope); [apply Hbm; exact Hc | exact Hmm | exact (proj1 Hi) | exact Hx]. }
    destruct Hs as [Hs1 Hs2]. destruct (Hord before m ms Eo) as [O1 O2]. destruct HC as [C' HC].
    assert (Ctx : context C m st).
    { split.
      - intros x Hx Hi. destruct (Hs1 x Hx (Not x (proj1 Hi))) as [-> ->]. eapply Hfresh; eassumption.
      - intros f Hf. apply Hs2, Hgrown, Hf.
      - intros D HD Hi. rewrite HC. apply in_or_app. left. eapply Hsc; eassumption.
      - intros D E HD Hi HE. rewrite HC. apply met_app. eapply Hne; eassumption.
      - intros E HE. destruct (O1 E HE) as [H|[HA H]]; [left; apply Hb; exact H|]. right. split; [exact HA|].
        destruct (Hs1 m Hmn (Not m (sub_refl P m))) as [_ ->]. exact H.
      - intros f d Hf Hfm Ht Hr Hd. destruct (O2 f d Hf Hfm Ht Hr Hd) as [H|H]; [left; apply Hs2; exact H | right; apply Hb; exact H]. }
    pose proof (IH m st C e s1 Hmn Fm (Hlen m Hm) Ctx E1) as F1.
    destruct (process_complete P W X k m st Hmn (Hlen m Hm)) as [e' [s1' [E1' [S1 C1]]]]. rewrite E1 in E1'. injection E1' as <- <-.
    apply all_facts_app; [exact F1|]. eapply (IHl (before ++ [m])); [| | | |exact E2].
    + rewrite <- app_assoc. exact Eo.
    + eapply same_trans; [| | exact (conj Hs1 Hs2) | exact S1].
      * intros x [c [Hc Hi]]. exists c. split; [apply in_or_app; left; exact Hc | exact Hi].
      * intros x Hi. exists m. split; [apply in_or_app; right; left; reflexivity | exact Hi].
    + exists (C' ++ e). rewrite HC, app_assoc. reflexivity.
    + intros c Hc. apply in_app_or in Hc as [Hc|[<-|[]]]; [apply done_app; apply Hb; exact Hc|].
      eapply complete_done; [exact C1 | intros x Hx; exact Hx].
Qed.
End List_.

Theorem process_facts k : forall m st C es st', m < nmsgs P -> fileof P m = file ->
  (forall x, x < nmsgs P -> sub P m x -> length (pathof P x) < k + length (pathof P m)) ->
  context C m st -> process P k m st = Ok (es, st') -> all_facts C es.
Proof.
  induction k as [|k IH]; intros m st C es st' Hm Fm Hlen Ctx; cbn [process]; [discriminate|].
  destruct (entry P m) eqn:Em.
  - intros E. injection E as <- <-. intros a x us b E. destruct a; discriminate.
  - intros E. apply bind_Ok in E as [[order st1] [E1 E]]. apply bind_Ok in E as [[es1 st2] [E2 E]]. injection E as <- <-.
    rewrite Fm in E1. destruct Ctx as [Cf Cg Cs Cn Co Cd].
    set (view := messages_of P file (pathof P m)) in *.
    destruct (order_frame P view (fun d _ => no_null P X d) (messages_NoDup P _ _) st order st1 E1) as [Pm [Fr Mo]].
    set (C1 := C ++ map EFwd (fwd st m) ++ [EScope m]).
    assert (Child : forall c, In c order -> c < nmsgs P /\ inside P m c).
    { intros c Hc. apply (Permutation_in _ Pm) in Hc. split.
      - apply (messages_In P W) in Hc as [H _]. exact H.
      - apply child_inside; [exact W | exact Hm|]. rewrite Fm. exact Hc. }
    assert (Hlen' : forall c, In c order -> forall x, x < nmsgs P -> sub P c x -> length (pathof P x) < k + length (pathof P c)).
    { intros c Hc x Hx Hs. destruct (Child c Hc) as [Hcn Hi]. pose proof (inside_longer P W m c Hm Hcn Hi).
      specialize (Hlen x Hx (sub_trans P _ _ _ (proj1 Hi) Hs)). lia. }
    assert (Up : forall c D, In c order -> D < nmsgs P -> inside P D c -> D = m \/ inside P D m).
    { intros c D Hc HD Hi. destruct (Child c Hc) as [Hcn Hmc]. pose proof (inside_longer P W D c HD Hcn Hi) as L1.
      pose proof (proj1 (messages_In P W _ _ _) (Permutation_in _ Pm Hc)) as [_ [Fc Rc]].
      assert (L : length (pathof P c) = S (length (pathof P m))).
      { rewrite (path_split P W c Hcn), Rc, app_length. cbn. lia. }
      assert (Sb : sub P D m).
      { destruct Hi as [[F1 P1] _]. split; [congruence|]. eapply prefix_comparable; [exact P1 | exact (proj2 (proj1 Hmc)) | lia]. }
      apply sub_cases in Sb as [->|Sb]; [left; reflexivity | right; exact Sb]. }
    assert (C1s : forall D, D < nmsgs P -> sub P D m -> In (EScope D) C1).
    { intros D HD Hs. apply in_or_app. apply sub_cases in Hs as [->|Hs]; [right; apply in_or_app; right; left; reflexivity | left; apply Cs; assumption]. }
    assert (C1n : forall D E, D < nmsgs P -> sub P D m -> In E (deps0 D) -> met C1 E).
    { intros D E HD Hs HE. apply sub_cases in Hs as [->|Hs]; [|apply met_app; eapply Cn; eassumption].
      destruct (Co E HE) as [H|[HA H]]; [left; apply done_app; exact H|]. right. split; [exact HA|]. apply in_or_app. right. apply in_or_app. left.
      apply in_map. exact H. }
    assert (Fresh1 : forall x, In x view -> deps st x = deps0 x /\ fwd st x = []).
    { intros x Hx. assert (Hx' : In x order) by (exact (Permutation_in _ (Permutation_sym Pm) Hx)). apply Cf; apply Child; exact Hx'. }
    assert (NotView : forall c x, In c order -> inside P c x -> x < nmsgs P -> ~ In x view).
    { intros c x Hc Hi Hx Hv. destruct (Child c Hc) as [Hcn _]. pose proof (inside_longer P W c x Hcn Hx Hi) as L.
      apply (Permutation_in _ Pm) in Hc. apply (messages_In P W) in Hc as [_ [_ Rc]]. apply (messages_In P W) in Hv as [_ [_ Rx]].
      rewrite (path_split P W c Hcn), Rc, (path_split P W x Hx), Rx, !app_length in L. cbn [length] in L. lia. }
    assert (Hgr1 : grown st1) by (intros f Hf; apply Mo, Cg, Hf).
    assert (L : all_facts C1 es1).
    { eapply (list_facts k IH (pathof P m) order st1 Pm Hlen') with (C0 := C1) (before := []) (ms := order); [| exact Hgr1 | | | | reflexivity | apply same_refl | exists []; symmetry; apply app_nil_r | intros c [] | exact E2].
      - intros c x Hc Hx Hi. destruct (Fr x (NotView c x Hc Hi Hx)) as [-> ->]. apply Cf; [exact Hx|].
        destruct (Child c Hc) as [Hcn Hmc]. eapply inside_sub; [exact W | exact Hm | exact Hcn | exact Hx | exact Hmc | exact (proj1 Hi)].
      - intros c D Hc HD Hi. apply C1s; [exact HD|]. destruct (Up c D Hc HD Hi) as [->|H]; [apply sub_refl | exact (proj1 H)].
      - intros c D E Hc HD Hi HE. apply (C1n D); [exact HD | | exact HE]. destruct (Up c D Hc HD Hi) as [->|H]; [apply sub_refl | exact (proj1 H)].
      - exact (Hlev (pathof P m) st order st1 Fresh1 E1). }
    destruct (list_complete P W k (process_complete P W X k) file (pathof P m) order st1) as [es1' [st2' [E2' [S2 Cm2]]]].
    + apply (Permutation_NoDup (Permutation_sym Pm)). apply messages_NoDup.
    + intros x Hx. exact (Permutation_in _ Pm Hx).
    + intros c x Hc Hx Hs. apply (Hlen' c); assumption.
    + rewrite E2 in E2'. injection E2' as <- <-.
      replace (map EFwd (fwd st m) ++ EScope m :: es1 ++ [EDef m (uses P st2 m)]) with ((map EFwd (fwd st m) ++ [EScope m]) ++ es1 ++ [EDef m (uses P st2 m)])
        by (rewrite <- app_assoc; reflexivity).
      apply all_facts_app.
      { intros a x us b Eq. exfalso. assert (Hin : In (EDef x us) (map EFwd (fwd st m) ++ [EScope m])) by (rewrite Eq; apply in_or_app; right; left; reflexivity).
        apply in_app_or in Hin as [Hin|[Hin|[]]]; [|discriminate]. apply in_map_iff in Hin as [y [Hy _]]. discriminate. }
      fold C1. apply all_facts_app; [exact L|]. intros a x us b Eq. destruct a as [|e a]; [|destruct a; discriminate]. cbn [app] in Eq. injection Eq as <- <- <-.
      rewrite app_nil_r. exists st2. split; [reflexivity|]. split; [exact Hm|]. split; [exact Fm|]. split; [exact Em|]. split; [|split; [|split; [|split]]].
      * intros f Hf. destruct S2 as [_ S2]. apply S2, Hgr1, Hf.
      * intros x Hx Hi Ee. destruct (child_towards P W m x Hm Hx Hi) as [c [Hc [Hs _]]]. rewrite Fm in Hc.
        assert (Dn : done (C1 ++ es1) c).
        { eapply complete_done; [exact Cm2|]. intros y Hy. exists c. split; [exact (Permutation_in _ (Permutation_sym Pm) Hc) | exact Hy]. }
        exact (Dn x Hx Hs Ee).
      * intros D HD Hs. apply in_or_app. left. apply C1s; assumption.
      * intros D E HD Hs HE. apply met_app. eapply C1n; eassumption.
      * intros f d Hf Hfm Ht Hr Hd. destruct (Cd f d Hf Hfm Ht Hr Hd) as [H|H].
        -- left. destruct S2 as [_ S2]. apply S2, Mo, H.
        -- right. apply done_app. unfold C1. apply done_app. exact H.
Qed.

Theorem generate_facts es : generate P file = Ok es -> all_facts [] es.
Proof.
  unfold generate, generate_from. intros E. apply bind_Ok in E as [[order st1] [E1 E]]. apply bind_Ok in E as [[es1 st2] [E2 E]]. injection E as <-.
  set (view := messages_of P file []) in *.
  destruct (order_frame P view (fun d _ => no_null P X d) (messages_NoDup P _ _) G0 order st1 E1) as [Pm [Fr Mo]].
  assert (Top : forall c, In c order -> c < nmsgs P /\ length (pathof P c) = 1).
  { intros c Hc. apply (Permutation_in _ Pm) in Hc. apply (messages_In P W) in Hc as [Hc [_ R]]. split; [exact Hc|].
    rewrite (path_split P W c Hc), R. reflexivity. }
  assert (NoUp : forall c D, In c order -> D < nmsgs P -> ~ inside P D c).
  { intros c D Hc HD Hi. destruct (Top c Hc) as [Hcn L]. pose proof (inside_longer P W D c HD Hcn Hi) as L1.
    pose proof (wf_named P W D HD). destruct (pathof P D); [congruence | cbn in L1; lia]. }
  eapply (list_facts (S (depth P)) (process_facts (S (depth P))) [] order st1 Pm) with (C0 := []) (before := []) (ms := order); [| | | | | |reflexivity | apply same_refl | exists []; reflexivity | intros c [] | exact E2].
  - intros c Hc x Hx _. apply enough; [apply Top; exact Hc | exact Hx].
  - intros c x Hc Hx Hi. destruct (Top c Hc) as [Hcn L]. pose proof (inside_longer P W c x Hcn Hx Hi) as L1.
    destruct (Fr x) as [-> ->].
    + intros Hv. apply (Permutation_in _ (Permutation_sym Pm)) in Hv. destruct (Top x Hv). lia.
    + split; [reflexivity | apply fwd0].
  - intros f Hf. apply Mo. exact Hf.
  - intros c D Hc HD Hi. exfalso. exact (NoUp c D Hc HD Hi).
  - intros c D E Hc HD Hi. exfalso. exact (NoUp c D Hc HD Hi).
  - apply (Hlev [] G0 order st1); [|exact E1]. intros x _. split; [reflexivity | apply fwd0].
Qed.
End Pool.
