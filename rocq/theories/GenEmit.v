(** The declarations of a generated header: they are complete and in the order of the
    scopes. *)
Require Import List Arith Bool Lia Permutation.
Require Import Verif.Archive Verif.Gen Verif.GenSpec Verif.GenBase Verif.GenDeps Verif.GenOrder Verif.GenLevel.
Import ListNotations.
Local Open Scope nat_scope.

Lemma app_split {A} (x1 x2 y1 y2 : list A) e : x1 ++ x2 = y1 ++ e :: y2 ->
  (exists l, x1 = y1 ++ e :: l /\ y2 = l ++ x2) \/ (exists l, y1 = x1 ++ l /\ x2 = l ++ e :: y2).
Proof.
  revert y1. induction x1 as [|a x1 IH]; intros y1 H.
  - right. exists y1. split; [reflexivity | exact H].
  - destruct y1 as [|b y1]; cbn [app] in H.
    + injection H as -> H. left. exists x1. split; [reflexivity | symmetry; exact H].
    + injection H as -> H. destruct (IH y1 H) as [[l [-> ->]]|[l [-> ->]]].
      * left. exists l. split; reflexivity.
      * right. exists l. split; reflexivity.
Qed.
Lemma defs_app a b : defs (a ++ b) = defs a ++ defs b.
Proof. unfold defs. apply flat_map_app. Qed.
Lemma defs_fwd l : defs (map EFwd l) = [].
Proof. unfold defs. induction l as [|x l IH]; [reflexivity | exact IH]. Qed.
Lemma defs_In es x : In x (defs es) <-> exists us, In (EDef x us) es.
Proof.
  unfold defs. rewrite in_flat_map. split.
  - intros [[t|t|t us] [H Hx]]; [destruct Hx | destruct Hx |]. destruct Hx as [->|[]]. exists us. exact H.
  - intros [us H]. exists (EDef x us). split; [exact H | left; reflexivity].
Qed.
Lemma NoDup_app_intro {A} (a b : list A) : NoDup a -> NoDup b -> (forall x, In x a -> In x b -> False) -> NoDup (a ++ b).
Proof.
  induction a as [|x a IH]; intros Ha Hb H; [exact Hb|]. apply NoDup_cons_iff in Ha as [Hx Ha]. cbn [app]. constructor.
  - intros C. apply in_app_or in C as [C|C]; [exact (Hx C) | exact (H x (or_introl eq_refl) C)].
  - apply IH; [exact Ha | exact Hb|]. intros y Hy. apply H. right. exact Hy.
Qed.

Section Pool.
Variable P : pool.
Hypothesis W : wf P.
Hypothesis X : no_file_extensions P.

Lemma no_null d : null_user P d = false.
Proof.
  unfold null_user. apply not_true_iff_false. intros H. apply existsb_exists in H as [f [Hf H]].
  apply used_by_In in Hf as [Hf T]. pose proof (X f d Hf T). destruct (f_msg (fget P f)); [discriminate | contradiction].
Qed.

Lemma inside_longer m t : m < nmsgs P -> t < nmsgs P -> inside P m t -> length (pathof P m) < length (pathof P t).
Proof.
  intros Hm Ht [[F Hp] N]. pose proof (prefix_length _ _ Hp). destruct (le_lt_dec (length (pathof P t)) (length (pathof P m))) as [L|L]; [|lia].
  exfalso. apply N. apply (wf_unique P W); [exact Hm | exact Ht | exact F | apply prefix_same_length; assumption].
Qed.
Lemma inside_not_entry m t : m < nmsgs P -> t < nmsgs P -> inside P m t -> entry P m = false.
Proof.
  intros Hm Ht H. pose proof (inside_longer m t Hm Ht H) as L. destruct H as [[F Hp] N].
  destruct (ancestor P W t (length (pathof P m)) Ht) as [a [Ha [Fa [Pa Ea]]]]; [|lia|].
  - pose proof (wf_named P W m Hm). destruct (pathof P m); [congruence | cbn; lia].
  - assert (a = m); [|subst; exact (Ea L)]. apply (wf_unique P W); [exact Ha | exact Hm | congruence|]. rewrite Pa. symmetry. apply prefix_firstn. exact Hp.
Qed.
Lemma inside_sub a b c : a < nmsgs P -> b < nmsgs P -> c < nmsgs P -> inside P a b -> sub P b c -> inside P a c.
Proof.
  intros Ha Hb Hc [S1 N] S2. split; [eapply sub_trans; eassumption|]. intros <-. apply N. apply (sub_antisym P W); assumption.
Qed.
Lemma sub_cases m t : sub P m t -> m = t \/ inside P m t.
Proof. intros H. destruct (Nat.eq_dec m t) as [->|N]; [left; reflexivity | right; split; assumption]. Qed.
(** messages of one scope have nothing in common *)
Lemma siblings_apart file scope m m' x : In m (messages_of P file scope) -> In m' (messages_of P file scope) -> sub P m x -> sub P m' x -> m = m'.
Proof.
  intros H1 H2 [F1 P1] [F2 P2]. apply (messages_In P W) in H1 as [A1 [B1 C1]]. apply (messages_In P W) in H2 as [A2 [B2 C2]].
  apply (wf_unique P W); [exact A1 | exact A2 | congruence|].
  assert (L : length (pathof P m) = length (pathof P m')).
  { rewrite (path_split P W m A1), (path_split P W m' A2), C1, C2, !app_length. reflexivity. }
  apply prefix_same_length; [|lia]. eapply prefix_comparable; [exact P1 | exact P2 | lia].
Qed.

Lemma depth_ge m : m < nmsgs P -> length (pathof P m) <= depth P.
Proof.
  intros Hm. unfold depth, pathof, mget. assert (H := proj1 (list_max_le (map (fun m => length (m_path m)) (msgs P)) (list_max (map (fun m => length (m_path m)) (msgs P)))) (Nat.le_refl _)).
  rewrite Forall_forall in H. apply H. apply in_map_iff. exists (nth m (msgs P) mdef). split; [reflexivity|]. apply nth_In. exact Hm.
Qed.

(** ** The header is complete *)
Definition same_outside (Q : nat -> Prop) (st st' : gst) :=
  (forall x, x < nmsgs P -> ~ Q x -> deps st' x = deps st x /\ fwd st' x = fwd st x) /\ (forall f, recs st f = true -> recs st' f = true).
Definition complete (Q : nat -> Prop) (es : list event) :=
  NoDup (defs es) /\ (forall x, In x (defs es) <-> x < nmsgs P /\ Q x /\ entry P x = false) /\
  (forall x, x < nmsgs P -> Q x -> entry P x = false -> In (EScope x) es).

Lemma same_refl Q st : same_outside Q st st.
Proof. split; [intros x _ _; split; reflexivity | intros f H; exact H]. Qed.
Lemma same_trans (Q1 Q2 Q : nat -> Prop) a b c : (forall x, Q1 x -> Q x) -> (forall x, Q2 x -> Q x) ->
  same_outside Q1 a b -> same_outside Q2 b c -> same_outside Q a c.
Proof.
  intros I1 I2 [A1 A2] [B1 B2]. split.
  - intros x Hx N. destruct (A1 x Hx (fun h => N (I1 x h))) as [E1 E2]. destruct (B1 x Hx (fun h => N (I2 x h))) as [E3 E4]. split; congruence.
  - intros f H. apply B2, A2, H.
Qed.

Section List_.
Variable k : nat.
Hypothesis IH : forall m st, m < nmsgs P -> (forall x, x < nmsgs P -> sub P m x -> length (pathof P x) < k + length (pathof P m)) ->
  exists es st', process P k m st = Ok (es, st') /\ same_outside (fun x => inside P m x) st st' /\ complete (sub P m) es.

Lemma list_complete file scope : forall ms st, NoDup ms -> incl ms (messages_of P file scope) ->
  (forall m x, In m ms -> x < nmsgs P -> sub P m x -> length (pathof P x) < k + length (pathof P m)) ->
  exists es st', process_list (process P k) ms st = Ok (es, st') /\ same_outside (fun x => exists m, In m ms /\ inside P m x) st st' /\
    complete (fun x => exists m, In m ms /\ sub P m x) es.
Proof.
  induction ms as [|m ms IHl]; intros st Hnd Hincl Hlen; cbn [process_list].
  - exists [], st. split; [reflexivity|]. split; [apply same_refl|]. split; [constructor|]. split.
    + intros x. split; [intros []|]. intros [_ [[m [[] _]] _]].
    + intros x _ [m [[] _]].
  - apply NoDup_cons_iff in Hnd as [Hm Hnd]. assert (Hmm : In m (messages_of P file scope)) by (apply Hincl; left; reflexivity).
    assert (Hmn : m < nmsgs P) by (apply (messages_In P W) in Hmm as [H _]; exact H).
    destruct (IH m st Hmn) as [e [st1 [E1 [S1 [N1 [D1 Sc1]]]]]]; [intros x Hx Hs; apply Hlen; [left; reflexivity | exact Hx | exact Hs]|].
    destruct (IHl st1 Hnd) as [es [st2 [E2 [S2 [N2 [D2 Sc2]]]]]];
      [intros x Hx; apply Hincl; right; exact Hx | intros y x Hy; apply Hlen; right; exact Hy|].
    rewrite E1. cbn [bind]. rewrite E2. cbn [bind]. exists (e ++ es), st2. split; [reflexivity|]. split.
    { eapply same_trans; [| | exact S1 | exact S2].
      - intros x H. exists m. split; [left; reflexivity | exact H].
      - intros x [y [Hy H]]. exists y. split; [right; exact Hy | exact H]. }
    split; [|split].
    + rewrite defs_app. apply NoDup_app_intro; [exact N1 | exact N2|]. intros x H1 H2. apply D1 in H1 as [_ [H1 _]]. apply D2 in H2 as [_ [[y [Hy H2]] _]].
      apply Hm. replace m with y; [exact Hy|]. eapply (siblings_apart file scope); [apply Hincl; right; exact Hy | exact Hmm | exact H2 | exact H1].
    + intros x. rewrite defs_app, in_app_iff, D1, D2. split.
      * intros [[A [B C]]|[A [[y [Hy B]] C]]]; (split; [exact A|]; split; [|exact C]); [exists m; split; [left; reflexivity | exact B] | exists y; split; [right; exact Hy | exact B]].
      * intros [A [[y [[<-|Hy] B]] C]]; [left; split; [exact A|]; split; assumption | right]. split; [exact A|]. split; [|exact C]. exists y. split; assumption.
    + intros x Hx [y [[<-|Hy] B]] Ee; apply in_or_app; [left; apply Sc1; assumption | right; apply Sc2; [exact Hx | exists y; split; assumption | exact Ee]].
Qed.
End List_.

Lemma complete_ext (Q Q' : nat -> Prop) es : (forall x, x < nmsgs P -> entry P x = false -> (Q x <-> Q' x)) -> complete Q es -> complete Q' es.
Proof.
  intros H [A [B C]]. split; [exact A|]. split.
  - intros x. rewrite B. split; intros [U [V E]]; (split; [exact U|]; split; [apply (H x U E); exact V | exact E]).
  - intros x Hx Hq Ee. apply C; [exact Hx | apply (H x Hx Ee); exact Hq | exact Ee].
Qed.

Theorem process_complete k : forall m st, m < nmsgs P -> (forall x, x < nmsgs P -> sub P m x -> length (pathof P x) < k + length (pathof P m)) ->
  exists es st', process P k m st = Ok (es, st') /\ same_outside (fun x => inside P m x) st st' /\ complete (sub P m) es.
Proof.
  induction k as [|k IH]; intros m st Hm Hlen.
  - exfalso. specialize (Hlen m Hm (sub_refl P m)). lia.
  - cbn [process]. destruct (entry P m) eqn:Em.
    + exists [], st. split; [reflexivity|]. split; [apply same_refl|]. split; [constructor|].
      assert (No : forall x, x < nmsgs P -> sub P m x -> entry P x = false -> False).
      { intros x Hx Hs Ex. apply sub_cases in Hs as [->|Hi]; [congruence|]. rewrite (inside_not_entry m x Hm Hx Hi) in Em. discriminate. }
      split; [intros x; split; [intros [] | intros [A [B C]]; exfalso; exact (No x A B C)]|]. intros x A B C. exfalso. exact (No x A B C).
    + set (view := messages_of P (fileof P m) (pathof P m)).
      destruct (order_total P view (fun d _ => no_null d) st) as [order [st1 E1]].
      destruct (order_frame P view (fun d _ => no_null d) (messages_NoDup P _ _) st order st1 E1) as [Pm [Fr Mo]].
      rewrite E1. cbn [bind].
      destruct (list_complete k IH (fileof P m) (pathof P m) order st1) as [es [st2 [E2 [S2 C2]]]].
      * apply (Permutation_NoDup (Permutation_sym Pm)). apply messages_NoDup.
      * intros x Hx. exact (Permutation_in _ Pm Hx).
      * intros c x Hc Hx Hs. apply (Permutation_in _ Pm) in Hc. pose proof (child_inside P W m c Hm Hc) as Hi.
        assert (Hcn : c < nmsgs P) by (apply (messages_In P W) in Hc as [H _]; exact H).
        pose proof (inside_longer m c Hm Hcn Hi). specialize (Hlen x Hx (sub_trans P _ _ _ (proj1 Hi) Hs)). lia.
      * rewrite E2. cbn [bind]. eexists. eexists. split; [reflexivity|].
        assert (Hin : forall x, x < nmsgs P -> (exists c, In c order /\ sub P c x) <-> inside P m x).
        { intros x Hx. split.
          - intros [c [Hc Hs]]. apply (Permutation_in _ Pm) in Hc.
            assert (Hcn : c < nmsgs P) by (apply (messages_In P W) in Hc as [H _]; exact H).
            eapply inside_sub; [exact Hm | exact Hcn | exact Hx | apply child_inside; assumption | exact Hs].
          - intros Hi. destruct (child_towards P W m x Hm Hx Hi) as [c [Hc [Hs _]]]. exists c. split; [exact (Permutation_in _ (Permutation_sym Pm) Hc) | exact Hs]. }
        split.
        { destruct S2 as [S2 M2]. split; [|intros f H; apply M2, Mo, H]. intros x Hx N.
          destruct (S2 x Hx) as [A B].
          - intros [c [Hc Hi]]. apply N. apply Hin; [exact Hx|]. exists c. split; [exact Hc | exact (proj1 Hi)].
          - destruct (Fr x) as [A' B']; [|split; congruence]. intros Hv. apply N. apply child_inside; assumption. }
        destruct C2 as [N2 [D2 Sc2]].
        assert (Eq : defs (map EFwd (fwd st m) ++ EScope m :: es ++ [EDef m (uses P st2 m)]) = defs es ++ [m]).
        { rewrite defs_app, defs_fwd. cbn [app]. change (defs (EScope m :: es ++ [EDef m (uses P st2 m)])) with (defs (es ++ [EDef m (uses P st2 m)])).
          rewrite defs_app. reflexivity. }
        assert (Nm : ~ In m (defs es)).
        { intros H. apply D2 in H as [_ [H _]]. apply Hin in H; [|exact Hm]. exact (proj2 H eq_refl). }
        split; [|split].
        -- rewrite Eq. apply NoDup_app_intro; [exact N2 | constructor; [intros [] | constructor]|]. intros x H [<-|[]]. exact (Nm H).
        -- intros x. rewrite Eq, in_app_iff. split.
           ++ intros [H|[<-|[]]].
              ** apply D2 in H as [A [B C]]. apply Hin in B; [|exact A]. split; [exact A|]. split; [exact (proj1 B) | exact C].
              ** split; [exact Hm|]. split; [apply sub_refl | exact Em].
           ++ intros [A [B C]]. apply sub_cases in B as [<-|B]; [right; left; reflexivity|]. left. apply D2.
              split; [exact A|]. split; [apply Hin; assumption | exact C].
        -- intros x A B C. apply in_or_app. right. apply sub_cases in B as [<-|B]; [left; reflexivity|]. right. apply in_or_app. left.
           apply Sc2; [exact A | apply Hin; assumption | exact C].
Qed.

Lemma enough m x : m < nmsgs P -> x < nmsgs P -> length (pathof P x) < S (depth P) + length (pathof P m).
Proof.
  intros Hm Hx. pose proof (depth_ge x Hx). lia.
Qed.

(** every message of the file has a place in its outermost scope *)
Lemma outermost x : x < nmsgs P -> exists m, In m (messages_of P (fileof P x) []) /\ sub P m x.
Proof.
  intros Hx. assert (L : 1 <= length (pathof P x)).
  { pose proof (wf_named P W x Hx). destruct (pathof P x); [congruence | cbn; lia]. }
  destruct (ancestor P W x 1 Hx) as [a [Ha [Fa [Pa _]]]]; [lia | exact L|]. exists a. split.
  - apply (messages_In P W). split; [exact Ha|]. split; [exact Fa|]. rewrite Pa. destruct (pathof P x) as [|y l]; [cbn in L; lia | reflexivity].
  - split; [exact Fa|]. rewrite Pa. apply firstn_prefix.
Qed.

Theorem generate_complete file : exists es, generate P file = Ok es /\ NoDup (defs es) /\
  forall m, In m (defs es) <-> m < nmsgs P /\ fileof P m = file /\ entry P m = false.
Proof.
  unfold generate, generate_from. set (st := resolve_dependencies P). set (view := messages_of P file []).
  destruct (order_total P view (fun d _ => no_null d) st) as [order [st1 E1]].
  destruct (order_frame P view (fun d _ => no_null d) (messages_NoDup P _ _) st order st1 E1) as [Pm _].
  rewrite E1. cbn [bind].
  destruct (list_complete (S (depth P)) (process_complete (S (depth P))) file [] order st1) as [es [st2 [E2 [_ [N2 [D2 _]]]]]].
  - apply (Permutation_NoDup (Permutation_sym Pm)). apply messages_NoDup.
  - intros x Hx. exact (Permutation_in _ Pm Hx).
  - intros m x Hm Hx _. apply enough; [|exact Hx]. apply (Permutation_in _ Pm) in Hm. apply (messages_In P W) in Hm as [H _]. exact H.
  - rewrite E2. cbn [bind]. exists es. split; [reflexivity|]. split; [exact N2|]. intros x. rewrite D2. split.
    + intros [A [[m [Hm [F _]]] C]]. apply (Permutation_in _ Pm) in Hm. apply (messages_In P W) in Hm as [_ [Fm _]]. split; [exact A|]. split; [congruence | exact C].
    + intros [A [B C]]. split; [exact A|]. split; [|exact C]. destruct (outermost x A) as [m [Hm Hs]]. exists m. split; [|exact Hs].
      apply (Permutation_in _ (Permutation_sym Pm)). unfold view. rewrite <- B. exact Hm.
Qed.
End Pool.
