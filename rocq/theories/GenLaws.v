(** From what is known when a message is defined to the properties of the header. *)
Require Import List Arith Bool Lia Permutation Relations.
Require Import Verif.Archive Verif.Gen Verif.GenSpec Verif.GenBase Verif.GenDeps Verif.GenOrder Verif.GenLevel Verif.GenEmit Verif.GenFacts.
Import ListNotations.
Local Open Scope nat_scope.

Section Pool.
Variable P : pool.
Hypothesis W : wf P.
Hypothesis X : no_file_extensions P.
Variable file : nat.

Notation G0 := (resolve_dependencies P).
Notation deps0 := (deps (resolve_dependencies P)).

(** two messages of a file: one is around the other, or they are in two siblings *)
Lemma relation m x : m < nmsgs P -> x < nmsgs P -> fileof P m = fileof P x ->
  sub P x m \/ inside P m x \/
  exists D E, siblings P D E /\ D <> E /\ D < nmsgs P /\ E < nmsgs P /\ sub P D m /\ sub P E x.
Proof.
  intros Hm Hx F. set (ca := common (pathof P m) (pathof P x)).
  pose proof (common_prefix_l (pathof P m) (pathof P x)) as CL. fold ca in CL.
  pose proof (common_prefix_r (pathof P m) (pathof P x)) as CR. fold ca in CR.
  pose proof (prefix_length _ _ CL) as L1. pose proof (prefix_length _ _ CR) as L2.
  destruct (Nat.eq_dec (length ca) (length (pathof P x))) as [Ex|Nx].
  - left. split; [symmetry; exact F|]. assert (Q : ca = pathof P x) by (apply prefix_same_length; [exact CR | lia]). rewrite <- Q. exact CL.
  - right. destruct (Nat.eq_dec (length ca) (length (pathof P m))) as [Em|Nm].
    + left. assert (Q : ca = pathof P m) by (apply prefix_same_length; [exact CL | lia]). split.
      * split; [exact F|]. rewrite <- Q. exact CR.
      * intros ->. lia.
    + right. destruct (ancestor P W m (S (length ca)) Hm) as [D [HD [FD [PD _]]]]; [lia | lia|].
      destruct (ancestor P W x (S (length ca)) Hx) as [E [HE [FE [PE _]]]]; [lia | lia|].
      assert (RD : removelast (pathof P D) = ca) by (rewrite PD, removelast_firstn by lia; symmetry; apply prefix_firstn; exact CL).
      assert (RE : removelast (pathof P E) = ca) by (rewrite PE, removelast_firstn by lia; symmetry; apply prefix_firstn; exact CR).
      exists D, E. split; [|split; [|split; [exact HD | split; [exact HE | split]]]].
      * split; [congruence|]. split; [apply (wf_named P W); exact HD|]. split; [apply (wf_named P W); exact HE|]. congruence.
      * intros <-. assert (Q : prefix (pathof P D) ca) by (apply common_greatest; [rewrite PD | rewrite PE]; apply firstn_prefix).
        apply prefix_length in Q. rewrite PD, firstn_length in Q. lia.
      * split; [exact FD|]. rewrite PD. apply firstn_prefix.
      * split; [exact FE|]. rewrite PE. apply firstn_prefix.
Qed.

(** what the members of a struct name *)
Lemma uses_names st m u : entry P m = false -> In u (uses P st m) ->
  exists f en x, f < nflds P /\ f_ext (fget P f) = false /\ f_msg (fget P f) = Some m /\ names_type P f en x /\ x < nmsgs P /\ entry P x = false /\
    ((en = false /\ exists b, u = UMsg x b) \/ (en = true /\ u = UEnum x)).
Proof.
  intros Em H. unfold uses in H. apply in_flat_map in H as [f [Hf Hu]]. apply fields_of_In in Hf as [Hf [He Hm]].
  unfold uses_of in Hu. assert (N : forall en x, names_type P f en x -> x < nmsgs P) by (intros en x Hn; eapply (mention_ranges P W); eassumption).
  unfold names_type in *. destruct (f_type (fget P f)) as [|t|o] eqn:T; [destruct Hu| |].
  - destruct (entry P t) eqn:Et.
    + destruct (value_field P t) as [v|] eqn:V; [|destruct Hu]. destruct (f_type (fget P v)) as [|y|[o|]] eqn:Tv; try (destruct Hu; fail).
      * destruct Hu as [<-|[]]. exists f, false, y. rewrite T, Et.
        assert (Q : exists w, Some v = Some w /\ f_type (fget P w) = TMsg y) by (exists v; split; [reflexivity | exact Tv]).
        split; [exact Hf|]. split; [exact He|]. split; [exact Hm|]. rewrite V. split; [exact Q|]. split; [apply (N false); exact Q|].
        split; [eapply (wf_value P W); eassumption|]. left. split; [reflexivity | exists false; reflexivity].
      * destruct Hu as [<-|[]]. exists f, true, o. rewrite T, Et.
        assert (Q : exists w, Some v = Some w /\ f_type (fget P w) = TEnum (Some o)) by (exists v; split; [reflexivity | exact Tv]).
        split; [exact Hf|]. split; [exact He|]. split; [exact Hm|]. rewrite V. split; [exact Q|]. split; [apply (N true); exact Q|].
        split; [|right; split; reflexivity]. apply value_field_spec in V as [Hv _]. eapply (wf_enum P W); eassumption.
    + destruct Hu as [<-|[]]. exists f, false, t. rewrite T, Et.
      split; [exact Hf|]. split; [exact He|]. split; [exact Hm|]. split; [split; reflexivity|]. split; [apply (N false); split; reflexivity|].
      split; [reflexivity|]. left. split; [reflexivity | eexists; reflexivity].
  - destruct o as [o|]; [|destruct Hu]. destruct Hu as [<-|[]]. exists f, true, o. rewrite T.
    split; [exact Hf|]. split; [exact He|]. split; [exact Hm|]. split; [split; reflexivity|].
    destruct (wf_enum P W f o Hf T) as [Ho Eo]. split; [exact Ho|]. split; [exact Eo|]. right. split; reflexivity.
Qed.

(** declarations come before their uses *)
Lemma declared_if A es : all_facts P file A [] es -> no_outward P file -> (A -> own_types P file) -> declared_before_use P es.
Proof.
  intros HF HO HT pre m us post u Es Hu. destruct (HF pre m us post Es) as [st2 [-> [Hm [Fm [Em [_ [Hin [Hsc [Hne _]]]]]]]]]. cbn [app] in *.
  destruct (uses_names st2 m u Em Hu) as [f [en [x [Hf [He [Hfm [Hn [Hx [Ex Hcase]]]]]]]]].
  assert (Goal : fileof P x = fileof P m -> (en = true -> In (EScope x) pre) /\
    (en = false -> x = m \/ In (EFwd x) pre \/ exists us, In (EDef x us) pre)).
  { intros F. destruct (relation m x Hm Hx (eq_sym F)) as [Hs|[Hi|[D [E [Hs [N [HD [HE [SD SE]]]]]]]]].
    - split; [intros _; apply Hsc; assumption|]. intros ->. apply sub_cases in Hs as [->|Hi]; [left; reflexivity|].
      exfalso. eapply HO; eassumption.
    - destruct (Hin x Hx Hi Ex) as [[us U] V]. split; [intros _; exact V|]. intros _. right. right. exists us. exact U.
    - assert (HN : In E (deps0 D)).
      { apply (deps0_needs P W). split; [exact Hs|]. split; [exact N|]. split; [exact HD|]. split; [exact HE|].
        exists m, x. split; [exact Hm|]. split; [exact Hx|]. split; [exact SD|]. split; [exact SE|].
        exists f, en. split; [exact Hf|]. split; [exact Hfm|]. split; [exact Hn|]. rewrite Em. discriminate. }
      destruct (Hne D E HD SD HN) as [Hd|[HA Hd]].
      + destruct (Hd x Hx SE Ex) as [[us U] V]. split; [intros _; exact V|]. intros _. right. right. exists us. exact U.
      + specialize (HT HA m f en x Fm Hf Hfm He Hn (eq_trans F Fm)).
        destruct (sibling_paths P W D E HD HE Hs N) as [s [PD [PE NN]]].
        assert (Apart : forall y, sub P D y -> sub P E y -> False).
        { intros y [_ [c1 Y1]] [_ [c2 Y2]]. rewrite Y1, PD, PE in Y2. rewrite <- !app_assoc in Y2. apply app_inv_head in Y2. injection Y2 as Y2 _. exact (NN Y2). }
        destruct en.
        * exfalso. destruct HT as [HT|HT]; [exact (Apart x (sub_trans P _ _ _ SD HT) SE) | exact (Apart m SD (sub_trans P _ _ _ SE HT))].
        * split; [discriminate|]. intros _. right. left. destruct HT as [HT|HT]; [|exfalso; exact (Apart x (sub_trans P _ _ _ SD HT) SE)].
          replace x with E; [exact Hd|]. destruct SE as [FE [c C]]. apply (wf_unique P W); [exact HE | exact Hx | exact FE|].
          destruct c as [|z c] using rev_ind; [rewrite app_nil_r in C; congruence|]. exfalso. clear IHc.
          rewrite C, app_assoc, removelast_snoc in HT. apply (Apart m SD). split; [congruence|]. eapply prefix_trans; [|exact HT]. exists c. reflexivity. }
  unfold declared. destruct Hcase as [[-> [b ->]]|[-> ->]].
  - destruct (Nat.eq_dec (fileof P x) (fileof P m)) as [F|F]; [|right; left; exact F].
    destruct (proj2 (Goal F) eq_refl) as [H|[H|H]]; [left; exact H | right; right; left; exact H | right; right; right; exact H].
  - destruct (Nat.eq_dec (fileof P x) (fileof P m)) as [F|F]; [right; exact (proj1 (Goal F) eq_refl) | left; exact F].
Qed.

(** ** Layout *)

(** position of the definition of a message *)
Fixpoint pos (l : list nat) (m : nat) : nat := match l with [] => 0 | x :: r => if x =? m then 0 else S (pos r m) end.
Lemma pos_app_l a b m : In m a -> pos (a ++ b) m = pos a m.
Proof.
  induction a as [|x a IH]; [intros []|]. intros H. cbn [app pos]. destruct (Nat.eqb_spec x m); [reflexivity|].
  f_equal. apply IH. destruct H; [contradiction | assumption].
Qed.
Lemma pos_lt a m : In m a -> pos a m < length a.
Proof.
  induction a as [|x a IH]; [intros []|]. intros H. cbn [pos length]. destruct (Nat.eqb_spec x m); [lia|].
  assert (pos a m < length a) by (apply IH; destruct H; [contradiction | assumption]). lia.
Qed.
Lemma pos_mid a b m : ~ In m a -> pos (a ++ m :: b) m = length a.
Proof.
  induction a as [|x a IH]; intros H; cbn [app pos length]; [rewrite Nat.eqb_refl; reflexivity|].
  destruct (Nat.eqb_spec x m) as [->|]; [exfalso; apply H; left; reflexivity|]. f_equal. apply IH. intros C. apply H. right. exact C.
Qed.

Lemma uses_by_value st m t : In (UMsg t true) (uses P st m) -> exists f, f < nflds P /\ f_ext (fget P f) = false /\ f_msg (fget P f) = Some m /\
  f_type (fget P f) = TMsg t /\ f_rep (fget P f) = false /\ entry P t = false /\ (f_oneof (fget P f) = None -> recs st f = false).
Proof.
  intros H. unfold uses in H. apply in_flat_map in H as [f [Hf Hu]]. apply fields_of_In in Hf as [Hf [He Hm]].
  exists f. split; [exact Hf|]. split; [exact He|]. split; [exact Hm|]. unfold uses_of in Hu.
  destruct (f_type (fget P f)) as [|y|[o|]]; [destruct Hu| | |destruct Hu].
  - destruct (entry P y) eqn:Ey.
    + destruct (value_field P y); [|destruct Hu]. destruct (f_type (fget P n)) as [|z|[o|]]; try (destruct Hu; fail); destruct Hu as [Hu|[]]; discriminate.
    + destruct Hu as [Hu|[]]. injection Hu as -> Hb. split; [reflexivity|]. unfold by_value in Hb.
      destruct (f_rep (fget P f)); [discriminate|]. split; [reflexivity|]. split; [exact Ey|]. intros On. rewrite On in Hb. apply negb_true_iff in Hb. exact Hb.
  - destruct Hu as [Hu|[]]. discriminate.
Qed.

Lemma cycle_edges {T} (R : T -> T -> Prop) (Q : T -> T -> Prop) :
  (forall a b, R a b -> clos_refl_trans T R b a -> Q a b) -> forall a b, clos_trans T R a b -> clos_refl_trans T R b a -> clos_trans T Q a b.
Proof.
  assert (TR : forall a b, clos_trans T R a b -> clos_refl_trans T R a b).
  { induction 1; [apply rt_step; assumption | eapply rt_trans; eassumption]. }
  intros H a b C. induction C as [a b E|a b c C1 IH1 C2 IH2]; intros B; [apply t_step, H; assumption|].
  eapply t_trans; [apply IH1; eapply rt_trans; [apply TR; exact C2 | exact B] | apply IH2; eapply rt_trans; [exact B | apply TR; exact C1]].
Qed.

Lemma finite_if A es : generate P file = Ok es -> all_facts P file A [] es -> plain_cycles P file -> finite_layout es.
Proof.
  intros Eg HF HP. destruct (generate_complete P W X file) as [es' [Eg' [Nd Df]]]. rewrite Eg in Eg'. injection Eg' as <-.
  assert (One : forall m t, contains es m t -> holds_one P m t).
  { intros m t [us [Hin Hu]]. apply in_split in Hin as [a [b Es]]. destruct (HF a m us b Es) as [st2 [-> _]].
    destruct (uses_by_value st2 m t Hu) as [f [Hf [He [Hm [T [Hr _]]]]]]. exists f. split; [exact Hf|]. split; [exact He|]. split; [exact Hm|]. split; assumption. }
  assert (Rt : forall a b, clos_refl_trans nat (contains es) a b -> clos_refl_trans nat (holds_one P) a b).
  { induction 1; [apply rt_step, One; assumption | apply rt_refl | eapply rt_trans; eassumption]. }
  assert (Edge : forall m t, contains es m t -> clos_refl_trans nat (contains es) t m -> pos (defs es) t < pos (defs es) m).
  { intros m t [us [Hin Hu]] Back. apply in_split in Hin as [a [b Es]]. destruct (HF a m us b Es) as [st2 [-> [Hm [Fm [Em [Hrec [Hins [_ [_ Hfld]]]]]]]]].
    cbn [app] in *. destruct (uses_by_value st2 m t Hu) as [f [Hf [He [Hfm [T [Hr [Et Hone]]]]]]].
    assert (Ht : t < nmsgs P) by (eapply (wf_type P W); eassumption).
    destruct (HP m t f Fm Em Hf He Hfm T Hr (Rt _ _ Back)) as [One' Place]. specialize (Hone One').
    assert (Up : ~ sub P t m).
    { intros Hs. rewrite (Hrec f (recs_outward P f m t Hf Hfm Em T Et Hs)) in Hone. discriminate. }
    assert (Early : exists us', In (EDef t us') a).
    { destruct Place as [Hs|[Hs|Hs]]; [|contradiction|].
      - assert (N : m <> t) by (intros ->; apply Up; apply sub_refl).
        destruct (Hfld f t Hf Hfm T Hr) as [C|C]; [|congruence|exact (proj1 (C t Ht (sub_refl P t) Et))].
        apply (deps0_needs P W). split; [exact Hs|]. split; [exact N|]. split; [exact Hm|]. split; [exact Ht|]. exists m, t.
        split; [exact Hm|]. split; [exact Ht|]. split; [apply sub_refl|]. split; [apply sub_refl|]. exists f, false.
        split; [exact Hf|]. split; [exact Hfm|]. split; [unfold names_type; rewrite T, Et; split; reflexivity|]. rewrite Em. discriminate.
      - apply sub_cases in Hs as [->|Hs]; [exfalso; apply Up; apply sub_refl|]. exact (proj1 (Hins t Ht Hs Et)). }
    apply defs_In in Early. rewrite Es, defs_app in Nd |- *. cbn [defs flat_map] in *. fold (defs b) in *. cbn [app] in *.
    assert (Nm : ~ In m (defs a)) by (intros C; apply NoDup_remove_2 in Nd; apply Nd; apply in_or_app; left; exact C).
    rewrite pos_app_l by exact Early. rewrite pos_mid by exact Nm. apply pos_lt. exact Early. }
  intros m C. apply (cycle_edges (contains es) (fun a b => pos (defs es) b < pos (defs es) a) Edge) in C.
  - assert (D : forall a b, clos_trans nat (fun a b => pos (defs es) b < pos (defs es) a) a b -> pos (defs es) b < pos (defs es) a).
    { induction 1; lia. }
    specialize (D m m C). lia.
  - apply rt_refl.
Qed.

(** ** The orders of scopes *)

Definition level (A : Prop) := forall scope st order st',
  let view := messages_of P file scope in
  (forall x, In x view -> deps st x = deps0 x /\ fwd st x = []) -> order_messages P view st = Ok (order, st') ->
  forall l1 m l2, order = l1 ++ m :: l2 ->
    (forall d, In d (deps0 m) -> In d l1 \/ (A /\ In d (fwd st' m))) /\
    (forall f d, f < nflds P -> f_msg (fget P f) = Some m -> f_type (fget P f) = TMsg d -> f_rep (fget P f) = false -> In d (deps0 m) ->
       recs st' f = true \/ In d l1).

Lemma deps0_view scope m d : In m (messages_of P file scope) -> In d (deps0 m) -> In d (messages_of P file scope).
Proof.
  intros Hm Hd. apply (deps0_needs P W) in Hd as [Hs [_ [Hmn [Hdn _]]]]. apply (messages_In P W) in Hm as [_ [F R]].
  apply siblings_messages in Hs; [|exact W | exact Hmn | exact Hdn]. rewrite F, R in Hs. exact Hs.
Qed.

Section Ordered.
Variable rank : nat -> nat.
Hypothesis Hrank : forall D E, fileof P D = file -> needs P D E -> rank E < rank D.

Lemma ordered_scope scope st order st' : let view := messages_of P file scope in
  (forall x, In x view -> deps st x = deps0 x) -> order_messages P view st = Ok (order, st') ->
  st' = st /\ forall l1 m l2, order = l1 ++ m :: l2 -> incl (deps st m) l1.
Proof.
  intros view Hd E. eapply (order_ordered P view (fun d _ => no_null P X d) st rank); [|exact E]. intros m d Hm Hin. rewrite Hd in Hin by exact Hm. split.
  - eapply deps0_view; eassumption.
  - apply Hrank; [apply (messages_In P W) in Hm as [_ [F _]]; exact F | apply (deps0_needs P W); exact Hin].
Qed.

Lemma ordered_level : level False.
Proof.
  intros scope st order st' view Hd E l1 m l2 Eo. destruct (ordered_scope scope st order st') as [-> H].
  - intros x Hx. apply Hd. exact Hx.
  - exact E.
  - destruct (order_frame P view (fun d _ => no_null P X d) (messages_NoDup P _ _) st order st E) as [Pm _].
    assert (Hm : In m view) by (apply (Permutation_in _ Pm); rewrite Eo; apply in_or_app; right; left; reflexivity).
    specialize (H l1 m l2 Eo). rewrite (proj1 (Hd m Hm)) in H. split; intros; [left | right]; apply H; assumption.
Qed.

(** nothing is forward declared, and the fields are as the schema has them *)
Definition untouched (es : list event) := fwds es = [] /\ forall m us, In (EDef m us) es -> us = uses P G0 m.
Lemma fwds_app a b : fwds (a ++ b) = fwds a ++ fwds b.
Proof. unfold fwds. apply flat_map_app. Qed.
Lemma untouched_app a b : untouched a -> untouched b -> untouched (a ++ b).
Proof.
  intros [A1 A2] [B1 B2]. split; [rewrite fwds_app, A1, B1; reflexivity|]. intros m us H. apply in_app_or in H as [H|H]; [apply A2 | apply B2]; exact H.
Qed.

Lemma process_untouched k : forall m es st', fileof P m = file -> process P k m G0 = Ok (es, st') -> st' = G0 /\ untouched es.
Proof.
  induction k as [|k IH]; intros m es st' Fm; cbn [process]; [discriminate|]. destruct (entry P m).
  - intros E. injection E as <- <-. split; [reflexivity|]. split; [reflexivity | intros x us []].
  - intros E. apply bind_Ok in E as [[order st1] [E1 E]]. apply bind_Ok in E as [[es1 st2] [E2 E]]. injection E as <- <-. rewrite Fm in E1.
    destruct (order_frame P _ (fun d _ => no_null P X d) (messages_NoDup P _ _) G0 order st1 E1) as [Pm _].
    apply ordered_scope in E1 as [-> _]; [|reflexivity].
    assert (L : forall ms es1 st2, incl ms (messages_of P file (pathof P m)) -> process_list (process P k) ms G0 = Ok (es1, st2) -> st2 = G0 /\ untouched es1).
    { clear E2 es1 st2. induction ms as [|c ms IHm]; intros es1 st2 Hi; cbn [process_list].
      - intros E. injection E as <- <-. split; [reflexivity|]. split; [reflexivity | intros x us []].
      - intros E. apply bind_Ok in E as [[e s1] [E1 E]]. apply bind_Ok in E as [[e2 s2] [E2 E]]. injection E as <- <-.
        apply IH in E1 as [-> U1]; [|apply (messages_In P W) with (scope := pathof P m); apply Hi; left; reflexivity].
        apply IHm in E2 as [-> U2]; [|intros y Hy; apply Hi; right; exact Hy]. split; [reflexivity | apply untouched_app; assumption]. }
    apply L in E2 as [-> U]; [|intros y Hy; exact (Permutation_in _ Pm Hy)]. split; [reflexivity|]. rewrite fwd0. cbn [map app].
    change (EScope m :: es1 ++ [EDef m (uses P G0 m)]) with ([EScope m] ++ es1 ++ [EDef m (uses P G0 m)]).
    apply untouched_app; [split; [reflexivity | intros x us [C|[]]; discriminate]|]. apply untouched_app; [exact U|].
    split; [reflexivity|]. intros x us [C|[]]. injection C as <- <-. reflexivity.
Qed.

(** is_recursive of a field that is not the value of a map, after recording *)
Lemma recs0_exact f p t : f < nflds P -> f_msg (fget P f) = Some p -> entry P p = false -> f_type (fget P f) = TMsg t ->
  entry P t = false -> recs G0 f = fst (dependency P p t false).
Proof.
  intros Hf Hm Ep T Et. unfold resolve_dependencies.
  assert (Tf : target P f = Some (p, f, t, false)).
  { unfold target, simple_target. rewrite Hm, T, Ep, Et. reflexivity. }
  assert (Own : forall g q x en, target P g = Some (q, f, x, en) -> g = f).
  { intros g q x en Tg. unfold target in Tg. destruct (f_msg (fget P g)) as [n|]; [|discriminate].
    destruct (f_type (fget P g)) as [|y|o] eqn:Ty; [discriminate| |].
    - destruct (entry P n); [discriminate|]. destruct (entry P y) eqn:Ey.
      + destruct (value_field P y) as [v|] eqn:V; [|discriminate]. unfold simple_target in Tg.
        apply value_field_spec in V as [_ V]. exfalso.
        destruct (f_type (fget P v)) as [|z|[z|]]; try discriminate; injection Tg as _ -> _ _; congruence.
      + unfold simple_target in Tg. rewrite Ty in Tg. injection Tg as _ <- _ _. reflexivity.
    - unfold simple_target in Tg. rewrite Ty in Tg. destruct o; [|discriminate]. injection Tg as _ <- _ _. reflexivity. }
  assert (Hin : In f (seq 0 (nflds P))) by (apply in_seq; lia).
  assert (K : forall l st, (In f l \/ recs st f = fst (dependency P p t false)) -> recs (fold_left (resolve_one P) l st) f = fst (dependency P p t false)).
  { induction l as [|g l IH]; intros st H; cbn [fold_left]; [destruct H as [[]|H]; exact H|]. apply IH.
    destruct (Nat.eq_dec g f) as [->|N].
    - right. rewrite resolve_one_record, Tf. cbn [record]. unfold record_field. destruct (dependency P p t false). cbn [recs fst]. unfold upd. rewrite Nat.eqb_refl. reflexivity.
    - destruct H as [[H|H]|H]; [contradiction | left; exact H | right]. rewrite resolve_one_record.
      destruct (target P g) as [[[[q h] x] en]|] eqn:Tg; cbn [record]; [|exact H]. unfold record_field.
      destruct (dependency P q x en) as [r d]. cbn [recs]. unfold upd. destruct (Nat.eqb_spec f h) as [->|]; [|exact H].
      exfalso. apply N. eapply Own. exact Tg. }
  apply K. left. exact Hin.
Qed.

Lemma outward_exact p t : fst (dependency P p t false) = (fileof P t =? fileof P p) && prefixb (pathof P t) (pathof P p).
Proof.
  unfold dependency. rewrite (Nat.eqb_sym (fileof P t)). destruct (fileof P p =? fileof P t); [|reflexivity]. cbn [fst negb andb].
  set (ca := common (pathof P p) (pathof P t)).
  pose proof (common_prefix_l (pathof P p) (pathof P t)) as CL. fold ca in CL.
  pose proof (common_prefix_r (pathof P p) (pathof P t)) as CR. fold ca in CR. pose proof (prefix_length _ _ CR) as L.
  apply eq_true_iff_eq. rewrite Nat.eqb_eq, prefixb_prefix, firstn_length. split.
  - intros H. replace (pathof P t) with ca; [exact CL|]. apply prefix_same_length; [exact CR | lia].
  - intros H. assert (Q : prefix (pathof P t) ca) by (apply common_greatest; [exact H | apply prefix_refl]). apply prefix_length in Q. lia.
Qed.

Lemma uses_plain m : entry P m = false -> uses P G0 m = flat_map (plain_use P m) (fields_of P m).
Proof.
  intros Em. unfold uses. rewrite !flat_map_concat_map. f_equal. apply map_ext_in. intros f Hf. apply fields_of_In in Hf as [Hf [_ Hm]].
  unfold uses_of, plain_use. destruct (f_type (fget P f)) as [|t|[o|]] eqn:T; try reflexivity. destruct (entry P t) eqn:Et; [reflexivity|].
  unfold by_value. f_equal. f_equal. destruct (f_rep (fget P f)); [reflexivity|]. cbn [negb andb].
  destruct (f_oneof (fget P f)) as [k|].
  - rewrite fwd0, orb_true_r. cbn [mem existsb negb]. destruct (1 <? _); reflexivity.
  - rewrite (recs0_exact f m t Hf Hm Em T Et), outward_exact, orb_false_r. reflexivity.
Qed.

Theorem generate_ordered es : generate P file = Ok es -> no_outward P file -> declared_before_use P es.
Proof.
  intros E HO. apply (declared_if False); [|exact HO | contradiction]. apply generate_facts; [exact W | exact X | exact ordered_level | exact E].
Qed.

Theorem generate_untouched es : generate P file = Ok es ->
  fwds es = [] /\ forall m us, In (EDef m us) es -> us = flat_map (plain_use P m) (fields_of P m).
Proof.
  intros Eg. pose proof Eg as E. unfold generate, generate_from in E. apply bind_Ok in E as [[order st1] [E1 E]]. apply bind_Ok in E as [[es1 st2] [E2 E]].
  injection E as <-. destruct (order_frame P _ (fun d _ => no_null P X d) (messages_NoDup P _ _) G0 order st1 E1) as [Pm _].
  apply ordered_scope in E1 as [-> _]; [|reflexivity].
  assert (L : forall ms es1 st2, incl ms (messages_of P file []) -> process_list (process P (S (depth P))) ms G0 = Ok (es1, st2) -> st2 = G0 /\ untouched es1).
  { clear E2 Pm es1 st2 Eg. induction ms as [|c ms IHm]; intros es1 st2 Hi; cbn [process_list].
    - intros E. injection E as <- <-. split; [reflexivity|]. split; [reflexivity | intros x us []].
    - intros E. apply bind_Ok in E as [[e s1] [E1 E]]. apply bind_Ok in E as [[e2 s2] [E2 E]]. injection E as <- <-.
      apply process_untouched in E1 as [-> U1]; [|apply (messages_In P W) with (scope := []); apply Hi; left; reflexivity].
      apply IHm in E2 as [-> U2]; [|intros y Hy; apply Hi; right; exact Hy]. split; [reflexivity | apply untouched_app; assumption]. }
  apply L in E2 as [-> [U1 U2]]; [|intros y Hy; exact (Permutation_in _ Pm Hy)]. split; [exact U1|]. intros m us H. rewrite <- uses_plain; [apply U2; exact H|].
  destruct (generate_complete P W X file) as [es' [Eg' [_ Df]]]. rewrite Eg in Eg'. injection Eg' as <-.
  apply (Df m). apply defs_In. exists us. exact H.
Qed.
Theorem generate_ordered_finite es : generate P file = Ok es -> plain_cycles P file -> finite_layout es.
Proof.
  intros E HP. eapply (finite_if False); [exact E | | exact HP]. apply generate_facts; [exact W | exact X | exact ordered_level | exact E].
Qed.
End Ordered.

Section Cyclic.
Hypothesis Hlone : lone_containers P file.

Lemma cyclic_level : level True.
Proof.
  intros scope st order st' view Hd E l1 m l2 Eo.
  destruct (order_frame P view (fun d _ => no_null P X d) (messages_NoDup P _ _) st order st' E) as [Pm _].
  assert (Hm : In m view) by (apply (Permutation_in _ Pm); rewrite Eo; apply in_or_app; right; left; reflexivity).
  assert (Hv : forall x, In x view -> x < nmsgs P /\ fileof P x = file /\ removelast (pathof P x) = scope) by (intros x Hx; apply (messages_In P W); exact Hx).
  destruct (order_cyclic P view (fun d _ => no_null P X d) (messages_NoDup P _ _) st) with (order := order) (st' := st') (l1 := l1) (m := m) (l2 := l2) as [H1 H2].
  - intros a b Ha Hb. destruct (Hv a Ha) as [_ [Fa _]]. destruct (Hv b Hb) as [_ [Fb _]]. congruence.
  - intros a b Ha Hb. rewrite (proj1 (Hd a Ha)) in Hb. eapply deps0_view; eassumption.
  - intros a d e Ha Hdv Hh He. rewrite (proj1 (Hd a Ha)) in He. destruct (Hv a Ha) as [Han [Fa Ra]]. destruct (Hv d Hdv) as [Hdn [Fd Rd]].
    apply (Hlone a d e Fa); [|exact Hh | apply (deps0_needs P W); exact He].
    apply siblings_messages; [exact W | exact Han | exact Hdn|]. rewrite Fa, Ra. exact Hdv.
  - exact E.
  - exact Eo.
  - rewrite (proj1 (Hd m Hm)) in H1, H2. split; [|exact H2]. intros d Hin. destruct (H1 d Hin) as [H|H]; [left; exact H | right; split; [exact I | exact H]].
Qed.

Theorem generate_cyclic es : generate P file = Ok es -> no_outward P file -> own_types P file -> declared_before_use P es.
Proof.
  intros E HO HT. apply (declared_if True); [|exact HO | intros _; exact HT]. apply generate_facts; [exact W | exact X | exact cyclic_level | exact E].
Qed.
Theorem generate_finite es : generate P file = Ok es -> plain_cycles P file -> finite_layout es.
Proof.
  intros E HP. eapply (finite_if True); [exact E | | exact HP]. apply generate_facts; [exact W | exact X | exact cyclic_level | exact E].
Qed.
End Cyclic.
End Pool.
