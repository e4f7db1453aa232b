(** The dependencies recorded by the generator are the needs of the schema. *)
Require Import List Arith Bool Lia Permutation.
Require Import Verif.Archive Verif.Gen Verif.GenSpec Verif.GenBase.
Import ListNotations.
Local Open Scope nat_scope.

Section Pool.
Variable P : pool.
Hypothesis W : wf P.

Lemma sibling_paths D E : D < nmsgs P -> E < nmsgs P -> siblings P D E -> D <> E ->
  exists s, pathof P D = s ++ [name P D] /\ pathof P E = s ++ [name P E] /\ name P D <> name P E.
Proof.
  intros HD HE [F [_ [_ R]]] N. exists (removelast (pathof P D)).
  pose proof (path_split P W D HD) as PD. pose proof (path_split P W E HE) as PE. rewrite <- R in PE.
  split; [exact PD|]. split; [exact PE|]. intros C. apply N. apply (wf_unique P W); [exact HD | exact HE | exact F|].
  rewrite PD, PE, C. reflexivity.
Qed.

Lemma dependency_some p x en r D E : p < nmsgs P -> x < nmsgs P -> dependency P p x en = (r, Some (D, E)) ->
  siblings P D E /\ D <> E /\ D < nmsgs P /\ E < nmsgs P /\ sub P D p /\ sub P E x.
Proof.
  intros Hp Hx. unfold dependency. destruct (Nat.eqb_spec (fileof P p) (fileof P x)) as [F|F]; [|discriminate].
  set (ca := common (pathof P p) (pathof P x)). set (dt := firstn (S (length ca)) (pathof P p)). set (de := firstn (S (length ca)) (pathof P x)).
  destruct ((length de =? length ca) || (length dt =? length ca)) eqn:B; [discriminate|].
  apply orb_false_iff in B as [B1 B2]. apply Nat.eqb_neq in B1, B2.
  destruct (lookup P (fileof P p) dt) as [d|] eqn:L1; [|discriminate].
  destruct (lookup P (fileof P p) de) as [e|] eqn:L2; [|discriminate].
  intros H. injection H as _ -> ->. apply lookup_spec in L1 as [HD [FD PD]]. apply lookup_spec in L2 as [HE [FE PE]].
  pose proof (common_prefix_l (pathof P p) (pathof P x)) as CL. fold ca in CL.
  pose proof (common_prefix_r (pathof P p) (pathof P x)) as CR. fold ca in CR.
  pose proof (prefix_length _ _ CL) as L1. pose proof (prefix_length _ _ CR) as L2.
  assert (LD : length (pathof P p) > length ca).
  { unfold dt in B2. rewrite firstn_length in B2. lia. }
  assert (LE : length (pathof P x) > length ca).
  { unfold de in B1. rewrite firstn_length in B1. lia. }
  assert (RD : removelast (pathof P D) = ca).
  { rewrite PD. unfold dt. rewrite removelast_firstn by lia. symmetry. apply prefix_firstn. exact CL. }
  assert (RE : removelast (pathof P E) = ca).
  { rewrite PE. unfold de. rewrite removelast_firstn by lia. symmetry. apply prefix_firstn. exact CR. }
  split; [|split; [|split; [|split; [|split]]]].
  - split; [congruence|]. split; [apply (wf_named P W); exact HD|]. split; [apply (wf_named P W); exact HE|]. congruence.
  - intros <-. assert (Q : prefix (pathof P D) ca).
    { apply common_greatest; [rewrite PD | rewrite PE]; apply firstn_prefix. }
    apply prefix_length in Q. rewrite PD in Q. unfold dt in Q. rewrite firstn_length in Q. lia.
  - exact HD.
  - exact HE.
  - split; [exact FD|]. rewrite PD. apply firstn_prefix.
  - split; [congruence|]. rewrite PE. apply firstn_prefix.
Qed.

Lemma dependency_of p x en D E : siblings P D E -> D <> E -> D < nmsgs P -> E < nmsgs P -> sub P D p -> sub P E x ->
  snd (dependency P p x en) = Some (D, E).
Proof.
  intros Hs N HD HE [FD [u UD]] [FE [v VE]]. destruct (sibling_paths D E HD HE Hs N) as [s [PD [PE NN]]].
  unfold dependency. destruct Hs as [F _]. replace (fileof P p =? fileof P x) with true by (symmetry; apply Nat.eqb_eq; congruence).
  cbn [snd]. rewrite UD, VE. rewrite PD, PE. rewrite common_siblings by exact NN.
  assert (FN : forall a b, firstn (S (length s)) ((s ++ [a]) ++ b) = s ++ [a]).
  { intros a b. rewrite firstn_app. rewrite firstn_all2 by (rewrite app_length; cbn; lia).
    rewrite app_length. cbn [length]. replace (S (length s) - (length s + 1)) with 0 by lia. cbn [firstn]. apply app_nil_r. }
  rewrite !FN. rewrite !app_length. cbn [length].
  replace (length s + 1 =? length s) with false by (symmetry; apply Nat.eqb_neq; lia). cbn [orb].
  rewrite <- PD, <- PE. rewrite <- FD. rewrite (lookup_complete P W D HD). rewrite F. rewrite (lookup_complete P W E HE). reflexivity.
Qed.

(** what one field records: seen from a message, for a field, a message and a kind *)
Definition simple_target (p f : nat) : option (nat * nat * nat * bool) :=
  match f_type (fget P f) with TMsg t => Some (p, f, t, false) | TEnum (Some o) => Some (p, f, o, true) | _ => None end.
Definition target (f : nat) : option (nat * nat * nat * bool) :=
  match f_msg (fget P f) with
  | None => None
  | Some p =>
      match f_type (fget P f) with
      | TMsg t => if entry P p then None
                  else if entry P t then match value_field P t with Some v => simple_target p v | None => None end
                  else simple_target p f
      | TEnum _ => simple_target p f
      | TScalar => None
      end
  end.
Definition record (st : gst) (o : option (nat * nat * nat * bool)) : gst :=
  match o with Some (p, f, x, en) => record_field P st p f x en | None => st end.

Lemma resolve_simple_record st p f : resolve_simple P st p f = record st (simple_target p f).
Proof. unfold resolve_simple, simple_target. destruct (f_type (fget P f)) as [|t|[o|]]; reflexivity. Qed.
Lemma resolve_one_record st f : resolve_one P st f = record st (target f).
Proof.
  unfold resolve_one, target. destruct (f_msg (fget P f)) as [p|]; [|reflexivity].
  destruct (f_type (fget P f)) as [|t|o] eqn:T; [reflexivity| |apply resolve_simple_record].
  destruct (entry P p); [reflexivity|]. unfold resolve_field. rewrite T. destruct (entry P t); [|apply resolve_simple_record].
  destruct (value_field P t); [apply resolve_simple_record | reflexivity].
Qed.

Lemma target_mentions f p g x en : f < nflds P -> target f = Some (p, g, x, en) ->
  f_msg (fget P f) = Some p /\ names_type P f en x /\ (entry P p = true -> f_type (fget P f) = TEnum (Some x)) /\
  (g = f \/ exists t, f_type (fget P f) = TMsg t /\ entry P t = true /\ value_field P t = Some g).
Proof.
  intros Hf. unfold target. destruct (f_msg (fget P f)) as [q|]; [|discriminate].
  destruct (f_type (fget P f)) as [|t|o] eqn:T; [discriminate| |].
  - destruct (entry P q) eqn:Eq; [discriminate|]. destruct (entry P t) eqn:Et.
    + destruct (value_field P t) as [v|] eqn:V; [|discriminate]. unfold simple_target, names_type. rewrite T, Et.
      destruct (f_type (fget P v)) as [|y|[y|]] eqn:Tv; try discriminate; intros H; injection H as <- <- <- <-;
        (split; [reflexivity|]; split; [exists v; split; [first [reflexivity | exact V] | exact Tv]|]; split; [congruence|]; right; exists t; split; [reflexivity|]; split; [first [reflexivity | exact Et] | first [reflexivity | exact V]]).
    + unfold simple_target, names_type. rewrite T, Et. intros H. injection H as <- <- <- <-.
      split; [reflexivity|]. split; [split; reflexivity|]. split; [congruence|]. left. reflexivity.
  - unfold simple_target, names_type. rewrite T. destruct o as [y|]; [|discriminate]. intros H. injection H as <- <- <- <-.
    split; [reflexivity|]. split; [split; reflexivity|]. split; [intros _; reflexivity|]. left. reflexivity.
Qed.
Lemma mentions_target f p x en : f_msg (fget P f) = Some p -> names_type P f en x ->
  (entry P p = true -> f_type (fget P f) = TEnum (Some x)) -> exists g, target f = Some (p, g, x, en).
Proof.
  intros Hm Hn He. unfold target, names_type in *. rewrite Hm. destruct (f_type (fget P f)) as [|t|o] eqn:T; [contradiction| |].
  - destruct (entry P p); [specialize (He eq_refl); discriminate|]. destruct (entry P t).
    + destruct Hn as [v [-> Tv]]. unfold simple_target. rewrite Tv. destruct en; eexists; reflexivity.
    + destruct Hn as [-> ->]. unfold simple_target. rewrite T. eexists. reflexivity.
  - destruct Hn as [-> ->]. unfold simple_target. rewrite T. eexists. reflexivity.
Qed.

Lemma mention_ranges f p x en : f < nflds P -> f_msg (fget P f) = Some p -> names_type P f en x -> p < nmsgs P /\ x < nmsgs P.
Proof.
  intros Hf Hm Hn. split; [exact (wf_field P W f p Hf Hm)|]. unfold names_type in Hn.
  destruct (f_type (fget P f)) as [|t|o] eqn:T; [contradiction| |].
  - destruct (entry P t).
    + destruct Hn as [v [V Tv]]. apply value_field_spec in V as [Hv _]. destruct en.
      * exact (proj1 (wf_enum P W v x Hv Tv)).
      * exact (wf_type P W v x Hv Tv).
    + destruct Hn as [-> _]. exact (wf_type P W f t Hf T).
  - destruct Hn as [-> _]. exact (proj1 (wf_enum P W f x Hf T)).
Qed.

Lemma record_deps st o D E : In E (deps (record st o) D) <->
  In E (deps st D) \/ exists p f x en, o = Some (p, f, x, en) /\ snd (dependency P p x en) = Some (D, E).
Proof.
  destruct o as [[[[p f] x] en]|]; cbn [record].
  - unfold record_field. destruct (dependency P p x en) as [r [[a b]|]] eqn:Dp; cbn [deps].
    + unfold upd. destruct (Nat.eqb_spec D a) as [->|N].
      * rewrite insert_In. split.
        -- intros [->|H]; [right; exists p, f, x, en; split; [reflexivity | rewrite Dp; reflexivity] | left; exact H].
        -- intros [H|[p' [f' [x' [en' [Q H]]]]]]; [right; exact H|]. injection Q as <- <- <- <-. rewrite Dp in H. cbn in H. left. congruence.
      * split; [left; assumption|]. intros [H|[p' [f' [x' [en' [Q H]]]]]]; [exact H|]. injection Q as <- <- <- <-. rewrite Dp in H. cbn in H. congruence.
    + split; [left; assumption|]. intros [H|[p' [f' [x' [en' [Q H]]]]]]; [exact H|]. injection Q as <- <- <- <-. rewrite Dp in H. discriminate.
  - split; [left; assumption|]. intros [H|[p' [f' [x' [en' [Q H]]]]]]; [exact H | discriminate].
Qed.

Lemma fold_deps l st D E : In E (deps (fold_left (resolve_one P) l st) D) <->
  In E (deps st D) \/ exists f p g x en, In f l /\ target f = Some (p, g, x, en) /\ snd (dependency P p x en) = Some (D, E).
Proof.
  revert st. induction l as [|f l IH]; intros st; cbn [fold_left].
  - split; [left; assumption|]. intros [H|[f [p [g [x [en [[] _]]]]]]]. exact H.
  - rewrite IH, resolve_one_record, record_deps. split.
    + intros [[H|[p [g [x [en [Q H]]]]]]|[f' [p [g [x [en [Hin H]]]]]]].
      * left. exact H.
      * right. exists f, p, g, x, en. split; [left; reflexivity|]. split; assumption.
      * right. exists f', p, g, x, en. split; [right; exact Hin | exact H].
    + intros [H|[f' [p [g [x [en [[<-|Hin] H]]]]]]].
      * left. left. exact H.
      * left. right. exists p, g, x, en. exact H.
      * right. exists f', p, g, x, en. split; assumption.
Qed.

Theorem deps0_needs D E : In E (deps (resolve_dependencies P) D) <-> needs P D E.
Proof.
  unfold resolve_dependencies. rewrite fold_deps. cbn [gst0 deps]. split.
  - intros [[]|[f [p [g [x [en [Hin [T H]]]]]]]]. apply in_seq in Hin.
    destruct (target_mentions f p g x en) as [Hm [Hn [He _]]]; [lia | exact T|].
    destruct (mention_ranges f p x en) as [Hp Hx]; [lia | exact Hm | exact Hn|].
    destruct (dependency P p x en) as [r o] eqn:Dp. cbn in H. subst o.
    destruct (dependency_some p x en r D E Hp Hx Dp) as [A [B [C [C' [D1 D2]]]]].
    split; [exact A|]. split; [exact B|]. split; [exact C|]. split; [exact C'|]. exists p, x.
    split; [exact Hp|]. split; [exact Hx|]. split; [exact D1|]. split; [exact D2|]. exists f, en.
    split; [lia|]. split; [exact Hm|]. split; assumption.
  - intros [A [B [C [C' [p [x [Hp [Hx [D1 [D2 [f [en [Hf [Hm [Hn He]]]]]]]]]]]]]]]. right.
    destruct (mentions_target f p x en Hm Hn He) as [g T]. exists f, p, g, x, en. split; [apply in_seq; lia|]. split; [exact T|].
    apply dependency_of; assumption.
Qed.

Lemma fwd0 m : fwd (resolve_dependencies P) m = [].
Proof.
  unfold resolve_dependencies. assert (H : forall l st, (forall m, fwd st m = []) -> forall m, fwd (fold_left (resolve_one P) l st) m = []).
  { induction l as [|f l IH]; intros st H; cbn [fold_left]; [exact H|]. apply IH. intros k. rewrite resolve_one_record.
    destruct (target f) as [[[[p g] x] en]|]; cbn [record]; [|apply H]. unfold record_field.
    destruct (dependency P p x en) as [r d]. cbn [fwd]. apply H. }
  apply H. reflexivity.
Qed.

(** a field of a message whose type is the message itself or one around it is recursive
    from the start *)
Lemma recs_outward f p t : f < nflds P -> f_msg (fget P f) = Some p -> entry P p = false -> f_type (fget P f) = TMsg t ->
  entry P t = false -> sub P t p -> recs (resolve_dependencies P) f = true.
Proof.
  intros Hf Hm Ep T Et Hsub. unfold resolve_dependencies.
  assert (Hin : In f (seq 0 (nflds P))) by (apply in_seq; lia).
  assert (Tf : target f = Some (p, f, t, false)).
  { unfold target, simple_target. rewrite Hm, T, Ep, Et. reflexivity. }
  assert (Own : forall g q x en, target g = Some (q, f, x, en) -> g = f \/ exists e, entry P e = true /\ f_msg (fget P f) = Some e).
  { intros g q x en Tg. unfold target in Tg. destruct (f_msg (fget P g)); [|discriminate].
    destruct (f_type (fget P g)) as [|y|o] eqn:Ty; [discriminate| |].
    - destruct (entry P n); [discriminate|]. destruct (entry P y) eqn:Ey.
      + destruct (value_field P y) as [v|] eqn:V; [|discriminate]. unfold simple_target in Tg.
        apply value_field_spec in V as [_ V]. right. exists y. split; [exact Ey|].
        destruct (f_type (fget P v)) as [|z|[z|]]; try discriminate; injection Tg as _ <- _ _; exact V.
      + unfold simple_target in Tg. rewrite Ty in Tg. injection Tg as _ <- _ _. left. reflexivity.
    - unfold simple_target in Tg. rewrite Ty in Tg. destruct o; [|discriminate]. injection Tg as _ <- _ _. left. reflexivity. }
  assert (R : forall st, recs (resolve_one P st f) f = true).
  { intros st. rewrite resolve_one_record, Tf. cbn [record]. unfold record_field.
    destruct Hsub as [F [c Hc]].
    assert (Dp : fst (dependency P p t false) = true).
    { unfold dependency. rewrite <- F, Nat.eqb_refl. cbn [fst negb andb].
      assert (C : common (pathof P p) (pathof P t) = pathof P t).
      { apply prefix_antisym; [apply common_prefix_r|]. apply common_greatest; [exists c; exact Hc | apply prefix_refl]. }
      rewrite C. rewrite firstn_all2 by lia. apply Nat.eqb_refl. }
    destruct (dependency P p t false) as [r d]. cbn [fst] in Dp. subst r. cbn [recs]. unfold upd. rewrite Nat.eqb_refl. reflexivity. }
  assert (K : forall l st, recs st f = true -> recs (fold_left (resolve_one P) l st) f = true).
  { induction l as [|g l IH]; intros st H; cbn [fold_left]; [exact H|]. apply IH.
    destruct (Nat.eq_dec g f) as [->|N]; [apply R|]. rewrite resolve_one_record.
    destruct (target g) as [[[[q h] x] en]|] eqn:Tg; cbn [record]; [|exact H]. unfold record_field.
    destruct (dependency P q x en) as [r d]. cbn [recs]. unfold upd. destruct (Nat.eqb_spec f h) as [->|]; [|exact H].
    destruct (Own g q x en Tg) as [C|[e [Ee Em]]]; [contradiction|]. rewrite Hm in Em. congruence. }
  clear Own. generalize (gst0). revert Hin. generalize (seq 0 (nflds P)). induction l as [|g l IH]; intros Hin st; [destruct Hin|].
  cbn [fold_left]. destruct Hin as [->|Hin]; [apply K; apply R | apply IH; exact Hin].
Qed.
End Pool.
