(** Lemmas about paths, lookups and the lists of the generator model. *)
Require Import List Arith Bool Lia Permutation.
Require Import Verif.Archive Verif.Gen Verif.GenSpec.
Import ListNotations.
Local Open Scope nat_scope.

Lemma mem_In x l : mem x l = true <-> In x l.
Proof.
  unfold mem. rewrite existsb_exists. split.
  - intros [y [Hy E]]. apply Nat.eqb_eq in E. subst. exact Hy.
  - intros H. exists x. split; [exact H | apply Nat.eqb_refl].
Qed.
Lemma mem_notIn x l : mem x l = false <-> ~ In x l.
Proof. rewrite <- mem_In. destruct (mem x l); split; congruence. Qed.
Lemma subset_incl a b : subset a b = true <-> incl a b.
Proof.
  unfold subset, incl. rewrite forallb_forall. split; intros H x Hx.
  - apply mem_In. exact (H x Hx).
  - apply mem_In. exact (H x Hx).
Qed.
Lemma del_In x y l : In y (del x l) <-> In y l /\ y <> x.
Proof.
  unfold del. rewrite filter_In. split; intros [A B]; (split; [exact A|]).
  - intros ->. rewrite Nat.eqb_refl in B. discriminate.
  - apply negb_true_iff. apply Nat.eqb_neq. exact B.
Qed.
Lemma del_length x l : In x l -> length (del x l) < length l.
Proof.
  induction l as [|y l IH]; [intros []|]. cbn [del filter]. fold (del x l). intros H.
  destruct (Nat.eqb_spec y x) as [->|N]; cbn [negb].
  - cbn. assert (length (del x l) <= length l) by (unfold del; clear; induction l; cbn; [lia|]; destruct (negb (a =? x)); cbn; lia). lia.
  - destruct H as [H|H]; [congruence|]. cbn [length]. specialize (IH H). lia.
Qed.
Lemma del_le x l : length (del x l) <= length l.
Proof. unfold del. induction l; cbn; [lia|]. destruct (negb (a =? x)); cbn; lia. Qed.
Lemma del_notIn x l : ~ In x l -> del x l = l.
Proof.
  induction l as [|y l IH]; [reflexivity|]. cbn [del filter]. fold (del x l). intros N.
  destruct (Nat.eqb_spec y x) as [->|M]; [exfalso; apply N; left; reflexivity|]. cbn [negb].
  rewrite IH; [reflexivity|]. intros H. apply N. right. exact H.
Qed.
Lemma insert_In x y l : In y (insert x l) <-> y = x \/ In y l.
Proof.
  induction l as [|z l IH]; cbn [insert].
  - cbn. intuition congruence.
  - destruct (x <? z); [cbn; intuition congruence|]. destruct (Nat.eqb_spec x z) as [->|N].
    + cbn. intuition congruence.
    + cbn [In]. rewrite IH. intuition congruence.
Qed.

Lemma path_eqb_eq a b : path_eqb a b = true <-> a = b.
Proof.
  revert b. induction a as [|x a IH]; intros [|y b]; cbn [path_eqb]; split; intros H; try congruence; try discriminate.
  - apply andb_true_iff in H as [A B]. apply Nat.eqb_eq in A. apply IH in B. congruence.
  - injection H as -> ->. rewrite Nat.eqb_refl. cbn [andb]. apply IH. reflexivity.
Qed.
Lemma path_eqb_refl a : path_eqb a a = true.
Proof. apply path_eqb_eq. reflexivity. Qed.
Lemma prefixb_prefix a b : prefixb a b = true <-> prefix a b.
Proof.
  revert b. induction a as [|x a IH]; intros b; cbn [prefixb].
  - split; [intros _; exists b; reflexivity | reflexivity].
  - destruct b as [|y b].
    + split; [discriminate|]. intros [c H]. discriminate.
    + rewrite andb_true_iff, IH, Nat.eqb_eq. split.
      * intros [-> [c ->]]. exists c. reflexivity.
      * intros [c H]. injection H as -> ->. split; [reflexivity | exists c; reflexivity].
Qed.

Lemma prefix_refl a : prefix a a. Proof. exists []. rewrite app_nil_r. reflexivity. Qed.
Lemma prefix_trans a b c : prefix a b -> prefix b c -> prefix a c.
Proof. intros [x ->] [y ->]. exists (x ++ y). rewrite app_assoc. reflexivity. Qed.
Lemma prefix_nil a : prefix [] a. Proof. exists a. reflexivity. Qed.
Lemma prefix_length a b : prefix a b -> length a <= length b.
Proof. intros [c ->]. rewrite app_length. lia. Qed.
Lemma prefix_same_length a b : prefix a b -> length b <= length a -> a = b.
Proof.
  intros [c ->] H. rewrite app_length in H. destruct c; [rewrite app_nil_r; reflexivity | cbn in H; lia].
Qed.
Lemma prefix_antisym a b : prefix a b -> prefix b a -> a = b.
Proof. intros H1 H2. apply prefix_same_length; [exact H1 | exact (prefix_length _ _ H2)]. Qed.
Lemma prefix_firstn a b : prefix a b <-> a = firstn (length a) b.
Proof.
  split.
  - intros [c ->]. rewrite firstn_app, firstn_all, Nat.sub_diag. cbn. rewrite app_nil_r. reflexivity.
  - intros H. exists (skipn (length a) b). rewrite H at 1. rewrite firstn_skipn. reflexivity.
Qed.
Lemma firstn_prefix n (a : path) : prefix (firstn n a) a.
Proof. exists (skipn n a). rewrite firstn_skipn. reflexivity. Qed.
Lemma prefix_comparable a b c : prefix a c -> prefix b c -> length a <= length b -> prefix a b.
Proof.
  intros Ha Hb L. apply prefix_firstn in Ha. apply prefix_firstn in Hb. rewrite Ha, Hb.
  replace (firstn (length a) c) with (firstn (length a) (firstn (length b) c)); [apply firstn_prefix|].
  rewrite firstn_firstn. rewrite Nat.min_l by exact L. reflexivity.
Qed.
Lemma removelast_length (a : path) : length (removelast a) = length a - 1.
Proof.
  induction a as [|x a IH]; [reflexivity|]. destruct a as [|y a]; [reflexivity|].
  change (removelast (x :: y :: a)) with (x :: removelast (y :: a)). cbn [length] in *. rewrite IH. lia.
Qed.
Lemma removelast_prefix (a : path) : prefix (removelast a) a.
Proof.
  destruct a as [|x a]; [apply prefix_refl|]. exists [last (x :: a) 0]. apply app_removelast_last. discriminate.
Qed.
Lemma removelast_snoc (a : path) x : removelast (a ++ [x]) = a.
Proof. rewrite removelast_app by discriminate. cbn. apply app_nil_r. Qed.

(** ** The common ancestor *)
Lemma common_prefix_l a b : prefix (common a b) a.
Proof.
  revert b. induction a as [|x a IH]; intros [|y b]; cbn [common]; try apply prefix_nil; try apply prefix_refl.
  destruct (Nat.eqb_spec x y) as [->|]; [|apply prefix_nil]. destruct (IH b) as [c E]. exists c. cbn. congruence.
Qed.
Lemma common_comm a b : common a b = common b a.
Proof.
  revert b. induction a as [|x a IH]; intros [|y b]; cbn [common]; try reflexivity.
  rewrite (Nat.eqb_sym y x). destruct (Nat.eqb_spec x y) as [->|]; [|reflexivity]. rewrite IH. reflexivity.
Qed.
Lemma common_prefix_r a b : prefix (common a b) b.
Proof. rewrite common_comm. apply common_prefix_l. Qed.
Lemma common_greatest a b c : prefix c a -> prefix c b -> prefix c (common a b).
Proof.
  revert a b. induction c as [|x c IH]; intros a b [u ->] [v ->]; [apply prefix_nil|].
  cbn [app common]. rewrite Nat.eqb_refl. destruct (IH (c ++ u) (c ++ v)) as [w E]; [exists u; reflexivity | exists v; reflexivity|].
  exists w. cbn. congruence.
Qed.
(** two paths beside each other under a scope share exactly the scope *)
Lemma common_siblings s x y a b : x <> y -> common ((s ++ [x]) ++ a) ((s ++ [y]) ++ b) = s.
Proof.
  intros N. induction s as [|z s IH]; cbn [app common].
  - destruct (Nat.eqb_spec x y); [contradiction | reflexivity].
  - rewrite Nat.eqb_refl. f_equal. exact IH.
Qed.

Section Pool.
Variable P : pool.
Hypothesis W : wf P.

Lemma lookup_spec file p i : lookup P file p = Some i -> i < nmsgs P /\ fileof P i = file /\ pathof P i = p.
Proof.
  unfold lookup. intros H. apply find_some in H as [Hin H]. apply in_seq in Hin. apply andb_true_iff in H as [A B].
  apply Nat.eqb_eq in A. apply path_eqb_eq in B. split; [lia|]. split; assumption.
Qed.
Lemma lookup_complete i : i < nmsgs P -> lookup P (fileof P i) (pathof P i) = Some i.
Proof.
  intros Hi. unfold lookup. destruct (find _ _) as [j|] eqn:F.
  - apply find_some in F as [Hin H]. apply in_seq in Hin. apply andb_true_iff in H as [A B].
    apply Nat.eqb_eq in A. apply path_eqb_eq in B. f_equal. apply (wf_unique P W); [lia | exact Hi | exact A | exact B].
  - exfalso. assert (Hin : In i (seq 0 (nmsgs P))) by (apply in_seq; lia).
    pose proof (find_none _ _ F i Hin) as H. cbv beta in H. rewrite Nat.eqb_refl, path_eqb_refl in H. discriminate.
Qed.

Lemma messages_In file scope i : In i (messages_of P file scope) <->
  i < nmsgs P /\ fileof P i = file /\ removelast (pathof P i) = scope.
Proof.
  unfold messages_of. rewrite filter_In, in_seq, !andb_true_iff, Nat.eqb_eq, path_eqb_eq, negb_true_iff. split.
  - intros [A [[B C] D]]. split; [lia|]. split; assumption.
  - intros [A [B C]]. split; [lia|]. split; [|exact C]. split; [exact B|].
    destruct (path_eqb (pathof P i) []) eqn:E; [|reflexivity]. apply path_eqb_eq in E. exfalso. exact (wf_named P W i A E).
Qed.
Lemma messages_NoDup file scope : NoDup (messages_of P file scope).
Proof. unfold messages_of. apply NoDup_filter. apply seq_NoDup. Qed.

Lemma path_split i : i < nmsgs P -> pathof P i = removelast (pathof P i) ++ [name P i].
Proof. intros Hi. apply app_removelast_last. exact (wf_named P W i Hi). Qed.

(** every prefix of a message's name names a message around it *)
Lemma ancestor i n : i < nmsgs P -> 0 < n -> n <= length (pathof P i) ->
  exists a, a < nmsgs P /\ fileof P a = fileof P i /\ pathof P a = firstn n (pathof P i) /\ (n < length (pathof P i) -> entry P a = false).
Proof.
  intros Hi Hn. remember (length (pathof P i) - n) as k eqn:K. revert n Hn K. induction k as [|k IH]; intros n Hn K L.
  - exists i. split; [exact Hi|]. split; [reflexivity|]. split; [|lia]. rewrite firstn_all2 by lia. reflexivity.
  - destruct (IH (S n)) as [b [Hb [Fb [Pb _]]]]; [lia | lia | lia|].
    assert (R : removelast (pathof P b) = firstn n (pathof P i)).
    { rewrite Pb. apply removelast_firstn. lia. }
    destruct (wf_parent P W b Hb) as [a [Ha [Fa [Pa Ea]]]].
    + rewrite R. intros C. apply (f_equal (@length nat)) in C. rewrite firstn_length_le in C by lia. cbn in C. lia.
    + exists a. split; [exact Ha|]. split; [congruence|]. split; [congruence|]. intros _. exact Ea.
Qed.

Lemma sub_refl m : sub P m m. Proof. split; [reflexivity | apply prefix_refl]. Qed.
Lemma sub_trans a b c : sub P a b -> sub P b c -> sub P a c.
Proof. intros [F1 P1] [F2 P2]. split; [congruence | eapply prefix_trans; eassumption]. Qed.
Lemma sub_antisym a b : a < nmsgs P -> b < nmsgs P -> sub P a b -> sub P b a -> a = b.
Proof. intros Ha Hb [F1 P1] [_ P2]. apply (wf_unique P W); [exact Ha | exact Hb | exact F1 | apply prefix_antisym; assumption]. Qed.

(** a message of a scope around a nested one *)
Lemma child_towards m t : m < nmsgs P -> t < nmsgs P -> inside P m t ->
  exists c, In c (messages_of P (fileof P m) (pathof P m)) /\ sub P c t /\ (c = t \/ entry P c = false).
Proof.
  intros Hm Ht [[F Hp] N].
  assert (L : length (pathof P m) < length (pathof P t)).
  { pose proof (prefix_length _ _ Hp). destruct (le_lt_dec (length (pathof P t)) (length (pathof P m))) as [L|L]; [|lia].
    exfalso. apply N. apply (wf_unique P W); [exact Hm | exact Ht | exact F | apply prefix_same_length; assumption]. }
  destruct (ancestor t (S (length (pathof P m))) Ht) as [c [Hc [Fc [Pc Ec]]]]; [lia | lia|].
  exists c. split; [|split].
  - apply messages_In. split; [exact Hc|]. split; [congruence|]. rewrite Pc, removelast_firstn by lia.
    apply prefix_firstn in Hp. symmetry. exact Hp.
  - split; [congruence|]. rewrite Pc. apply firstn_prefix.
  - destruct (le_lt_dec (length (pathof P t)) (S (length (pathof P m)))) as [Le|Lt].
    + left. apply (wf_unique P W); [exact Hc | exact Ht | congruence|]. rewrite Pc. apply firstn_all2. exact Le.
    + right. exact (Ec Lt).
Qed.

Lemma child_inside m c : m < nmsgs P -> In c (messages_of P (fileof P m) (pathof P m)) -> inside P m c.
Proof.
  intros Hm Hc. apply messages_In in Hc as [Hc [F R]]. split.
  - split; [congruence|]. rewrite <- R. apply removelast_prefix.
  - intros <-. pose proof (wf_named P W m Hm) as N. apply N. apply (f_equal (@length nat)) in R. rewrite removelast_length in R.
    destruct (pathof P m); [reflexivity | cbn in R; lia].
Qed.

Lemma siblings_messages m t : m < nmsgs P -> t < nmsgs P ->
  siblings P m t <-> In t (messages_of P (fileof P m) (removelast (pathof P m))).
Proof.
  intros Hm Ht. rewrite messages_In. unfold siblings. split.
  - intros [A [B [C D]]]. split; [exact Ht|]. split; congruence.
  - intros [_ [A B]]. split; [congruence|]. split; [apply (wf_named P W); exact Hm|]. split; [apply (wf_named P W); exact Ht|]. congruence.
Qed.

Lemma fields_of_In m f : In f (fields_of P m) <-> f < nflds P /\ f_ext (fget P f) = false /\ f_msg (fget P f) = Some m.
Proof.
  unfold fields_of. rewrite filter_In, in_seq, andb_true_iff, negb_true_iff. split.
  - intros [A [B C]]. split; [lia|]. split; [exact B|]. destruct (f_msg (fget P f)); [|discriminate]. apply Nat.eqb_eq in C. congruence.
  - intros [A [B C]]. split; [lia|]. split; [exact B|]. rewrite C. apply Nat.eqb_refl.
Qed.
Lemma value_field_spec t v : value_field P t = Some v -> v < nflds P /\ f_msg (fget P v) = Some t.
Proof.
  unfold value_field. intros H. apply nth_error_In in H. apply fields_of_In in H as [A [_ B]]. split; assumption.
Qed.
Lemma used_by_In d f : In f (used_by P d) <-> f < nflds P /\ f_type (fget P f) = TMsg d.
Proof.
  unfold used_by. rewrite filter_In, in_seq. split.
  - intros [A B]. split; [lia|]. destruct (f_type (fget P f)); try discriminate. apply Nat.eqb_eq in B. congruence.
  - intros [A B]. split; [lia|]. rewrite B. apply Nat.eqb_refl.
Qed.
End Pool.
