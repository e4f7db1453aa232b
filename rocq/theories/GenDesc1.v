(** Names of dependencies. *)
From Coq Require Import Sorting.Sorted.
Require Import Verif.Bits Verif.Varint Verif.Schema Verif.WellTyped Verif.CppText Verif.Pool Verif.PoolSpec Verif.KahnSpec Verif.PoolProofs Verif.GenDesc.
Local Open Scope nat_scope.

(** ** Sorting *)
Definition below (a b : bytes) : Prop := bytes_ltb a b = true.
Definition upto (a b : bytes) : Prop := bytes_ltb b a = false.
Lemma insert_in n l x : In x (insert_name n l) <-> x = n \/ In x l.
Proof.
  induction l as [|y t IH]; cbn; [intuition congruence|]. destruct (bytes_ltb y n); cbn; rewrite ?IH; intuition congruence.
Qed.
Lemma sort_in l x : In x (sort_names l) <-> In x l.
Proof. induction l as [|y t IH]; cbn; [tauto|]. rewrite insert_in, IH. intuition congruence. Qed.
Lemma upto_trans a b c : upto a b -> upto b c -> upto a c.
Proof.
  unfold upto. intros H K. destruct (bytes_ltb c a) eqn:E; [|reflexivity]. destruct (bytes_ltb a b) eqn:F.
  - rewrite (bytes_ltb_trans c a b E F) in K. discriminate.
  - rewrite (bytes_ltb_eq a b F H) in E. congruence.
Qed.
Lemma below_upto a b : below a b -> upto a b.
Proof. unfold below, upto. intros H. destruct (bytes_ltb b a) eqn:E; [|reflexivity]. pose proof (bytes_ltb_trans a b a H E) as K. rewrite bytes_ltb_irrefl in K. discriminate. Qed.
Lemma insert_sorted n l : StronglySorted upto l -> StronglySorted upto (insert_name n l).
Proof.
  induction 1 as [|y t Ht IH Hy]; cbn; [constructor; constructor|]. destruct (bytes_ltb y n) eqn:E.
  - constructor; [exact IH|]. apply Forall_forall. intros x K. apply insert_in in K. destruct K as [->|K]; [apply below_upto; exact E|]. rewrite Forall_forall in Hy. auto.
  - assert (U : upto n y) by exact E. constructor; [constructor; auto|]. constructor; [exact U|]. apply Forall_forall. intros x K. rewrite Forall_forall in Hy. apply (upto_trans n y x U). auto.
Qed.
Lemma sort_sorted l : StronglySorted upto (sort_names l).
Proof. induction l as [|y t IH]; cbn; [constructor|]. apply insert_sorted. exact IH. Qed.
Lemma unique_in l x : In x (unique l) <-> In x l.
Proof.
  induction l as [|y t IH]; cbn [unique]; [tauto|]. destruct (unique t) as [|z r].
  - cbn in *. tauto.
  - destruct (name_eqb y z) eqn:E.
    + apply name_eqb_eq in E. subst z. cbn in *. tauto.
    + cbn in *. tauto.
Qed.
Lemma unique_sorted l : StronglySorted upto l -> StronglySorted below (unique l).
Proof.
  induction 1 as [|y t Ht IH Hy]; cbn [unique]; [constructor|]. pose proof (unique_in t) as K. destruct (unique t) as [|z r]; [repeat constructor|].
  destruct (name_eqb y z) eqn:E; [exact IH|].
  assert (B : below y z).
  { unfold below. destruct (bytes_ltb y z) eqn:F; [reflexivity|]. rewrite Forall_forall in Hy. pose proof (Hy z (proj1 (K z) (or_introl eq_refl))) as U.
    rewrite (bytes_ltb_eq y z F U) in E. assert (name_eqb z z = true) by (apply name_eqb_eq; reflexivity). congruence. }
  constructor; [exact IH|]. constructor; [exact B|]. inversion IH; subst. eapply Forall_impl; [|eassumption]. intros a A. exact (bytes_ltb_trans y z a B A).
Qed.
Lemma sorted_nodup l : StronglySorted below l -> NoDup l.
Proof.
  induction 1 as [|y t Ht IH Hy]; constructor; [|exact IH]. intros K. rewrite Forall_forall in Hy. pose proof (Hy y K) as C. unfold below in C. rewrite bytes_ltb_irrefl in C. discriminate.
Qed.

(** ** The cache *)
Lemma put_length c i v : length (put c i v) = length c.
Proof. revert i. induction c as [|x t IH]; intros [|i]; cbn; auto. Qed.
Lemma put_same c i v : i < length c -> at_file (put c i v) i = v.
Proof. revert i. induction c as [|x t IH]; intros [|i] H; cbn in *; try lia; [reflexivity|]. apply IH. lia. Qed.
Lemma put_other c i j v : i <> j -> at_file (put c i v) j = at_file c j.
Proof. revert i j. unfold at_file. induction c as [|x t IH]; intros [|i] [|j] H; cbn; auto; congruence. Qed.

Section Names.
  Variable deps : list (list nat).
  Variable names : list bytes.
  Hypothesis Hclosed : closed_graph deps.
  Hypothesis Hacyclic : ~ cyclic deps.
  Hypothesis Hnames : length names = length deps.
  Notation reach := (clos_refl_trans nat (imports deps)).
  Notation below_ := (clos_trans nat (imports deps)).

  (** The names of the files below [i], in order, and the name of [i]. *)
  Definition good_set (i : nat) (l : list bytes) : Prop :=
    exists a, l = a ++ [nth i names []] /\ StronglySorted below a /\ (forall n, In n a <-> exists j, below_ i j /\ nth_error names j = Some n).
  Lemma good_in i l : i < length deps -> good_set i l -> forall n, In n l <-> exists j, reach i j /\ nth_error names j = Some n.
  Proof.
    intros Hi (a & -> & _ & Ha) n. rewrite in_app_iff, Ha. split.
    - intros [(j & A & B)|[<-|[]]]; [exists j; split; [|exact B]|].
      + clear - A. induction A; [apply rt_step; auto|eapply rt_trans; eauto].
      + exists i. split; [apply rt_refl|]. apply nth_error_nth'. lia.
    - intros (j & A & B). apply clos_rt_rtn1 in A. destruct A as [|k j K A].
      + right. left. apply nth_error_nth with (d := []) in B. exact B.
      + left. exists j. split; [|exact B]. apply clos_rtn1_rt in A. clear - A K. apply clos_rt_rt1n in A. induction A as [x|x y z P Q IH]; [apply t_step; auto|]. eapply t_trans; [apply t_step; exact P|]. auto.
  Qed.

  (** [P]: files whose vectors are being filled. *)
  Definition consistent (P : list nat) (c : cache) : Prop :=
    length c = length deps /\ forall k, k < length deps -> ~ In k P -> at_file c k = [] \/ good_set k (at_file c k).
  Definition untouched (P : list nat) (c c' : cache) : Prop := forall k, In k P -> at_file c' k = at_file c k.

  Lemma names_spec : forall fuel P c i, NoDup P -> incl P (seq 0 (length deps)) -> (forall x, In x P -> below_ x i) -> length deps < fuel + length P ->
    i < length deps -> consistent P c ->
    exists c' l, get_dependency_names deps names fuel c i = Some (c', l) /\ good_set i l /\ consistent P c' /\ untouched P c c'.
  Proof.
    induction fuel as [|fuel IH]; intros P c i Hnd Hincl Hup Hfuel Hi [Hlen Hc].
    - assert (Hn : ~ In i P) by (intros K; apply Hacyclic; exists i; auto).
      assert (N : NoDup (i :: P)) by (constructor; auto).
      assert (L : incl (i :: P) (seq 0 (length deps))) by (intros x [<-|K]; [apply in_seq; lia|auto]).
      pose proof (NoDup_incl_length N L) as Q. rewrite seq_length in Q. cbn in Q. lia.
    - assert (Hn : ~ In i P) by (intros K; apply Hacyclic; exists i; auto).
      cbn [get_dependency_names]. destruct (at_file c i) as [|x t] eqn:E; cbn [is_empty].
      + destruct (nth_error deps i) as [ds|] eqn:D; [|apply nth_error_None in D; lia].
        rewrite (nth_error_nth _ _ [] D).
        assert (Loop : forall todo done c0, ds = done ++ todo -> consistent (i :: P) c0 -> untouched P c c0 ->
          (forall n, In n (at_file c0 i) <-> exists d j, In d done /\ reach d j /\ nth_error names j = Some n) ->
          exists c1, (fix copy (c : cache) (ds : list nat) : option cache :=
                   match ds with
                   | [] => Some c
                   | d :: t => match get_dependency_names deps names fuel c d with
                               | Some (c, ns) => copy (put c i (at_file c i ++ ns)) t
                               | None => None
                               end
                   end) c0 todo = Some c1 /\ consistent (i :: P) c1 /\ untouched P c c1 /\
             (forall n, In n (at_file c1 i) <-> exists d j, In d ds /\ reach d j /\ nth_error names j = Some n)).
        { induction todo as [|d todo IHt]; intros done c0 Hd Hc0 Hu Hin.
          - exists c0. rewrite app_nil_r in Hd. subst done. auto.
          - assert (Him : imports deps i d) by (exists ds; split; [exact D|]; rewrite Hd; apply in_elt).
            assert (Hdl : d < length deps) by (eapply Hclosed; eauto).
            destruct (IH (i :: P) c0 d) as (c' & l & R & G & C' & U); auto.
            { constructor; auto. } { intros y [<-|K]; [apply in_seq; lia|auto]. }
            { intros y [<-|K]; [apply t_step; auto|]. eapply t_trans; [apply Hup; exact K|]. apply t_step; auto. } { cbn [length]. lia. }
            rewrite R.
            assert (Hc0i : at_file c' i = at_file c0 i) by (apply U; now left).
            destruct C' as [Cl Ck].
            apply (IHt (done ++ [d])).
            + rewrite <- app_assoc. exact Hd.
            + split; [rewrite put_length; exact Cl|]. intros k Kl Kn. rewrite put_other by (intros ->; apply Kn; now left). apply Ck; auto.
            + intros k K. rewrite put_other by (intros ->; auto). rewrite U by (now right). apply Hu. exact K.
            + intros n. rewrite put_same by lia. rewrite in_app_iff, Hc0i, Hin. rewrite (good_in d l Hdl G n). split.
              * intros [(d' & j & A & B)|(j & A & B)]; [exists d', j|exists d, j]; (split; [apply in_or_app; cbn; auto|auto]).
              * intros (d' & j & A & B). apply in_app_or in A. destruct A as [A|[<-|[]]]; [left; exists d', j; auto|right; exists j; exact B]. }
        destruct (Loop ds [] c) as (c1 & R & [Cl Ck] & U & Hin); auto.
        { split; [exact Hlen|]. intros k K Kn. apply Hc; auto. intros C. apply Kn. now right. }
        { intros k K. reflexivity. }
        { intros n. rewrite E. split; [intros []|intros (d & j & [] & _)]. }
        rewrite R. eexists _, _. split; [reflexivity|].
        assert (G : good_set i (unique (sort_names (at_file c1 i)) ++ [nth i names []])).
        { eexists. split; [reflexivity|]. split; [apply unique_sorted, sort_sorted|]. intros n. rewrite unique_in, sort_in, Hin. split.
          - intros (d & j & A & B & C). exists j. split; [|exact C]. assert (Him : imports deps i d) by (exists ds; auto).
            apply clos_rt_rtn1 in B. clear - Him B. induction B as [|y z Q _ IHB]; [apply t_step; auto|]. eapply t_trans; [exact IHB|]. apply t_step. exact Q.
          - intros (j & A & C). apply clos_trans_t1n in A. destruct A as [j (ds' & X & Y)|d j (ds' & X & Y) A].
            + rewrite D in X. injection X as <-. exists j, j. split; [exact Y|]. split; [apply rt_refl|exact C].
            + rewrite D in X. injection X as <-. exists d, j. split; [exact Y|]. split; [|exact C]. apply clos_t1n_trans in A. clear - A. induction A; [apply rt_step; auto|eapply rt_trans; eauto]. }
        split; [exact G|]. split.
        * split; [rewrite put_length; exact Cl|]. intros k Kl Kn. destruct (Nat.eq_dec k i) as [->|K].
          -- right. rewrite put_same by lia. exact G.
          -- rewrite put_other by auto. apply Ck; auto. intros [C|C]; auto.
        * intros k K. rewrite put_other by (intros ->; auto). apply U. exact K.
      + eexists _, _. split; [reflexivity|]. split; [|split; [split; auto|intros k K; reflexivity]].
        destruct (Hc i Hi Hn) as [C|C]; [congruence|]. rewrite E in C. exact C.
  Qed.
End Names.
