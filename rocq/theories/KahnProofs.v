(** The check succeeds exactly on graphs without cycles. *)
Require Import Verif.Bits Verif.Kahn Verif.KahnSpec.
Local Open Scope nat_scope.

Lemma set_at_length {A} i (x : A) l : length (set_at i x l) = length l.
Proof. revert i. induction l; intros [|i]; cbn; auto. Qed.
Lemma set_at_same {A} i (x d : A) l : i < length l -> nth i (set_at i x l) d = x.
Proof. revert i. induction l; intros [|i] H; cbn in *; try lia; auto. apply IHl. lia. Qed.
Lemma set_at_other {A} i j (x d : A) l : i <> j -> nth j (set_at i x l) d = nth j l d.
Proof. revert i j. induction l; intros [|i] [|j] H; cbn; auto; try congruence. Qed.

Definition occ (d : nat) (l : list nat) : Z := Z.of_nat (count_occ Nat.eq_dec l d).
Lemma occ_cons d x l : (occ d (x :: l) = (if Nat.eqb x d then 1 else 0) + occ d l)%Z.
Proof. unfold occ. cbn. destruct (Nat.eq_dec x d) as [->|]; [rewrite Nat.eqb_refl; lia|]. destruct (Nat.eqb_spec x d); lia. Qed.
Lemma occ_nonneg d l : (0 <= occ d l)%Z. Proof. unfold occ. lia. Qed.
Lemma occ_in d l : In d l -> (0 < occ d l)%Z.
Proof. intros H. unfold occ. apply (count_occ_In Nat.eq_dec) in H. lia. Qed.
Lemma occ_zero d l : (occ d l <= 0)%Z -> ~ In d l.
Proof. intros H K. apply occ_in in K. lia. Qed.

(** Edges into [d] from the files of the list. *)
Fixpoint edges (d : nat) (dss : list (list nat)) : Z := match dss with [] => 0%Z | ds :: t => (occ d ds + edges d t)%Z end.

Lemma count_in_spec ds : forall inc d, (forall j, In j ds -> j < length inc) -> d < length inc ->
  length (fold_left count_in ds inc) = length inc /\ edge_at (fold_left count_in ds inc) d = (edge_at inc d + occ d ds)%Z.
Proof.
  induction ds as [|x t IH]; intros inc d H Hd; cbn [fold_left].
  - split; [reflexivity|]. unfold occ. cbn. lia.
  - destruct (IH (count_in inc x) d) as [L E]; unfold count_in in *; rewrite ?set_at_length in *; auto.
    { intros j Hj. apply H. now right. }
    split; [exact L|]. rewrite E, occ_cons. unfold edge_at. destruct (Nat.eqb_spec x d) as [->|N].
    + rewrite set_at_same by auto. unfold edge_at. lia.
    + rewrite set_at_other by auto. lia.
Qed.
Lemma incoming_fold dss : forall inc d, (forall ds j, In ds dss -> In j ds -> j < length inc) -> d < length inc ->
  length (fold_left (fun inc ds => fold_left count_in ds inc) dss inc) = length inc /\
  edge_at (fold_left (fun inc ds => fold_left count_in ds inc) dss inc) d = (edge_at inc d + edges d dss)%Z.
Proof.
  induction dss as [|ds t IH]; intros inc d H Hd; cbn [fold_left edges]; [split; [reflexivity|lia]|].
  destruct (count_in_spec ds inc d) as [L1 E1]; [intros; apply (H ds); cbn; auto|auto|].
  destruct (IH (fold_left count_in ds inc) d) as [L E]; [intros; rewrite L1; eapply H; cbn; eauto|lia|].
  split; [lia|]. rewrite E, E1. lia.
Qed.

Section Graph.
  Context (deps : list (list nat)) (Hcl : closed_graph deps).
  Notation n := (length deps).

  Lemma in_deps_bound ds j : In ds deps -> In j ds -> j < n.
  Proof. intros H K. apply In_nth_error in H. destruct H as [i H]. apply (Hcl i). exists ds. auto. Qed.

  Lemma incoming_spec : length (incoming deps) = n /\ forall d, d < n -> edge_at (incoming deps) d = edges d deps.
  Proof.
    split.
    - destruct (Nat.eq_dec n 0) as [Zn|Zn].
      + destruct deps; [reflexivity|discriminate].
      + destruct (incoming_fold deps (repeat 0%Z n) 0%nat) as [L _]; rewrite ?repeat_length in *; auto; [apply in_deps_bound|lia].
    - intros d Hd. destruct (incoming_fold deps (repeat 0%Z n) d) as [_ E]; rewrite ?repeat_length in *; auto; [apply in_deps_bound|].
      unfold incoming. rewrite E. unfold edge_at. rewrite nth_repeat. lia.
  Qed.

  Lemma roots_in i inc x : In x (roots i inc) <-> i <= x < i + length inc /\ nth (x - i) inc 1%Z = 0%Z.
  Proof.
    revert i. induction inc as [|y t IH]; intros i; cbn [roots length]; [cbn; lia|].
    assert (E : nth (x - i) (y :: t) 1%Z = if Nat.eqb x i then y else if Nat.leb x i then nth (x - i) (y :: t) 1%Z else nth (x - S i) t 1%Z).
    { destruct (Nat.eqb_spec x i) as [->|]; [rewrite Nat.sub_diag; reflexivity|]. destruct (Nat.leb_spec x i); [reflexivity|].
      replace (x - i) with (S (x - S i)) by lia. reflexivity. }
    destruct (Z.eqb_spec y 0) as [->|N]; cbn [In]; rewrite IH, E; destruct (Nat.eqb_spec x i), (Nat.leb_spec x i); intuition (try lia).
  Qed.
  Lemma roots_nodup inc : forall i, NoDup (roots i inc).
  Proof.
    induction inc as [|y t IH]; intros i; cbn [roots]; [constructor|]. destruct (y =? 0)%Z; [|apply IH].
    constructor; [|apply IH]. intros H. apply roots_in in H. lia.
  Qed.

  (** The edges into [d] whose source is not in [done]. *)
  Fixpoint left_from (i : nat) (dss : list (list nat)) (done : list nat) (d : nat) : Z :=
    match dss with
    | [] => 0%Z
    | ds :: t => ((if in_dec Nat.eq_dec i done then 0 else occ d ds) + left_from (S i) t done d)%Z
    end.
  Definition left_edges := left_from 0 deps.
  Lemma left_nil i dss d : left_from i dss [] d = edges d dss.
  Proof. revert i. induction dss as [|ds t IH]; intros i; cbn; [reflexivity|]. rewrite IH. reflexivity. Qed.
  Lemma left_nonneg dss done d : forall i, (0 <= left_from i dss done d)%Z.
  Proof. induction dss as [|ds t IH]; intros i; cbn; [lia|]. specialize (IH (S i)). pose proof (occ_nonneg d ds). destruct (in_dec _ _ _); lia. Qed.
  Lemma left_after dss done d x : forall i, x < i -> left_from i dss (x :: done) d = left_from i dss done d.
  Proof.
    induction dss as [|ds t IH]; intros i Hi; cbn [left_from]; [reflexivity|]. rewrite IH by lia.
    destruct (in_dec Nat.eq_dec i (x :: done)) as [[K|K]|K], (in_dec Nat.eq_dec i done) as [K'|K']; try lia; try contradiction; exfalso; apply K; now right.
  Qed.
  Lemma left_add dss done d x : forall i, i <= x < i + length dss -> ~ In x done ->
    left_from i dss (x :: done) d = (left_from i dss done d - occ d (nth (x - i) dss []))%Z.
  Proof.
    induction dss as [|ds t IH]; intros i Hi Hx; cbn [left_from length] in *; [lia|].
    destruct (Nat.eq_dec i x) as [->|N].
    - rewrite left_after by lia. rewrite Nat.sub_diag. cbn [nth].
      destruct (in_dec Nat.eq_dec x (x :: done)) as [K|K]; [|exfalso; apply K; now left]. destruct (in_dec Nat.eq_dec x done); [contradiction|]. lia.
    - rewrite IH by (auto; lia). replace (x - i) with (S (x - S i)) by lia. cbn [nth].
      destruct (in_dec Nat.eq_dec i (x :: done)) as [[K|K]|K], (in_dec Nat.eq_dec i done) as [K'|K']; try lia; try contradiction; exfalso; apply K; now right.
  Qed.
  Lemma left_zero dss done d : forall i, left_from i dss done d = 0%Z ->
    forall k ds, nth_error dss k = Some ds -> In d ds -> In (i + k) done.
  Proof.
    induction dss as [|ds0 t IH]; intros i H k ds Hk Hd; cbn [left_from] in H; [destruct k; discriminate|].
    pose proof (left_nonneg t done d (S i)). pose proof (occ_nonneg d ds0). destruct k as [|k]; cbn [nth_error] in Hk.
    - injection Hk as ->. apply occ_in in Hd. rewrite Nat.add_0_r. destruct (in_dec Nat.eq_dec i done); [assumption|lia].
    - replace (i + S k) with (S i + k) by lia. eapply IH; eauto. destruct (in_dec Nat.eq_dec i done); lia.
  Qed.
  Lemma left_pos dss done d : forall i, (0 < left_from i dss done d)%Z -> exists k ds, nth_error dss k = Some ds /\ In d ds /\ ~ In (i + k) done.
  Proof.
    induction dss as [|ds0 t IH]; intros i H; cbn [left_from] in H; [lia|].
    destruct (in_dec Nat.eq_dec i done) as [K|K].
    - destruct (IH (S i)) as (k & ds & A & B & C); [lia|]. exists (S k), ds. replace (i + S k) with (S i + k) by lia. auto.
    - destruct (in_dec Nat.eq_dec d ds0) as [Hi|Hi].
      + exists 0, ds0. rewrite Nat.add_0_r. auto.
      + destruct (IH (S i)) as (k & ds & A & B & C).
        { unfold occ in H. apply (count_occ_not_In Nat.eq_dec) in Hi. rewrite Hi in H. lia. }
        exists (S k), ds. replace (i + S k) with (S i + k) by lia. auto.
  Qed.

  (** The state between two visits: [k] files of [pending] have been visited. *)
  Record inv (k : nat) (inc : list Z) (pending : list nat) : Prop := {
    inv_len : length inc = n;
    inv_k : k <= length pending;
    inv_nodup : NoDup pending;
    inv_bound : forall x, In x pending -> x < n;
    inv_inc : forall d, d < n -> edge_at inc d = left_edges (firstn k pending) d;
    inv_zero : forall d, d < n -> (In d pending <-> edge_at inc d = 0%Z);
    inv_before : forall p x y, nth_error pending p = Some x -> imports deps y x -> exists q, q < p /\ q < k /\ nth_error pending q = Some y }.

  Lemma left_perm done done' d : (forall x, In x done <-> In x done') -> forall dss i, left_from i dss done d = left_from i dss done' d.
  Proof.
    intros H. induction dss as [|ds t IH]; intros i; cbn [left_from]; [reflexivity|]. rewrite IH.
    destruct (in_dec Nat.eq_dec i done) as [K|K], (in_dec Nat.eq_dec i done') as [K'|K']; auto; rewrite H in K; contradiction.
  Qed.

  (** Releasing the dependencies [ds] still to be released of the file visited last. *)
  Lemma release_spec ds : forall inc pend (R : nat -> Z),
    length inc = n -> (forall d, In d ds -> d < n) -> NoDup pend -> (forall x, In x pend -> x < n) ->
    (forall d, d < n -> edge_at inc d = (R d + occ d ds)%Z) -> (forall d, d < n -> (0 <= R d)%Z) ->
    (forall d, d < n -> (In d pend <-> edge_at inc d = 0%Z)) ->
    exists inc' ext, release ds inc pend = (inc', pend ++ ext) /\ length inc' = n /\ NoDup (pend ++ ext) /\
      (forall x, In x (pend ++ ext) -> x < n) /\ (forall d, d < n -> edge_at inc' d = R d) /\
      (forall d, d < n -> (In d (pend ++ ext) <-> R d = 0%Z)).
  Proof.
    induction ds as [|x t IH]; intros inc pend R Hl Hds Hnd Hb Hinc HR Hz; cbn [release].
    - exists inc, []. rewrite app_nil_r. repeat (split; [assumption || reflexivity|]). split.
      + intros d Hd. rewrite Hinc by auto. unfold occ. cbn. lia.
      + intros d Hd. rewrite Hz, Hinc by auto. unfold occ. cbn. lia.
    - assert (Hx : x < n) by (apply Hds; now left).
      assert (Hother : forall d, d < n -> edge_at (set_at x (edge_at inc x - 1)%Z inc) d = (R d + occ d t)%Z).
      { intros d Hd. unfold edge_at at 1. specialize (Hinc d Hd). rewrite occ_cons in Hinc. destruct (Nat.eqb_spec x d) as [->|N].
        - rewrite set_at_same by lia. lia.
        - rewrite set_at_other by auto. fold (edge_at inc d). lia. }
      assert (Hnx : ~ In x pend).
      { intros K. apply Hz in K; auto. rewrite Hinc, occ_cons, Nat.eqb_refl in K by auto. pose proof (HR x Hx). pose proof (occ_nonneg x t). lia. }
      destruct (Z.eqb_spec (edge_at inc x - 1) 0) as [E|E].
      + destruct (IH (set_at x (edge_at inc x - 1)%Z inc) (pend ++ [x]) R) as (inc' & ext & Hr & H1 & H2 & H3 & H4 & H5); auto.
        * rewrite set_at_length; auto.
        * intros d Hd. apply Hds. now right.
        * apply NoDup_rev in Hnd. rewrite <- (rev_involutive (pend ++ [x])). apply NoDup_rev. rewrite rev_app_distr. cbn. constructor; [|exact Hnd].
          rewrite <- in_rev. exact Hnx.
        * intros y [K|[<-|[]]]%in_app_or; auto.
        * intros d Hd. rewrite in_app_iff, Hother by auto. pose proof (Hother x Hx) as Ox. unfold edge_at at 1 in Ox. rewrite set_at_same in Ox by lia.
          cbn [In]. specialize (Hinc d Hd). rewrite occ_cons in Hinc. rewrite Hz by auto. destruct (Nat.eqb_spec x d) as [->|N].
          -- split; [intros _; lia|intros _; auto].
          -- split; [intros [K|[K|[]]]; [lia|congruence]|intros K; left; lia].
        * exists inc', (x :: ext). replace (pend ++ x :: ext) with ((pend ++ [x]) ++ ext) by (rewrite <- app_assoc; reflexivity).
          split; [exact Hr|]. split; [exact H1|]. split; [exact H2|]. split; [exact H3|]. split; [exact H4|exact H5].
      + destruct (IH (set_at x (edge_at inc x - 1)%Z inc) pend R) as (inc' & ext & Hr & H1 & H2 & H3 & H4 & H5); auto.
        * rewrite set_at_length; auto.
        * intros d Hd. apply Hds. now right.
        * intros d Hd. rewrite Hother by auto. rewrite Hz by auto. specialize (Hinc d Hd). pose proof (Hinc) as Hi. rewrite occ_cons in Hi.
          destruct (Nat.eqb_spec x d) as [->|N]; [|lia]. split; [|lia]. intros K. exfalso. apply Hnx. apply Hz; auto.
        * exists inc', ext. auto 10.
  Qed.

  Lemma inv_start : inv 0 (incoming deps) (roots 0 (incoming deps)).
  Proof.
    destruct incoming_spec as [L E]. split.
    - exact L.
    - lia.
    - apply roots_nodup.
    - intros x Hx. apply roots_in in Hx. lia.
    - intros d Hd. rewrite E by auto. cbn [firstn]. unfold left_edges. rewrite left_nil. reflexivity.
    - intros d Hd. rewrite roots_in. unfold edge_at. rewrite (nth_indep _ 1%Z 0%Z) by lia. rewrite Nat.sub_0_r. intuition lia.
    - intros p x y Hp Hi. exfalso. apply nth_error_In in Hp. apply roots_in in Hp. destruct Hp as [Hb Hz].
      rewrite (nth_indep _ 1%Z 0%Z) in Hz by lia. rewrite Nat.sub_0_r in Hz. fold (edge_at (incoming deps) x) in Hz.
      rewrite E in Hz by lia. rewrite <- (left_nil 0) in Hz. destruct Hi as (ds & Hn & Hin). destruct (left_zero _ _ _ _ Hz _ _ Hn Hin).
  Qed.

  Lemma firstn_S_snoc {A} k (x : A) l : nth_error l k = Some x -> firstn (S k) l = firstn k l ++ [x].
  Proof. revert k. induction l as [|y t IH]; intros [|k] H; cbn in *; try discriminate; [injection H as ->; reflexivity|]. rewrite <- IH by auto. reflexivity. Qed.
  Lemma nodup_firstn {A} k (x : A) l : NoDup l -> nth_error l k = Some x -> ~ In x (firstn k l).
  Proof.
    revert k. induction l as [|y t IH]; intros [|k] Hn H; cbn in *; try discriminate; auto. inversion Hn; subst. intros [->|K].
    - apply nth_error_In in H. contradiction.
    - eapply IH; eauto.
  Qed.

  Lemma inv_step k inc pending file : inv k inc pending -> nth_error pending k = Some file ->
    exists inc' pending', release (nth file deps []) inc pending = (inc', pending') /\ inv (S k) inc' pending'.
  Proof.
    intros I Hf. destruct I as [Hl Hk Hnd Hb Hinc Hz Hbef].
    assert (Hfile : file < n) by (apply Hb; eapply nth_error_In; eauto).
    pose proof (nodup_firstn _ _ _ Hnd Hf) as Hnew.
    assert (HL : forall d, left_edges (firstn (S k) pending) d = (left_edges (firstn k pending) d - occ d (nth file deps []))%Z).
    { intros d. rewrite (firstn_S_snoc _ _ _ Hf). unfold left_edges.
      rewrite (left_perm (firstn k pending ++ [file]) (file :: firstn k pending)) by (intros; rewrite in_app_iff; cbn; intuition).
      rewrite left_add by (auto; lia). rewrite Nat.sub_0_r. reflexivity. }
    destruct (release_spec (nth file deps []) inc pending (fun d => left_edges (firstn (S k) pending) d)) as (inc' & ext & Hr & H1 & H2 & H3 & H4 & H5); auto.
    - intros d Hd. apply (in_deps_bound (nth file deps [])); auto. apply nth_In. auto.
    - intros d Hd. rewrite Hinc, HL by auto. lia.
    - intros d Hd. apply left_nonneg.
    - exists inc', (pending ++ ext). split; [exact Hr|]. assert (Hlt : k < length pending) by (apply nth_error_Some; congruence).
      assert (Hfp : firstn (S k) (pending ++ ext) = firstn (S k) pending) by (rewrite firstn_app; replace (S k - length pending) with 0 by lia; cbn [firstn]; rewrite app_nil_r; reflexivity).
      split; auto.
      + rewrite app_length. lia.
      + intros d Hd. rewrite Hfp. auto.
      + intros d Hd. rewrite H5, H4 by auto. reflexivity.
      + intros p x y Hp Hi. destruct (Nat.lt_ge_cases p (length pending)) as [Lp|Lp].
        * rewrite nth_error_app1 in Hp by auto. destruct (Hbef _ _ _ Hp Hi) as (q & A & B & C). exists q. split; [auto|]. split; [lia|].
          rewrite nth_error_app1; auto. lia.
        * assert (Hx : In x (pending ++ ext)) by (eapply nth_error_In; eauto). assert (Hxn : x < n) by auto. apply H5 in Hx; auto.
          destruct Hi as (ds & Hn & Hin). pose proof (left_zero _ _ _ _ Hx _ _ Hn Hin) as Hdone. cbn [Nat.add] in Hdone.
          apply In_nth_error in Hdone. destruct Hdone as [q Hq]. assert (Hqk : q < S k).
          { apply Nat.lt_le_trans with (length (firstn (S k) pending)); [apply nth_error_Some; congruence|rewrite firstn_length; lia]. }
          exists q. split; [lia|]. split; [exact Hqk|]. rewrite nth_error_app1 by lia.
          rewrite <- (firstn_skipn (S k) pending). rewrite nth_error_app1; [exact Hq|]. apply nth_error_Some. congruence.
  Qed.

  Lemma inv_count k inc pending : inv k inc pending -> length pending <= n.
  Proof.
    intros I. rewrite <- (seq_length n 0). apply NoDup_incl_length; [apply (inv_nodup _ _ _ I)|]. intros x Hx. apply in_seq. apply (inv_bound _ _ _ I) in Hx. lia.
  Qed.

  Lemma loop_spec : forall fuel k inc pending, inv k inc pending -> n < fuel + k ->
    exists inc' pending', inv (length pending') inc' pending' /\ kahn_loop fuel deps k inc pending k = Some (length pending').
  Proof.
    induction fuel as [|fuel IH]; intros k inc pending I Hf.
    - pose proof (inv_count _ _ _ I). pose proof (inv_k _ _ _ I). lia.
    - cbn [kahn_loop]. destruct (nth_error pending k) as [file|] eqn:Hn.
      + destruct (inv_step _ _ _ _ I Hn) as (inc' & pending' & -> & I'). apply (IH (S k)); [exact I'|lia].
      + apply nth_error_None in Hn. pose proof (inv_k _ _ _ I). assert (k = length pending) by lia. subst k. exists inc, pending. auto.
  Qed.

  (** Following imports backwards without end repeats a file. *)
  Fixpoint chain (x : nat) (l : list nat) : Prop := match l with [] => True | y :: t => imports deps y x /\ chain y t end.
  Lemma chain_trans l : forall x y b c, l = b ++ y :: c -> chain x l -> clos_trans nat (imports deps) y x.
  Proof.
    induction l as [|z t IH]; intros x y b c E H; [destruct b; discriminate|]. destruct H as [H1 H2]. destruct b as [|b0 b]; cbn in E; injection E as -> E.
    - now apply t_step.
    - apply t_trans with b0; [eapply IH; eauto|now apply t_step].
  Qed.
  Lemma chain_tail l1 : forall x l2, chain x (l1 ++ l2) -> match rev l1 with [] => chain x l2 | z :: _ => chain z l2 end.
  Proof.
    induction l1 as [|a l1 IH]; intros x l2 H; cbn [app rev chain] in *; [exact H|]. destruct H as [_ H]. specialize (IH _ _ H).
    destruct (rev l1) as [|z t] eqn:E; cbn [app]; exact IH.
  Qed.
  Lemma repeated l : ~ NoDup l -> exists x a b c, l = a ++ x :: b ++ x :: c :> list nat.
  Proof.
    induction l as [|y t IH]; intros H; [exfalso; apply H; constructor|]. destruct (in_dec Nat.eq_dec y t) as [K|K].
    - apply in_split in K. destruct K as (b & c & ->). exists y, [], b, c. reflexivity.
    - destruct IH as (x & a & b & c & ->); [intros Hn; apply H; constructor; auto|]. exists x, (y :: a), b, c. reflexivity.
  Qed.
  Lemma endless (U : nat -> Prop) : (forall x, U x -> x < n /\ exists y, imports deps y x /\ U y) -> (exists x, U x) -> cyclic deps.
  Proof.
    intros H [x0 H0].
    assert (W : forall k x, U x -> exists l, length l = k /\ chain x l /\ forall y, In y l -> U y).
    { induction k as [|k IH]; intros x Hx; [exists []; cbn; intuition|]. destruct (H x Hx) as (_ & y & Hi & Hy).
      destruct (IH y Hy) as (l & A & B & C). exists (y :: l). cbn. split; [lia|]. split; [auto|]. intros z [<-|Hz]; auto. }
    destruct (W (S n) x0 H0) as (l & Hl & Hc & Hu).
    assert (Hd : ~ NoDup l).
    { intros Hn. assert (length l <= length (seq 0 n)); [|rewrite seq_length in *; lia]. apply NoDup_incl_length; auto.
      intros y Hy. apply in_seq. destruct (H y (Hu y Hy)). lia. }
    destruct (repeated l Hd) as (x & a & b & c & ->). exists x. pose proof (chain_tail (a ++ [x]) x0 (b ++ x :: c)) as T.
    rewrite <- app_assoc in T. specialize (T Hc). rewrite rev_app_distr in T. cbn [rev app] in T. eapply chain_trans; eauto.
  Qed.

  Lemma check_spec : exists b, acyclic_check deps = Some b /\ (b = true <-> ~ cyclic deps).
  Proof.
    destruct (loop_spec (S n) 0 _ _ inv_start ltac:(lia)) as (inc & pending & I & Hk). unfold acyclic_check. rewrite Hk.
    eexists. split; [reflexivity|]. rewrite Nat.eqb_eq. split.
    - intros Hn [i Hi].
      assert (Hpos : forall x y, clos_trans nat (imports deps) y x -> forall p, nth_error pending p = Some x -> exists q, q < p /\ nth_error pending q = Some y).
      { intros x y Ht. induction Ht as [x y H|x y z _ IH1 _ IH2]; intros p Hp.
        - destruct (inv_before _ _ _ I _ _ _ Hp H) as (q & A & _ & B). eauto.
        - destruct (IH2 _ Hp) as (q & A & B). destruct (IH1 _ B) as (q' & A' & B'). exists q'. split; [lia|auto]. }
      assert (Hin : In i pending).
      { apply (NoDup_length_incl (l := pending) (l' := seq 0 n)).
        - apply (inv_nodup _ _ _ I).
        - rewrite seq_length. lia.
        - intros x Hx. apply in_seq. apply (inv_bound _ _ _ I) in Hx. lia.
        - apply in_seq. assert (exists j, imports deps i j) as [j (ds & Hj & _)].
          { clear - Hi. apply clos_trans_t1n in Hi. inversion Hi; eauto. }
          assert (i < n) by (apply nth_error_Some; congruence). lia. }
      apply In_nth_error in Hin. destruct Hin as [p Hp].
      destruct (Hpos i i Hi p Hp) as (q & A & B). pose proof (inv_nodup _ _ _ I) as Hnd. rewrite NoDup_nth_error in Hnd.
      assert (q = p); [|lia]. apply Hnd; [apply nth_error_Some; congruence|congruence].
    - intros Hac. pose proof (inv_count _ _ _ I) as Hc. destruct (Nat.eq_dec (length pending) n) as [|N]; [assumption|exfalso]. apply Hac.
      apply (endless (fun x => x < n /\ ~ In x pending)).
      + intros x [Hx Hp]. split; [auto|]. pose proof (inv_inc _ _ _ I x Hx) as E. rewrite firstn_all in E.
        assert (Hpos : (0 < left_edges pending x)%Z).
        { pose proof (left_nonneg deps pending x 0). assert (left_edges pending x <> 0%Z); [|unfold left_edges in *; lia]. rewrite <- E. intros K. apply Hp. apply (inv_zero _ _ _ I); auto. }
        destruct (left_pos _ _ _ _ Hpos) as (k & ds & A & B & C). exists k. split; [exists ds; auto|]. split; [apply nth_error_Some; congruence|exact C].
      + destruct (Forall_Exists_dec (fun x => In x pending) (fun x => in_dec Nat.eq_dec x pending) (seq 0 n)) as [F|F].
        * exfalso. assert (n <= length pending); [|lia]. rewrite <- (seq_length n 0). apply NoDup_incl_length; [apply seq_NoDup|]. rewrite Forall_forall in F. exact F.
        * apply Exists_exists in F. destruct F as (x & A & B). exists x. apply in_seq in A. split; [lia|auto].
  Qed.
End Graph.
