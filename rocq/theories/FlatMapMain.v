(** flat_map against a plain association list: sequences of operations. *)
From Coq Require Import List Arith Lia Bool Sorted Permutation.
Import ListNotations.
Require Import Verif.FlatMap Verif.FlatMapProofs Verif.FlatMapSort.

(** ** Specification: an association list with one entry per key *)
Section Assoc.
  Context {K V : Type} (less : K -> K -> bool).
  Definition eqk (a b : K) : bool := negb (less a b) && negb (less b a).
  Definition present (k : K) (s : list (K * V)) : bool := existsb (fun p => eqk k (fst p)) s.
  Definition lookup (k : K) (s : list (K * V)) : option V := option_map snd (List.find (fun p => eqk k (fst p)) s).
  Definition add (k : K) (v : V) (s : list (K * V)) : list (K * V) := if present k s then s else (k, v) :: s.
  Definition put (k : K) (v : V) (s : list (K * V)) : list (K * V) :=
    if present k s then map (fun p => if eqk k (fst p) then (fst p, v) else p) s else (k, v) :: s.
  Definition remove (k : K) (s : list (K * V)) : list (K * V) := filter (fun p => negb (eqk k (fst p))) s.

  Inductive op : Type :=
  | Insert (k : K) (v : V)                (* insert, emplace, try_emplace, operator[] *)
  | InsertHint (h : nat) (k : K) (v : V)  (* try_emplace with a position *)
  | Assign (k : K) (v : V)                (* insert_or_assign *)
  | AssignHint (h : nat) (k : K) (v : V)
  | InsertRange (l : list (K * V))
  | InsertSorted (l : list (K * V))       (* sorted_unique range *)
  | Erase (k : K)
  | At (k : K)
  | Contains (k : K)
  | Size.
  Inductive out : Type := ONone | OBool (b : bool) | ONat (n : nat) | OVal (v : option V).

  Definition spec_op (o : op) (s : list (K * V)) : list (K * V) * out :=
    match o with
    | Insert k v => (add k v s, OBool (negb (present k s)))
    | InsertHint _ k v => (add k v s, OVal (match lookup k s with Some w => Some w | None => Some v end))
    | Assign k v => (put k v s, OBool (negb (present k s)))
    | AssignHint _ k v => (put k v s, OVal (Some v))
    | InsertRange l | InsertSorted l => (fold_left (fun s p => add (fst p) (snd p) s) l s, ONone)
    | Erase k => (remove k s, ONat (if present k s then 1 else 0))
    | At k => (s, OVal (lookup k s))
    | Contains k => (s, OBool (present k s))
    | Size => (s, ONat (length s))
    end.
  (** A position always lies in the map or is its end, so a hint is reduced to
      the size of the map. *)
  Definition map_op (o : op) (m : fmap K V) : fmap K V * out :=
    match o with
    | Insert k v => let '(m', _, b) := try_emplace less k v m in (m', OBool b)
    | InsertHint h k v => let '(m', i) := try_emplace_hint less (Nat.min h (length (keys m))) k v m in (m', OVal (nth_error (vals m') i))
    | Assign k v => let '(m', _, b) := insert_or_assign less k v m in (m', OBool b)
    | AssignHint h k v => let '(m', i) := insert_or_assign_hint less (Nat.min h (length (keys m))) k v m in (m', OVal (nth_error (vals m') i))
    | InsertRange l => (insert_range less l m, ONone)
    | InsertSorted l => (insert_sorted less l m, ONone)
    | Erase k => let '(m', n) := erase_key less k m in (m', ONat n)
    | At k => (m, OVal (at_ less k m))
    | Contains k => (m, OBool (contains less k m))
    | Size => (m, ONat (length (keys m)))
    end.
  Definition legal (o : op) : Prop :=
    match o with InsertSorted l => StronglySorted (fun a b => less a b = true) (map fst l) | _ => True end.

  Fixpoint run {S} (step : op -> S -> S * out) (os : list op) (s : S) : S * list out :=
    match os with
    | [] => (s, [])
    | o :: t => let '(s1, r) := step o s in let '(s2, rs) := run step t s1 in (s2, r :: rs)
    end.
End Assoc.

Section Refine.
  Context {K V : Type} (less : K -> K -> bool).
  Hypothesis SW : strict_weak less.
  Implicit Types (m : fmap K V) (s : list (K * V)).
  Notation inv := (inv (V := V) less).
  Notation maps_to := (maps_to (V := V) less).
  Definition agrees m s : Prop := inv m /\ Permutation (elements m) s.

  Lemma eqk_iff a b : eqk less a b = true <-> same_key less a b.
  Proof. unfold eqk, same_key. rewrite andb_true_iff, !negb_true_iff. tauto. Qed.
  Lemma agrees_in m s k v : agrees m s -> maps_to m k v <-> exists k', In (k', v) s /\ same_key less k k'.
  Proof.
    intros [_ Hp]. unfold FlatMapProofs.maps_to. split; intros (k' & H1 & H2); exists k'; split; auto; [eapply Permutation_in; eauto|].
    eapply Permutation_in; [apply Permutation_sym; eauto|exact H1].
  Qed.
  Lemma present_iff m s k : agrees m s -> present less k s = true <-> exists v, maps_to m k v.
  Proof.
    intros Ha. unfold present. rewrite existsb_exists. split.
    - intros ([x v] & H1 & H2). apply eqk_iff in H2. exists v. apply (agrees_in m s); auto. exists x. auto.
    - intros [v H]. apply (agrees_in m s) in H; auto. destruct H as (x & H1 & H2). exists (x, v). split; auto. apply eqk_iff. exact H2.
  Qed.
  Lemma lookup_iff m s k v : agrees m s -> lookup less k s = Some v <-> maps_to m k v.
  Proof.
    intros Ha. unfold lookup. destruct (List.find (fun p => eqk less k (fst p)) s) as [[x w]|] eqn:E; cbn.
    - apply find_some in E. destruct E as [E1 E2]. apply eqk_iff in E2. assert (Hw : maps_to m k w) by (apply (agrees_in m s); auto; exists x; auto).
      split; [intros [= <-]; exact Hw|]. intros Hv. f_equal. eapply (maps_unique less SW m k k); eauto; [apply Ha|apply same_refl; auto].
    - split; [discriminate|]. intros H. apply (agrees_in m s) in H; auto. destruct H as (x & H1 & H2). apply eqk_iff in H2.
      pose proof (find_none _ _ E _ H1) as Hn. cbn in Hn. congruence.
  Qed.
  Lemma opt_ext {T} (a b : option T) : (forall v, a = Some v <-> b = Some v) -> a = b.
  Proof. intros H. destruct a as [x|]; [symmetry; apply H; reflexivity|]. destruct b as [y|]; [apply H; reflexivity|reflexivity]. Qed.
  Lemma bool_eq a b : (a = true <-> b = true) -> a = b.
  Proof. intros [H1 H2]. destruct a; [symmetry; apply H1; reflexivity|]. destruct b; [apply H2; reflexivity|reflexivity]. Qed.

  Lemma insert_agrees m s k v : agrees m s ->
    let '(m', i, b) := try_emplace less k v m in
    agrees m' (add less k v s) /\ b = negb (present less k s) /\ nth_error (vals m') i = match lookup less k s with Some w => Some w | None => Some v end.
  Proof.
    intros Ha. pose proof Ha as [Hi Hp]. pose proof (try_emplace_spec less SW k v m Hi) as H. pose proof (present_iff m s k Ha) as Hpr.
    unfold try_emplace in *. fold (lower_bound less k m) in *. destruct (absent_at less k (lower_bound less k m) m) eqn:Ea.
    - destruct H as (H1 & H2 & H3 & _ & _ & H6 & _). assert (Hn : present less k s = false).
      { destruct (present less k s) eqn:E; [|reflexivity]. exfalso. apply (proj1 H2 eq_refl). apply Hpr. reflexivity. }
      unfold add. rewrite Hn. split; [|split; [reflexivity|]].
      + split; [exact H1|]. destruct (around less SW k m Hi) as (A & B & VA & VB & E1 & E2 & L1 & L2 & FA & FB & SA & SB & E). rewrite E in *.
        destruct m as [ks vs]. cbn [keys vals] in *. subst ks vs. unfold insert_pair. cbn [keys vals]. rewrite insert_at_len, L1, insert_at_len.
        rewrite elements_app in * by auto. cbn [combine]. rewrite <- Permutation_middle. constructor. exact Hp.
      + rewrite (H6 eq_refl). destruct (lookup less k s) as [w|] eqn:El; [|reflexivity]. exfalso. apply (lookup_iff m s) in El; auto. apply (proj1 H2 eq_refl). eauto.
    - destruct (lower_found less SW k m Hi Ea) as (x & w & K1 & K2 & K3 & _). assert (Hw : maps_to m k w) by (apply maps_nth; auto; eauto).
      assert (Hn : present less k s = true) by (apply Hpr; eauto). unfold add. rewrite Hn. split; [exact Ha|]. split; [reflexivity|].
      rewrite K2. apply (lookup_iff m s) in Hw; auto. rewrite Hw. reflexivity.
  Qed.

  Lemma assign_elements i x v m k : inv m -> nth_error (keys m) i = Some x -> same_key less k x ->
    elements (assign i v m) = map (fun p => if eqk less k (fst p) then (fst p, v) else p) (elements m).
  Proof.
    intros Hi Hx Hs. apply nth_error_ext. intros j. rewrite nth_error_map. unfold elements. cbn [assign keys vals]. rewrite !combine_nth_error, upd_nth.
    destruct (nth_error (keys m) j) as [y|] eqn:Ey; [|reflexivity]. assert (Hj : j < length (vals m)) by (destruct Hi as [<- _]; apply nth_error_Some; congruence).
    destruct (nth_error (vals m) j) as [w|] eqn:Ew; [|apply nth_error_None in Ew; lia]. cbn [option_map fst].
    destruct (Nat.eqb_spec i j) as [<-|Hn].
    - assert (y = x) by congruence. subst y. destruct (Nat.ltb_spec i (length (vals m))); [|lia]. rewrite (proj2 (eqk_iff k x) Hs). reflexivity.
    - cbn [andb]. destruct (eqk less k y) eqn:E; [|reflexivity]. apply eqk_iff in E. exfalso. apply Hn.
      eapply (same_pos less (keys m) i j x y (proj2 Hi)); eauto. eapply same_trans; eauto. apply same_sym. exact Hs.
  Qed.
  Lemma assign_agrees m s k v : agrees m s ->
    let '(m', i, b) := insert_or_assign less k v m in agrees m' (put less k v s) /\ b = negb (present less k s) /\ nth_error (vals m') i = Some v.
  Proof.
    intros Ha. pose proof Ha as [Hi Hp]. pose proof (insert_or_assign_spec less SW k v m Hi) as H. pose proof (insert_agrees m s k v Ha) as Hin.
    pose proof (try_emplace_spec less SW k v m Hi) as Ht. unfold insert_or_assign in *. destruct (try_emplace less k v m) as [[m1 i] b].
    destruct H as (H1 & _ & _ & H4), Hin as (I1 & I2 & _), Ht as (T1 & _ & _ & (x & T4 & T4') & _ & _ & T7). split; [|auto]. unfold put, add in *.
    destruct b; [destruct (present less k s); [discriminate|exact I1]|]. destruct (present less k s) eqn:Ep; [|discriminate].
    rewrite (T7 eq_refl) in *. split; [exact H1|]. rewrite (assign_elements i x v m k); auto. apply Permutation_map. exact Hp.
  Qed.
  Lemma filter_perm {T} (f : T -> bool) l l' : Permutation l l' -> Permutation (filter f l) (filter f l').
  Proof.
    induction 1; cbn; auto; [destruct (f x); auto|destruct (f x), (f y); auto; apply perm_swap|eapply Permutation_trans; eauto].
  Qed.
  Lemma filter_id {T} (f : T -> bool) l : (forall x, In x l -> f x = true) -> filter f l = l.
  Proof. induction l as [|a l IH]; intros H; [reflexivity|]. cbn. rewrite (H a (or_introl eq_refl)), IH; auto. intros x Hx. apply H. right. exact Hx. Qed.
  Lemma erase_agrees m s k : agrees m s -> let '(m', n) := erase_key less k m in agrees m' (remove less k s) /\ n = if present less k s then 1 else 0.
  Proof.
    intros Ha. pose proof Ha as [Hi Hp]. pose proof (erase_key_spec less SW k m Hi) as H. pose proof (present_iff m s k Ha) as Hpr. pose proof (find_spec less SW k m Hi) as (F1 & F2 & _ & F4).
    unfold erase_key, end_ in *. destruct (Nat.eqb_spec (find less k m) (length (keys m))) as [E|E].
    - destruct H as (_ & H2 & H3 & H4). assert (Hn : present less k s = false).
      { destruct (present less k s); [|reflexivity]. assert (0 = 1); [|discriminate]. apply H2. apply Hpr. reflexivity. }
      rewrite Hn. split; [|reflexivity]. unfold remove. rewrite filter_id; [exact Ha|]. intros [x w] Hx. cbn. apply negb_true_iff. destruct (eqk less k x) eqn:Ex; [|reflexivity].
      assert (present less k s = true); [|congruence]. apply existsb_exists. exists (x, w). auto.
    - destruct H as (H1 & H2 & _ & _). rewrite (proj2 Hpr (proj1 H2 eq_refl)). split; [|reflexivity]. split; [exact H1|].
      unfold remove. rewrite <- (filter_perm _ _ _ Hp). unfold erase_at. 
      destruct (erase_between_spec less (find less k m) (S (find less k m)) m Hi ltac:(lia) ltac:(lia)) as [_ He]. rewrite He. clear He.
      assert (Hlen : length (elements m) = length (keys m)) by (apply elements_length; apply Hi).
      destruct (nth_error (elements m) (find less k m)) as [[x w]|] eqn:Ee; [|apply nth_error_None in Ee; lia]. pose proof (proj1 (elements_nth m _ x w) Ee) as [Kx _].
      specialize (F4 x Kx). destruct (split_at _ _ _ Ee) as [Hsp Hspl]. 
      assert (Hout : forall j y u, nth_error (elements m) j = Some (y, u) -> j <> find less k m -> negb (eqk less k y) = true).
      { intros j y u Hj Hne. apply negb_true_iff. destruct (eqk less k y) eqn:Ek; [|reflexivity]. apply eqk_iff in Ek. exfalso. apply Hne. apply elements_nth in Hj.
        eapply (same_pos less (keys m) j _ y x (proj2 Hi)); [apply Hj|exact Kx|]. eapply same_trans; eauto. apply same_sym. exact Ek. }
      unfold erase_range. rewrite Hsp at 3. rewrite filter_app. cbn [filter fst]. rewrite (proj2 (eqk_iff k x) F4). cbn [negb].
      rewrite !filter_id; [reflexivity| |]; intros [y u] Hin; apply In_nth_error in Hin; destruct Hin as [j Hj]; cbn [fst].
      + apply (Hout (find less k m + S j) y u); [|lia]. rewrite Hsp, nth_error_app2, Hspl by lia. replace (find less k m + S j - find less k m) with (S j) by lia. exact Hj.
      + assert (j < find less k m) by (rewrite <- Hspl; apply nth_error_Some; congruence). apply (Hout j y u); [|lia]. rewrite Hsp, nth_error_app1 by lia. exact Hj.
  Qed.
  Lemma range_agrees l : forall m s, agrees m s -> agrees (insert_range less l m) (fold_left (fun s p => add less (fst p) (snd p) s) l s).
  Proof.
    induction l as [|[k v] l IH]; intros m s Ha; [exact Ha|]. cbn [insert_range fold_left fst snd]. apply IH. rewrite emplace_eq.
    pose proof (insert_agrees m s k v Ha) as H. destruct (try_emplace less k v m) as [[m' i] b]. apply H.
  Qed.

  Lemma step_agrees o m s : legal less o -> agrees m s ->
    agrees (fst (map_op less o m)) (fst (spec_op less o s)) /\ snd (map_op less o m) = snd (spec_op less o s).
  Proof.
    intros Hl Ha. pose proof Ha as [Hi Hp]. destruct o as [k v|h k v|k v|h k v|l|l|k|k|k|]; cbn [map_op spec_op].
    - pose proof (insert_agrees m s k v Ha) as H. destruct (try_emplace less k v m) as [[m' i] b]. destruct H as (H1 & -> & _). auto.
    - rewrite (hint_spec less SW) by (auto; lia). pose proof (insert_agrees m s k v Ha) as H. destruct (try_emplace less k v m) as [[m' i] b]. destruct H as (H1 & _ & H2). cbn. rewrite H2. auto.
    - pose proof (assign_agrees m s k v Ha) as H. destruct (insert_or_assign less k v m) as [[m' i] b]. destruct H as (H1 & -> & _). auto.
    - rewrite (hint_assign_spec less SW) by (auto; lia). pose proof (assign_agrees m s k v Ha) as H. destruct (insert_or_assign less k v m) as [[m' i] b]. destruct H as (H1 & _ & H2). cbn. rewrite H2. auto.
    - split; [apply range_agrees; auto|reflexivity].
    - cbn in Hl. rewrite (insert_sorted_spec less SW) by auto. split; [apply range_agrees; auto|reflexivity].
    - pose proof (erase_agrees m s k Ha) as H. destruct (erase_key less k m) as [m' n]. destruct H as (H1 & ->). auto.
    - cbn. split; [exact Ha|]. f_equal. apply opt_ext. intros v. rewrite (at_spec less SW) by auto. symmetry. apply lookup_iff. exact Ha.
    - cbn. split; [exact Ha|]. f_equal. apply bool_eq. rewrite (contains_spec less SW) by auto. symmetry. apply present_iff. exact Ha.
    - cbn. split; [exact Ha|]. f_equal. rewrite <- (elements_length m) by apply Hi. apply Permutation_length. exact Hp.
  Qed.
  Theorem run_agrees os : forall m s, Forall (legal less) os -> agrees m s ->
    agrees (fst (run (map_op less) os m)) (fst (run (spec_op less) os s)) /\ snd (run (map_op less) os m) = snd (run (spec_op less) os s).
  Proof.
    induction os as [|o os IH]; intros m s Hl Ha; [cbn; auto|]. inversion Hl; subst. cbn [run]. destruct (step_agrees o m s) as [H1' H2']; auto.
    destruct (map_op less o m) as [m1 r1], (spec_op less o s) as [s1 r1']. cbn [fst snd] in *. subst r1'. destruct (IH m1 s1) as [I1 I2]; auto.
    destruct (run (map_op less) os m1), (run (spec_op less) os s1). cbn [fst snd] in *. subst. auto.
  Qed.
  Lemma empty_agrees : agrees (empty_map : fmap K V) [].
  Proof. split; [split; [reflexivity|constructor]|constructor]. Qed.
  Theorem agrees_sorted m s : agrees m s -> StronglySorted (fun a b => less (fst a) (fst b) = true) (elements m).
  Proof.
    intros [[H1 H2] _]. rewrite (keys_elements m H1) in H2. revert H2. induction (elements m) as [|a l IH]; intros H; [constructor|].
    inversion H as [|? ? K1 K2]; subst. constructor; [auto|]. rewrite Forall_map in K2. exact K2.
  Qed.
End Refine.
