(** Proofs about the owning pointers: the memory is a tree of blocks, with a ghost tree that records
    the number of each block and which pointers do not own what they point to for a moment. *)
From Coq Require Import List Arith ZArith Bool Lia Permutation.
From Verif Require Import Archive Indirect IndirectSpec.
Import ListNotations.
Local Open Scope nat_scope.
Local Open Scope list_scope.

Inductive link := Null | Dang (p : nat) | Own (p : nat) (d : Z) (ks : list link).

Section LinkInd.
  Variable P : link -> Prop.
  Hypothesis HN : P Null.
  Hypothesis HD : forall p, P (Dang p).
  Hypothesis HO : forall p d ks, Forall P ks -> P (Own p d ks).
  Fixpoint link_ind' (l : link) : P l :=
    match l with
    | Null => HN
    | Dang p => HD p
    | Own p d ks => HO p d ks ((fix go (ks : list link) : Forall P ks :=
                                  match ks with [] => Forall_nil P | k :: r => Forall_cons k (link_ind' k) (go r) end) ks)
    end.
End LinkInd.

Definition rootp (l : link) : option nat := match l with Null => None | Dang p => Some p | Own p _ _ => Some p end.
Fixpoint nodes (l : link) : list (nat * node) :=
  match l with
  | Own p d ks => (p, mk_node d (map rootp ks)) :: flat_map nodes ks
  | _ => []
  end.
Fixpoint erase (l : link) : option tree :=
  match l with
  | Own _ d ks => Some (Node d (map erase ks))
  | _ => None
  end.
Fixpoint shape (K : nat) (l : link) : Prop :=
  match l with
  | Null => True
  | Dang _ => False
  | Own _ _ ks => length ks = K /\ (fix all (ks : list link) : Prop := match ks with [] => True | k :: r => shape K k /\ all r end) ks
  end.
Lemma shape_all : forall K ks,
  (fix all (ks : list link) : Prop := match ks with [] => True | k :: r => shape K k /\ all r end) ks <-> Forall (shape K) ks.
Proof.
  intros K. induction ks as [|k r IH]; [split; auto|]. split.
  - intros [A B]. constructor; [exact A | apply IH; exact B].
  - intros A. inversion A; subst. split; [assumption | apply IH; assumption].
Qed.
Lemma shape_own : forall K p d ks, shape K (Own p d ks) <-> length ks = K /\ Forall (shape K) ks.
Proof. intros. cbn [shape]. rewrite shape_all. reflexivity. Qed.

Fixpoint lget (path : list nat) (l : link) : option link :=
  match path with
  | [] => Some l
  | k :: r => match l with
              | Own _ _ ks => match nth_error ks k with Some l' => lget r l' | None => None end
              | _ => None
              end
  end.
Fixpoint lput (path : list nat) (v l : link) : link :=
  match path with
  | [] => v
  | k :: r => match l with
              | Own p d ks => Own p d (match nth_error ks k with Some l' => update k (lput r v l') ks | None => ks end)
              | _ => l
              end
  end.
Fixpoint locate (path : list nat) (l : link) : option loc :=
  match path with
  | [] => None
  | k :: r => match l with
              | Own p _ ks =>
                  match nth_error ks k with
                  | Some l' => match r with [] => Some (p, k) | _ => locate r l' end
                  | None => None
                  end
              | _ => None
              end
  end.

(* ---- update ---- *)
Lemma update_length : forall T i (x : T) l, length (update i x l) = length l.
Proof. induction i as [|i IH]; intros x [|y l]; cbn; auto. Qed.
Lemma update_nth : forall T (l : list T) i x y, nth_error l i = Some y -> nth_error (update i x l) i = Some x.
Proof. induction l as [|z l IH]; intros [|i] x y H; cbn in *; try discriminate; eauto. Qed.
Lemma update_other : forall T (l : list T) i j x, i <> j -> nth_error (update i x l) j = nth_error l j.
Proof. induction l as [|z l IH]; intros [|i] [|j] x H; cbn; auto; try congruence. Qed.
Lemma update_same : forall T (l : list T) i x, nth_error l i = Some x -> update i x l = l.
Proof. induction l as [|z l IH]; intros [|i] x H; cbn in *; try discriminate; [congruence|]. f_equal. auto. Qed.
Lemma update_twice : forall T (l : list T) i x y, update i x (update i y l) = update i x l.
Proof. induction l as [|z l IH]; intros [|i] x y; cbn; auto. f_equal. auto. Qed.
Lemma update_comm : forall T (l : list T) i j x y, i <> j -> update i x (update j y l) = update j y (update i x l).
Proof. induction l as [|z l IH]; intros [|i] [|j] x y N; cbn; auto; try congruence. f_equal. auto. Qed.
Lemma map_update : forall A B (f : A -> B) l i x, map f (update i x l) = update i (f x) (map f l).
Proof. induction l as [|z l IH]; intros [|i] x; cbn; auto. f_equal. auto. Qed.
Lemma update_split : forall T (l : list T) i y, nth_error l i = Some y ->
  exists a b, l = a ++ y :: b /\ forall x, update i x l = a ++ x :: b.
Proof.
  induction l as [|z l IH]; intros [|i] y H; cbn in H; try discriminate.
  - injection H as ->. exists [], l. split; [reflexivity|]. intros. reflexivity.
  - destruct (IH _ _ H) as [a [b [E U]]]. exists (z :: a), b. split; [rewrite E; reflexivity|].
    intros x. cbn. rewrite (U x). reflexivity.
Qed.

(* ---- memory ---- *)
Definition R (h : heap) (X : list (nat * node)) : Prop :=
  (forall p n, nth_error h p = Some (Some n) <-> In (p, n) X) /\ NoDup (map fst X).

Lemma R_perm : forall h X Y, Permutation X Y -> R h X -> R h Y.
Proof.
  intros h X Y P [A N]. split.
  - intros p n. rewrite A. split; apply Permutation_in; [exact P | apply Permutation_sym; exact P].
  - eapply Permutation_NoDup; [|exact N]. apply Permutation_map. exact P.
Qed.
Lemma R_deref : forall h X p n, R h X -> In (p, n) X -> deref h p = Ok n.
Proof. intros h X p n [A _] I. unfold deref. apply A in I. rewrite I. reflexivity. Qed.
Lemma R_update : forall h p n n' X, R h ((p, n) :: X) -> R (update p (Some n') h) ((p, n') :: X).
Proof.
  intros h p n n' X [A N]. split; [|exact N].
  assert (E : nth_error h p = Some (Some n)) by (apply A; left; reflexivity).
  cbn in N. inversion N as [|? ? NI ND]; subst.
  intros q m. destruct (Nat.eq_dec p q) as [->|D].
  - rewrite (update_nth _ _ _ _ _ E). split.
    + intros H. left. congruence.
    + intros [H|H]; [congruence|]. exfalso. apply NI. apply (in_map fst) in H. exact H.
  - rewrite update_other by exact D. rewrite A. cbn. split; intros [H|H]; auto; congruence.
Qed.
Lemma R_free : forall h p n X, R h ((p, n) :: X) -> R (update p None h) X.
Proof.
  intros h p n X [A N]. cbn in N. inversion N as [|? ? NI ND]; subst. split; [|exact ND].
  assert (E : nth_error h p = Some (Some n)) by (apply A; left; reflexivity).
  intros q m. destruct (Nat.eq_dec p q) as [->|D].
  - rewrite (update_nth _ _ _ _ _ E). split; [discriminate|].
    intros H. exfalso. apply NI. apply (in_map fst) in H. exact H.
  - rewrite update_other by exact D. rewrite A. cbn. split; [intros [H|H]; [congruence|exact H] | auto].
Qed.
Lemma R_make : forall h n X, R h X -> R (h ++ [Some n]) ((length h, n) :: X).
Proof.
  intros h n X [A N].
  assert (NI : ~ In (length h) (map fst X)).
  { intros I. apply in_map_iff in I. destruct I as [[p m] [E I]]. cbn in E. subst p. apply A in I.
    assert (L : length h < length h) by (apply nth_error_Some; congruence). lia. }
  split; [|cbn; constructor; assumption].
  intros q m. destruct (Nat.lt_trichotomy q (length h)) as [L|[L|L]].
  - rewrite nth_error_app1 by exact L. rewrite A. cbn. split; [auto|]. intros [H|H]; [|exact H].
    injection H as H1 H2. lia.
  - subst q. rewrite nth_error_app2 by lia. rewrite Nat.sub_diag. cbn. split.
    + intros H. left. congruence.
    + intros [H|H]; [congruence|]. exfalso. apply NI. apply (in_map fst) in H. exact H.
  - replace (nth_error (h ++ [Some n]) q) with (@None (option node))
      by (symmetry; apply nth_error_None; rewrite app_length; cbn; lia).
    split; [discriminate|]. cbn. intros [H|H]; [injection H as H1 H2; lia|].
    apply A in H. assert (L' : q < length h) by (apply nth_error_Some; congruence). lia.
Qed.
Lemma R_length : forall h X, R h X -> length X <= length h.
Proof.
  intros h X [A N]. rewrite <- (map_length fst X), <- (seq_length (length h) 0).
  apply NoDup_incl_length; [exact N|]. intros p I. apply in_map_iff in I. destruct I as [[q m] [E I]].
  cbn in E. subst q. apply A in I. apply in_seq. split; [lia|]. cbn.
  apply nth_error_Some. congruence.
Qed.
Lemma R_in_fun : forall h X p n m, R h X -> In (p, n) X -> In (p, m) X -> n = m.
Proof. intros h X p n m [A _] I J. apply A in I. apply A in J. congruence. Qed.

(* ---- paths ---- *)
Lemma lput_same : forall path L o, lget path L = Some o -> lput path o L = L.
Proof.
  induction path as [|k r IH]; intros L o H; cbn in *; [congruence|].
  destruct L as [| |p d ks]; try discriminate. destruct (nth_error ks k) as [l'|] eqn:E; [|discriminate].
  rewrite (IH _ _ H), (update_same _ _ _ _ E). reflexivity.
Qed.
Lemma lget_lput : forall path L o v, lget path L = Some o -> lget path (lput path v L) = Some v.
Proof.
  induction path as [|k r IH]; intros L o v H; cbn in *; [reflexivity|].
  destruct L as [| |p d ks]; try discriminate. destruct (nth_error ks k) as [l'|] eqn:E; [|discriminate].
  rewrite (update_nth _ _ _ _ _ E). eauto.
Qed.
Lemma lput_lput : forall path L o v w, lget path L = Some o -> lput path w (lput path v L) = lput path w L.
Proof.
  induction path as [|k r IH]; intros L o v w H; cbn in *; [reflexivity|].
  destruct L as [| |p d ks]; try discriminate. destruct (nth_error ks k) as [l'|] eqn:E; [|discriminate].
  rewrite (update_nth _ _ _ _ _ E). rewrite (IH _ _ _ _ H), update_twice. reflexivity.
Qed.
Lemma locate_lput : forall path L o v, lget path L = Some o -> locate path (lput path v L) = locate path L.
Proof.
  induction path as [|k r IH]; intros L o v H; cbn in *; [reflexivity|].
  destruct L as [| |p d ks]; try discriminate. destruct (nth_error ks k) as [l'|] eqn:E; [|discriminate].
  rewrite (update_nth _ _ _ _ _ E). destruct r; [reflexivity|]. eauto.
Qed.
Lemma locate_some : forall path L o, path <> [] -> lget path L = Some o -> exists l, locate path L = Some l.
Proof.
  induction path as [|k r IH]; intros L o N H; [congruence|]. cbn in *.
  destruct L as [| |p d ks]; try discriminate. destruct (nth_error ks k) as [l'|] eqn:E; [|discriminate].
  destruct r as [|k' r']; [eauto|]. apply (IH _ _ ltac:(discriminate) H).
Qed.

Lemma prefix_refl : forall a, prefix a a = true.
Proof. induction a; cbn; auto. rewrite Nat.eqb_refl. auto. Qed.
Lemma same_eq : forall a b, same a b = true <-> a = b.
Proof.
  unfold same. split.
  - revert b. induction a as [|x a IH]; intros [|y b] H; cbn in *; try discriminate; [reflexivity|].
    apply andb_true_iff in H. destruct H as [H1 H2]. apply andb_true_iff in H1, H2.
    destruct H1 as [E H1], H2 as [_ H2]. apply Nat.eqb_eq in E. subst y. f_equal. apply IH.
    rewrite H1, H2. reflexivity.
  - intros ->. rewrite prefix_refl. reflexivity.
Qed.

Lemma apart_cons : forall x a b, apart (x :: a) (x :: b) = apart a b.
Proof. intros. unfold apart. cbn. rewrite Nat.eqb_refl. reflexivity. Qed.
Lemma apart_sym : forall a b, apart a b = apart b a.
Proof. intros. unfold apart. apply andb_comm. Qed.
Lemma apart_neq : forall a b, apart a b = true -> a <> b.
Proof. intros a b H ->. unfold apart in H. rewrite prefix_refl in H. discriminate. Qed.

Lemma apart_cases : forall x a y b, apart (x :: a) (y :: b) = true -> x <> y \/ (x = y /\ apart a b = true).
Proof.
  intros x a y b H. destruct (Nat.eq_dec x y) as [->|D]; [|left; exact D]. right. split; [reflexivity|].
  rewrite apart_cons in H. exact H.
Qed.
Lemma apart_nil : forall a, apart [] a = true -> False.
Proof. intros a H. unfold apart in H. cbn in H. discriminate. Qed.
Lemma apart_nil_r : forall a, apart a [] = true -> False.
Proof. intros a H. rewrite apart_sym in H. exact (apart_nil _ H). Qed.

Lemma lget_apart : forall a b L v, apart a b = true -> lget b (lput a v L) = lget b L.
Proof.
  induction a as [|x a IH]; intros b L v H; [destruct (apart_nil _ H)|].
  destruct b as [|y b]; [destruct (apart_nil_r _ H)|]. cbn.
  destruct L as [| |p d ks]; try reflexivity. destruct (nth_error ks x) as [l'|] eqn:E; [|reflexivity].
  destruct (apart_cases _ _ _ _ H) as [D|[-> A]].
  - rewrite update_other by exact D. reflexivity.
  - rewrite (update_nth _ _ _ _ _ E), E. apply IH. exact A.
Qed.
Lemma locate_apart : forall a b L v, apart a b = true -> locate b (lput a v L) = locate b L.
Proof.
  induction a as [|x a IH]; intros b L v H; [destruct (apart_nil _ H)|].
  destruct b as [|y b]; [destruct (apart_nil_r _ H)|]. cbn.
  destruct L as [| |p d ks]; try reflexivity. destruct (nth_error ks x) as [l'|] eqn:E; [|reflexivity].
  destruct (apart_cases _ _ _ _ H) as [D|[-> A]].
  - rewrite update_other by exact D. reflexivity.
  - rewrite (update_nth _ _ _ _ _ E), E. destruct b as [|z b]; [reflexivity|]. apply IH. exact A.
Qed.
Lemma lput_apart : forall a b L v w, apart a b = true -> lput b w (lput a v L) = lput a v (lput b w L).
Proof.
  induction a as [|x a IH]; intros b L v w H; [destruct (apart_nil _ H)|].
  destruct b as [|y b]; [destruct (apart_nil_r _ H)|]. cbn.
  destruct L as [| |p d ks]; try reflexivity.
  destruct (nth_error ks x) as [l'|] eqn:E, (nth_error ks y) as [m'|] eqn:F.
  - destruct (apart_cases _ _ _ _ H) as [D|[-> A]].
    + rewrite ?update_other by auto. rewrite ?E, ?F. rewrite update_comm by auto. reflexivity.
    + rewrite (update_nth _ _ _ _ _ E), (update_nth _ _ _ _ _ F), !update_twice.
      rewrite E in F. injection F as <-. rewrite IH by exact A. reflexivity.
  - destruct (apart_cases _ _ _ _ H) as [D|[-> A]]; [|congruence].
    rewrite ?update_other by auto. rewrite ?E, ?F. reflexivity.
  - destruct (apart_cases _ _ _ _ H) as [D|[-> A]]; [|congruence].
    rewrite ?update_other by auto. rewrite ?E, ?F. reflexivity.
  - rewrite ?E, ?F. reflexivity.
Qed.

Lemma rootp_lput : forall k r v L o, lget (k :: r) L = Some o -> rootp (lput (k :: r) v L) = rootp L.
Proof. intros k r v L o H. cbn in H. destruct L; try discriminate. reflexivity. Qed.

Lemma perm_mid : forall T (a x b : list T), Permutation (a ++ x ++ b) (x ++ a ++ b).
Proof. intros. rewrite !app_assoc. apply Permutation_app_tail. apply Permutation_app_comm. Qed.

Lemma decomp : forall path L o l, lget path L = Some o -> locate path L = Some l ->
  exists d rs C, Permutation (nodes L) ((fst l, mk_node d rs) :: nodes o ++ C) /\
    nth_error rs (snd l) = Some (rootp o) /\
    forall v, Permutation (nodes (lput path v L)) ((fst l, mk_node d (update (snd l) (rootp v) rs)) :: nodes v ++ C).
Proof.
  induction path as [|k r IH]; intros L o l G T; [discriminate|].
  destruct L as [| |p d ks]; try discriminate. cbn [lget locate] in G, T.
  destruct (nth_error ks k) as [l'|] eqn:E; [|discriminate].
  destruct (update_split _ _ _ _ E) as [a [b [S U]]].
  destruct r as [|k' r'].
  - cbn in G. injection G as <-. injection T as <-. cbn [fst snd].
    exists d, (map rootp ks), (flat_map nodes a ++ flat_map nodes b).
    assert (F : forall x, Permutation (flat_map nodes (a ++ x :: b)) (nodes x ++ flat_map nodes a ++ flat_map nodes b)).
    { intros x. rewrite flat_map_app. cbn [flat_map]. apply perm_mid. }
    split; [|split].
    + cbn [nodes]. apply Permutation_cons; [reflexivity|]. rewrite S. apply F.
    + rewrite nth_error_map, E. reflexivity.
    + intros v. cbn [lput]. rewrite E. cbn [nodes]. rewrite map_update, U.
      apply Permutation_cons; [reflexivity|]. apply F.
  - destruct (IH _ _ _ G T) as [d' [rs' [C [P [N V]]]]].
    exists d', rs', (C ++ (p, mk_node d (map rootp ks)) :: flat_map nodes a ++ flat_map nodes b).
    assert (F : forall x y n z, Permutation (nodes x) (y :: z ++ C) ->
      Permutation (n :: flat_map nodes (a ++ x :: b)) (y :: z ++ C ++ n :: flat_map nodes a ++ flat_map nodes b)).
    { intros x y n z Px. rewrite flat_map_app. cbn [flat_map].
      eapply perm_trans; [apply perm_skip; apply perm_mid|].
      eapply perm_trans; [apply Permutation_middle|].
      rewrite (app_assoc z C). change (y :: (z ++ C) ++ ?q) with ((y :: z ++ C) ++ q).
      apply Permutation_app; [exact Px|reflexivity]. }
    split; [|split].
    + cbn [nodes]. rewrite S at 2. apply F. exact P.
    + exact N.
    + intros v. change (lput (k :: k' :: r') v (Own p d ks))
        with (Own p d (match nth_error ks k with Some l' => update k (lput (k' :: r') v l') ks | None => ks end)).
      rewrite E. cbn [nodes].
      rewrite map_update, (rootp_lput _ _ _ _ _ G), update_same by (rewrite nth_error_map, E; reflexivity).
      rewrite U. apply F. exact (V v).
Qed.

(** The pointer at a path is read and written where the memory holds the tree. *)
Lemma rd_at : forall h L X path o l, R h (nodes L ++ X) -> lget path L = Some o -> locate path L = Some l ->
  rd h l = Ok (rootp o).
Proof.
  intros h L X path o l H G T. destruct (decomp _ _ _ _ G T) as [d [rs [C [P [N _]]]]].
  unfold rd. rewrite (R_deref h _ (fst l) (mk_node d rs) H).
  - cbn [bind nd_kids]. rewrite N. reflexivity.
  - apply in_or_app. left. eapply Permutation_in; [apply Permutation_sym; exact P|]. left. reflexivity.
Qed.

Lemma wr_at : forall h L X path o l v, R h (nodes L ++ nodes v ++ X) -> lget path L = Some o -> locate path L = Some l ->
  exists h', wr h l (rootp v) = Ok h' /\ R h' (nodes (lput path v L) ++ nodes o ++ X).
Proof.
  intros h L X path o l v H G T. destruct (decomp _ _ _ _ G T) as [d [rs [C [P [N V]]]]].
  assert (B : snd l < length rs) by (apply nth_error_Some; congruence).
  assert (H1 : R h ((fst l, mk_node d rs) :: nodes o ++ C ++ nodes v ++ X)).
  { eapply R_perm; [|exact H]. rewrite (app_assoc (nodes o)).
    change ((fst l, mk_node d rs) :: ((nodes o ++ C) ++ nodes v ++ X)) with (((fst l, mk_node d rs) :: nodes o ++ C) ++ nodes v ++ X).
    apply Permutation_app_tail. exact P. }
  eexists. split.
  - unfold wr. rewrite (R_deref h _ (fst l) (mk_node d rs) H1) by (left; reflexivity).
    cbn [bind nd_kids]. destruct (Nat.ltb_spec (snd l) (length rs)); [reflexivity|lia].
  - cbn [nd_data]. eapply R_perm; [|eapply R_update; exact H1].
    apply Permutation_sym. eapply perm_trans; [apply Permutation_app_tail; apply V|].
    cbn [app]. apply Permutation_cons; [reflexivity|]. rewrite <- app_assoc.
    eapply perm_trans; [apply perm_mid|].
    rewrite !app_assoc. apply Permutation_app_tail.
    rewrite <- app_assoc. eapply perm_trans; [apply Permutation_app_comm|]. rewrite <- app_assoc.
    eapply perm_trans; [|apply Permutation_app_comm]. rewrite app_assoc. reflexivity.
Qed.

(** Pointers that are only noted as not owning any more. *)
Lemma ghost : forall h L X path o l p, R h (nodes L ++ X) -> lget path L = Some o -> locate path L = Some l ->
  rootp o = Some p -> R h (nodes (lput path (Dang p) L) ++ nodes o ++ X).
Proof.
  intros h L X path o l p H G T E. destruct (decomp _ _ _ _ G T) as [d [rs [C [P [N V]]]]].
  eapply R_perm; [|exact H]. specialize (V (Dang p)). cbn [rootp nodes app] in V. rewrite <- E in V.
  rewrite update_same in V by exact N.
  eapply perm_trans; [apply Permutation_app_tail; exact P|].
  apply Permutation_sym. eapply perm_trans; [apply Permutation_app_tail; exact V|].
  cbn [app]. apply Permutation_cons; [reflexivity|]. rewrite <- app_assoc. apply perm_mid.
Qed.

Lemma locate_in : forall path L l, locate path L = Some l -> In (fst l) (map fst (nodes L)).
Proof.
  induction path as [|k r IH]; intros L l T; [discriminate|]. destruct L as [| |p d ks]; try discriminate.
  cbn [locate] in T. destruct (nth_error ks k) as [l'|] eqn:E; [|discriminate].
  destruct r as [|k' r']; [injection T as <-; left; reflexivity|].
  cbn [nodes map]. right. apply nth_error_In in E. specialize (IH _ _ T).
  apply in_map_iff in IH. destruct IH as [x [Ex Ix]]. apply in_map_iff. exists x. split; [exact Ex|].
  apply in_flat_map. exists l'. auto.
Qed.

Lemma NoDup_app_l : forall T (a b : list T), NoDup (a ++ b) -> NoDup a.
Proof. induction a as [|x a IH]; intros b H; cbn in *; [constructor|]. inversion H; subst. constructor; [|eauto]. intros I. apply H2. apply in_or_app. auto. Qed.
Lemma NoDup_app_r : forall T (a b : list T), NoDup (a ++ b) -> NoDup b.
Proof. induction a as [|x a IH]; intros b H; cbn in *; [exact H|]. inversion H; subst. eauto. Qed.
Lemma NoDup_app_disj : forall T (a b : list T) x, NoDup (a ++ b) -> In x a -> In x b -> False.
Proof. induction a as [|y a IH]; intros b x H I J; cbn in *; [exact I|]. inversion H; subst. destruct I as [->|I]; [|eauto]. apply H2. apply in_or_app. auto. Qed.

Lemma kids_nodup : forall (ks : list link) k l, nth_error ks k = Some l -> NoDup (map fst (flat_map nodes ks)) -> NoDup (map fst (nodes l)).
Proof.
  induction ks as [|x ks IH]; intros [|k] l E N; cbn in *; try discriminate; rewrite map_app in N.
  - injection E as ->. exact (NoDup_app_l _ _ _ N).
  - eapply IH; [exact E|]. exact (NoDup_app_r _ _ _ N).
Qed.
Lemma kids_disj : forall (ks : list link) i j a b x, nth_error ks i = Some a -> nth_error ks j = Some b -> i <> j ->
  NoDup (map fst (flat_map nodes ks)) -> In x (map fst (nodes a)) -> In x (map fst (nodes b)) -> False.
Proof.
  induction ks as [|y ks IH]; intros [|i] [|j] a b x Ea Eb D N Ia Ib; cbn in *; try discriminate; try congruence; rewrite map_app in N.
  - injection Ea as ->. eapply NoDup_app_disj; [exact N|exact Ia|].
    apply in_map_iff in Ib. destruct Ib as [z [Ez Iz]]. apply in_map_iff. exists z. split; [exact Ez|].
    apply in_flat_map. exists b. split; [eapply nth_error_In; exact Eb|exact Iz].
  - injection Eb as ->. eapply NoDup_app_disj; [exact N|exact Ib|].
    apply in_map_iff in Ia. destruct Ia as [z [Ez Iz]]. apply in_map_iff. exists z. split; [exact Ez|].
    apply in_flat_map. exists a. split; [eapply nth_error_In; exact Ea|exact Iz].
  - eapply (IH i j); eauto. exact (NoDup_app_r _ _ _ N).
Qed.

(** Different paths lead to different handles. *)
Lemma locate_inj : forall a b L l, NoDup (map fst (nodes L)) -> locate a L = Some l -> locate b L = Some l -> a = b.
Proof.
  induction a as [|x a IH]; intros b L l N A B; [discriminate|]. destruct b as [|y b]; [discriminate|].
  destruct L as [| |p d ks]; try discriminate. cbn [locate] in A, B.
  cbn [nodes map] in N. inversion N as [|? ? NI ND]; subst. cbn [fst] in NI.
  destruct (nth_error ks x) as [u|] eqn:Ex; [|discriminate]. destruct (nth_error ks y) as [v|] eqn:Ey; [|discriminate].
  assert (IN : forall z w r m, nth_error ks z = Some w -> locate r w = Some m -> fst m <> p).
  { intros z w r m Ez T Q. apply locate_in in T. rewrite Q in T. apply NI. apply in_map_iff in T.
    destruct T as [n [En Inn]]. apply in_map_iff. exists n. split; [exact En|]. apply in_flat_map. exists w.
    split; [eapply nth_error_In; exact Ez|exact Inn]. }
  destruct a as [|x' a'], b as [|y' b'].
  - congruence.
  - injection A as <-. exfalso. exact (IN _ _ _ _ Ey B eq_refl).
  - injection B as <-. exfalso. exact (IN _ _ _ _ Ex A eq_refl).
  - destruct (Nat.eq_dec x y) as [->|D].
    + rewrite Ex in Ey. injection Ey as <-. f_equal. eapply IH; [|exact A|exact B].
      eapply kids_nodup; [exact Ex|exact ND].
    + exfalso. eapply (kids_disj ks x y u v (fst l)); eauto using locate_in.
Qed.

Lemma loc_eqb_eq : forall a b, loc_eqb a b = true <-> a = b.
Proof.
  intros [a b] [c d]. unfold loc_eqb. cbn. rewrite andb_true_iff, !Nat.eqb_eq. split; [intros [-> ->]; reflexivity|].
  intros E. injection E as -> ->. auto.
Qed.
Lemma loc_eqb_refl : forall a, loc_eqb a a = true.
Proof. intros. apply loc_eqb_eq. reflexivity. Qed.

Lemma resolve_at : forall path h p d ks X l o, R h (nodes (Own p d ks) ++ X) -> lget path (Own p d ks) = Some o ->
  locate path (Own p d ks) = Some l -> resolve h p path = Ok l.
Proof.
  intros path h p d ks X l o H. assert (H1 : forall x, In x (nodes (Own p d ks)) -> deref h (fst x) = Ok (snd x)).
  { intros [q n] I. cbn. eapply R_deref; [exact H|]. apply in_or_app. left. exact I. }
  clear H X. revert p d ks l o H1. induction path as [|k r IH]; intros p d ks l o H1 G T; [discriminate|].
  cbn [lget locate] in G, T. destruct (nth_error ks k) as [l'|] eqn:E; [|discriminate].
  assert (E1 : rd h (p, k) = Ok (rootp l')).
  { unfold rd. cbn [fst snd]. pose proof (H1 (p, mk_node d (map rootp ks)) (or_introl eq_refl)) as Dp.
    cbn [fst snd] in Dp. rewrite Dp. cbn [bind nd_kids]. rewrite nth_error_map, E. reflexivity. }
  destruct r as [|k' r'].
  - injection T as <-. cbn [resolve]. rewrite E1. reflexivity.
  - change (resolve h p (k :: k' :: r')) with (o <- rd h (p, k) ;; match o with Some q => resolve h q (k' :: r') | None => UB end).
    rewrite E1. cbn [bind]. destruct l' as [| |p' d' ks']; try discriminate. cbn [rootp].
    eapply IH; [|exact G|exact T]. intros x I. apply H1. cbn [nodes]. right. apply in_flat_map.
    exists (Own p' d' ks'). split; [eapply nth_error_In; exact E|exact I].
Qed.

(* ---- destroying ---- *)
Fixpoint destroy_kids (f : nat) (h : heap) (ks : list (option nat)) : res heap :=
  match ks with
  | [] => Ok h
  | None :: t => destroy_kids f h t
  | Some q :: t => h <- destroyT f h q ;; destroy_kids f h t
  end.
Lemma destroyT_eq : forall f h p, destroyT (S f) h p =
  (n <- deref h p ;; h <- destroy_kids f h (nd_kids n) ;; _ <- deref h p ;; Ok (update p None h)).
Proof.
  intros. cbn [destroyT]. destruct (deref h p) as [n| | | |]; try reflexivity. cbn [bind].
  assert (E : forall ks h, (fix kids (h : heap) (ks : list (option nat)) : res heap :=
              match ks with
              | [] => Ok h
              | None :: t => kids h t
              | Some q :: t => h <- destroyT f h q ;; kids h t
              end) h ks = destroy_kids f h ks).
  { induction ks as [|[q|] t IH]; intros h'; cbn; [reflexivity| |apply IH].
    destruct (destroyT f h' q); cbn; auto. }
  rewrite E. reflexivity.
Qed.

Lemma destroy_ok : forall K l h X fuel p, shape K l -> rootp l = Some p -> R h (nodes l ++ X) -> length (nodes l) <= fuel ->
  exists h', destroyT fuel h p = Ok h' /\ R h' X.
Proof.
  intros K. induction l as [|q|p d ks IH] using link_ind'; intros h X fuel q' S E H F; try discriminate; [destruct S|].
  injection E as <-. apply shape_own in S. destruct S as [_ S].
  cbn [nodes length] in F. destruct fuel as [|f]; [lia|]. apply le_S_n in F.
  rewrite destroyT_eq. rewrite (R_deref h _ p (mk_node d (map rootp ks)) H) by (left; reflexivity). cbn [bind nd_kids].
  assert (D : forall js h X, Forall (fun l => In l ks) js -> Forall (shape K) js -> length (flat_map nodes js) <= f ->
     R h (flat_map nodes js ++ X) -> exists h', destroy_kids f h (map rootp js) = Ok h' /\ R h' X).
  { rewrite Forall_forall in IH. induction js as [|j js IHj]; intros h1 X1 I Sj Fj Hj; [exists h1; auto|].
    inversion I as [|? ? I1 I2]; subst. inversion Sj as [|? ? S1 S2]; subst. cbn [flat_map] in Fj, Hj.
    rewrite app_length in Fj. rewrite <- app_assoc in Hj. cbn [map destroy_kids].
    destruct j as [|q|p' d' ks']; [|destruct S1|].
    - cbn [rootp]. cbn [nodes app] in Hj. apply IHj; auto.
    - cbn [rootp]. destruct (IH _ I1 h1 _ f p' S1 eq_refl Hj) as [h2 [E2 H2]]; [lia|].
      rewrite E2. cbn [bind]. apply IHj; auto. lia. }
  assert (H1 : R h (flat_map nodes ks ++ (p, mk_node d (map rootp ks)) :: X)).
  { eapply R_perm; [|exact H]. cbn [nodes app]. apply Permutation_middle. }
  destruct (D ks h _ ltac:(apply Forall_forall; auto) S F H1) as [h2 [E2 H2]].
  rewrite E2. cbn [bind]. rewrite (R_deref h2 _ p (mk_node d (map rootp ks)) H2) by (left; reflexivity). cbn [bind].
  eexists. split; [reflexivity|]. eapply R_free. exact H2.
Qed.

(* ---- copying ---- *)
Fixpoint copy_kids (f : nat) (h : heap) (ks : list (option nat)) : res (heap * list (option nat)) :=
  match ks with
  | [] => Ok (h, [])
  | None :: t => r <- copy_kids f h t ;; Ok (fst r, None :: snd r)
  | Some q :: t => c <- copyT f h q ;; r <- copy_kids f (fst c) t ;; Ok (fst r, Some (snd c) :: snd r)
  end.
Lemma copyT_eq : forall f h p, copyT (S f) h p =
  (n <- deref h p ;; r <- copy_kids f h (nd_kids n) ;; Ok (make (fst r) (mk_node (nd_data n) (snd r)))).
Proof.
  intros. cbn [copyT]. destruct (deref h p) as [n| | | |]; try reflexivity. cbn [bind].
  assert (E : forall ks h, (fix kids (h : heap) (ks : list (option nat)) : res (heap * list (option nat)) :=
              match ks with
              | [] => Ok (h, [])
              | None :: t => r <- kids h t ;; Ok (fst r, None :: snd r)
              | Some q :: t => c <- copyT f h q ;; r <- kids (fst c) t ;; Ok (fst r, Some (snd c) :: snd r)
              end) h ks = copy_kids f h ks).
  { induction ks as [|[q|] t IH]; intros h'; cbn [copy_kids]; [reflexivity| |rewrite IH; reflexivity].
    destruct (copyT f h' q); cbn [bind]; auto. rewrite IH. reflexivity. }
  rewrite E. reflexivity.
Qed.

Lemma copy_ok : forall K l h X fuel p, shape K l -> rootp l = Some p -> R h X -> incl (nodes l) X -> length (nodes l) <= fuel ->
  exists h' l' p', copyT fuel h p = Ok (h', p') /\ rootp l' = Some p' /\ shape K l' /\ erase l' = erase l /\ R h' (nodes l' ++ X).
Proof.
  intros K. induction l as [|q|p d ks IH] using link_ind'; intros h X fuel q' S E H C F; try discriminate; [destruct S|].
  injection E as <-. apply shape_own in S. destruct S as [L S].
  cbn [nodes length] in F. destruct fuel as [|f]; [lia|]. apply le_S_n in F.
  rewrite copyT_eq. rewrite (R_deref h X p (mk_node d (map rootp ks)) H) by (apply C; left; reflexivity). cbn [bind nd_kids nd_data].
  assert (D : forall js h X, Forall (fun l => In l ks) js -> Forall (shape K) js -> length (flat_map nodes js) <= f ->
     R h X -> incl (flat_map nodes js) X ->
     exists h' js', copy_kids f h (map rootp js) = Ok (h', map rootp js') /\ length js' = length js /\
       Forall (shape K) js' /\ map erase js' = map erase js /\ R h' (flat_map nodes js' ++ X)).
  { rewrite Forall_forall in IH. induction js as [|j js IHj]; intros h1 X1 Ij Sj Fj Hj Cj.
    - exists h1, []. cbn. auto.
    - inversion Ij as [|? ? Ij1 Ij2]; subst. inversion Sj as [|? ? S1 S2]; subst. cbn [flat_map] in Fj, Cj.
      rewrite app_length in Fj. cbn [map copy_kids].
      assert (Cr : incl (flat_map nodes js) X1) by (intros x Ix; apply Cj; apply in_or_app; auto).
      destruct j as [|q|p' d' ks']; [|destruct S1|].
      + cbn [rootp]. destruct (IHj h1 X1 Ij2 S2 ltac:(lia) Hj Cr) as [h2 [js' [E2 [L2 [Sh [Er H2]]]]]].
        rewrite E2. cbn [bind fst snd]. exists h2, (Null :: js'). cbn [map rootp length flat_map nodes app erase].
        split; [reflexivity|]. split; [congruence|]. split; [constructor; [exact I|exact Sh]|]. split; [congruence|exact H2].
      + cbn [rootp]. destruct (IH _ Ij1 h1 X1 f p' S1 eq_refl Hj) as [h2 [l' [p2 [E2 [R2 [Sh2 [Er2 H2]]]]]]].
        { intros x Ix. apply Cj. apply in_or_app. auto. }
        { lia. }
        rewrite E2. cbn [bind fst snd].
        destruct (IHj h2 (nodes l' ++ X1) Ij2 S2 ltac:(lia) H2) as [h3 [js' [E3 [L3 [Sh3 [Er3 H3]]]]]].
        { intros x Ix. apply in_or_app. right. auto. }
        rewrite E3. cbn [bind fst snd]. exists h3, (l' :: js'). cbn [map length flat_map]. rewrite R2.
        split; [reflexivity|]. split; [congruence|]. split; [constructor; assumption|]. split; [congruence|].
        eapply R_perm; [|exact H3]. rewrite <- app_assoc. apply perm_mid. }
  destruct (D ks h X ltac:(apply Forall_forall; auto) S F H) as [h2 [js' [E2 [L2 [Sh [Er H2]]]]]].
  { intros x Ix. apply C. right. exact Ix. }
  rewrite E2. cbn [bind fst snd make].
  exists (h2 ++ [Some (mk_node d (map rootp js'))]), (Own (length h2) d js'), (length h2).
  split; [reflexivity|]. split; [reflexivity|]. split; [apply shape_own; split; [congruence|exact Sh]|].
  split; [cbn; rewrite Er; reflexivity|]. cbn [nodes app]. apply R_make. exact H2.
Qed.
