(** Proofs about the owning pointers: each operation on the memory has its effect on the tree of blocks. *)
From Coq Require Import List Arith ZArith Bool Lia Permutation.
From Verif Require Import Archive Indirect IndirectSpec IndirectProof.
Import ListNotations.
Local Open Scope nat_scope.
Local Open Scope list_scope.

Lemma fuel_enough : forall h l X, R h (nodes l ++ X) -> length (nodes l) <= fuel_of h.
Proof. intros h l X H. apply R_length in H. rewrite app_length in H. unfold fuel_of. lia. Qed.

Lemma R_app_comm : forall h A B C, R h (A ++ B ++ C) -> R h (B ++ A ++ C).
Proof. intros h A B C. apply R_perm. apply perm_mid. Qed.

Lemma reset_ok : forall K h L X a o l, R h (nodes L ++ X) -> lget a L = Some o -> locate a L = Some l -> shape K o ->
  exists h', reset h l = Ok h' /\ R h' (nodes (lput a Null L) ++ X).
Proof.
  intros K h L X a o l H G T S. unfold reset. rewrite (rd_at _ _ _ _ _ _ H G T). cbn [bind].
  destruct o as [|p|p d ks]; [|destruct S|].
  - exists h. split; [reflexivity|]. rewrite (lput_same _ _ _ G). exact H.
  - cbn [rootp]. pose proof (R_app_comm _ _ _ _ (ghost _ _ _ _ _ _ p H G T eq_refl)) as H1.
    destruct (destroy_ok K _ h _ (fuel_of h) p S eq_refl H1 (fuel_enough _ _ _ H1)) as [h2 [E2 H2]].
    rewrite E2. cbn [bind].
    destruct (wr_at h2 (lput a (Dang p) L) X a (Dang p) l Null H2) as [h3 [E3 H3]].
    { eapply lget_lput; exact G. }
    { rewrite (locate_lput _ _ _ _ G). exact T. }
    cbn [rootp] in E3. exists h3. split; [exact E3|]. rewrite (lput_lput _ _ _ _ _ G) in H3. exact H3.
Qed.

Lemma replace_ok : forall K h L X a o l v q, R h (nodes L ++ nodes v ++ X) -> lget a L = Some o -> locate a L = Some l ->
  shape K o -> rootp v = Some q ->
  exists h', replace h l q = Ok h' /\ R h' (nodes (lput a v L) ++ X).
Proof.
  intros K h L X a o l v q H G T S E. unfold replace. rewrite (rd_at _ _ _ _ _ _ H G T). cbn [bind]. rewrite <- E.
  destruct o as [|p|p d ks]; [|destruct S|].
  - cbn [rootp]. destruct (wr_at h L X a Null l v H G T) as [h3 [E3 H3]]. exists h3. split; [exact E3|exact H3].
  - cbn [rootp]. pose proof (R_app_comm _ _ _ _ (ghost _ _ _ _ _ _ p H G T eq_refl)) as H1.
    destruct (destroy_ok K _ h _ (fuel_of h) p S eq_refl H1 (fuel_enough _ _ _ H1)) as [h2 [E2 H2]].
    rewrite E2. cbn [bind].
    destruct (wr_at h2 (lput a (Dang p) L) X a (Dang p) l v H2) as [h3 [E3 H3]].
    { eapply lget_lput; exact G. }
    { rewrite (locate_lput _ _ _ _ G). exact T. }
    exists h3. split; [exact E3|]. rewrite (lput_lput _ _ _ _ _ G) in H3. exact H3.
Qed.

(** Blocks below a path are among those of the tree. *)
Lemma lget_incl : forall a L o, lget a L = Some o -> incl (nodes o) (nodes L).
Proof.
  induction a as [|k r IH]; intros L o G; cbn in G; [injection G as <-; apply incl_refl|].
  destruct L as [| |p d ks]; try discriminate. destruct (nth_error ks k) as [l'|] eqn:E; [|discriminate].
  intros x I. cbn [nodes]. right. apply in_flat_map. exists l'. split; [eapply nth_error_In; exact E|].
  exact (IH _ _ G x I).
Qed.

Lemma emplace_copy_ok : forall K h L X a o l b v q, R h (nodes L ++ X) -> lget a L = Some o -> locate a L = Some l ->
  shape K o -> lget b L = Some v -> shape K v -> rootp v = Some q ->
  exists h' w, emplace_copy h l q = Ok h' /\ R h' (nodes (lput a w L) ++ X) /\ erase w = erase v /\ shape K w.
Proof.
  intros K h L X a o l b v q H G T S Gb Sv E. unfold emplace_copy.
  assert (I : incl (nodes v) (nodes L ++ X)).
  { intros x Ix. apply in_or_app. left. exact (lget_incl _ _ _ Gb x Ix). }
  assert (F : length (nodes v) <= fuel_of h).
  { assert (N : NoDup (map fst (nodes v))).
    { clear - H Gb. destruct H as [_ N]. rewrite map_app in N. apply NoDup_app_l in N. revert L v N Gb.
      induction b as [|k r IH]; intros L v N G; cbn in G; [injection G as <-; exact N|].
      destruct L as [| |p d ks]; try discriminate. destruct (nth_error ks k) as [l'|] eqn:E; [|discriminate].
      cbn [nodes map] in N. inversion N; subst. eapply IH; [|exact G]. eapply kids_nodup; eauto. }
    assert (N' : length (nodes v) <= length (nodes L ++ X)).
    { rewrite <- (map_length fst (nodes v)), <- (map_length fst (nodes L ++ X)). apply NoDup_incl_length; [exact N|].
      intros x Ix. apply in_map_iff in Ix. destruct Ix as [y [Ey Iy]]. apply in_map_iff. exists y. auto. }
    apply R_length in H. unfold fuel_of. lia. }
  destruct (copy_ok K v h _ (fuel_of h) q Sv E H I F) as [h2 [w [q' [E2 [Rw [Sw [Er H2]]]]]]].
  rewrite E2. cbn [bind fst snd].
  destruct (replace_ok K h2 L X a o l w q' (R_app_comm _ _ _ _ H2) G T S Rw) as [h3 [E3 H3]].
  exists h3, w. auto.
Qed.

Lemma R_nodup : forall h L X, R h (nodes L ++ X) -> NoDup (map fst (nodes L)).
Proof. intros h L X [_ N]. rewrite map_app in N. exact (NoDup_app_l _ _ _ N). Qed.

Lemma copy_assign_ok : forall K h L X a b u v la lb, R h (nodes L ++ X) ->
  lget a L = Some u -> locate a L = Some la -> shape K u ->
  lget b L = Some v -> locate b L = Some lb -> shape K v ->
  exists h' w, copy_assign h la lb = Ok h' /\ R h' (nodes (lput a w L) ++ X) /\ erase w = erase v /\ shape K w.
Proof.
  intros K h L X a b u v la lb H Ga Ta Su Gb Tb Sv. unfold copy_assign.
  destruct (loc_eqb la lb) eqn:Q.
  - apply loc_eqb_eq in Q. subst lb. pose proof (locate_inj _ _ _ _ (R_nodup _ _ _ H) Ta Tb) as ->.
    rewrite Ga in Gb. injection Gb as <-. exists h, u. rewrite (lput_same _ _ _ Ga). auto.
  - rewrite (rd_at _ _ _ _ _ _ H Gb Tb). cbn [bind]. destruct (rootp v) as [q|] eqn:E.
    + eapply emplace_copy_ok; eauto.
    + destruct v as [| |]; try discriminate. destruct (reset_ok K _ _ _ _ _ _ H Ga Ta Su) as [h' [E' H']].
      exists h', Null. auto.
Qed.

Lemma move_assign_ok : forall K h L X a b u v la lb, R h (nodes L ++ X) ->
  lget a L = Some u -> locate a L = Some la -> shape K u ->
  lget b L = Some v -> locate b L = Some lb -> shape K v -> apart a b = true ->
  exists h', move_assign h la lb = Ok h' /\ R h' (nodes (lput a v (lput b Null L)) ++ X).
Proof.
  intros K h L X a b u v la lb H Ga Ta Su Gb Tb Sv A. unfold move_assign.
  destruct (loc_eqb la lb) eqn:Q.
  - apply loc_eqb_eq in Q. subst lb. exfalso. apply (apart_neq _ _ A).
    exact (locate_inj _ _ _ _ (R_nodup _ _ _ H) Ta Tb).
  - destruct (reset_ok K _ _ _ _ _ _ H Ga Ta Su) as [h1 [E1 H1]]. rewrite E1. cbn [bind].
    assert (Gb1 : lget b (lput a Null L) = Some v) by (rewrite lget_apart by exact A; exact Gb).
    assert (Tb1 : locate b (lput a Null L) = Some lb) by (rewrite locate_apart by exact A; exact Tb).
    rewrite (rd_at _ _ _ _ _ _ H1 Gb1 Tb1). cbn [bind].
    destruct (wr_at h1 _ X b v lb Null H1 Gb1 Tb1) as [h2 [E2 H2]]. cbn [rootp] in E2. rewrite E2. cbn [bind].
    rewrite (lput_apart a b) in H2 by exact A.
    assert (A' : apart b a = true) by (rewrite apart_sym; exact A).
    assert (Ga0 : lget a (lput b Null L) = Some u) by (rewrite lget_apart by exact A'; exact Ga).
    assert (Ta0 : locate a (lput b Null L) = Some la) by (rewrite locate_apart by exact A'; exact Ta).
    destruct (wr_at h2 (lput a Null (lput b Null L)) X a Null la v H2) as [h3 [E3 H3]].
    { eapply lget_lput; exact Ga0. }
    { rewrite (locate_lput _ _ _ _ Ga0). exact Ta0. }
    exists h3. split; [exact E3|]. rewrite (lput_lput _ _ _ _ _ Ga0) in H3. exact H3.
Qed.

Lemma swap_ok : forall h L X a b u v la lb, R h (nodes L ++ X) ->
  lget a L = Some u -> locate a L = Some la -> lget b L = Some v -> locate b L = Some lb -> apart a b = true ->
  exists h', swap h la lb = Ok h' /\ R h' (nodes (lput a v (lput b u L)) ++ X).
Proof.
  intros h L X a b u v la lb H Ga Ta Gb Tb A. unfold swap.
  destruct (loc_eqb la lb) eqn:Q.
  - apply loc_eqb_eq in Q. subst lb. exfalso. apply (apart_neq _ _ A).
    exact (locate_inj _ _ _ _ (R_nodup _ _ _ H) Ta Tb).
  - rewrite (rd_at _ _ _ _ _ _ H Ga Ta). cbn [bind]. rewrite (rd_at _ _ _ _ _ _ H Gb Tb). cbn [bind].
    assert (A' : apart b a = true) by (rewrite apart_sym; exact A).
    (* note at b that it no longer owns *)
    assert (Simple : nodes v = [] -> exists h', (h0 <- wr h la (rootp v) ;; wr h0 lb (rootp u)) = Ok h' /\ R h' (nodes (lput a v (lput b u L)) ++ X)).
    { intros Ev. assert (H' : R h (nodes L ++ nodes v ++ X)) by (rewrite Ev; exact H).
      destruct (wr_at h L X a u la v H' Ga Ta) as [h1 [E1 H1]]. rewrite E1. cbn [bind].
      destruct (wr_at h1 (lput a v L) X b v lb u H1) as [h2 [E2 H2]].
      { rewrite lget_apart by exact A. exact Gb. }
      { rewrite locate_apart by exact A. exact Tb. }
      exists h2. split; [exact E2|]. rewrite (lput_apart a b) in H2 by exact A. rewrite Ev in H2. exact H2. }
    destruct v as [|q|q e js]; [apply Simple; reflexivity | apply Simple; reflexivity |]. clear Simple.
    pose proof (ghost _ _ _ _ _ _ q H Gb Tb eq_refl) as H0.
    assert (Ga0 : lget a (lput b (Dang q) L) = Some u) by (rewrite lget_apart by exact A'; exact Ga).
    assert (Ta0 : locate a (lput b (Dang q) L) = Some la) by (rewrite locate_apart by exact A'; exact Ta).
    destruct (wr_at h (lput b (Dang q) L) X a u la (Own q e js) H0 Ga0 Ta0) as [h1 [E1 H1]]. rewrite E1. cbn [bind].
    assert (Gb1 : lget b (lput a (Own q e js) (lput b (Dang q) L)) = Some (Dang q)).
    { rewrite lget_apart by exact A. eapply lget_lput; exact Gb. }
    assert (Tb1 : locate b (lput a (Own q e js) (lput b (Dang q) L)) = Some lb).
    { rewrite locate_apart by exact A. rewrite (locate_lput _ _ _ _ Gb). exact Tb. }
    destruct (wr_at h1 _ X b (Dang q) lb u H1 Gb1 Tb1) as [h2 [E2 H2]].
    exists h2. split; [exact E2|]. rewrite (lput_apart a b), (lput_lput _ _ _ _ _ Gb) in H2 by exact A. exact H2.
Qed.

(* ---- members one by one ---- *)
Lemma lget_app : forall a b L, lget (a ++ b) L = match lget a L with Some o => lget b o | None => None end.
Proof.
  induction a as [|k r IH]; intros b L; cbn; [reflexivity|].
  destruct L as [| |p d ks]; try reflexivity. destruct (nth_error ks k); [apply IH|reflexivity].
Qed.
Lemma locate_app : forall a k L p d ks l, lget a L = Some (Own p d ks) -> nth_error ks k = Some l -> locate (a ++ [k]) L = Some (p, k).
Proof.
  induction a as [|x r IH]; intros k L p d ks l G E.
  - cbn in G. injection G as ->. cbn. rewrite E. reflexivity.
  - cbn [app locate lget] in *. destruct L as [| |p' d' ks']; try discriminate.
    destruct (nth_error ks' x) as [l'|]; [|discriminate].
    destruct (r ++ [k]) eqn:Q; [destruct r; discriminate|]. rewrite <- Q. eapply IH; eauto.
Qed.
Lemma lput_app : forall a k L p d ks l v, lget a L = Some (Own p d ks) -> nth_error ks k = Some l ->
  lput (a ++ [k]) v L = lput a (Own p d (update k v ks)) L.
Proof.
  induction a as [|x r IH]; intros k L p d ks l v G E.
  - cbn in G. injection G as ->. cbn. rewrite E. reflexivity.
  - cbn [app lput lget] in *. destruct L as [| |p' d' ks']; try discriminate.
    destruct (nth_error ks' x) as [l'|]; [|discriminate]. erewrite IH by eauto. reflexivity.
Qed.
Lemma prefix_app : forall a b x y, prefix a b = false -> prefix b a = false -> prefix (a ++ x) (b ++ y) = false.
Proof.
  induction a as [|k a IH]; intros [|j b] x y H1 H2; cbn in *; try discriminate.
  destruct (k =? j) eqn:E; cbn in *; [|reflexivity]. apply Nat.eqb_eq in E. subst j. rewrite Nat.eqb_refl in H2. cbn in H2. auto.
Qed.
Lemma apart_app : forall a b x y, apart a b = true -> apart (a ++ x) (b ++ y) = true.
Proof.
  intros a b x y H. unfold apart in *. apply andb_true_iff in H. rewrite !negb_true_iff in H. destruct H as [H1 H2].
  rewrite !prefix_app by assumption. reflexivity.
Qed.

Lemma nth_shape : forall K p d ks k, shape K (Own p d ks) -> k < K -> exists l, nth_error ks k = Some l /\ shape K l.
Proof.
  intros K p d ks k S L. apply shape_own in S. destruct S as [E F]. destruct (nth_error ks k) as [l|] eqn:N.
  - exists l. split; [reflexivity|]. rewrite Forall_forall in F. apply F. eapply nth_error_In. exact N.
  - apply nth_error_None in N. lia.
Qed.
Lemma Forall_update : forall T (P : T -> Prop) l i x, Forall P l -> P x -> Forall P (update i x l).
Proof. intros T P l. induction l as [|y l IH]; intros [|i] x F H; cbn; auto; inversion F; subst; constructor; auto. Qed.
Lemma shape_update : forall K p d ks k v, shape K (Own p d ks) -> shape K v -> shape K (Own p d (update k v ks)).
Proof.
  intros K p d ks k v S V. apply shape_own in S. apply shape_own. destruct S as [E F]. rewrite update_length.
  split; [exact E|]. apply Forall_update; assumption.
Qed.

Lemma copy_loop : forall K n k h L X a b p d ks q e js, k + n = K -> R h (nodes L ++ X) -> apart a b = true ->
  lget a L = Some (Own p d ks) -> shape K (Own p d ks) ->
  lget b L = Some (Own q e js) -> shape K (Own q e js) ->
  exists h' ks', assign_kids copy_assign h p q k n = Ok h' /\ R h' (nodes (lput a (Own p d ks') L) ++ X) /\
    shape K (Own p d ks') /\ (forall i, i < k -> nth_error ks' i = nth_error ks i) /\
    (forall i, k <= i < K -> option_map erase (nth_error ks' i) = option_map erase (nth_error js i)).
Proof.
  intros K. induction n as [|n IH]; intros k h L X a b p d ks q e js Ek H A Ga Sa Gb Sb.
  - exists h, ks. cbn. rewrite (lput_same _ _ _ Ga). split; [reflexivity|]. split; [exact H|]. split; [exact Sa|]. split; [auto|].
    intros i Hi. lia.
  - destruct (nth_shape _ _ _ _ k Sa ltac:(lia)) as [u [Nu Su]]. destruct (nth_shape _ _ _ _ k Sb ltac:(lia)) as [v [Nv Sv]].
    assert (Gu : lget (a ++ [k]) L = Some u) by (rewrite lget_app, Ga; cbn; rewrite Nu; reflexivity).
    assert (Gv : lget (b ++ [k]) L = Some v) by (rewrite lget_app, Gb; cbn; rewrite Nv; reflexivity).
    destruct (copy_assign_ok K h L X (a ++ [k]) (b ++ [k]) u v (p, k) (q, k) H Gu (locate_app _ _ _ _ _ _ _ Ga Nu) Su
                Gv (locate_app _ _ _ _ _ _ _ Gb Nv) Sv) as [h1 [w [E1 [H1 [Ew Sw]]]]].
    rewrite (lput_app _ _ _ _ _ _ _ w Ga Nu) in H1. cbn [assign_kids]. rewrite E1. cbn [bind].
    destruct (IH (S k) h1 (lput a (Own p d (update k w ks)) L) X a b p d (update k w ks) q e js) as [h2 [ks' [E2 [H2 [S2 [Lo Hi]]]]]].
    { lia. }
    { exact H1. }
    { exact A. }
    { eapply lget_lput; exact Ga. }
    { apply shape_update; assumption. }
    { rewrite lget_apart by exact A. exact Gb. }
    { exact Sb. }
    exists h2, ks'. split; [exact E2|]. rewrite (lput_lput _ _ _ _ _ Ga) in H2. split; [exact H2|]. split; [exact S2|]. split.
    + intros i Li. rewrite Lo by lia. apply update_other. lia.
    + intros i Li. destruct (Nat.eq_dec i k) as [->|D]; [|apply Hi; lia].
      rewrite Lo by lia. rewrite (update_nth _ _ _ _ _ Nu), Nv. cbn. rewrite Ew. reflexivity.
Qed.

Lemma move_loop : forall K n k h L X a b p d ks q e js, k + n = K -> R h (nodes L ++ X) -> apart a b = true ->
  lget a L = Some (Own p d ks) -> shape K (Own p d ks) ->
  lget b L = Some (Own q e js) -> shape K (Own q e js) ->
  exists h' ks' js', assign_kids move_assign h p q k n = Ok h' /\
    R h' (nodes (lput a (Own p d ks') (lput b (Own q e js') L)) ++ X) /\
    shape K (Own p d ks') /\ shape K (Own q e js') /\ (forall i, i < k -> nth_error ks' i = nth_error ks i) /\
    (forall i, k <= i < K -> nth_error ks' i = nth_error js i) /\
    (forall i, i < k -> nth_error js' i = nth_error js i) /\ (forall i, k <= i < K -> nth_error js' i = Some Null).
Proof.
  intros K. induction n as [|n IH]; intros k h L X a b p d ks q e js Ek H A Ga Sa Gb Sb.
  - exists h, ks, js. cbn. rewrite (lput_same _ _ _ Gb), (lput_same _ _ _ Ga). split; [reflexivity|].
    split; [exact H|]. split; [exact Sa|]. split; [exact Sb|]. split; [auto|]. split; [intros; lia|]. split; [auto|]. intros; lia.
  - destruct (nth_shape _ _ _ _ k Sa ltac:(lia)) as [u [Nu Su]]. destruct (nth_shape _ _ _ _ k Sb ltac:(lia)) as [v [Nv Sv]].
    assert (Gu : lget (a ++ [k]) L = Some u) by (rewrite lget_app, Ga; cbn; rewrite Nu; reflexivity).
    assert (Gv : lget (b ++ [k]) L = Some v) by (rewrite lget_app, Gb; cbn; rewrite Nv; reflexivity).
    assert (A' : apart b a = true) by (rewrite apart_sym; exact A).
    destruct (move_assign_ok K h L X (a ++ [k]) (b ++ [k]) u v (p, k) (q, k) H Gu (locate_app _ _ _ _ _ _ _ Ga Nu) Su
                Gv (locate_app _ _ _ _ _ _ _ Gb Nv) Sv (apart_app _ _ _ _ A)) as [h1 [E1 H1]].
    rewrite (lput_app _ _ _ _ _ _ _ Null Gb Nv) in H1.
    assert (Ga1 : lget a (lput b (Own q e (update k Null js)) L) = Some (Own p d ks)).
    { rewrite lget_apart by exact A'. exact Ga. }
    rewrite (lput_app _ _ _ _ _ _ _ v Ga1 Nu) in H1. cbn [assign_kids]. rewrite E1. cbn [bind].
    destruct (IH (S k) h1 (lput a (Own p d (update k v ks)) (lput b (Own q e (update k Null js)) L)) X a b p d (update k v ks) q e
                 (update k Null js)) as [h2 [ks' [js' [E2 [H2 [S2 [S3 [B1 [B2 [B3 B4]]]]]]]]]].
    { lia. }
    { exact H1. }
    { exact A. }
    { eapply lget_lput; exact Ga1. }
    { apply shape_update; assumption. }
    { rewrite lget_apart by exact A. eapply lget_lput; exact Gb. }
    { apply shape_update; [exact Sb|exact I]. }
    exists h2, ks', js'. split; [exact E2|].
    rewrite (lput_apart a b) in H2 by exact A. rewrite (lput_lput _ _ _ _ _ Gb) in H2.
    assert (Ga2 : lget a (lput b (Own q e js') L) = Some (Own p d ks)).
    { rewrite lget_apart by exact A'. exact Ga. }
    rewrite (lput_lput _ _ _ _ _ Ga2) in H2.
    split; [exact H2|]. split; [exact S2|]. split; [exact S3|]. split; [|split; [|split]].
    + intros i Li. rewrite B1 by lia. apply update_other. lia.
    + intros i Li. destruct (Nat.eq_dec i k) as [->|D].
      * rewrite B1 by lia. rewrite (update_nth _ _ _ _ _ Nu), Nv. reflexivity.
      * rewrite B2 by lia. apply update_other. lia.
    + intros i Li. rewrite B3 by lia. apply update_other. lia.
    + intros i Li. destruct (Nat.eq_dec i k) as [->|D]; [|apply B4; lia].
      rewrite B3 by lia. apply (update_nth _ _ _ _ _ Nv).
Qed.
