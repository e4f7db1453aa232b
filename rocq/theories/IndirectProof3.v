(** Proofs about the owning pointers: whole messages, comparison, programs. *)
From Coq Require Import List Arith ZArith Bool Lia Permutation.
From Verif Require Import Archive Indirect IndirectSpec IndirectProof IndirectProof2.
Import ListNotations.
Local Open Scope nat_scope.
Local Open Scope list_scope.

Lemma exchange_at : forall a L o l, lget a L = Some o -> locate a L = Some l ->
  exists C, Permutation (nodes L) (nodes o ++ C) /\ forall v, rootp v = rootp o -> Permutation (nodes (lput a v L)) (nodes v ++ C).
Proof.
  intros a L o l G T. destruct (decomp _ _ _ _ G T) as [d [rs [C [P [N V]]]]].
  exists ((fst l, mk_node d rs) :: C). split.
  - eapply perm_trans; [exact P|]. apply Permutation_middle.
  - intros v E. specialize (V v). rewrite E, update_same in V by exact N.
    eapply perm_trans; [exact V|]. apply Permutation_middle.
Qed.

Lemma wr_data_ok : forall h L X a l p d ks d', R h (nodes L ++ X) -> lget a L = Some (Own p d ks) -> locate a L = Some l ->
  exists h', wr_data h p d' = Ok h' /\ R h' (nodes (lput a (Own p d' ks) L) ++ X).
Proof.
  intros h L X a l p d ks d' H G T. destruct (exchange_at _ _ _ _ G T) as [C [P V]].
  assert (H1 : R h ((p, mk_node d (map rootp ks)) :: flat_map nodes ks ++ C ++ X)).
  { eapply R_perm; [|exact H]. eapply perm_trans; [apply Permutation_app_tail; exact P|]. cbn [nodes app]. rewrite <- app_assoc. reflexivity. }
  eexists. split.
  - unfold wr_data. rewrite (R_deref _ _ _ _ H1) by (left; reflexivity). reflexivity.
  - cbn [nd_kids]. eapply R_perm; [|eapply R_update; exact H1].
    apply Permutation_sym. eapply perm_trans; [apply Permutation_app_tail; apply (V (Own p d' ks)); reflexivity|].
    cbn [nodes app]. rewrite <- app_assoc. reflexivity.
Qed.

Lemma nth_map_ext : forall A B (f : A -> B) K (l m : list A), length l = K -> length m = K ->
  (forall i, i < K -> option_map f (nth_error l i) = option_map f (nth_error m i)) -> map f l = map f m.
Proof.
  intros A B f K l. revert K. induction l as [|x l IH]; intros K [|y m] E1 E2 H; cbn in *; try (exfalso; lia); [reflexivity|].
  destruct K as [|K]; [lia|]. f_equal.
  - specialize (H 0 ltac:(lia)). cbn in H. congruence.
  - apply (IH K); try lia. intros i Li. exact (H (S i) ltac:(lia)).
Qed.
Lemma nth_ext' : forall A K (l m : list A), length l = K -> length m = K ->
  (forall i, i < K -> nth_error l i = nth_error m i) -> l = m.
Proof.
  intros A K l m E1 E2 H. rewrite <- (map_id l), <- (map_id m). apply (nth_map_ext A A (fun x => x) K); auto.
  intros i Li. rewrite (H i Li). reflexivity.
Qed.

Lemma assign_copy_ok : forall K h L X a b la lb p d ks q e js, R h (nodes L ++ X) -> apart a b = true ->
  lget a L = Some (Own p d ks) -> locate a L = Some la -> shape K (Own p d ks) ->
  lget b L = Some (Own q e js) -> locate b L = Some lb -> shape K (Own q e js) ->
  exists h' w, assignT copy_assign K h p q = Ok h' /\ R h' (nodes (lput a w L) ++ X) /\
    shape K w /\ erase w = erase (Own q e js).
Proof.
  intros K h L X a b la lb p d ks q e js H A Ga Ta Sa Gb Tb Sb. unfold assignT.
  destruct (exchange_at _ _ _ _ Gb Tb) as [C [P _]].
  rewrite (R_deref h _ q (mk_node e (map rootp js)) H).
  2:{ apply in_or_app. left. eapply Permutation_in; [apply Permutation_sym; exact P|]. left. reflexivity. }
  cbn [bind nd_data]. destruct (wr_data_ok h L X a la p d ks e H Ga Ta) as [h1 [E1 H1]]. rewrite E1. cbn [bind].
  destruct (copy_loop K K 0 h1 (lput a (Own p e ks) L) X a b p e ks q e js) as [h2 [ks' [E2 [H2 [S2 [_ Hi]]]]]].
  { lia. }
  { exact H1. }
  { exact A. }
  { eapply lget_lput; exact Ga. }
  { apply shape_own. apply shape_own in Sa. exact Sa. }
  { rewrite lget_apart by exact A. exact Gb. }
  { exact Sb. }
  exists h2, (Own p e ks'). split; [exact E2|]. rewrite (lput_lput _ _ _ _ _ Ga) in H2. split; [exact H2|]. split; [exact S2|].
  cbn [erase]. f_equal. f_equal. apply shape_own in S2. apply shape_own in Sb.
  apply (nth_map_ext _ _ erase K); [apply S2|apply Sb|]. intros i Li. apply Hi. lia.
Qed.

Lemma assign_move_ok : forall K h L X a b la lb p d ks q e js, R h (nodes L ++ X) -> apart a b = true ->
  lget a L = Some (Own p d ks) -> locate a L = Some la -> shape K (Own p d ks) ->
  lget b L = Some (Own q e js) -> locate b L = Some lb -> shape K (Own q e js) ->
  exists h', assignT move_assign K h p q = Ok h' /\
    R h' (nodes (lput a (Own p e js) (lput b (Own q e (map (fun _ => Null) js)) L)) ++ X).
Proof.
  intros K h L X a b la lb p d ks q e js H A Ga Ta Sa Gb Tb Sb. unfold assignT.
  destruct (exchange_at _ _ _ _ Gb Tb) as [C [P _]].
  rewrite (R_deref h _ q (mk_node e (map rootp js)) H).
  2:{ apply in_or_app. left. eapply Permutation_in; [apply Permutation_sym; exact P|]. left. reflexivity. }
  cbn [bind nd_data]. destruct (wr_data_ok h L X a la p d ks e H Ga Ta) as [h1 [E1 H1]]. rewrite E1. cbn [bind].
  destruct (move_loop K K 0 h1 (lput a (Own p e ks) L) X a b p e ks q e js) as [h2 [ks' [js' [E2 [H2 [S2 [S3 [_ [B2 [_ B4]]]]]]]]]].
  { lia. }
  { exact H1. }
  { exact A. }
  { eapply lget_lput; exact Ga. }
  { apply shape_own. apply shape_own in Sa. exact Sa. }
  { rewrite lget_apart by exact A. exact Gb. }
  { exact Sb. }
  exists h2. split; [exact E2|]. apply shape_own in S2, S3, Sb.
  assert (Q1 : ks' = js) by (apply (nth_ext' _ K); [apply S2|apply Sb|]; intros i Li; apply B2; lia).
  assert (Q2 : js' = map (fun _ => Null) js).
  { apply (nth_ext' _ K); [apply S3|rewrite map_length; apply Sb|]. intros i Li. rewrite B4 by lia. rewrite nth_error_map.
    destruct (nth_error js i) eqn:N; [reflexivity|]. apply nth_error_None in N. lia. }
  subst ks' js'. rewrite (lput_apart a b) in H2 by exact A.
  assert (A' : apart b a = true) by (rewrite apart_sym; exact A).
  assert (Ga2 : lget a (lput b (Own q e (map (fun _ => Null) js)) L) = Some (Own p d ks)).
  { rewrite lget_apart by exact A'. exact Ga. }
  rewrite (lput_lput _ _ _ _ _ Ga2) in H2. exact H2.
Qed.

Lemma nulls_root : forall (js : list link), map rootp (map (fun _ => Null) js) = map (fun _ => None) (map rootp js).
Proof. intros. rewrite !map_map. reflexivity. Qed.
Lemma nulls_nodes : forall (js : list link), flat_map nodes (map (fun _ => Null) js) = [].
Proof. induction js; cbn; auto. Qed.

Lemma take_ok : forall K h L X a b la lb u q e js, R h (nodes L ++ X) -> apart a b = true ->
  lget a L = Some u -> locate a L = Some la -> shape K u ->
  lget b L = Some (Own q e js) -> locate b L = Some lb -> shape K (Own q e js) ->
  exists h' p', take K h la q = Ok h' /\
    R h' (nodes (lput a (Own p' e js) (lput b (Own q e (map (fun _ => Null) js)) L)) ++ X).
Proof.
  intros K h L X a b la lb u q e js H A Ga Ta Su Gb Tb Sb. unfold take.
  rewrite (rd_at _ _ _ _ _ _ H Ga Ta). cbn [bind]. destruct u as [|p|p d ks]; [|destruct Su|].
  - cbn [rootp]. destruct (exchange_at _ _ _ _ Gb Tb) as [C [P V]].
    assert (H1 : R h ((q, mk_node e (map rootp js)) :: flat_map nodes js ++ C ++ X)).
    { eapply R_perm; [|exact H]. eapply perm_trans; [apply Permutation_app_tail; exact P|]. cbn [nodes app]. rewrite <- app_assoc. reflexivity. }
    rewrite (R_deref _ _ _ _ H1) by (left; reflexivity). cbn [bind nd_data nd_kids make fst snd].
    set (h1 := update q _ h). set (p' := length h1).
    pose proof (R_update _ _ _ (mk_node e (map (fun _ => None) (map rootp js))) _ H1) as H2. fold h1 in H2.
    pose proof (R_make _ (mk_node e (map rootp js)) _ H2) as H3. fold p' in H3.
    set (L1 := lput b (Own q e (map (fun _ => Null) js)) L).
    assert (H4 : R (h1 ++ [Some (mk_node e (map rootp js))]) (nodes L1 ++ nodes (Own p' e js) ++ X)).
    { eapply R_perm; [|exact H3]. apply Permutation_sym.
      eapply perm_trans; [apply Permutation_app_tail; apply (V (Own q e (map (fun _ => Null) js))); reflexivity|].
      cbn [nodes]. rewrite nulls_root, nulls_nodes. cbn [app]. apply Permutation_sym.
      eapply perm_trans; [apply perm_swap|]. apply perm_skip.
      eapply perm_trans; [|apply Permutation_middle]. apply perm_skip.
      rewrite !app_assoc. apply Permutation_app_tail. apply Permutation_app_comm. }
    assert (A' : apart b a = true) by (rewrite apart_sym; exact A).
    destruct (wr_at _ L1 X a Null la (Own p' e js) H4) as [h5 [E5 H5]].
    { unfold L1. rewrite lget_apart by exact A'. exact Ga. }
    { unfold L1. rewrite locate_apart by exact A'. exact Ta. }
    exists h5, p'. split; [exact E5|exact H5].
  - cbn [rootp]. destruct (assign_move_ok K h L X a b la lb p d ks q e js H A Ga Ta Su Gb Tb Sb) as [h1 [E1 H1]].
    exists h1, p. auto.
Qed.

Lemma assign_indirect_ok : forall K h L X a b la lb u v, R h (nodes L ++ X) -> apart a b = true ->
  lget a L = Some u -> locate a L = Some la -> shape K u ->
  lget b L = Some v -> locate b L = Some lb -> shape K v -> v <> Null ->
  exists h' w, assign_indirect K h la lb = Ok h' /\ R h' (nodes (lput a w L) ++ X) /\ erase w = erase v /\ shape K w.
Proof.
  intros K h L X a b la lb u v H A Ga Ta Su Gb Tb Sb NV. unfold assign_indirect.
  destruct (loc_eqb la lb) eqn:Q.
  - apply loc_eqb_eq in Q. subst lb. exfalso. apply (apart_neq _ _ A).
    exact (locate_inj _ _ _ _ (R_nodup _ _ _ H) Ta Tb).
  - rewrite (rd_at _ _ _ _ _ _ H Ga Ta). cbn [bind]. rewrite (rd_at _ _ _ _ _ _ H Gb Tb). cbn [bind].
    destruct v as [|q|q e js]; [congruence|destruct Sb|]. cbn [rootp].
    destruct u as [|p|p d ks]; [|destruct Su|]; cbn [rootp].
    + eapply emplace_copy_ok; eauto.
    + destruct (assign_copy_ok K h L X a b la lb p d ks q e js H A Ga Ta Su Gb Tb Sb) as [h' [w [E' [H' [S' Er]]]]].
      exists h', w. auto.
Qed.

(* ---- comparison ---- *)
Fixpoint eq_kids (f : nat) (h : heap) (ks js : list (option nat)) : res bool :=
  match ks, js with
  | a :: ks, b :: js => e <- eqT f h a b ;; if e then eq_kids f h ks js else Ok false
  | _, _ => Ok true
  end.
Lemma eqT_eq : forall f h p q, eqT (S f) h (Some p) (Some q) =
  (n <- deref h p ;; m <- deref h q ;; if negb (nd_data n =? nd_data m)%Z then Ok false else eq_kids f h (nd_kids n) (nd_kids m)).
Proof.
  intros. cbn [eqT]. destruct (deref h p) as [n| | | |]; try reflexivity. cbn [bind].
  destruct (deref h q) as [m| | | |]; try reflexivity. cbn [bind]. destruct (negb (nd_data n =? nd_data m)%Z); [reflexivity|].
  generalize (nd_kids n), (nd_kids m). induction l as [|x l IH]; intros [|y l0]; try reflexivity. cbn [eq_kids].
  destruct (eqT f h x y) as [[|]| | | |]; cbn [bind]; auto.
Qed.
Fixpoint trees_eqb (ks js : list (option tree)) : bool :=
  match ks, js with
  | [], [] => true
  | x :: ks, y :: js => tree_eqb x y && trees_eqb ks js
  | _, _ => false
  end.
Lemma node_eqb_eq : forall d ks e js, node_eqb (Node d ks) (Node e js) = ((d =? e)%Z && trees_eqb ks js).
Proof.
  intros. cbn [node_eqb]. f_equal. revert js. induction ks as [|x ks IH]; intros [|y js]; try reflexivity.
  - destruct x; reflexivity.
  - cbn [trees_eqb]. destruct x, y; cbn [tree_eqb]; try reflexivity; rewrite IH; reflexivity.
Qed.

Lemma eq_ok : forall K u v h X fuel, shape K u -> shape K v -> R h X -> incl (nodes u) X -> incl (nodes v) X ->
  S (length (nodes u)) <= fuel -> eqT fuel h (rootp u) (rootp v) = Ok (tree_eqb (erase u) (erase v)).
Proof.
  intros K. induction u as [|p|p d ks IH] using link_ind'; intros v h X fuel Su Sv H Iu Iv F; [|destruct Su|];
    (destruct fuel as [|f]; [lia|]); apply le_S_n in F.
  - destruct v as [|q|q e js]; [reflexivity|destruct Sv|reflexivity].
  - destruct v as [|q|q e js]; [reflexivity|destruct Sv|]. cbn [rootp]. rewrite eqT_eq.
    rewrite (R_deref h X p (mk_node d (map rootp ks)) H) by (apply Iu; left; reflexivity). cbn [bind].
    rewrite (R_deref h X q (mk_node e (map rootp js)) H) by (apply Iv; left; reflexivity). cbn [bind nd_data nd_kids].
    cbn [erase tree_eqb]. rewrite node_eqb_eq. destruct (d =? e)%Z; cbn [negb andb]; [|reflexivity].
    apply shape_own in Su, Sv. destruct Su as [Lu Su], Sv as [Lv Sv].
    assert (I1 : forall k, In k ks -> incl (nodes k) X /\ S (length (nodes k)) <= f).
    { intros k Ik. split.
      - intros x Ix. apply Iu. right. apply in_flat_map. eauto.
      - cbn [nodes length] in F. clear - F Ik. revert f F. induction ks as [|y ks IHk]; intros f F; [destruct Ik|].
        cbn [flat_map] in F. rewrite app_length in F. destruct Ik as [->|Ik]; [lia|]. apply IHk; [exact Ik|]. lia. }
    assert (I2 : forall k, In k js -> incl (nodes k) X).
    { intros k Ik x Ix. apply Iv. right. apply in_flat_map. eauto. }
    assert (LL : length ks = length js) by congruence. clear Lu Lv Iu Iv F. revert js LL Sv I2.
    induction ks as [|k ks IHk]; intros [|j js] LL Sv I2; try discriminate; [reflexivity|].
    inversion IH as [|? ? P1 P2]; subst. inversion Su as [|? ? Sk Sks]; subst. inversion Sv as [|? ? Sj Sjs]; subst.
    destruct (I1 k (or_introl eq_refl)) as [Ik Fk]. cbn [map eq_kids trees_eqb].
    rewrite (P1 j h X f Sk Sj H Ik (I2 j (or_introl eq_refl)) Fk). cbn [bind].
    destruct (tree_eqb (erase k) (erase j)); cbn [andb]; [|reflexivity].
    apply IHk; auto; [intros x Ix; apply I1; right; exact Ix | intros x Ix; apply I2; right; exact Ix].
Qed.

(* ---- values ---- *)
Lemma erase_lget : forall a L o, lget a L = Some o -> tget a (erase L) = Some (erase o).
Proof.
  induction a as [|k r IH]; intros L o G; cbn in *; [congruence|].
  destruct L as [| |p d ks]; try discriminate. cbn [erase]. rewrite nth_error_map.
  destruct (nth_error ks k) as [l'|]; [|discriminate]. cbn. auto.
Qed.
Lemma lget_erase : forall a L x, tget a (erase L) = Some x -> exists o, lget a L = Some o /\ erase o = x.
Proof.
  induction a as [|k r IH]; intros L x G; cbn in *; [exists L; split; congruence|].
  destruct L as [| |p d ks]; try discriminate. cbn [erase] in G. rewrite nth_error_map in G.
  destruct (nth_error ks k) as [l'|]; [|discriminate]. cbn in G. auto.
Qed.
Lemma erase_lput : forall a L o v, lget a L = Some o -> erase (lput a v L) = tput a (erase v) (erase L).
Proof.
  induction a as [|k r IH]; intros L o v G; cbn in *; [reflexivity|].
  destruct L as [| |p d ks]; try discriminate. cbn [erase]. rewrite nth_error_map.
  destruct (nth_error ks k) as [l'|]; [|discriminate]. cbn. rewrite map_update. erewrite IH by eauto. reflexivity.
Qed.

Definition good (K : nat) (L : link) : Prop := match L with Own p _ ks => p = 0 /\ Forall (shape K) ks | _ => False end.
Definition Inv (K : nat) (h : heap) (t : tree) : Prop :=
  exists L, R h (nodes L ++ []) /\ good K L /\ erase L = Some t.

Lemma shape_lget : forall K a L o, shape K L -> lget a L = Some o -> shape K o.
Proof.
  induction a as [|k r IH]; intros L o S G; cbn in G; [congruence|].
  destruct L as [| |p d ks]; try discriminate. destruct (nth_error ks k) as [l'|] eqn:E; [|discriminate].
  apply shape_own in S. destruct S as [_ S]. rewrite Forall_forall in S. eapply IH; [|exact G]. apply S. eapply nth_error_In. exact E.
Qed.
Lemma good_lget : forall K a L o, good K L -> a <> [] -> lget a L = Some o -> shape K o.
Proof.
  intros K [|k r] L o S N G; [congruence|]. cbn in G. destruct L as [| |p d ks]; try discriminate.
  destruct (nth_error ks k) as [l'|] eqn:E; [|discriminate]. destruct S as [_ S]. rewrite Forall_forall in S.
  eapply shape_lget; [|exact G]. apply S. eapply nth_error_In. exact E.
Qed.
Lemma shape_lput : forall K a L o v, shape K L -> shape K v -> lget a L = Some o -> shape K (lput a v L).
Proof.
  induction a as [|k r IH]; intros L o v S V G; cbn in *; [exact V|].
  destruct L as [| |p d ks]; try discriminate. destruct (nth_error ks k) as [l'|] eqn:E; [|discriminate].
  apply shape_update; [exact S|]. eapply IH; eauto. apply shape_own in S. destruct S as [_ S]. rewrite Forall_forall in S.
  apply S. eapply nth_error_In. exact E.
Qed.
Lemma good_lput : forall K a L o v, good K L -> a <> [] -> shape K v -> lget a L = Some o -> good K (lput a v L).
Proof.
  intros K [|k r] L o v S N V G; [congruence|]. cbn in G. destruct L as [| |p d ks]; try discriminate.
  cbn [lput]. destruct (nth_error ks k) as [l'|] eqn:E; [|discriminate]. destruct S as [Z S]. split; [exact Z|].
  apply Forall_update; [exact S|]. eapply shape_lput; eauto. rewrite Forall_forall in S. apply S. eapply nth_error_In. exact E.
Qed.
