(** Proofs about the owning pointers: programs have the outcome their meaning on values says. *)
From Coq Require Import List Arith ZArith Bool Lia Permutation.
From Verif Require Import Archive Indirect IndirectSpec IndirectProof IndirectProof2 IndirectProof3.
Import ListNotations.
Local Open Scope nat_scope.
Local Open Scope list_scope.

Lemma handle_at : forall K h L t a x, R h (nodes L ++ []) -> good K L -> erase L = Some t -> handle a t = Some x ->
  a <> [] /\ exists o l, lget a L = Some o /\ erase o = x /\ locate a L = Some l /\ resolve h 0 a = Ok l /\
    rd h l = Ok (rootp o) /\ shape K o.
Proof.
  intros K h L t a x H G E Q. assert (N : a <> []) by (destruct a; [discriminate|discriminate]).
  split; [exact N|]. assert (Q' : tget a (erase L) = Some x) by (rewrite E; destruct a; [congruence|exact Q]).
  destruct (lget_erase _ _ _ Q') as [o [Go Eo]]. destruct (locate_some _ _ _ N Go) as [l T].
  exists o, l. split; [exact Go|]. split; [exact Eo|]. split; [exact T|]. split; [|split].
  - destruct L as [| |p d ks]; try discriminate. destruct G as [-> G]. eapply resolve_at; eauto.
  - eapply rd_at; eauto.
  - eapply good_lget; eauto.
Qed.

Lemma setv_at : forall L t a o v, erase L = Some t -> a <> [] -> lget a L = Some o ->
  erase (lput a v L) = Some (setv a (erase v) t).
Proof.
  intros L t a o v E N G. rewrite (erase_lput _ _ _ _ G), E. unfold setv.
  destruct (tput a (erase v) (Some t)) as [t'|] eqn:Q; [reflexivity|].
  destruct a as [|k r]; [congruence|]. cbn in Q. destruct t. discriminate.
Qed.

Lemma put_inv : forall K h L t a o w, R h (nodes (lput a w L) ++ []) -> good K L -> erase L = Some t -> a <> [] ->
  lget a L = Some o -> shape K w -> Inv K h (setv a (erase w) t).
Proof.
  intros K h L t a o w H G E N Go Sw. exists (lput a w L). split; [exact H|]. split.
  - eapply good_lput; eauto.
  - eapply setv_at; eauto.
Qed.

Lemma put2_inv : forall K h L t a b u v w x, R h (nodes (lput a w (lput b x L)) ++ []) -> good K L -> erase L = Some t ->
  a <> [] -> b <> [] -> apart a b = true -> lget a L = Some u -> lget b L = Some v -> shape K w -> shape K x ->
  Inv K h (setv a (erase w) (setv b (erase x) t)).
Proof.
  intros K h L t a b u v w x H G E Na Nb A Ga Gb Sw Sx.
  assert (Ga' : lget a (lput b x L) = Some u) by (rewrite lget_apart by (rewrite apart_sym; exact A); exact Ga).
  eapply put_inv; [exact H| | |exact Na|exact Ga'|exact Sw].
  - eapply good_lput; eauto.
  - eapply setv_at; eauto.
Qed.

(* ---- variables ---- *)
Lemma push_ok : forall h d F, R h (nodes (Own 0 d F) ++ []) ->
  exists h', push h = Ok (h', (0, length F)) /\ R h' (nodes (Own 0 d (F ++ [Null])) ++ []).
Proof.
  intros h d F H. unfold push. rewrite (R_deref h _ 0 (mk_node d (map rootp F)) H) by (left; reflexivity).
  cbn [bind nd_data nd_kids]. rewrite map_length. eexists. split; [reflexivity|].
  cbn [nodes app] in H |- *. rewrite flat_map_app. cbn [flat_map nodes app]. rewrite !app_nil_r in *.
  rewrite map_app. cbn [map rootp]. eapply R_update. exact H.
Qed.
Lemma nth_last : forall T (l : list T) x, nth_error (l ++ [x]) (length l) = Some x.
Proof. induction l; cbn; auto. Qed.
Lemma update_last : forall T (l : list T) x y, update (length l) y (l ++ [x]) = l ++ [y].
Proof. induction l as [|z l IH]; intros; cbn; [reflexivity|]. rewrite IH. reflexivity. Qed.
Lemma update_app : forall T (l m : list T) i x, i < length l -> update i x (l ++ m) = update i x l ++ m.
Proof. induction l as [|z l IH]; intros m [|i] x L; cbn in *; try lia; [reflexivity|]. rewrite IH by lia. reflexivity. Qed.

Lemma lget_more : forall a d F o m, a <> [] -> lget a (Own 0 d F) = Some o -> lget a (Own 0 d (F ++ m)) = Some o.
Proof.
  intros [|k r] d F o m N G; [congruence|]. cbn in *. destruct (nth_error F k) as [l|] eqn:E; [|discriminate].
  rewrite nth_error_app1 by (apply nth_error_Some; congruence). rewrite E. exact G.
Qed.
Lemma locate_more : forall a d F l m, locate a (Own 0 d F) = Some l -> locate a (Own 0 d (F ++ m)) = Some l.
Proof.
  intros [|k r] d F l m G; [discriminate|]. cbn in *. destruct (nth_error F k) as [o|] eqn:E; [|discriminate].
  rewrite nth_error_app1 by (apply nth_error_Some; congruence). rewrite E. exact G.
Qed.
Lemma lput_more : forall a d F o v m, a <> [] -> lget a (Own 0 d F) = Some o ->
  exists F', lput a v (Own 0 d F) = Own 0 d F' /\ length F' = length F /\ lput a v (Own 0 d (F ++ m)) = Own 0 d (F' ++ m).
Proof.
  intros [|k r] d F o v m N G; [congruence|]. cbn in *. destruct (nth_error F k) as [l|] eqn:E; [|discriminate].
  assert (L : k < length F) by (apply nth_error_Some; congruence).
  rewrite nth_error_app1 by exact L. rewrite E. eexists. split; [reflexivity|]. rewrite update_length. split; [reflexivity|].
  rewrite update_app by exact L. reflexivity.
Qed.

Lemma repeat_null : forall K, map rootp (repeat Null K) = repeat None K /\ flat_map nodes (repeat Null K) = [] /\
  map erase (repeat Null K) = repeat None K.
Proof. induction K as [|K [A [B C]]]; cbn; [auto|]. rewrite A, B, C. auto. Qed.

Lemma apart_last : forall d F a o, a <> [] -> lget a (Own 0 d F) = Some o -> apart a [length F] = true.
Proof.
  intros d F [|k r] o N G; [congruence|]. cbn in G. destruct (nth_error F k) eqn:E; [|discriminate].
  assert (L : k < length F) by (apply nth_error_Some; congruence). unfold apart. cbn.
  replace (k =? length F) with false by (symmetry; apply Nat.eqb_neq; lia).
  replace (length F =? k) with false by (symmetry; apply Nat.eqb_neq; lia). reflexivity.
Qed.

Lemma nulls_erase : forall (js : list link), map erase (map (fun _ => Null) js) = map (fun _ => None) (map erase js).
Proof. intros. rewrite !map_map. reflexivity. Qed.
Lemma nulls_shape : forall K q e js, shape K (Own q e js) -> shape K (Own q e (map (fun _ => Null) js)).
Proof.
  intros K q e js S. apply shape_own in S. apply shape_own. rewrite map_length. split; [apply S|].
  apply Forall_forall. intros x I. apply in_map_iff in I. destruct I as [y [<- _]]. exact I.
Qed.

Lemma step_ok : forall K o h t t' s, Inv K h t -> vstep K o t = Some (t', s) ->
  exists h', step K o h = Ok (h', s) /\ Inv K h' t'.
Proof.
  intros K o h t t' s [L [H [G E]]] V. destruct o as [|a|a| |a|a d|a b|a b|a b|a b|a b|a d|a|a|a b]; cbn [vstep step] in *.
  - (* OPush *)
    destruct L as [| |p d F]; try discriminate. destruct G as [-> G]. cbn in E. injection E as <-. injection V as <- <-.
    destruct (push_ok h d F H) as [h1 [E1 H1]]. rewrite E1. cbn [bind fst]. exists h1. split; [reflexivity|].
    exists (Own 0 d (F ++ [Null])). split; [exact H1|]. split; [split; [reflexivity|]; apply Forall_app; split; [exact G|]; constructor; [exact I|constructor]|].
    cbn. rewrite map_app. reflexivity.
  - (* OPushCopy *)
    destruct (handle a t) as [v|] eqn:Q; [|discriminate]. injection V as <- <-.
    destruct (handle_at K h L t a v H G E Q) as [N [o [l [Go [Eo [T [Rs [Rd S]]]]]]]]. rewrite Rs. cbn [bind]. rewrite Rd. cbn [bind].
    destruct L as [| |p d F]; try discriminate. destruct G as [-> G]. cbn in E. injection E as <-.
    destruct (push_ok h d F H) as [h1 [E1 H1]]. rewrite E1. cbn [bind fst snd].
    destruct (rootp o) as [q|] eqn:Ro.
    + assert (Gl : lget [length F] (Own 0 d (F ++ [Null])) = Some Null) by (cbn; rewrite nth_last; reflexivity).
      assert (Tl : locate [length F] (Own 0 d (F ++ [Null])) = Some (0, length F)) by (cbn; rewrite nth_last; reflexivity).
      destruct (emplace_copy_ok K h1 _ [] _ Null _ a o q H1 Gl Tl I (lget_more _ _ _ _ _ N Go) S Ro) as [h2 [w [E2 [H2 [Ew Sw]]]]].
      rewrite E2. cbn [bind]. exists h2. split; [reflexivity|]. cbn [lput] in H2. rewrite nth_last, update_last in H2.
      exists (Own 0 d (F ++ [w])). split; [exact H2|]. split; [split; [reflexivity|]; apply Forall_app; split; [exact G|]; constructor; [exact Sw|constructor]|].
      cbn. rewrite map_app. cbn. rewrite Ew, Eo. reflexivity.
    + destruct o as [| |]; try discriminate. cbn in Eo. subst v. exists h1. split; [reflexivity|].
      exists (Own 0 d (F ++ [Null])). split; [exact H1|]. split; [split; [reflexivity|]; apply Forall_app; split; [exact G|]; constructor; [exact I|constructor]|].
      cbn. rewrite map_app. reflexivity.
  - (* OPushMove *)
    destruct (handle a t) as [v|] eqn:Q; [|discriminate]. injection V as <- <-.
    destruct (handle_at K h L t a v H G E Q) as [N [o [l [Go [Eo [T [Rs [Rd S]]]]]]]]. rewrite Rs. cbn [bind]. rewrite Rd. cbn [bind].
    destruct L as [| |p d F]; try discriminate. destruct G as [-> G]. pose proof E as E0. cbn in E. injection E as <-.
    destruct (push_ok h d F H) as [h1 [E1 H1]]. rewrite E1. cbn [bind fst snd].
    pose proof (lget_more _ _ _ _ [Null] N Go) as Go1. pose proof (locate_more _ _ _ _ [Null] T) as T1.
    destruct (wr_at h1 _ [] a o l Null H1 Go1 T1) as [h2 [E2 H2]]. cbn [rootp] in E2. rewrite E2. cbn [bind].
    destruct (lput_more a d F o Null [Null] N Go) as [F' [P1 [P2 P3]]]. rewrite P3 in H2.
    destruct (wr_at h2 (Own 0 d (F' ++ [Null])) [] [length F'] Null (0, length F) o H2) as [h3 [E3 H3]].
    { cbn. rewrite nth_last. reflexivity. }
    { cbn. rewrite nth_last, P2. reflexivity. }
    rewrite E3. cbn [bind]. exists h3. split; [reflexivity|]. cbn [lput] in H3. rewrite nth_last, update_last in H3.
    pose proof (setv_at _ _ _ _ Null E0 N Go) as Sv. rewrite P1 in Sv. cbn [erase] in Sv. injection Sv as Sv. rewrite <- Sv.
    assert (G' : good K (lput a Null (Own 0 d F))) by (eapply good_lput; [split; [reflexivity|exact G]|exact N|exact I|exact Go]).
    rewrite P1 in G'. destruct G' as [_ G'].
    exists (Own 0 d (F' ++ [o])). split; [exact H3|]. split; [split; [reflexivity|]; apply Forall_app; split; [exact G'|]; constructor; [exact S|constructor]|].
    cbn. rewrite map_app. cbn. rewrite Eo. reflexivity.
  - (* OPop *)
    destruct L as [| |p d F]; try discriminate. destruct G as [-> G]. cbn in E. injection E as <-.
    cbn [kids_of] in V.
    assert (NF : F <> []) by (destruct F; [discriminate|discriminate]).
    assert (V' : drop (Node d (map erase F)) = t' /\ [] = s) by (destruct (map erase F); [discriminate|injection V; auto]).
    destruct V' as [<- <-]. clear V.
    destruct (exists_last NF) as [F0 [l ->]]. unfold pop.
    rewrite (R_deref h _ 0 (mk_node d (map rootp (F0 ++ [l]))) H) by (left; reflexivity).
    cbn [bind nd_kids]. rewrite map_length, app_length. cbn [length]. replace (length F0 + 1 - 1) with (length F0) by lia.
    apply Forall_app in G. destruct G as [G Gl]. inversion Gl; subst.
    destruct (reset_ok K h (Own 0 d (F0 ++ [l])) [] [length F0] l (0, length F0) H) as [h1 [E1 H1]].
    { cbn. rewrite nth_last. reflexivity. }
    { cbn. rewrite nth_last. reflexivity. }
    { assumption. }
    rewrite E1. cbn [bind]. cbn [lput] in H1. rewrite nth_last, update_last in H1.
    rewrite (R_deref h1 _ 0 (mk_node d (map rootp (F0 ++ [Null]))) H1) by (left; reflexivity). cbn [bind nd_kids nd_data].
    eexists. split; [reflexivity|]. exists (Own 0 d F0). split; [|split; [split; [reflexivity|exact G]|]].
    + rewrite map_app. cbn [map]. rewrite removelast_last. cbn [nodes app] in H1 |- *.
      rewrite flat_map_app in H1. cbn [flat_map nodes] in H1. rewrite app_nil_r in H1. eapply R_update. exact H1.
    + cbn [erase drop]. rewrite map_app. cbn [map]. rewrite removelast_last. reflexivity.
  - (* OReset *)
    destruct (handle a t) as [v|] eqn:Q; [|discriminate]. injection V as <- <-.
    destruct (handle_at K h L t a v H G E Q) as [N [o [l [Go [Eo [T [Rs [Rd S]]]]]]]]. rewrite Rs. cbn [bind].
    destruct (reset_ok K h L [] a o l H Go T S) as [h1 [E1 H1]]. rewrite E1. cbn [bind]. exists h1. split; [reflexivity|].
    exact (put_inv K h1 L t a o Null H1 G E N Go I).
  - (* OEmplace *)
    destruct (handle a t) as [v|] eqn:Q; [|discriminate]. injection V as <- <-.
    destruct (handle_at K h L t a v H G E Q) as [N [o [l [Go [Eo [T [Rs [Rd S]]]]]]]]. rewrite Rs. cbn [bind make fst snd].
    destruct (repeat_null K) as [B1 [B2 B3]].
    set (w := Own (length h) d (repeat Null K)).
    assert (H1 : R (h ++ [Some (mk_node d (repeat None K))]) (nodes L ++ nodes w ++ [])).
    { pose proof (R_make h (mk_node d (repeat None K)) _ H) as H1. eapply R_perm; [|exact H1].
      unfold w. cbn [nodes]. rewrite B1, B2. cbn [app]. rewrite !app_nil_r. apply Permutation_cons_append. }
    destruct (replace_ok K _ L [] a o l w (length h) H1 Go T S eq_refl) as [h2 [E2 H2]]. rewrite E2. cbn [bind].
    exists h2. split; [reflexivity|]. replace (Some (Node d (repeat None K))) with (erase w) by (unfold w; cbn; rewrite B3; reflexivity).
    apply (put_inv K h2 L t a o w H2 G E N Go). unfold w. apply shape_own. rewrite repeat_length. split; [reflexivity|].
    apply Forall_forall. intros x Ix. apply repeat_spec in Ix. subst x. exact I.
  - (* OCopy *)
    destruct (handle a t) as [u|] eqn:Qa; [|discriminate]. destruct (handle b t) as [v|] eqn:Qb; [|discriminate]. injection V as <- <-.
    destruct (handle_at K h L t a u H G E Qa) as [Na [o [l [Go [Eo [T [Rs [Rd S]]]]]]]].
    destruct (handle_at K h L t b v H G E Qb) as [Nb [o' [l' [Go' [Eo' [T' [Rs' [Rd' S']]]]]]]]. rewrite Rs. cbn [bind]. rewrite Rs'. cbn [bind].
    destruct (copy_assign_ok K h L [] a b o o' l l' H Go T S Go' T' S') as [h1 [w [E1 [H1 [Ew Sw]]]]]. rewrite E1. cbn [bind].
    exists h1. split; [reflexivity|]. rewrite <- Eo', <- Ew. exact (put_inv K h1 L t a o w H1 G E Na Go Sw).
  - (* OMove *)
    destruct (handle a t) as [u|] eqn:Qa; [|discriminate]. destruct (handle b t) as [v|] eqn:Qb; [|discriminate].
    destruct (handle_at K h L t a u H G E Qa) as [Na [o [l [Go [Eo [T [Rs [Rd S]]]]]]]].
    destruct (handle_at K h L t b v H G E Qb) as [Nb [o' [l' [Go' [Eo' [T' [Rs' [Rd' S']]]]]]]]. rewrite Rs. cbn [bind]. rewrite Rs'. cbn [bind].
    destruct (same a b) eqn:Sm.
    + apply same_eq in Sm. subst b. injection V as <- <-. rewrite T in T'. injection T' as <-. unfold move_assign. rewrite loc_eqb_refl.
      cbn [bind]. exists h. split; [reflexivity|]. exists L. auto.
    + destruct (apart a b) eqn:A; [|discriminate]. injection V as <- <-.
      destruct (move_assign_ok K h L [] a b o o' l l' H Go T S Go' T' S' A) as [h1 [E1 H1]]. rewrite E1. cbn [bind].
      exists h1. split; [reflexivity|]. rewrite <- Eo'. exact (put2_inv K h1 L t a b o o' o' Null H1 G E Na Nb A Go Go' S' I).
  - (* OSwap *)
    destruct (handle a t) as [u|] eqn:Qa; [|discriminate]. destruct (handle b t) as [v|] eqn:Qb; [|discriminate].
    destruct (handle_at K h L t a u H G E Qa) as [Na [o [l [Go [Eo [T [Rs [Rd S]]]]]]]].
    destruct (handle_at K h L t b v H G E Qb) as [Nb [o' [l' [Go' [Eo' [T' [Rs' [Rd' S']]]]]]]]. rewrite Rs. cbn [bind]. rewrite Rs'. cbn [bind].
    destruct (same a b) eqn:Sm.
    + apply same_eq in Sm. subst b. injection V as <- <-. rewrite T in T'. injection T' as <-. unfold swap. rewrite loc_eqb_refl.
      cbn [bind]. exists h. split; [reflexivity|]. exists L. auto.
    + destruct (apart a b) eqn:A; [|discriminate]. injection V as <- <-.
      destruct (swap_ok h L [] a b o o' l l' H Go T Go' T' A) as [h1 [E1 H1]]. rewrite E1. cbn [bind].
      exists h1. split; [reflexivity|]. rewrite <- Eo, <- Eo'. exact (put2_inv K h1 L t a b o o' o' o H1 G E Na Nb A Go Go' S' S).
  - (* OTake *)
    destruct (handle a t) as [u|] eqn:Qa; [|discriminate]. destruct (handle b t) as [[[e vs]|]|] eqn:Qb; try discriminate.
    destruct (handle_at K h L t a u H G E Qa) as [Na [o [l [Go [Eo [T [Rs [Rd S]]]]]]]].
    destruct (handle_at K h L t b _ H G E Qb) as [Nb [o' [l' [Go' [Eo' [T' [Rs' [Rd' S']]]]]]]]. rewrite Rs. cbn [bind]. rewrite Rs'. cbn [bind].
    rewrite Rd'. cbn [bind]. destruct o' as [|q|q e' js]; try discriminate. cbn in Eo'. injection Eo' as -> <-. cbn [rootp].
    destruct (same a b) eqn:Sm.
    + apply same_eq in Sm. subst b. injection V as <- <-. rewrite T in T'. injection T' as <-. rewrite Go in Go'. injection Go' as ->.
      unfold take. rewrite Rd. cbn [bind rootp]. unfold assignT.
      rewrite (R_deref h _ q (mk_node e (map rootp js)) H) by (apply in_or_app; left; apply (lget_incl _ _ _ Go); left; reflexivity).
      cbn [bind nd_data]. destruct (wr_data_ok h L [] a l q e js e H Go T) as [h1 [E1 H1]]. rewrite E1. cbn [bind].
      rewrite (lput_same _ _ _ Go) in H1.
      assert (SL : forall n k, assign_kids move_assign h1 q q k n = Ok h1).
      { induction n as [|n IHn]; intros k; cbn [assign_kids]; [reflexivity|]. unfold move_assign at 1. rewrite loc_eqb_refl. cbn [bind]. apply IHn. }
      rewrite SL. cbn [bind]. exists h1. split; [reflexivity|]. exists L. auto.
    + destruct (apart a b) eqn:A; [|discriminate]. injection V as <- <-.
      destruct (take_ok K h L [] a b l l' o q e js H A Go T S Go' T' S') as [h1 [p' [E1 H1]]]. rewrite E1. cbn [bind].
      exists h1. split; [reflexivity|].
      replace (Some (Node e (map erase js))) with (erase (Own p' e js)) by reflexivity.
      replace (Some (Node e (map (fun _ => None) (map erase js)))) with (erase (Own q e (map (fun _ => Null) js))) by (cbn; rewrite nulls_erase; reflexivity).
      apply (put2_inv K h1 L t a b o _ _ _ H1 G E Na Nb A Go Go').
      * apply shape_own. apply shape_own in S'. exact S'.
      * apply nulls_shape. exact S'.
  - (* OAssign *)
    destruct (handle a t) as [u|] eqn:Qa; [|discriminate]. destruct (handle b t) as [v|] eqn:Qb; [|discriminate].
    destruct (handle_at K h L t a u H G E Qa) as [Na [o [l [Go [Eo [T [Rs [Rd S]]]]]]]].
    destruct (handle_at K h L t b v H G E Qb) as [Nb [o' [l' [Go' [Eo' [T' [Rs' [Rd' S']]]]]]]]. rewrite Rs. cbn [bind]. rewrite Rs'. cbn [bind].
    destruct (same a b) eqn:Sm.
    + apply same_eq in Sm. subst b. injection V as <- <-. rewrite T in T'. injection T' as <-. unfold assign_indirect. rewrite loc_eqb_refl.
      cbn [bind]. exists h. split; [reflexivity|]. exists L. auto.
    + destruct v as [x|]; [|discriminate]. destruct (apart a b) eqn:A; [|discriminate]. injection V as <- <-.
      destruct (assign_indirect_ok K h L [] a b l l' o o' H A Go T S Go' T' S') as [h1 [w [E1 [H1 [Ew Sw]]]]].
      { intros ->. discriminate. }
      rewrite E1. cbn [bind]. exists h1. split; [reflexivity|]. rewrite <- Eo', <- Ew. exact (put_inv K h1 L t a o w H1 G E Na Go Sw).
  - (* OSet *)
    destruct (handle a t) as [[[e vs]|]|] eqn:Q; try discriminate. injection V as <- <-.
    destruct (handle_at K h L t a _ H G E Q) as [N [o [l [Go [Eo [T [Rs [Rd S]]]]]]]]. rewrite Rs. cbn [bind]. rewrite Rd. cbn [bind].
    destruct o as [|q|q e' js]; try discriminate. cbn in Eo. injection Eo as -> <-. cbn [rootp].
    destruct (wr_data_ok h L [] a l q e js d H Go T) as [h1 [E1 H1]]. rewrite E1. cbn [bind]. exists h1. split; [reflexivity|].
    replace (Some (Node d (map erase js))) with (erase (Own q d js)) by reflexivity.
    apply (put_inv K h1 L t a _ _ H1 G E N Go). apply shape_own. apply shape_own in S. exact S.
  - (* OHas *)
    destruct (handle a t) as [v|] eqn:Q; [|discriminate]. injection V as <- <-.
    destruct (handle_at K h L t a v H G E Q) as [N [o [l [Go [Eo [T [Rs [Rd S]]]]]]]]. rewrite Rs. cbn [bind]. rewrite Rd. cbn [bind].
    exists h. split; [|exists L; auto]. destruct o as [|q|q e js]; [subst v; reflexivity|destruct S|subst v; reflexivity].
  - (* OValue *)
    destruct (handle a t) as [v|] eqn:Q; [|discriminate].
    destruct (handle_at K h L t a v H G E Q) as [N [o [l [Go [Eo [T [Rs [Rd S]]]]]]]]. rewrite Rs. cbn [bind]. rewrite Rd. cbn [bind].
    destruct o as [|q|q e js]; [|destruct S|]; cbn in Eo; subst v; cbn in V; injection V as <- <-; cbn [rootp].
    + exists h. split; [reflexivity|]. exists L. auto.
    + rewrite (R_deref h _ q (mk_node e (map rootp js)) H) by (apply in_or_app; left; apply (lget_incl _ _ _ Go); left; reflexivity).
      cbn [bind nd_data]. exists h. split; [reflexivity|]. exists L. auto.
  - (* OEq *)
    destruct (handle a t) as [u|] eqn:Qa; [|discriminate]. destruct (handle b t) as [v|] eqn:Qb; [|discriminate]. injection V as <- <-.
    destruct (handle_at K h L t a u H G E Qa) as [Na [o [l [Go [Eo [T [Rs [Rd S]]]]]]]].
    destruct (handle_at K h L t b v H G E Qb) as [Nb [o' [l' [Go' [Eo' [T' [Rs' [Rd' S']]]]]]]]. rewrite Rs. cbn [bind]. rewrite Rs'. cbn [bind].
    rewrite Rd. cbn [bind]. rewrite Rd'. cbn [bind].
    rewrite (eq_ok K o o' h (nodes L ++ []) (fuel_of h) S S' H).
    + cbn [bind]. rewrite Eo, Eo'. exists h. split; [reflexivity|]. exists L. auto.
    + intros x Ix. apply in_or_app. left. exact (lget_incl _ _ _ Go x Ix).
    + intros x Ix. apply in_or_app. left. exact (lget_incl _ _ _ Go' x Ix).
    + destruct (decomp _ _ _ _ Go T) as [d0 [rs [C [P _]]]]. apply Permutation_length in P. cbn in P. rewrite app_length in P.
      apply R_length in H. rewrite app_length in H. unfold fuel_of. cbn in H. lia.
Qed.

Lemma run_ok : forall K p h t t' s, Inv K h t -> vrun K p t = Some (t', s) ->
  exists h', run K p h = Ok (h', s) /\ Inv K h' t'.
Proof.
  intros K. induction p as [|o p IH]; intros h t t' s H V; cbn in *.
  - injection V as <- <-. exists h. auto.
  - destruct (vstep K o t) as [[t1 s1]|] eqn:Q; [|discriminate]. destruct (vrun K p t1) as [[t2 s2]|] eqn:Q2; [|discriminate].
    injection V as <- <-. destruct (step_ok _ _ _ _ _ _ H Q) as [h1 [E1 H1]]. rewrite E1. cbn [bind fst snd].
    destruct (IH _ _ _ _ H1 Q2) as [h2 [E2 H2]]. rewrite E2. cbn [bind fst snd]. exists h2. auto.
Qed.

Lemma start_inv : forall K, Inv K start (Node 0 []).
Proof.
  intros K. exists (Own 0 0 []). split; [|split; [split; [reflexivity|constructor]|reflexivity]].
  unfold start. cbn. split; [|constructor; [intros []|constructor]].
  intros [|p] n; cbn.
  - split; [intros Q; left; congruence|intros [Q|[]]; congruence].
  - split; [destruct p; discriminate|intros [Q|[]]; congruence].
Qed.

(* ---- how much memory ---- *)
Definition is_live (b : option node) : bool := match b with Some _ => true | None => false end.
Fixpoint live_at (i : nat) (h : heap) : list nat :=
  match h with [] => [] | Some _ :: r => i :: live_at (S i) r | None :: r => live_at (S i) r end.
Lemma live_at_length : forall h i, length (live_at i h) = length (filter is_live h).
Proof. induction h as [|[n|] h IH]; intros i; cbn; auto. Qed.
Lemma live_at_in : forall h i p, In p (live_at i h) <-> i <= p /\ exists n, nth_error h (p - i) = Some (Some n).
Proof.
  induction h as [|b h IH]; intros i p.
  - cbn. split; [intros []|]. intros [_ [n Q]]. destruct (p - i); discriminate.
  - assert (C : forall n, i < p -> (nth_error (b :: h) (p - i) = Some (Some n) <-> nth_error h (p - S i) = Some (Some n))).
    { intros n Lt. replace (p - i) with (S (p - S i)) by lia. cbn. reflexivity. }
    destruct b as [n|]; cbn [live_at].
    + split.
      * intros [<-|J]; [split; [lia|]; rewrite Nat.sub_diag; eexists; reflexivity|].
        apply IH in J. destruct J as [Le [m Q]]. split; [lia|]. exists m. apply C; [lia|exact Q].
      * intros [Le [m Q]]. destruct (Nat.eq_dec i p) as [->|D]; [left; reflexivity|]. right. apply IH.
        split; [lia|]. exists m. apply C; [lia|exact Q].
    + split.
      * intros J. apply IH in J. destruct J as [Le [m Q]]. split; [lia|]. exists m. apply C; [lia|exact Q].
      * intros [Le [m Q]]. destruct (Nat.eq_dec i p) as [->|D]; [rewrite Nat.sub_diag in Q; discriminate|]. apply IH.
        split; [lia|]. exists m. apply C; [lia|exact Q].
Qed.
Lemma live_at_nodup : forall h i, NoDup (live_at i h).
Proof.
  induction h as [|[n|] h IH]; intros i; cbn; [constructor| |apply IH]. constructor; [|apply IH].
  intros J. apply live_at_in in J. lia.
Qed.
Lemma R_live : forall h X, R h X -> live h = length X.
Proof.
  intros h X [A N]. change (live h) with (length (filter is_live h)). rewrite <- (live_at_length h 0), <- (map_length fst X).
  assert (S : forall p, In p (live_at 0 h) <-> In p (map fst X)).
  { intros p. rewrite live_at_in, Nat.sub_0_r. split.
    - intros [_ [n Q]]. apply A in Q. apply (in_map fst) in Q. exact Q.
    - intros J. apply in_map_iff in J. destruct J as [[q n] [Q J]]. cbn in Q. subst q. apply A in J. split; [lia|]. eauto. }
  apply Nat.le_antisymm; apply NoDup_incl_length; auto using live_at_nodup; intros p J; apply S; exact J.
Qed.
Lemma size_nodes : forall K l, shape K l -> length (nodes l) = match erase l with Some t => size t | None => 0 end.
Proof.
  intros K. induction l as [|p|p d ks IH] using link_ind'; intros S; [reflexivity|destruct S|].
  apply shape_own in S. destruct S as [_ S]. cbn [nodes length erase size]. f_equal.
  induction ks as [|k ks IHk]; [reflexivity|]. inversion IH; subst. inversion S; subst. cbn [flat_map map]. rewrite app_length.
  rewrite IHk by assumption. rewrite H1 by assumption. destruct (erase k); reflexivity.
Qed.
Lemma inv_live : forall K h t, Inv K h t -> live h = size t.
Proof.
  intros K h t [L [H [G E]]]. rewrite (R_live _ _ H), app_nil_r. destruct L as [| |p d ks]; try discriminate.
  destruct G as [-> G]. cbn in E. injection E as <-. cbn [nodes length size]. f_equal.
  induction ks as [|k ks IHk]; [reflexivity|]. inversion G; subst. cbn [flat_map map]. rewrite app_length.
  rewrite (size_nodes K) by assumption. clear H.
  assert (Q : forall ks, Forall (shape K) ks -> length (flat_map nodes ks) =
     (fix go (ks0 : list (option tree)) : nat := match ks0 with [] => 0 | Some u :: r => size u + go r | None :: r => go r end) (map erase ks)).
  { clear. induction ks as [|k ks IH]; intros S; [reflexivity|]. inversion S; subst. cbn [flat_map map]. rewrite app_length, IH by assumption.
    rewrite (size_nodes K) by assumption. destruct (erase k); reflexivity. }
  rewrite Q by assumption. destruct (erase k); reflexivity.
Qed.

Lemma node_eqb_true : forall t u, node_eqb t u = true <-> t = u.
Proof.
  assert (I : forall n t u, size t <= n -> (node_eqb t u = true <-> t = u)).
  { induction n as [|n IH]; intros [d ks] [e js] F; [cbn in F; lia|]. rewrite node_eqb_eq, andb_true_iff, Z.eqb_eq.
    cbn [size] in F. apply le_S_n in F.
    assert (Q : trees_eqb ks js = true <-> ks = js).
    { revert js F. induction ks as [|k ks IHk]; intros [|j js] F; cbn [trees_eqb]; [split; reflexivity|split; discriminate|split; discriminate|].
      rewrite andb_true_iff. destruct k as [k|].
      - destruct j as [j|]; [|cbn [tree_eqb]; split; [intros [X _]; discriminate|intros X; discriminate]].
        cbn [tree_eqb]. rewrite IH by lia. rewrite IHk by lia. split; [intros [-> ->]; reflexivity|intros X; injection X; auto].
      - destruct j as [j|]; [cbn [tree_eqb]; split; [intros [X _]; discriminate|intros X; discriminate]|].
        cbn [tree_eqb]. rewrite IHk by lia. split; [intros [_ ->]; reflexivity|intros X; injection X; auto]. }
    rewrite Q. split; [intros [-> ->]; reflexivity|intros X; injection X; auto]. }
  intros t u. apply (I (size t)). lia.
Qed.
Lemma tree_eqb_true : forall t u, tree_eqb t u = true <-> t = u.
Proof.
  intros [t|] [u|]; cbn; try (split; [discriminate|intros X; discriminate]); [|split; reflexivity].
  rewrite node_eqb_true. split; [intros ->; reflexivity|intros X; injection X; auto].
Qed.

Lemma values : forall K p t out, vrun K p (Node 0 []) = Some (t, out) ->
  exists h, run K p start = Ok (h, out) /\ live h = size t.
Proof.
  intros K p t out V. destruct (run_ok K p start _ _ _ (start_inv K) V) as [h [E H]].
  exists h. split; [exact E|]. exact (inv_live _ _ _ H).
Qed.
