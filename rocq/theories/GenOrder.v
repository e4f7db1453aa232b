(** The ordering of the messages of one scope. *)
Require Import List Arith Bool Lia Permutation.
Require Import Verif.Archive Verif.Gen Verif.GenSpec Verif.GenBase.
Import ListNotations.
Local Open Scope nat_scope.

Lemma bind_Ok {A B} (r : res A) (k : A -> res B) y : bind r k = Ok y -> exists x, r = Ok x /\ k x = Ok y.
Proof. destruct r; cbn; try discriminate. intros H. exists x. split; [reflexivity | exact H]. Qed.

Section Pool.
Variable P : pool.

(** ** Sorting *)
Lemma by_name_perm x l : Permutation (by_name P x l) (x :: l).
Proof.
  induction l as [|y l IH]; cbn [by_name]; [apply Permutation_refl|]. destruct (name P x <? name P y); [apply Permutation_refl|].
  eapply perm_trans; [apply perm_skip; exact IH | apply perm_swap].
Qed.
Lemma sort_perm l : Permutation (sort_names P l) l.
Proof.
  induction l as [|x l IH]; cbn [sort_names fold_right]; [apply Permutation_refl|]. fold (sort_names P l).
  eapply perm_trans; [apply by_name_perm | apply perm_skip; exact IH].
Qed.
Lemma last_In (l : list nat) : l <> [] -> In (last l 0) l.
Proof.
  intros N. rewrite (app_removelast_last 0 N) at 2. apply in_or_app. right. left. reflexivity.
Qed.
Lemma last_sorted_In l : l <> [] -> In (last (sort_names P l) 0) l.
Proof.
  intros N. apply (Permutation_in _ (sort_perm l)). apply last_In. intros C. apply N.
  apply Permutation_nil. rewrite <- C. apply sort_perm.
Qed.

(** ** Breaking cycles keeps dependencies apart from the released message *)
Lemma mark_deps fs st : deps (mark fs st) = deps st. Proof. reflexivity. Qed.
Lemma mark_fwd fs st : fwd (mark fs st) = fwd st. Proof. reflexivity. Qed.
Lemma mark_mono fs st f : recs st f = true -> recs (mark fs st) f = true.
Proof. intros H. cbn. rewrite H. reflexivity. Qed.
Lemma mark_In fs st f : In f fs -> recs (mark fs st) f = true.
Proof. intros H. cbn. apply mem_In in H. rewrite H. apply orb_true_r. Qed.

(** what a search for a message to release may do *)
Definition quiet (st st1 : gst) := deps st1 = deps st /\ fwd st1 = fwd st /\ forall f, recs st f = true -> recs st1 f = true.
Lemma quiet_refl st : quiet st st. Proof. split; [reflexivity|]. split; [reflexivity|]. intros f H. exact H. Qed.
Lemma quiet_trans a b c : quiet a b -> quiet b c -> quiet a c.
Proof.
  intros [A1 [A2 A3]] [B1 [B2 B3]]. split; [congruence|]. split; [congruence|]. intros f H. apply B3, A3, H.
Qed.
Lemma quiet_mark fs st : quiet st (mark fs st).
Proof. split; [reflexivity|]. split; [reflexivity|]. apply mark_mono. Qed.

(** the state after a search that found [m] for [d]: [st1] with the dependency released *)
Definition found (unres : list nat) (st : gst) (m : nat) (st2 : gst) :=
  exists d st1, quiet st st1 /\ st2 = release m d st1 /\ In d unres /\ In m unres /\
    ((exists f, f < nflds P /\ f_msg (fget P f) = Some m /\ f_type (fget P f) = TMsg d /\ f_rep (fget P f) = true /\
      forall g, g < nflds P -> f_msg (fget P g) = Some m -> f_type (fget P g) = TMsg d -> fileof P m = fileof P d -> f_rep (fget P g) = true) \/
     (exists e f, f < nflds P /\ e < nmsgs P /\ entry P e = true /\ parent P e = Some m /\ f_msg (fget P f) = Some e /\ f_type (fget P f) = TMsg d /\
      forall g, g < nflds P -> f_msg (fget P g) = Some m -> f_type (fget P g) = TMsg d -> fileof P m = fileof P d -> recs st1 g = true)).

Lemma users_In ok d f : In f (users P ok d) <->
  f < nflds P /\ f_type (fget P f) = TMsg d /\ exists m, f_msg (fget P f) = Some m /\ fileof P m = fileof P d /\ ok m = true.
Proof.
  unfold users. rewrite filter_In, used_by_In. split.
  - intros [[A B] C]. split; [exact A|]. split; [exact B|]. destruct (f_msg (fget P f)) as [m|]; [|discriminate].
    apply andb_true_iff in C as [C1 C2]. apply Nat.eqb_eq in C1. exists m. split; [reflexivity|]. split; assumption.
  - intros [A [B [m [C [D E]]]]]. split; [split; assumption|]. rewrite C, D, Nat.eqb_refl, E. reflexivity.
Qed.
Lemma parent_is_spec f m : parent_is P f m = true <-> f_msg (fget P f) = Some m.
Proof.
  unfold parent_is. destruct (f_msg (fget P f)) as [p|]; [|split; discriminate]. rewrite Nat.eqb_eq. split; congruence.
Qed.

(** the marks of a search *)
Definition marked (unres : list nat) (d : nat) (st : gst) :=
  forall f m, f < nflds P -> f_msg (fget P f) = Some m -> In m unres -> f_type (fget P f) = TMsg d -> fileof P m = fileof P d -> recs st f = true.

Lemma resolve_repeated_ok unres d st : In d unres -> null_user P d = false ->
  exists w st1, resolve_repeated P unres d st = Ok (w, st1) /\
    match w with
    | Some m => found unres st m st1
    | None => quiet st st1 /\ marked unres d st1
    end.
Proof.
  intros Hd Hn. unfold resolve_repeated. rewrite Hn. set (us := users P (fun m => mem m unres) d).
  destruct (find _ _) as [m|] eqn:F.
  - eexists. eexists. split; [reflexivity|]. apply find_some in F as [Hin H]. apply andb_true_iff in H as [H En].
    apply andb_true_iff in H as [H1 H2]. apply existsb_exists in H1 as [f [Hf Hp]]. apply parent_is_spec in Hp.
    pose proof (proj1 (users_In _ _ _) Hf) as [A [B [m' [C [D E]]]]]. assert (m' = m) by congruence. subst m'. apply mem_In in E.
    exists d, (mark us st). split; [apply quiet_mark|]. split; [reflexivity|]. split; [exact Hd|]. split; [exact E|]. left. exists f.
    assert (R : forall g, In g us -> f_msg (fget P g) = Some m -> f_rep (fget P g) = true).
    { intros g Hg Hgm. rewrite forallb_forall in H2. specialize (H2 g Hg). cbv beta in H2. apply parent_is_spec in Hgm. rewrite Hgm in H2. exact H2. }
    split; [exact A|]. split; [exact C|]. split; [exact B|]. split; [apply R; assumption|].
    intros g G1 G2 G3 G4. apply R; [|exact G2]. apply users_In. split; [exact G1|]. split; [exact G3|]. exists m. split; [exact G2|]. split; [exact G4|].
    apply mem_In. exact E.
  - eexists. eexists. split; [reflexivity|]. split; [apply quiet_mark|]. intros f m A B C D E. apply mark_In. apply users_In.
    split; [exact A|]. split; [exact D|]. exists m. split; [exact B|]. split; [exact E|]. apply mem_In. exact C.
Qed.

Lemma resolve_map_ok unres d st : In d unres -> null_user P d = false ->
  exists w st1, resolve_map P unres d st = Ok (w, st1) /\
    match w with
    | Some m => found unres st m st1
    | None => quiet st st1
    end.
Proof.
  intros Hd Hn. unfold resolve_map. rewrite Hn. set (us := users P (fun m => mem m unres || entry P m) d).
  destruct (find _ _) as [e|] eqn:F.
  - apply find_some in F as [Hin H]. apply andb_true_iff in H as [H Ho]. apply in_seq in Hin.
    apply andb_true_iff in H as [H1 H2]. apply existsb_exists in H1 as [f [Hf Hp]]. apply parent_is_spec in Hp.
    destruct (parent P e) as [o|] eqn:Po; [|discriminate]. apply mem_In in Ho.
    eexists. eexists. split; [reflexivity|]. pose proof (proj1 (users_In _ _ _) Hf) as [A [B _]].
    exists d, (mark us st). split; [apply quiet_mark|]. split; [reflexivity|]. split; [exact Hd|]. split; [exact Ho|]. right. exists e, f.
    split; [exact A|]. split; [lia|]. split; [exact H2|]. split; [exact Po|]. split; [exact Hp|]. split; [exact B|].
    intros g G1 G2 G3 G4. apply mark_In. apply users_In. split; [exact G1|]. split; [exact G3|]. exists o. split; [exact G2|]. split; [exact G4|].
    apply orb_true_iff. left. apply mem_In. exact Ho.
  - eexists. eexists. split; [reflexivity|]. apply quiet_mark.
Qed.

Lemma found_quiet unres st st1 m st2 : quiet st st1 -> found unres st1 m st2 -> found unres st m st2.
Proof.
  intros Q [d [st1' [Q' H]]]. exists d, st1'. split; [eapply quiet_trans; eassumption | exact H].
Qed.
Lemma marked_quiet unres d st st1 : quiet st st1 -> marked unres d st -> marked unres d st1.
Proof. intros [_ [_ Q]] M f m A B C D E. apply Q. eapply M; eassumption. Qed.

Lemma resolve_container_ok unres st : (forall d, In d unres -> null_user P d = false) ->
  exists w st1, resolve_container P unres st = Ok (w, st1) /\
    match w with
    | Some m => found unres st m st1
    | None => quiet st st1 /\ forall d, In d unres -> marked unres d st1
    end.
Proof.
  intros Hn.
  assert (A : forall ds st, incl ds unres -> exists w st1, first_of (resolve_repeated P unres) ds st = Ok (w, st1) /\
    match w with Some m => found unres st m st1 | None => quiet st st1 /\ forall d, In d ds -> marked unres d st1 end).
  { induction ds as [|d ds IH]; intros s Hi; cbn [first_of].
    - exists None, s. split; [reflexivity|]. split; [apply quiet_refl | intros d []].
    - destruct (resolve_repeated_ok unres d s) as [w [s1 [E H]]]; [apply Hi; left; reflexivity | apply Hn, Hi; left; reflexivity|].
      rewrite E. cbn [bind]. destruct w as [m|].
      + exists (Some m), s1. split; [reflexivity | exact H].
      + destruct H as [Q M]. destruct (IH s1) as [w [s2 [E2 H2]]]; [intros x Hx; apply Hi; right; exact Hx|]. exists w, s2. split; [exact E2|].
        destruct w as [m|]; [eapply found_quiet; eassumption|]. destruct H2 as [Q2 M2]. split; [eapply quiet_trans; eassumption|].
        intros x [<-|Hx]; [eapply marked_quiet; eassumption | apply M2; exact Hx]. }
  assert (B : forall ds st, incl ds unres -> exists w st1, first_of (resolve_map P unres) ds st = Ok (w, st1) /\
    match w with Some m => found unres st m st1 | None => quiet st st1 end).
  { induction ds as [|d ds IH]; intros s Hi; cbn [first_of].
    - exists None, s. split; [reflexivity | apply quiet_refl].
    - destruct (resolve_map_ok unres d s) as [w [s1 [E H]]]; [apply Hi; left; reflexivity | apply Hn, Hi; left; reflexivity|].
      rewrite E. cbn [bind]. destruct w as [m|].
      + exists (Some m), s1. split; [reflexivity | exact H].
      + destruct (IH s1) as [w [s2 [E2 H2]]]; [intros x Hx; apply Hi; right; exact Hx|]. exists w, s2. split; [exact E2|].
        destruct w as [m|]; [eapply found_quiet; eassumption | eapply quiet_trans; eassumption]. }
  unfold resolve_container. destruct (A unres st (incl_refl _)) as [w [s1 [E H]]]. rewrite E. cbn [bind]. destruct w as [m|].
  - exists (Some m), s1. split; [reflexivity | exact H].
  - destruct H as [Q M]. destruct (B unres s1 (incl_refl _)) as [w [s2 [E2 H2]]]. exists w, s2. split; [exact E2|].
    destruct w as [m|]; [eapply found_quiet; eassumption|]. split; [eapply quiet_trans; eassumption|].
    intros d Hd. eapply marked_quiet; [exact H2 | apply M; exact Hd].
Qed.

(** ** One pass *)
Lemma pass_app D r a b : pass D r (a ++ b) =
  let '(r1, k1) := pass D r b in let '(r2, k2) := pass D r1 a in (r2, k2 ++ k1).
Proof.
  unfold pass. rewrite fold_right_app.
  destruct (fold_right _ (r, []) b) as [r1 k1]. clear r b. revert k1. induction a as [|m a IH]; intros k1; cbn [fold_right].
  - reflexivity.
  - rewrite IH. destruct (fold_right _ (r1, []) a) as [r2 k2]. destruct (subset (D m) r2); reflexivity.
Qed.

(** a property kept by moving one ready message is kept by a pass *)
Lemma pass_inv (I : list nat -> list nat -> Prop) D :
  (forall r a m b, I r (a ++ m :: b) -> subset (D m) r = true -> I (r ++ [m]) (a ++ b)) ->
  forall u r, I r u -> let '(r1, k) := pass D r u in I r1 k.
Proof.
  intros Hstep u r H.
  assert (G : forall a b, I r (a ++ b) -> let '(r1, k) := pass D r b in I r1 (a ++ k)).
  { intros a b. revert a. induction b as [|m b IH]; intros a Hab; cbn [pass fold_right].
    - exact Hab.
    - fold (pass D r b). specialize (IH (a ++ [m])). rewrite <- app_assoc in IH. specialize (IH Hab).
      destruct (pass D r b) as [r1 k]. rewrite <- app_assoc in IH. cbn [app] in IH. destruct (subset (D m) r1) eqn:Sb.
      + apply Hstep; assumption.
      + exact IH. }
  apply (G [] u H).
Qed.
Lemma pass_length D r u : let '(r1, k) := pass D r u in length r1 + length k = length r + length u.
Proof.
  pose proof (pass_inv (fun a b => length a + length b = length r + length u) D) as H.
  apply H; [|reflexivity]. intros a b m c E _. rewrite !app_length in *. cbn [length] in *. lia.
Qed.
Lemma pass_stalled D r u r1 k : pass D r u = (r1, k) -> length u <= length k ->
  r1 = r /\ k = u /\ forall m, In m u -> subset (D m) r = false.
Proof.
  revert r1 k. induction u as [|m u IH]; intros r1 k; cbn [pass fold_right].
  - intros H _. injection H as <- <-. split; [reflexivity|]. split; [reflexivity | intros m []].
  - fold (pass D r u). pose proof (pass_length D r u) as L. destruct (pass D r u) as [r2 k2] eqn:E.
    assert (Lk : length k2 <= length u).
    { clear -E. revert r2 k2 E. induction u as [|x u IH]; intros r2 k2; cbn [pass fold_right].
      - intros H. injection H as <- <-. lia.
      - fold (pass D r u). destruct (pass D r u) as [r3 k3]. specialize (IH r3 k3 eq_refl). destruct (subset (D x) r3); intros H; injection H as <- <-; cbn [length]; lia. }
    destruct (subset (D m) r2) eqn:Sb; intros H; injection H as <- <-; cbn [length]; intros Le; [lia|].
    destruct (IH r2 k2 eq_refl) as [-> [-> St]]; [lia|]. split; [reflexivity|]. split; [reflexivity|].
    intros x [<-|Hx]; [exact Sb | apply St; exact Hx].
Qed.

(** ** The loop keeps what its three steps keep *)
Definition stalled (r u : list nat) (st : gst) := forall m, In m u -> subset (deps st m) r = false.

Lemma loop_inv (I : list nat -> list nat -> gst -> Prop) :
  (forall r a m b st, I r (a ++ m :: b) st -> subset (deps st m) r = true -> I (r ++ [m]) (a ++ b) st) ->
  (forall r u st m st1, I r u st -> stalled r u st -> resolve_container P u st = Ok (Some m, st1) -> I (r ++ [m]) (del m u) st1) ->
  (forall r u st st1 st2, I r u st -> u <> [] -> stalled r u st -> resolve_container P u st = Ok (None, st1) ->
     resolve_dependency_cycle P (last (sort_names P u) 0) st1 = Ok st2 -> I r (sort_names P u) st2) ->
  forall fuel r u st order st', I r u st -> order_loop P fuel r u st = Ok (order, st') -> I order [] st'.
Proof.
  intros Hpush Hcont Hcyc. induction fuel as [|k IH]; intros r u st order st' H; cbn [order_loop]; [discriminate|].
  destruct u as [|m0 u0]; [intros E; injection E as <- <-; exact H|]. set (u := m0 :: u0) in *.
  assert (Nu : u <> []) by discriminate. clearbody u.
  destruct (pass (deps st) r u) as [r1 keep] eqn:Pa. destruct (Nat.ltb_spec (length keep) (length u)) as [Lt|Ge].
  - apply IH. pose proof (pass_inv (fun a b => I a b st) (deps st)) as Q. specialize (Q (fun r a m b => Hpush r a m b st) u r H). rewrite Pa in Q. exact Q.
  - destruct (pass_stalled _ _ _ _ _ Pa Ge) as [-> [-> St]]. intros E. apply bind_Ok in E as [[w st1] [E1 E2]]. destruct w as [m|].
    + eapply IH; [|exact E2]. eapply Hcont; eassumption.
    + apply bind_Ok in E2 as [st2 [E2 E3]]. eapply IH; [|exact E3]. eapply Hcyc; eassumption.
Qed.

(** ** The loop ends *)
Definition weight (D : nat -> list nat) (u : list nat) := sum (map (fun m => length (D m)) u).
Lemma weight_app D a b : weight D (a ++ b) = weight D a + weight D b.
Proof.
  induction a as [|x a IH]; [reflexivity|].
  change (length (D x) + weight D (a ++ b) = length (D x) + weight D a + weight D b). lia.
Qed.
Lemma weight_perm D a b : Permutation a b -> weight D a = weight D b.
Proof.
  intros H. induction H; [reflexivity| | |congruence].
  - change (length (D x) + weight D l = length (D x) + weight D l'). lia.
  - change (length (D y) + (length (D x) + weight D l) = length (D x) + (length (D y) + weight D l)). lia.
Qed.
Lemma weight_del D m u : weight D (del m u) <= weight D u.
Proof.
  induction u as [|x u IH]; [reflexivity|]. cbn [del filter]. fold (del m u).
  change (weight D (x :: u)) with (length (D x) + weight D u).
  destruct (negb (x =? m)); [change (weight D (x :: del m u)) with (length (D x) + weight D (del m u))|]; lia.
Qed.
Lemma weight_ext D D' u : (forall m, In m u -> length (D m) <= length (D' m)) -> weight D u <= weight D' u.
Proof.
  induction u as [|x u IH]; intros H; [apply Nat.le_refl|].
  change (length (D x) + weight D u <= length (D' x) + weight D' u).
  pose proof (H x (or_introl eq_refl)). specialize (IH (fun m Hm => H m (or_intror Hm))). lia.
Qed.
Lemma weight_less D D' u x : In x u -> (forall m, length (D m) <= length (D' m)) -> length (D x) < length (D' x) -> weight D u < weight D' u.
Proof.
  intros Hin Hle Hx. apply in_split in Hin as [a [b ->]]. rewrite !weight_app.
  change (weight D (x :: b)) with (length (D x) + weight D b). change (weight D' (x :: b)) with (length (D' x) + weight D' b).
  pose proof (weight_ext D D' a (fun m _ => Hle m)). pose proof (weight_ext D D' b (fun m _ => Hle m)). lia.
Qed.

Lemma loop_ends fuel r u st : (forall d, In d u -> null_user P d = false) -> length u + weight (deps st) u < fuel ->
  exists order st', order_loop P fuel r u st = Ok (order, st').
Proof.
  revert r u st. induction fuel as [|k IH]; intros r u st Hn Hf; [lia|]. cbn [order_loop].
  destruct u as [|m0 u0]; [eexists; eexists; reflexivity|]. set (u := m0 :: u0) in *. assert (Nu : u <> []) by discriminate. clearbody u.
  destruct (pass (deps st) r u) as [r1 keep] eqn:Pa. destruct (Nat.ltb_spec (length keep) (length u)) as [Lt|Ge].
  - pose proof (pass_inv (fun a b => incl b u /\ weight (deps st) b <= weight (deps st) u) (deps st)) as Q.
    assert (Q0 : forall r a m b, incl (a ++ m :: b) u /\ weight (deps st) (a ++ m :: b) <= weight (deps st) u -> subset (deps st m) r = true ->
      incl (a ++ b) u /\ weight (deps st) (a ++ b) <= weight (deps st) u).
    { intros r' a m b [H1 H2] _. split.
      - intros x Hx. apply H1. apply in_or_app. apply in_app_or in Hx as [Hx|Hx]; [left; exact Hx | right; right; exact Hx].
      - rewrite weight_app in *. change (weight (deps st) (m :: b)) with (length (deps st m) + weight (deps st) b) in H2. lia. }
    specialize (Q Q0 u r (conj (incl_refl u) (Nat.le_refl _))).
    rewrite Pa in Q. destruct Q as [Q1 Q2]. apply IH; [intros d Hd; apply Hn, Q1, Hd | lia].
  - destruct (pass_stalled _ _ _ _ _ Pa Ge) as [-> [-> St]].
    destruct (resolve_container_ok u st Hn) as [w [st1 [E H]]]. rewrite E. cbn [bind]. destruct w as [m|].
    + destruct H as [d [s1 [[Q1 _] [-> [_ [Hm _]]]]]]. apply IH.
      * intros x Hx. apply del_In in Hx as [Hx _]. apply Hn. exact Hx.
      * cbn [release deps]. pose proof (del_length m u Hm). rewrite Q1.
        assert (weight (upd (deps st) m (del d (deps st m))) (del m u) <= weight (deps st) (del m u)).
        { apply weight_ext. intros x _. unfold upd. destruct (x =? m) eqn:B; [apply Nat.eqb_eq in B; subst; apply del_le | lia]. }
        pose proof (weight_del (deps st) m u). lia.
    + destruct H as [[Q1 [Q2 Q3]] _]. set (x := last (sort_names P u) 0).
      assert (Hx : In x u) by (apply last_sorted_In; exact Nu). unfold resolve_dependency_cycle. rewrite Q1.
      destruct (deps st x) as [|d rest] eqn:Dx.
      * specialize (St x Hx). rewrite Dx in St. discriminate.
      * cbn [bind]. apply IH.
        -- intros y Hy. apply Hn. apply (Permutation_in _ (sort_perm u)). exact Hy.
        -- rewrite (Permutation_length (sort_perm u)), (weight_perm _ _ _ (sort_perm u)).
           cbn [mark_field_recursive mark release deps]. rewrite Q1.
           assert (weight (upd (deps st) x (del d (deps st x))) u < weight (deps st) u); [|lia].
           apply weight_less with (x := x); [exact Hx| |].
           ++ intros m. unfold upd. destruct (m =? x) eqn:B; [apply Nat.eqb_eq in B; subst; apply del_le | lia].
           ++ unfold upd. rewrite Nat.eqb_refl. apply del_length. rewrite Dx. left. reflexivity.
Qed.
End Pool.
