(** What the order of the messages of one scope guarantees. *)
Require Import List Arith Bool Lia Permutation.
Require Import Verif.Archive Verif.Gen Verif.GenSpec Verif.GenBase Verif.GenOrder.
Import ListNotations.
Local Open Scope nat_scope.

Lemma del_perm x l : NoDup l -> In x l -> Permutation (x :: del x l) l.
Proof.
  induction l as [|y l IH]; [intros _ []|]. intros N H. apply NoDup_cons_iff in N as [Ny N]. cbn [del filter]. fold (del x l).
  destruct (Nat.eqb_spec y x) as [->|M]; cbn [negb].
  - rewrite del_notIn by exact Ny. apply Permutation_refl.
  - destruct H as [H|H]; [congruence|]. eapply perm_trans; [apply perm_swap|]. apply perm_skip. apply IH; assumption.
Qed.
Lemma snoc_split {A} (l1 l2 r : list A) m x : r ++ [x] = l1 ++ m :: l2 ->
  (l2 = [] /\ l1 = r /\ m = x) \/ exists l2', l2 = l2' ++ [x] /\ r = l1 ++ m :: l2'.
Proof.
  intros H. destruct (@exists_last _ (m :: l2)) as [t [y E]]; [discriminate|]. rewrite E in H. rewrite app_assoc in H.
  apply app_inj_tail in H as [H1 H2]. subst y. destruct l2 as [|z l2].
  - left. destruct t as [|t0 [|]]; cbn in E; try discriminate; injection E as <-.
    split; [reflexivity|]. rewrite app_nil_r in H1. split; congruence.
  - right. destruct t as [|t0 t]; [discriminate|]. cbn in E. injection E as <- E. exists t. split; [exact E | exact H1].
Qed.

Section Pool.
Variable P : pool.
Variable view : list nat.
Hypothesis Hnull : forall d, In d view -> null_user P d = false.
Hypothesis Hdup : NoDup view.
Variable st0 : gst.

Let ready := filter (fun m => match deps st0 m with [] => true | _ => false end) view.
Let unres := filter (fun m => match deps st0 m with [] => false | _ => true end) view.

Lemma split_perm : Permutation (ready ++ unres) view.
Proof.
  unfold ready, unres. clear. induction view as [|m v IH]; [apply Permutation_refl|]. cbn [filter]. destruct (deps st0 m).
  - cbn [app]. apply perm_skip. exact IH.
  - eapply perm_trans; [apply Permutation_sym, Permutation_middle | apply perm_skip; exact IH].
Qed.

Lemma order_total : exists order st', order_messages P view st0 = Ok (order, st').
Proof.
  unfold order_messages. fold ready. fold unres. apply loop_ends.
  - intros d Hd. apply Hnull. unfold unres in Hd. apply filter_In in Hd as [Hd _]. exact Hd.
  - fold (weight (deps st0) unres). lia.
Qed.

Definition frame (r u : list nat) (st : gst) :=
  Permutation (r ++ u) view /\ (forall x, ~ In x view -> deps st x = deps st0 x /\ fwd st x = fwd st0 x) /\
  (forall f, recs st0 f = true -> recs st f = true).

Lemma frame_In r u st m : frame r u st -> In m (r ++ u) -> In m view.
Proof. intros [H _] Hm. exact (Permutation_in _ H Hm). Qed.
Lemma frame_NoDup r u st : frame r u st -> NoDup (r ++ u).
Proof. intros [H _]. exact (Permutation_NoDup (Permutation_sym H) Hdup). Qed.
Lemma frame_NoDup_u r u st : frame r u st -> NoDup u.
Proof.
  intros H. apply frame_NoDup in H. induction r as [|x r IH]; [exact H|]. apply IH.
  cbn [app] in H. apply NoDup_cons_iff in H as [_ H]. exact H.
Qed.
Lemma frame_apart r u st m : frame r u st -> In m r -> ~ In m u.
Proof.
  intros H Hr Hu. apply frame_NoDup in H. apply in_split in Hr as [a [b ->]]. rewrite <- app_assoc in H. cbn [app] in H.
  apply NoDup_remove_2 in H. apply H. apply in_or_app. right. apply in_or_app. right. exact Hu.
Qed.
Lemma frame_push r a m b st : frame r (a ++ m :: b) st -> frame (r ++ [m]) (a ++ b) st.
Proof.
  intros [H R]. split; [|exact R]. eapply perm_trans; [|exact H]. rewrite <- app_assoc. apply Permutation_app_head.
  cbn [app]. apply Permutation_middle.
Qed.
Lemma frame_null r u st d : frame r u st -> In d u -> null_user P d = false.
Proof. intros H Hd. apply Hnull. eapply frame_In; [exact H|]. apply in_or_app. right. exact Hd. Qed.

Lemma frame_release r u st st1 m d : frame r u st -> quiet st st1 -> In m view -> 
  (forall x, ~ In x view -> deps (release m d st1) x = deps st0 x /\ fwd (release m d st1) x = fwd st0 x) /\
  (forall f, recs st0 f = true -> recs (release m d st1) f = true).
Proof.
  intros [_ [H2 H3]] [Q1 [Q2 Q3]] Hm. split.
  - intros x Hx. cbn [release deps fwd]. unfold upd. destruct (Nat.eqb_spec x m) as [->|]; [contradiction|]. rewrite Q1, Q2. apply H2. exact Hx.
  - intros f Hf. cbn [release recs]. apply Q3, H3, Hf.
Qed.

Lemma frame_cont r u st m st1 : frame r u st -> resolve_container P u st = Ok (Some m, st1) ->
  found P u st m st1 /\ frame (r ++ [m]) (del m u) st1.
Proof.
  intros H E. destruct (resolve_container_ok P u st) as [w [s [E' F]]]; [intros d Hd; eapply frame_null; eassumption|].
  rewrite E' in E. injection E as -> ->. split; [exact F|]. destruct F as [d [s1 [Q [-> [Hd [Hm _]]]]]].
  assert (Hv : In m view) by (eapply frame_In; [exact H|]; apply in_or_app; right; exact Hm).
  split; [|eapply frame_release; eassumption]. eapply perm_trans; [|exact (proj1 H)]. rewrite <- app_assoc. apply Permutation_app_head.
  cbn [app]. apply del_perm; [eapply frame_NoDup_u; exact H | exact Hm].
Qed.

Lemma frame_cyc r u st st1 st2 : frame r u st -> u <> [] -> resolve_container P u st = Ok (None, st1) ->
  resolve_dependency_cycle P (last (sort_names P u) 0) st1 = Ok st2 ->
  quiet st st1 /\ (forall d, In d u -> marked P u d st1) /\ frame r (sort_names P u) st2 /\
  exists x d rest, In x u /\ deps st x = d :: rest /\ deps st2 = upd (deps st) x (del d (deps st x)) /\
    fwd st2 = upd (fwd st) x (insert d (fwd st x)) /\ forall f, recs st1 f = true -> recs st2 f = true.
Proof.
  intros H Nu E C. destruct (resolve_container_ok P u st) as [w [s [E' F]]]; [intros d Hd; eapply frame_null; eassumption|].
  rewrite E' in E. injection E as -> ->. destruct F as [Q M]. split; [exact Q|]. split; [exact M|].
  set (x := last (sort_names P u) 0) in *. assert (Hx : In x u) by (apply last_sorted_In; exact Nu).
  assert (Hv : In x view) by (eapply frame_In; [exact H|]; apply in_or_app; right; exact Hx).
  unfold resolve_dependency_cycle in C. destruct Q as [Q1 [Q2 Q3]]. rewrite Q1 in C. destruct (deps st x) as [|d rest] eqn:Dx; [discriminate|].
  assert (C' : st2 = mark_field_recursive P x d (release x d st1)) by congruence. subst st2. split.
  - destruct (frame_release r u st st1 x d H (conj Q1 (conj Q2 Q3)) Hv) as [R1 R2]. split; [|split].
    + eapply perm_trans; [|exact (proj1 H)]. apply Permutation_app_head. apply sort_perm.
    + exact R1.
    + intros f Hf. unfold mark_field_recursive. apply mark_mono. apply R2. exact Hf.
  - exists x, d, rest. split; [exact Hx|]. split; [exact Dx|]. split; [|split].
    + cbn [mark_field_recursive mark release deps]. rewrite Q1. reflexivity.
    + cbn [mark_field_recursive mark release fwd]. rewrite Q2. reflexivity.
    + intros f Hf. unfold mark_field_recursive. apply mark_mono. exact Hf.
Qed.

Lemma frame_start : frame ready unres st0.
Proof.
  split; [apply split_perm|]. split; [intros x _; split; reflexivity | intros f Hf; exact Hf].
Qed.

(** each message once; the descriptors of other messages are left alone *)
Theorem order_frame order st' : order_messages P view st0 = Ok (order, st') ->
  Permutation order view /\ (forall x, ~ In x view -> deps st' x = deps st0 x /\ fwd st' x = fwd st0 x) /\
  (forall f, recs st0 f = true -> recs st' f = true).
Proof.
  unfold order_messages. fold ready. fold unres. intros E.
  assert (H : frame order [] st').
  { eapply (loop_inv P frame); [| | | exact frame_start | exact E].
    - intros r a m b st H _. apply frame_push. exact H.
    - intros r u st m st1 H _ C. exact (proj2 (frame_cont r u st m st1 H C)).
    - intros r u st st1 st2 H Nu _ C1 C2. destruct (frame_cyc r u st st1 st2 H Nu C1 C2) as [_ [_ [G _]]]. exact G. }
  destruct H as [H R]. rewrite app_nil_r in H. split; assumption.
Qed.

(** ** When the dependencies can be ordered *)
Section Ordered.
Variable rank : nat -> nat.
Hypothesis Hrank : forall m d, In m view -> In d (deps st0 m) -> In d view /\ rank d < rank m.

Lemma least u : u <> [] -> exists m, In m u /\ forall x, In x u -> rank m <= rank x.
Proof.
  induction u as [|y u IH]; [congruence|]. intros _. destruct u as [|z u].
  - exists y. split; [left; reflexivity|]. intros x [->|[]]. lia.
  - destruct IH as [m [Hm Hl]]; [discriminate|]. destruct (le_lt_dec (rank y) (rank m)).
    + exists y. split; [left; reflexivity|]. intros x [->|Hx]; [lia|]. specialize (Hl x Hx). lia.
    + exists m. split; [right; exact Hm|]. intros x [->|Hx]; [lia | apply Hl; exact Hx].
Qed.

Lemma never_stalled r u : Permutation (r ++ u) view -> u <> [] -> ~ stalled r u st0.
Proof.
  intros Hp Nu Hs. destruct (least u Nu) as [m [Hm Hl]]. specialize (Hs m Hm). rewrite <- not_true_iff_false in Hs. apply Hs.
  apply subset_incl. intros d Hd. destruct (Hrank m d) as [Hv Hr]; [eapply Permutation_in; [exact Hp|]; apply in_or_app; right; exact Hm | exact Hd|].
  apply (Permutation_in _ (Permutation_sym Hp)) in Hv. apply in_app_or in Hv as [Hv|Hv]; [exact Hv|]. specialize (Hl d Hv). lia.
Qed.

Theorem order_ordered order st' : order_messages P view st0 = Ok (order, st') ->
  st' = st0 /\ forall l1 m l2, order = l1 ++ m :: l2 -> incl (deps st0 m) l1.
Proof.
  unfold order_messages. fold ready. fold unres. intros E.
  set (I := fun (r u : list nat) (st : gst) => st = st0 /\ Permutation (r ++ u) view /\ forall l1 m l2, r = l1 ++ m :: l2 -> incl (deps st0 m) l1).
  assert (H : I order [] st').
  { eapply (loop_inv P I); [| | | | exact E].
    - intros r a m b st [-> [Hp H]] Hs. apply subset_incl in Hs. split; [reflexivity|]. split.
      + eapply perm_trans; [|exact Hp]. rewrite <- app_assoc. apply Permutation_app_head. cbn [app]. apply Permutation_middle.
      + intros l1 x l2 Eq. apply snoc_split in Eq as [[-> [-> ->]]|[l2' [-> ->]]]; [exact Hs | eapply H; reflexivity].
    - intros r u st m st1 [-> [Hp H]] Hs C. exfalso.
      assert (Nu : u <> []).
      { intros ->. destruct (resolve_container_ok P [] st0) as [w [s [E' F]]]; [intros d []|]. rewrite E' in C. injection C as -> ->.
        destruct F as [d [s1 [_ [_ [[] _]]]]]. }
      exact (never_stalled r u Hp Nu Hs).
    - intros r u st st1 st2 [-> [Hp H]] Nu Hs _ _. exfalso. exact (never_stalled r u Hp Nu Hs).
    - split; [reflexivity|]. split; [apply split_perm|]. intros l1 m l2 Eq d Hd.
      assert (Hm : In m ready) by (rewrite Eq; apply in_or_app; right; left; reflexivity).
      unfold ready in Hm. apply filter_In in Hm as [_ Hm]. destruct (deps st0 m); [destruct Hd | discriminate]. }
  destruct H as [-> [_ H]]. split; [reflexivity | exact H].
Qed.
End Ordered.

(** ** In general, when messages that hold many of a sibling need no other *)
Section Cyclic.
Hypothesis Hfile : forall m d, In m view -> In d view -> fileof P m = fileof P d.
Hypothesis Hin : forall m d, In m view -> In d (deps st0 m) -> In d view.
Hypothesis Hlone : forall m d e, In m view -> In d view -> holds_many P m d -> In e (deps st0 m) -> e = d.

Definition cyc (r u : list nat) (st : gst) :=
  frame r u st /\
  (forall m d, In m u -> In d (deps st m) -> In d (deps st0 m)) /\
  (forall m d, In m u -> In d (deps st0 m) -> In d (deps st m) \/ In d (fwd st m)) /\
  (forall l1 m l2 d, r = l1 ++ m :: l2 -> In d (deps st0 m) -> In d l1 \/ In d (fwd st m)) /\
  (forall f m d, f < nflds P -> f_msg (fget P f) = Some m -> f_type (fget P f) = TMsg d -> f_rep (fget P f) = false -> In d (deps st0 m) ->
     (In m u -> In d (deps st m) \/ recs st f = true \/ In d r) /\
     (forall l1 l2, r = l1 ++ m :: l2 -> recs st f = true \/ In d l1)).

Lemma cyc_push r a m b st : cyc r (a ++ m :: b) st -> subset (deps st m) r = true -> cyc (r ++ [m]) (a ++ b) st.
Proof.
  intros [F [C1 [C2 [C3 C4]]]] Hs. apply subset_incl in Hs.
  assert (Inc : forall x, In x (a ++ b) -> In x (a ++ m :: b)).
  { intros x Hx. apply in_or_app. apply in_app_or in Hx as [Hx|Hx]; [left; exact Hx | right; right; exact Hx]. }
  assert (Hm : In m (a ++ m :: b)) by (apply in_or_app; right; left; reflexivity).
  split; [apply frame_push; exact F|]. split; [|split; [|split]].
  - intros x d Hx. apply C1. apply Inc. exact Hx.
  - intros x d Hx. apply C2. apply Inc. exact Hx.
  - intros l1 x l2 d Eq Hd. apply snoc_split in Eq as [[-> [-> ->]]|[l2' [-> ->]]].
    + destruct (C2 m d Hm Hd) as [H|H]; [left; apply Hs; exact H | right; exact H].
    + eapply C3; [reflexivity | exact Hd].
  - intros f x d Hf Hx Ht Hr Hd. destruct (C4 f x d Hf Hx Ht Hr Hd) as [D1 D2]. split.
    + intros Hxu. destruct (D1 (Inc x Hxu)) as [H|[H|H]]; [left; exact H | right; left; exact H | right; right; apply in_or_app; left; exact H].
    + intros l1 l2 Eq. apply snoc_split in Eq as [[-> [-> ->]]|[l2' [-> ->]]].
      * destruct (D1 Hm) as [H|[H|H]]; [right; apply Hs; exact H | left; exact H | right; exact H].
      * eapply D2. reflexivity.
Qed.

Lemma cyc_cont r u st m st1 : cyc r u st -> resolve_container P u st = Ok (Some m, st1) -> cyc (r ++ [m]) (del m u) st1.
Proof.
  intros [F [C1 [C2 [C3 C4]]]] E. destruct (frame_cont r u st m st1 F E) as [Fd F1]. split; [exact F1|].
  destruct Fd as [d [s1 [[Q1 [Q2 Q3]] [-> [Hd [Hm Hcase]]]]]].
  assert (Hmv : In m view) by (eapply frame_In; [exact F|]; apply in_or_app; right; exact Hm).
  assert (Hdv : In d view) by (eapply frame_In; [exact F|]; apply in_or_app; right; exact Hd).
  assert (Hall : forall e, In e (deps st0 m) -> e = d).
  { intros e He. apply (Hlone m d e Hmv Hdv); [|exact He]. destruct Hcase as [[f [A [B [C [D _]]]]]|[e' [f [A [A' [B [C [D [D' _]]]]]]]]].
    - left. exists f. split; [exact A|]. split; [exact B|]. split; assumption.
    - right. exists e', f. split; [exact A|]. split; [exact A'|]. split; [exact B|]. split; [exact C|]. split; assumption. }
  assert (Odeps : forall x, x <> m -> deps (release m d s1) x = deps st x).
  { intros x N. cbn [release deps]. unfold upd. destruct (Nat.eqb_spec x m); [contradiction|]. rewrite Q1. reflexivity. }
  assert (Ofwd : forall x, x <> m -> fwd (release m d s1) x = fwd st x).
  { intros x N. cbn [release fwd]. unfold upd. destruct (Nat.eqb_spec x m); [contradiction|]. rewrite Q2. reflexivity. }
  assert (Apart : forall x, In x r -> x <> m) by (intros x Hx ->; exact (frame_apart _ _ _ _ F Hx Hm)).
  split; [|split; [|split]].
  - intros x e Hx He. apply del_In in Hx as [Hx N]. rewrite Odeps in He by exact N. apply C1; assumption.
  - intros x e Hx He. apply del_In in Hx as [Hx N]. rewrite Odeps, Ofwd by exact N. apply C2; assumption.
  - intros l1 x l2 e Eq He. apply snoc_split in Eq as [[-> [-> ->]]|[l2' [-> ->]]].
    + right. rewrite (Hall e He). cbn [release fwd]. unfold upd. rewrite Nat.eqb_refl. apply insert_In. left. reflexivity.
    + rewrite Ofwd; [eapply C3; [reflexivity | exact He]|]. apply Apart. apply in_or_app. right. left. reflexivity.
  - intros f x e Hf Hx Ht Hr He. destruct (C4 f x e Hf Hx Ht Hr He) as [D1 D2]. split.
    + intros Hxu. apply del_In in Hxu as [Hxu N]. rewrite Odeps by exact N. destruct (D1 Hxu) as [H|[H|H]].
      * left. exact H.
      * right. left. cbn [release recs]. apply Q3. exact H.
      * right. right. apply in_or_app. left. exact H.
    + intros l1 l2 Eq. apply snoc_split in Eq as [[-> [-> ->]]|[l2' [-> ->]]].
      * left. cbn [release recs]. assert (e = d) by (apply Hall; exact He). subst e.
        destruct Hcase as [[f0 [_ [_ [_ [_ R]]]]]|[e' [f0 [_ [_ [_ [_ [_ [_ R]]]]]]]]].
        -- specialize (R f Hf Hx Ht (Hfile m d Hmv Hdv)). congruence.
        -- exact (R f Hf Hx Ht (Hfile m d Hmv Hdv)).
      * destruct (D2 l1 l2' eq_refl) as [H|H]; [left; cbn [release recs]; apply Q3; exact H | right; exact H].
Qed.

Lemma cyc_cyc r u st st1 st2 : cyc r u st -> u <> [] -> resolve_container P u st = Ok (None, st1) ->
  resolve_dependency_cycle P (last (sort_names P u) 0) st1 = Ok st2 -> cyc r (sort_names P u) st2.
Proof.
  intros [F [C1 [C2 [C3 C4]]]] Nu E1 E2. destruct (frame_cyc r u st st1 st2 F Nu E1 E2) as [[Q1 [Q2 Q3]] [M [F2 [x [d [rest [Hx [Dx [D2 [W2 R2]]]]]]]]]].
  split; [exact F2|].
  assert (Su : forall m, In m (sort_names P u) -> In m u) by (intros m; apply Permutation_in; apply sort_perm).
  assert (Hxv : In x view) by (eapply frame_In; [exact F|]; apply in_or_app; right; exact Hx).
  split; [|split; [|split]].
  - intros m e Hm He. apply Su in Hm. rewrite D2 in He. unfold upd in He. destruct (Nat.eqb_spec m x) as [->|]; [apply del_In in He as [He _]|]; apply C1; assumption.
  - intros m e Hm He. apply Su in Hm. rewrite D2, W2. unfold upd. destruct (Nat.eqb_spec m x) as [->|]; [|apply C2; assumption].
    destruct (Nat.eq_dec e d) as [->|N]; [right; apply insert_In; left; reflexivity|].
    destruct (C2 x e Hx He) as [H|H]; [left; apply del_In; split; assumption | right; apply insert_In; right; exact H].
  - intros l1 m l2 e Eq He. rewrite W2. unfold upd. destruct (Nat.eqb_spec m x) as [->|].
    + exfalso. refine (frame_apart _ _ _ x F _ Hx). rewrite Eq. apply in_or_app. right. left. reflexivity.
    + eapply C3; eassumption.
  - intros f m e Hf Hm Ht Hr He. destruct (C4 f m e Hf Hm Ht Hr He) as [E3 E4]. split.
    + intros Hmu. apply Su in Hmu. rewrite D2. unfold upd. destruct (E3 Hmu) as [H|[H|H]]; [|right; left; apply R2, Q3; exact H | right; right; exact H].
      destruct (Nat.eqb_spec m x) as [->|]; [|left; exact H]. destruct (Nat.eq_dec e d) as [->|N]; [|left; apply del_In; split; assumption].
      right. assert (Hdv : In d view) by (apply (Hin x); assumption).
      destruct (in_app_or _ _ _ (Permutation_in _ (Permutation_sym (proj1 F)) Hdv)) as [K|K]; [right; exact K|].
      left. apply R2. exact (M d K f x Hf Hm Hx Ht (Hfile x d Hxv Hdv)).
    + intros l1 l2 Eq. destruct (E4 l1 l2 Eq) as [H|H]; [left; apply R2, Q3; exact H | right; exact H].
Qed.

Theorem order_cyclic order st' : order_messages P view st0 = Ok (order, st') ->
  forall l1 m l2, order = l1 ++ m :: l2 ->
    (forall d, In d (deps st0 m) -> In d l1 \/ In d (fwd st' m)) /\
    (forall f d, f < nflds P -> f_msg (fget P f) = Some m -> f_type (fget P f) = TMsg d -> f_rep (fget P f) = false -> In d (deps st0 m) ->
       recs st' f = true \/ In d l1).
Proof.
  unfold order_messages. fold ready. fold unres. intros E.
  assert (H : cyc order [] st').
  { eapply (loop_inv P cyc); [| | | | exact E].
    - intros r a m b st. apply cyc_push.
    - intros r u st m st1 H _. apply cyc_cont. exact H.
    - intros r u st st1 st2 H Nu _. apply cyc_cyc; assumption.
    - assert (Rd : forall l1 m l2, ready = l1 ++ m :: l2 -> deps st0 m = []).
      { intros l1 m l2 Eq. assert (Hm : In m ready) by (rewrite Eq; apply in_or_app; right; left; reflexivity).
        unfold ready in Hm. apply filter_In in Hm as [_ Hm]. destruct (deps st0 m); [reflexivity | discriminate]. }
      split; [apply frame_start|]. split; [intros m d _ H; exact H|]. split; [intros m d _ H; left; exact H|]. split.
      + intros l1 m l2 d Eq Hd. rewrite (Rd _ _ _ Eq) in Hd. destruct Hd.
      + intros f m d _ _ _ _ Hd. split; [intros _; left; exact Hd|]. intros l1 l2 Eq. rewrite (Rd _ _ _ Eq) in Hd. destruct Hd. }
  destruct H as [_ [_ [_ [H3 H4]]]]. intros l1 m l2 Eq. split.
  - intros d. apply (H3 l1 m l2 d Eq).
  - intros f d Hf Hm Ht Hr Hd. destruct (H4 f m d Hf Hm Ht Hr Hd) as [_ K]. exact (K l1 l2 Eq).
Qed.
End Cyclic.
End Pool.
