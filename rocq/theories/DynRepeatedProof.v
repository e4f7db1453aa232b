(** Proof that repeated fields of dynamic messages behave as lists. *)
From Coq Require Import List Arith ZArith Bool Lia.
From Verif Require Import Archive Indirect IndirectProof DynRepeated DynRepeatedSpec.
Import ListNotations.
Local Open Scope nat_scope.

Section WithElements.
Context {V : Type}.
Implicit Types (m : memory V) (c : option nat) (blk l cs : list (option V)) (f g : fld).

Lemma firstn_exact : forall T (l r : list T), firstn (length l) (l ++ r) = l.
Proof. intros. rewrite firstn_app, Nat.sub_diag, firstn_all. cbn. apply app_nil_r. Qed.

Lemma update_cells : forall T (l : list T) i v, i < length l -> update i v l = firstn i l ++ [v] ++ skipn (i + 1) l.
Proof.
  induction l as [|x l IH]; intros i v H; cbn in H; [lia|]. destruct i; cbn; [reflexivity|].
  rewrite IH by lia. reflexivity.
Qed.

Lemma nth_lt : forall T (l : list T) i x, nth_error l i = Some x -> i < length l.
Proof. intros. apply nth_error_Some. congruence. Qed.

Lemma nth_cell : forall T (l : list T) i x, nth_error l i = Some x -> firstn 1 (skipn i l) = [x].
Proof.
  induction l as [|y l IH]; intros i x H; destruct i; cbn in *; try discriminate.
  - congruence.
  - apply IH, H.
Qed.

Lemma firstn_skipn_prefix : forall T (l l' : list T) k i n, firstn k l = firstn k l' -> i + n <= k ->
  firstn n (skipn i l) = firstn n (skipn i l').
Proof.
  intros T l l' k i n H L. 
  assert (G : forall x : list T, firstn n (skipn i x) = firstn n (skipn i (firstn k x))).
  { intro x. rewrite skipn_firstn_comm, firstn_firstn. f_equal. lia. }
  rewrite (G l), (G l'), H. reflexivity.
Qed.

(** Only the block [c], or new blocks, may have changed. *)
Definition frame m c m1 : Prop :=
  length m <= length m1 /\ forall b, b < length m -> c <> Some b -> nth_error m1 b = nth_error m b.

Lemma frame_refl : forall m c, frame m c m.
Proof. split; auto. Qed.

Lemma frame_app : forall m c x, frame m c (m ++ x).
Proof. intros. split; [rewrite app_length; lia|]. intros. now apply nth_error_app1. Qed.

Lemma store_ok : forall m c blk i cs, block m c = Ok blk -> i + length cs <= length blk ->
  exists m1, store m c i cs = Ok m1 /\ block m1 c = Ok (firstn i blk ++ cs ++ skipn (i + length cs) blk) /\
    length m1 = length m /\ forall b, c <> Some b -> nth_error m1 b = nth_error m b.
Proof.
  intros m c blk i cs B L. destruct c as [b|]; cbn in *.
  - rewrite B. cbn. replace (i + length cs <=? length blk) with true by (symmetry; now apply Nat.leb_le).
    destruct (nth_error m b) as [l|] eqn:N; [|discriminate]. injection B as ->.
    eexists. split; [reflexivity|]. rewrite (update_nth _ _ _ _ _ N). split; [reflexivity|].
    split; [apply update_length|]. intros b' D. apply update_other. congruence.
  - injection B as <-. cbn in *. destruct cs; cbn in *; [|lia]. exists m. split; [reflexivity|].
    split; [|auto]. destruct i; reflexivity.
Qed.

(** Field [f] in memory [m] has the list [l]. *)
Definition W m f l : Prop :=
  f_size f = length l /\ length l <= f_cap f /\
  exists blk, block m (f_content f) = Ok blk /\ f_cap f <= length blk /\ firstn (length l) blk = l.

Lemma W_empty : forall m, W m empty_fld [].
Proof. intro m. split; [reflexivity|]. split; [cbn; lia|]. exists []. cbn. auto. Qed.

Lemma W_frame : forall m f l c m1, W m f l -> frame m c m1 -> (c = None \/ c <> f_content f) -> W m1 f l.
Proof.
  intros m f l c m1 (S & C & blk & B & L & F) (_ & Fr) D. split; [exact S|]. split; [exact C|].
  exists blk. split; [|split; assumption]. destruct (f_content f) as [b|]; [|exact B]. cbn in *.
  destruct (nth_error m b) eqn:N; [|discriminate]. 
  rewrite Fr, N; [exact B|now apply nth_lt in N|]. destruct D as [-> | D]; congruence.
Qed.

Lemma W_load : forall m f l i n, W m f l -> i + n <= length l -> load m (f_content f) i n = Ok (firstn n (skipn i l)).
Proof.
  intros m f l i n (S & C & blk & B & L & F) H. unfold load. rewrite B. cbn.
  replace (i + n <=? length blk) with true by (symmetry; apply Nat.leb_le; lia). f_equal.
  apply firstn_skipn_prefix with (k := length l); [|lia]. rewrite F. symmetry. apply firstn_all.
Qed.

Lemma W_store : forall m f l i cs, W m f l -> i + length cs <= length l ->
  exists m1, store m (f_content f) i cs = Ok m1 /\ W m1 f (firstn i l ++ cs ++ skipn (i + length cs) l) /\
    frame m (f_content f) m1.
Proof.
  intros m f l i cs (S & C & blk & B & L & F) H.
  destruct (store_ok m (f_content f) blk i cs B) as (m1 & E & B1 & Lm & O); [lia|].
  exists m1. split; [exact E|].
  assert (Ln : length (firstn i l ++ cs ++ skipn (i + length cs) l) = length l).
  { rewrite !app_length, firstn_length, skipn_length. lia. }
  split; [|split; [lia|intros; now apply O]].
  split; [lia|]. split; [lia|]. eexists. split; [exact B1|]. split.
  - rewrite !app_length, firstn_length, skipn_length. lia.
  - rewrite Ln. rewrite firstn_app, firstn_firstn, firstn_length, (Nat.min_r (length l) i), (Nat.min_l i (length blk)) by lia.
    rewrite firstn_app, (firstn_all2 cs) by lia. f_equal; [|f_equal].
    + transitivity (firstn i (firstn (length l) blk)); [|now rewrite F]. rewrite firstn_firstn. f_equal. lia.
    + transitivity (skipn (i + length cs) (firstn (length l) blk)); [|now rewrite F].
      rewrite skipn_firstn_comm. f_equal. lia.
Qed.

Lemma load_frame : forall m c m1 c' i n, frame m c m1 -> (c = None \/ c <> c') -> load m c' i n <> UB ->
  load m1 c' i n = load m c' i n.
Proof.
  intros m c m1 c' i n (_ & Fr) D U. unfold load in *. destruct c' as [b|]; [|reflexivity]. cbn in *.
  destruct (nth_error m b) eqn:N; [|now destruct U].
  rewrite Fr, N; [reflexivity|now apply nth_lt in N|]. destruct D as [-> | D]; congruence.
Qed.

Lemma frame_trans : forall m c m1 c1 m2, frame m c m1 -> frame m1 c1 m2 ->
  (c1 = c \/ exists b, c1 = Some b /\ length m <= b) -> frame m c m2.
Proof.
  intros m c m1 c1 m2 (L1 & F1) (L2 & F2) D. split; [lia|]. intros b Hb Hc.
  rewrite F2; [now apply F1|lia|]. destruct D as [-> | (b' & -> & G)]; [exact Hc|]. intro E. injection E as ->. lia.
Qed.

(** The field has kept its block or has got a new one. *)
Definition kept m c f1 : Prop := f_content f1 = c \/ exists b, f_content f1 = Some b /\ length m <= b.

Lemma reserve_ok : forall m f l n, W m f l -> fits n = true ->
  exists m1 f1, reserve m f n = Ok (m1, f1) /\ W m1 f1 l /\ n <= f_cap f1 /\ frame m None m1 /\ kept m (f_content f) f1.
Proof.
  intros m f l n H Fn. unfold reserve. rewrite Fn. destruct (f_cap f <? n) eqn:E.
  - apply Nat.ltb_lt in E. pose proof H as (S & C & blk & B & L & F).
    rewrite (W_load m f l 0 (f_size f) H) by lia. cbn [Archive.bind]. eexists _, _. split; [reflexivity|].
    rewrite S. cbn [skipn]. rewrite firstn_all. split; [|split; [cbn; lia|split; [apply frame_app|]]].
    + split; [reflexivity|]. split; [cbn; lia|]. eexists. cbn [f_content block f_cap].
      rewrite nth_error_app2, Nat.sub_diag by lia. cbn [nth_error]. split; [reflexivity|]. split.
      * rewrite app_length, repeat_length. lia.
      * apply firstn_exact.
    + right. eexists. split; [reflexivity|]. cbn. lia.
  - apply Nat.ltb_ge in E. eexists _, _. split; [reflexivity|]. split; [exact H|]. split; [lia|]. split; [apply frame_refl|now left].
Qed.

Lemma resize_ok : forall K m f l n, W m f l -> fits n = true ->
  exists m1 f1, resize K m f n = Ok (m1, f1) /\ W m1 f1 (firstn n l ++ repeat (k_fresh K) (n - length l)) /\
    frame m (f_content f) m1 /\ kept m (f_content f) f1 /\
    (forall i k, i + k <= length l -> load m1 (f_content f) i k = Ok (firstn k (skipn i l))).
Proof.
  intros K m f l n H Fn. unfold resize. rewrite Fn. cbv zeta.
  assert (R : exists m1 f1, (if f_cap f <? n then reserve m f n else Ok (m, f)) = Ok (m1, f1) /\ W m1 f1 l /\
    n <= f_cap f1 /\ frame m None m1 /\ kept m (f_content f) f1).
  { destruct (f_cap f <? n) eqn:E; [now apply reserve_ok|]. apply Nat.ltb_ge in E.
    eexists _, _. split; [reflexivity|]. split; [exact H|]. split; [lia|]. split; [apply frame_refl|now left]. }
  destruct R as (m1 & f1 & -> & H1 & N1 & Fr1 & Kp). cbn [Archive.bind].
  pose proof H as (S & C & _). pose proof H1 as (S1 & C1 & blk & B & L & F).
  assert (Ld : forall i k, i + k <= length l -> load m1 (f_content f) i k = Ok (firstn k (skipn i l))).
  { intros i k Hk. rewrite (load_frame m None m1); [now apply W_load|exact Fr1|now left|].
    rewrite (W_load m f l i k H Hk). discriminate. }
  assert (Fr1' : frame m (f_content f) m1).
  { destruct Fr1 as (Fa & Fb). split; [exact Fa|]. intros b Hb _. apply Fb; [exact Hb|discriminate]. }
  destruct (f_size f <? n) eqn:E.
  - apply Nat.ltb_lt in E.
    destruct (store_ok m1 (f_content f1) blk (f_size f) (repeat (k_fresh K) (n - f_size f)) B) as (m2 & -> & B2 & Lm & O).
    { rewrite repeat_length. lia. }
    cbn [Archive.bind]. eexists _, _. split; [reflexivity|]. rewrite repeat_length in B2.
    assert (Ln : length (firstn n l ++ repeat (k_fresh K) (n - length l)) = n).
    { rewrite app_length, firstn_length, repeat_length. lia. }
    split; [|split; [|split; [exact Kp|]]].
    + split; [cbn; lia|]. split; [cbn; lia|]. eexists. split; [exact B2|]. split.
      * cbn. rewrite !app_length, firstn_length, repeat_length, skipn_length. lia.
      * rewrite Ln. rewrite (firstn_all2 l) by lia. rewrite S, F.
        rewrite app_assoc. rewrite firstn_app. rewrite firstn_all2 by (rewrite app_length, repeat_length; lia).
        replace (n - length (l ++ repeat (k_fresh K) (n - length l))) with 0 by (rewrite app_length, repeat_length; lia).
        cbn. apply app_nil_r.
    + apply frame_trans with (m1 := m1) (c1 := f_content f1); [exact Fr1'| |exact Kp].
      split; [lia|]. intros. now apply O.
    + intros i k Hk. destruct Kp as [Ek | (b & Eb & Gb)].
      * rewrite <- Ek. unfold load. rewrite B2. cbn [Archive.bind].
        replace (i + k <=? _) with true; [f_equal|].
        -- apply firstn_skipn_prefix with (k := length l); [|exact Hk]. rewrite S, F, firstn_exact. symmetry. apply firstn_all.
        -- symmetry. apply Nat.leb_le. rewrite !app_length, firstn_length. lia.
      * rewrite (load_frame m1 (f_content f1)); [now apply Ld| | |].
        -- split; [lia|]. intros. now apply O.
        -- right. intro Q. rewrite Q in Eb. 
           destruct H as (_ & _ & bl & Bl & _). rewrite Eb in Bl. cbn in Bl.
           destruct (nth_error m b) eqn:Nb; [|discriminate]. apply nth_lt in Nb. lia.
        -- rewrite Ld by exact Hk. discriminate.
  - apply Nat.ltb_ge in E. cbn [Archive.bind]. eexists _, _. split; [reflexivity|].
    split; [|split; [exact Fr1'|split; [exact Kp|exact Ld]]].
    replace (n - length l) with 0 by lia. cbn [repeat]. rewrite app_nil_r.
    assert (Ln : length (firstn n l) = n) by (rewrite firstn_length; lia).
    split; [cbn; lia|]. split; [cbn; lia|]. exists blk. split; [exact B|]. split; [cbn; lia|].
    rewrite Ln. rewrite <- F. rewrite firstn_firstn. f_equal. lia.
Qed.

Lemma push_back_ok : forall K m f l v, W m f l -> fits (length l + 1) = true ->
  exists m1 f1, push_back K m f v = Ok (m1, f1) /\ W m1 f1 (l ++ [Some v]) /\
    frame m (f_content f) m1 /\ kept m (f_content f) f1.
Proof.
  intros K m f l v H Fn. unfold push_back. pose proof H as (S & _).
  destruct (resize_ok K m f l (f_size f + 1) H) as (m1 & f1 & -> & W1 & Fr & Kp & _); [now rewrite S|].
  cbn [Archive.bind]. rewrite S in *. rewrite firstn_all2 in W1 by lia.
  replace (length l + 1 - length l) with 1 in W1 by lia. cbn [repeat] in W1.
  destruct (W_store m1 f1 _ (length l) [Some v] W1) as (m2 & -> & W2 & Fr2); [rewrite app_length; cbn; lia|].
  cbn [Archive.bind]. eexists _, _. split; [reflexivity|]. split; [|split; [|exact Kp]].
  - rewrite firstn_exact in W2. rewrite skipn_all2 in W2 by (rewrite app_length; cbn; lia). cbn [app] in W2. exact W2.
  - now apply (frame_trans _ _ _ _ _ Fr Fr2).
Qed.

Lemma set_ok : forall K m f l vs, W m f l -> fits (length vs) = true ->
  exists m1 f1, set K m f vs = Ok (m1, f1) /\ W m1 f1 (map Some vs) /\
    frame m (f_content f) m1 /\ kept m (f_content f) f1.
Proof.
  intros K m f l vs H Fn. unfold set.
  destruct (resize_ok K m f l (length vs) H Fn) as (m1 & f1 & -> & W1 & Fr & Kp & _).
  cbn [Archive.bind].
  destruct (W_store m1 f1 _ 0 (map Some vs) W1) as (m2 & -> & W2 & Fr2).
  { rewrite app_length, firstn_length, repeat_length, map_length. lia. }
  cbn [Archive.bind]. eexists _, _. split; [reflexivity|]. split; [|split; [|exact Kp]].
  - cbn [firstn app] in W2. rewrite skipn_all2 in W2 by (rewrite app_length, firstn_length, repeat_length, map_length; lia).
    rewrite app_nil_r in W2. exact W2.
  - now apply (frame_trans _ _ _ _ _ Fr Fr2).
Qed.

Lemma known_le : forall vs : list (option V), length (known vs) <= length vs.
Proof. induction vs as [|[v|] vs IH]; cbn; lia. Qed.

Lemma fits_le : forall a b, fits a = true -> b <= a -> fits b = true.
Proof. unfold fits. intros a b H L. apply Z.leb_le in H. apply Z.leb_le. lia. Qed.

Lemma kept_trans : forall m c f m1 f1, length m <= length m1 -> kept m c f -> kept m1 (f_content f) f1 -> kept m c f1.
Proof.
  intros m c f m1 f1 L A [B | (b & B & G)]; unfold kept; [rewrite B; exact A|].
  right. exists b. split; [exact B|lia].
Qed.

Lemma set_loop_ok : forall K vs done todo m f,
  W m f (map Some done ++ todo) -> length todo = length vs -> fits (length done + length vs) = true ->
  exists m1 f1, set_loop K m f (length done) vs = Ok (m1, f1, length (known vs) =? length vs) /\
    W m1 f1 (map Some (done ++ known vs)) /\ frame m (f_content f) m1 /\ kept m (f_content f) f1.
Proof.
  induction vs as [|[v|] vs IH]; intros done todo m f H L Fn; cbn [set_loop known length].
  - destruct todo; [|discriminate]. eexists _, _. split; [reflexivity|]. rewrite !app_nil_r in *.
    split; [exact H|]. split; [apply frame_refl|now left].
  - destruct todo as [|t todo]; [discriminate|]. cbn in L.
    destruct (W_store m f _ (length done) [Some v] H) as (m1 & -> & W1 & Fr).
    { rewrite app_length, map_length. cbn. lia. }
    cbn [Archive.bind]. 
    match type of W1 with W _ _ ?x => assert (E : x = map Some (done ++ [v]) ++ todo) end.
    { rewrite map_app, <- app_assoc. cbn [length]. f_equal.
      - rewrite <- (map_length (@Some V) done). apply firstn_exact.
      - cbn [app map]. f_equal. rewrite skipn_app, map_length.
        rewrite skipn_all2 by (rewrite map_length; lia). replace (length done + 1 - length done) with 1 by lia. reflexivity. }
    rewrite E in W1.
    destruct (IH (done ++ [v]) todo m1 f W1) as (m2 & f2 & E2 & W2 & Fr2 & Kp2).
    { lia. }
    { eapply fits_le; [exact Fn|]. rewrite app_length. cbn. lia. }
    rewrite app_length in E2. cbn [length] in E2. replace (length done + 1) with (S (length done)) in E2 by lia.
    exists m2, f2. split; [exact E2|]. split; [now rewrite <- app_assoc in W2|].
    split; [apply (frame_trans _ _ _ _ _ Fr Fr2); now left|].
    destruct Kp2 as [Q | (b & Q & G)]; [now left|right]. exists b. split; [exact Q|]. destruct Fr. lia.
  - destruct (resize_ok K m f _ (length done) H) as (m1 & f1 & -> & W1 & Fr & Kp & _).
    { eapply fits_le; [exact Fn|lia]. }
    cbn [Archive.bind]. eexists _, _. split; [reflexivity|]. rewrite app_nil_r. split; [|split; assumption].
    rewrite <- (map_length (@Some V) done) in W1 at 1. rewrite firstn_exact in W1.
    replace (length done - _) with 0 in W1 by (rewrite app_length, map_length; lia). cbn [repeat] in W1.
    now rewrite app_nil_r in W1.
Qed.

Lemma set_names_ok : forall K m f l vs, W m f l -> fits (length vs) = true ->
  exists m1 f1, set_names K m f vs = Ok (m1, f1, length (known vs) =? length vs) /\ W m1 f1 (map Some (known vs)) /\
    frame m (f_content f) m1 /\ kept m (f_content f) f1.
Proof.
  intros K m f l vs H Fn. unfold set_names.
  destruct (resize_ok K m f l (length vs) H Fn) as (m1 & f1 & -> & W1 & Fr & Kp & _).
  cbn [Archive.bind].
  destruct (set_loop_ok K vs [] _ m1 f1 W1) as (m2 & f2 & E2 & W2 & Fr2 & Kp2).
  { rewrite app_length, firstn_length, repeat_length. lia. }
  { exact Fn. }
  exists m2, f2. split; [exact E2|]. split; [exact W2|]. split; [now apply (frame_trans _ _ _ _ _ Fr Fr2)|].
  destruct Fr as [Lm _]. exact (kept_trans _ _ _ _ _ Lm Kp Kp2).
Qed.

(** The state and the lists. *)
Definition Inv (m : memory V) (fs : list fld) (s : vstate V) : Prop :=
  length fs = length s /\
  (forall k f l, nth_error fs k = Some f -> nth_error s k = Some (Some l) -> W m f l) /\
  (forall k j f g l l' b, k <> j -> nth_error fs k = Some f -> nth_error fs j = Some g ->
     nth_error s k = Some (Some l) -> nth_error s j = Some (Some l') ->
     f_content f = Some b -> f_content g = Some b -> False).

Lemma I_start : forall n, Inv [] (repeat empty_fld n) (vstart n).
Proof.
  intro n. unfold vstart. split; [now rewrite !repeat_length|]. split.
  - intros k f l Hf Hl. apply nth_error_In, repeat_spec in Hf. apply nth_error_In, repeat_spec in Hl.
    subst f. injection Hl as ->. apply W_empty.
  - intros k j f g l l' b _ Hf _ _ _ E _. apply nth_error_In, repeat_spec in Hf. subst f. discriminate.
Qed.

Lemma W_block : forall m f l b, W m f l -> f_content f = Some b -> b < length m.
Proof.
  intros m f l b (_ & _ & blk & B & _) E. rewrite E in B. cbn in B.
  destruct (nth_error m b) eqn:N; [|discriminate]. now apply nth_lt in N.
Qed.

Lemma vget_some : forall (s : vstate V) k l, vget s k = Some l -> nth_error s k = Some (Some l).
Proof. unfold vget. intros s k l H. destruct (nth_error s k) as [[|]|]; congruence. Qed.

Lemma nth_update : forall T (l : list T) i j x y, nth_error (update i x l) j = Some y ->
  (j = i /\ y = x) \/ (j <> i /\ nth_error l j = Some y).
Proof.
  intros T l i j x y H. destruct (Nat.eq_dec j i) as [->|N].
  - left. split; [reflexivity|]. destruct (nth_error l i) as [z|] eqn:E.
    + rewrite (update_nth _ _ _ _ _ E) in H. congruence.
    + apply nth_lt in H. rewrite update_length in H. apply nth_error_None in E. lia.
  - right. split; [exact N|]. now rewrite update_other in H by congruence.
Qed.

(** Changing one field: it held block [c], which is its own, or let go of it ([c = None]). *)
Lemma I_put : forall m fs s k f c m1 f1 l1, Inv m fs s -> nth_error fs k = Some f ->
  (c = None \/ (c = f_content f /\ exists l, nth_error s k = Some (Some l))) ->
  frame m c m1 -> (f_content f1 = None \/ kept m c f1) -> W m1 f1 l1 ->
  Inv m1 (update k f1 fs) (update k (Some l1) s).
Proof.
  intros m fs s k f c m1 f1 l1 (L & Wf & D) Hf Hc Fr Kp W1.
  assert (Sep : forall j g l', j <> k -> nth_error fs j = Some g -> nth_error s j = Some (Some l') ->
    (c = None \/ c <> f_content g) /\ forall b, f_content f1 = Some b -> f_content g = Some b -> False).
  { intros j g l' N Hg Hl'. split.
    - destruct Hc as [-> | (-> & l & Hl)]; [now left|]. destruct (f_content f) as [b|] eqn:E; [right|now left].
      intro Q. symmetry in Q. exact (D k j f g l l' b (not_eq_sym N) Hf Hg Hl Hl' E Q).
    - intros b E1 Eg. destruct Kp as [Q | [Q | (b' & Q & G)]]; [congruence| |].
      + destruct Hc as [-> | (-> & l & Hl)]; [congruence|]. rewrite E1 in Q. symmetry in Q.
        exact (D k j f g l l' b (not_eq_sym N) Hf Hg Hl Hl' Q Eg).
      + assert (b' = b) by congruence. subst b'. pose proof (W_block _ _ _ _ (Wf j g l' Hg Hl') Eg). lia. }
  split; [now rewrite !update_length|]. split.
  - intros j g l' Hg Hl'. apply nth_update in Hg. apply nth_update in Hl'.
    destruct Hg as [(-> & ->) | (N & Hg)]; destruct Hl' as [(Q & E) | (Q & Hl')]; try congruence.
    destruct (Sep j g l' N Hg Hl') as (Dc & _). apply (W_frame m g l' c m1); eauto.
  - intros i j g h l l' b N Hg Hh Hl Hl' Eg Eh.
    apply nth_update in Hg. apply nth_update in Hh. apply nth_update in Hl. apply nth_update in Hl'.
    destruct Hg as [(-> & ->) | (Ni & Hg)]; destruct Hh as [(-> & ->) | (Nj & Hh)];
    destruct Hl as [(? & ?) | (? & Hl)]; destruct Hl' as [(? & ?) | (? & Hl')]; try congruence.
    + destruct (Sep j h l' Nj Hh Hl') as (_ & Z). exact (Z b Eg Eh).
    + destruct (Sep i g l Ni Hg Hl) as (_ & Z). exact (Z b Eh Eg).
    + exact (D i j g h l l' b N Hg Hh Hl Hl' Eg Eh).
Qed.

Lemma I_mem : forall m fs s k f m1 l l1, Inv m fs s -> nth_error fs k = Some f -> nth_error s k = Some (Some l) ->
  frame m (f_content f) m1 -> W m1 f l1 -> Inv m1 fs (update k (Some l1) s).
Proof.
  intros m fs s k f m1 l l1 H Hf Hl Fr W1.
  rewrite <- (update_same _ fs k f Hf). eapply I_put; eauto. right; now left.
Qed.

Lemma I_get : forall m fs s k x, Inv m fs s -> nth_error s k = Some x -> exists f, nth_error fs k = Some f.
Proof.
  intros m fs s k x (L & _) H. apply nth_lt in H. rewrite <- L in H. apply nth_error_Some in H.
  destruct (nth_error fs k); [eauto|congruence].
Qed.

Lemma values_determinate : forall l (vs : list V), values l = Some vs -> determinate l = Ok vs.
Proof.
  induction l as [|[v|] l IH]; intros vs H; cbn in *; try discriminate; [congruence|].
  destruct (values l) as [r|]; [|discriminate]. rewrite (IH r eq_refl). cbn in *. congruence.
Qed.

Ltac ob H := match type of H with obind ?x _ = Some _ => let E := fresh "E" in destruct x eqn:E; cbn [obind] in H; [|discriminate] end.

Lemma step_ok : forall K o m fs s s1 out, Inv m fs s -> vstep (k_fresh K) (k_drop K) o s = Some (s1, out) ->
  exists m1 fs1, step K o (m, fs) = Ok ((m1, fs1), out) /\ Inv m1 fs1 s1.
Proof.
  intros K o m fs s s1 out H E. pose proof H as (L & Wf & D).
  assert (G : forall k l, vget s k = Some l -> exists f, fget fs k = Ok f /\ nth_error fs k = Some f /\
    nth_error s k = Some (Some l) /\ W m f l).
  { intros k l Hl. apply vget_some in Hl. destruct (I_get m fs s k _ H Hl) as (f & Hf). exists f.
    unfold fget. rewrite Hf. repeat split; auto. apply (Wf k f l Hf Hl). apply (Wf k f l Hf Hl). apply (Wf k f l Hf Hl). }
  assert (P : forall k f l m1 f1 l1, nth_error fs k = Some f -> nth_error s k = Some (Some l) ->
    frame m (f_content f) m1 -> kept m (f_content f) f1 -> W m1 f1 l1 -> Inv m1 (update k f1 fs) (update k (Some l1) s)).
  { intros. eapply I_put; eauto. }
  destruct o; cbn [vstep step] in *.
  - (* reserve *) ob E. destruct (G _ _ E0) as (f & -> & Hf & Hl & Wl). cbn [Archive.bind].
    destruct (allowed n) eqn:A; [|discriminate]. injection E as <- <-.
    destruct (reserve_ok m f l n Wl A) as (m1 & f1 & -> & W1 & _ & Fr & Kp). cbn [Archive.bind].
    eexists _, _. split; [reflexivity|]. rewrite <- (update_same _ s k _ Hl). apply P with (f := f) (l := l); auto.
    destruct Fr as (Fa & Fb). split; [exact Fa|]. intros. apply Fb; [assumption|discriminate].
  - (* resize *) ob E. destruct (G _ _ E0) as (f & -> & Hf & Hl & Wl). cbn [Archive.bind].
    destruct (allowed n) eqn:A; [|discriminate]. injection E as <- <-.
    destruct (resize_ok K m f l n Wl A) as (m1 & f1 & -> & W1 & Fr & Kp & _). cbn [Archive.bind].
    eexists _, _. split; [reflexivity|]. eapply P; eauto.
  - (* push *) ob E. destruct (G _ _ E0) as (f & -> & Hf & Hl & Wl). cbn [Archive.bind].
    destruct (allowed _) eqn:A; [|discriminate]. injection E as <- <-. rewrite app_length in A.
    destruct (push_back_ok K m f l v Wl A) as (m1 & f1 & -> & W1 & Fr & Kp). cbn [Archive.bind].
    eexists _, _. split; [reflexivity|]. eapply P; eauto.
  - (* push a reference *) ob E. ob E. destruct (G _ _ E0) as (f & -> & Hf & Hl & Wl).
    destruct (G _ _ E1) as (g & -> & Hg & Hl' & Wl'). cbn [Archive.bind].
    destruct (nth_error l0 i) as [[v|]|] eqn:Nv; try discriminate.
    destruct (allowed _) eqn:A; [|discriminate]. injection E as <- <-. rewrite app_length in A. cbn in A.
    pose proof Wl as (S & _). pose proof Wl' as (S' & _). pose proof (nth_lt _ _ _ _ Nv) as Ni.
    replace (i <? f_size g) with true by (symmetry; apply Nat.ltb_lt; lia).
    unfold push_back_ref. rewrite S.
    destruct (resize_ok K m f l (length l + 1) Wl A) as (m1 & f1 & -> & W1 & Fr & Kp & Ld). cbn [Archive.bind].
    assert (Q : load m1 (f_content g) i 1 = Ok [Some v]).
    { destruct (Nat.eq_dec k j) as [->|N].
      - assert (g = f) by congruence. assert (l0 = l) by congruence. subst. rewrite Ld by lia.
        f_equal. now apply nth_cell.
      - rewrite (load_frame m (f_content f)); [|exact Fr| |].
        + rewrite (W_load m g l0) by (auto; lia). f_equal. now apply nth_cell.
        + destruct (f_content f) as [b|] eqn:Eb; [right|now left]. intro Q. symmetry in Q.
          exact (D k j f g l l0 b N Hf Hg Hl Hl' Eb Q).
        + rewrite (W_load m g l0) by (auto; lia). discriminate. }
    rewrite Q. cbn [Archive.bind].
    rewrite firstn_all2 in W1 by lia. replace (length l + 1 - length l) with 1 in W1 by lia. cbn [repeat] in W1.
    destruct (W_store m1 f1 _ (length l) [Some v] W1) as (m2 & -> & W2 & Fr2); [rewrite app_length; cbn; lia|].
    cbn [Archive.bind]. eexists _, _. split; [reflexivity|].
    rewrite firstn_exact in W2. rewrite skipn_all2 in W2 by (rewrite app_length; cbn; lia). cbn [app] in W2.
    eapply P; eauto. now apply (frame_trans _ _ _ _ _ Fr Fr2).
  - (* set *) ob E. destruct (G _ _ E0) as (f & -> & Hf & Hl & Wl). cbn [Archive.bind].
    destruct (allowed _) eqn:A; [|discriminate]. injection E as <- <-. rewrite map_length in A.
    destruct (set_ok K m f l vs Wl A) as (m1 & f1 & -> & W1 & Fr & Kp). cbn [Archive.bind].
    eexists _, _. split; [reflexivity|]. eapply P; eauto.
  - (* set by names *) ob E. destruct (G _ _ E0) as (f & -> & Hf & Hl & Wl). cbn [Archive.bind].
    destruct (allowed _) eqn:A; [|discriminate]. injection E as <- <-.
    destruct (set_names_ok K m f l vs Wl A) as (m1 & f1 & -> & W1 & Fr & Kp). cbn [Archive.bind].
    eexists _, _. split; [reflexivity|]. eapply P; eauto.
  - (* clone *) ob E. ob E. destruct (G _ _ E0) as (f & -> & Hf & Hl & Wl).
    destruct (G _ _ E1) as (g & -> & Hg & Hl' & Wl'). cbn [Archive.bind].
    destruct (allowed _) eqn:A; [|discriminate]. injection E as <- <-.
    pose proof Wl' as (S' & _). unfold clone_from. rewrite S'.
    destruct (length l0 =? 0) eqn:Z.
    + apply Nat.eqb_eq in Z. destruct l0; [|discriminate]. cbn [Archive.bind]. eexists _, _. split; [reflexivity|].
      eapply P; eauto; [apply frame_refl|now left|]. destruct Wl as (S & C & blk & B & Lb & F).
      split; [reflexivity|]. split; [cbn; lia|]. exists blk. repeat split; auto.
    + destruct (resize_ok K m f l (length l0) Wl A) as (m1 & f1 & -> & W1 & Fr & Kp & Ld). cbn [Archive.bind].
      assert (Q : load m1 (f_content g) 0 (length l0) = Ok l0).
      { destruct (Nat.eq_dec k j) as [->|N].
        - assert (g = f) by congruence. assert (l0 = l) by congruence. subst. rewrite Ld by lia.
          f_equal. apply firstn_all.
        - rewrite (load_frame m (f_content f)); [|exact Fr| |].
          + rewrite (W_load m g l0) by (auto; lia). f_equal. apply firstn_all.
          + destruct (f_content f) as [b|] eqn:Eb; [right|now left]. intro Q. symmetry in Q.
            exact (D k j f g l l0 b N Hf Hg Hl Hl' Eb Q).
          + rewrite (W_load m g l0) by (auto; lia). discriminate. }
      rewrite Q. cbn [Archive.bind].
      destruct (W_store m1 f1 _ 0 l0 W1) as (m2 & -> & W2 & Fr2).
      { rewrite app_length, firstn_length, repeat_length. lia. }
      cbn [Archive.bind]. eexists _, _. split; [reflexivity|].
      cbn [firstn app] in W2. rewrite skipn_all2 in W2 by (rewrite app_length, firstn_length, repeat_length; lia).
      rewrite app_nil_r in W2. eapply P; eauto. now apply (frame_trans _ _ _ _ _ Fr Fr2).
  - (* clear *) ob E. destruct (G _ _ E0) as (f & -> & Hf & Hl & Wl). cbn [Archive.bind]. injection E as <- <-.
    eexists _, _. split; [reflexivity|]. eapply P; eauto; [apply frame_refl|now left|].
    destruct Wl as (S & C & blk & B & Lb & F). split; [reflexivity|]. split; [cbn; lia|]. exists blk. repeat split; auto.
  - (* reset *) destruct (nth_error s k) as [x|] eqn:Hx; [|discriminate].
    destruct (I_get m fs s k x H Hx) as (f & Hf). unfold fget. rewrite Hf. cbn [Archive.bind]. unfold reset.
    destruct (k_drop K) eqn:Dr.
    + assert (Q : Some (update k (Some []) s, []) = Some (s1, out)) by (destruct x; exact E).
      injection Q as <- <-. eexists _, _. split; [reflexivity|].
      eapply I_put with (c := None); eauto; [apply frame_refl|apply W_empty].
    + destruct x as [l|]; [|discriminate]. injection E as <- <-. eexists _, _. split; [reflexivity|].
      eapply P; eauto; [apply frame_refl|now left|].
      destruct (Wf k f l Hf Hx) as (S & C & blk & B & Lb & F). split; [reflexivity|]. split; [cbn; lia|]. exists blk. repeat split; auto.
  - (* adopt *) destruct (nth_error s k) as [x|] eqn:Hx; [|discriminate]. cbn [obind] in E.
    destruct (allowed _) eqn:A; [|discriminate]. injection E as <- <-. rewrite map_length in A.
    destruct (I_get m fs s k x H Hx) as (f & Hf). unfold fget. rewrite Hf. cbn [Archive.bind]. unfold adopt.
    change (fits (length vs) = true) in A. rewrite A. cbn [Archive.bind]. eexists _, _. split; [reflexivity|].
    eapply I_put with (c := None); eauto; [apply frame_app| |].
    + right. right. eexists. split; [reflexivity|]. cbn. lia.
    + split; [cbn; now rewrite map_length|]. split; [cbn; rewrite map_length; lia|]. eexists.
      cbn [f_content block f_cap]. rewrite nth_error_app2, Nat.sub_diag by lia. cbn [nth_error]. split; [reflexivity|].
      split; [rewrite map_length; lia|apply firstn_all].
  - (* alias *) destruct (nth_error s k) as [x|] eqn:Hx; [|discriminate]. cbn [obind] in E. ob E.
    injection E as <- <-. destruct (G _ _ E0) as (g & Eg & Hg & Hl & Wl).
    destruct (I_get m fs s k x H Hx) as (f & Hf). rewrite Eg. unfold fget. rewrite Hf. cbn [Archive.bind].
    eexists _, _. split; [reflexivity|].
    set (g' := alias_from K g).
    assert (C' : f_content g' = f_content g) by (subst g'; unfold alias_from; destruct (k_share K); reflexivity).
    assert (W' : W m g' l).
    { subst g'. unfold alias_from. destruct (k_share K); [exact Wl|]. destruct Wl as (S & C & blk & B & Lb & F).
      split; [exact S|]. split; [cbn; lia|]. exists blk. split; [exact B|]. split; [cbn; lia|exact F]. }
    split; [now rewrite !update_length|]. split.
    + intros i h l' Hh Hl'. apply nth_update in Hh. apply nth_update in Hl'.
      destruct Hh as [(-> & ->) | (Ni & Hh)]; destruct Hl' as [(Q & Q2) | (Q & Hl')]; try congruence.
      apply nth_update in Hl'. destruct Hl' as [(? & ?) | (Nj & Hl')]; [discriminate|]. eauto.
    + intros i i' h h' l1 l2 b N Hh Hh' Hl1 Hl2 Eh Eh'.
      assert (Z : forall i h l1, i <> k -> nth_error (update k g' fs) i = Some h ->
        nth_error (update k (Some l) (update j None s)) i = Some (Some l1) ->
        nth_error fs i = Some h /\ nth_error s i = Some (Some l1) /\ i <> j).
      { intros n0 h0 l3 Nk A B. apply nth_update in A. apply nth_update in B.
        destruct A as [(? & _) | (_ & A)]; [congruence|]. destruct B as [(? & _) | (_ & B)]; [congruence|].
        apply nth_update in B. destruct B as [(_ & ?) | (Nj & B)]; [discriminate|]. auto. }
      destruct (Nat.eq_dec i k) as [->|Ni]; destruct (Nat.eq_dec i' k) as [->|Ni']; try congruence.
      * destruct (Z i' h' l2 Ni' Hh' Hl2) as (A & B & Nj). apply nth_update in Hh.
        destruct Hh as [(_ & ->) | (? & _)]; [|congruence]. rewrite C' in Eh.
        exact (D j i' g h' l l2 b (not_eq_sym Nj) Hg A Hl B Eh Eh').
      * destruct (Z i h l1 Ni Hh Hl1) as (A & B & Nj). apply nth_update in Hh'.
        destruct Hh' as [(_ & ->) | (? & _)]; [|congruence]. rewrite C' in Eh'.
        exact (D j i g h l l1 b (not_eq_sym Nj) Hg A Hl B Eh' Eh).
      * destruct (Z i h l1 Ni Hh Hl1) as (A & B & _). destruct (Z i' h' l2 Ni' Hh' Hl2) as (A' & B' & _).
        exact (D i i' h h' l1 l2 b N A A' B B' Eh Eh').
  - (* write *) ob E. destruct (G _ _ E0) as (f & -> & Hf & Hl & Wl). cbn [Archive.bind].
    pose proof Wl as (S & _). rewrite S. destruct (i <? length l) eqn:Ei; injection E as <- <-.
    + apply Nat.ltb_lt in Ei. destruct (W_store m f l i [Some v] Wl) as (m1 & -> & W1 & Fr); [cbn; lia|].
      cbn [Archive.bind]. eexists _, _. split; [reflexivity|]. rewrite (update_cells _ l i) by exact Ei.
      eapply I_mem; eauto.
    + eexists _, _. split; [reflexivity|exact H].
  - (* at *) ob E. destruct (G _ _ E0) as (f & -> & Hf & Hl & Wl). cbn [Archive.bind].
    pose proof Wl as (S & _). rewrite S. destruct (nth_error l i) as [[v|]|] eqn:Ni; try discriminate; injection E as <- <-.
    + pose proof (nth_lt _ _ _ _ Ni) as Li. replace (i <? length l) with true by (symmetry; now apply Nat.ltb_lt).
      rewrite (W_load m f l i 1 Wl) by lia. rewrite (nth_cell _ _ _ _ Ni). cbn. eexists _, _. split; [reflexivity|exact H].
    + apply nth_error_None in Ni. replace (i <? length l) with false by (symmetry; now apply Nat.ltb_ge).
      eexists _, _. split; [reflexivity|exact H].
  - (* size *) ob E. destruct (G _ _ E0) as (f & -> & Hf & Hl & Wl). cbn [Archive.bind]. injection E as <- <-.
    pose proof Wl as (S & _). rewrite S. eexists _, _. split; [reflexivity|exact H].
  - (* all *) ob E. ob E. destruct (G _ _ E0) as (f & -> & Hf & Hl & Wl). cbn [Archive.bind]. injection E as <- <-.
    pose proof Wl as (S & _). rewrite S. rewrite (W_load m f l 0 (length l) Wl) by lia. cbn [skipn]. rewrite firstn_all.
    cbn [Archive.bind]. rewrite (values_determinate _ _ E1). cbn [Archive.bind]. eexists _, _. split; [reflexivity|exact H].
Qed.

Lemma run_ok : forall K p m fs s s1 out, Inv m fs s -> vrun (k_fresh K) (k_drop K) p s = Some (s1, out) ->
  exists st, run K p (m, fs) = Ok (st, out).
Proof.
  intros K p. induction p as [|o p IH]; intros m fs s s1 out H E; cbn [vrun run] in *.
  - injection E as <- <-. eauto.
  - destruct (vstep _ _ o s) as [(s2, o1)|] eqn:E1; cbn [obind fst snd] in E; [|discriminate].
    destruct (vrun _ _ p s2) as [(s3, o2)|] eqn:E2; cbn [obind fst snd] in E; [|discriminate]. injection E as <- <-.
    destruct (step_ok K o m fs s s2 o1 H E1) as (m1 & fs1 & -> & H1). cbn [Archive.bind].
    destruct (IH m1 fs1 s2 s3 o2 H1 E2) as (st & ->). cbn [Archive.bind]. eauto.
Qed.

Lemma lists : forall (K : kind V) n p s out, vrun (k_fresh K) (k_drop K) p (vstart n) = Some (s, out) ->
  exists st, run K p (start n) = Ok (st, out).
Proof. intros. eapply run_ok; [apply I_start|eassumption]. Qed.

(** Memory taken by appending elements one by one to an empty field. *)
Lemma pushes_used : forall K vs m f l, W m f l -> f_cap f = length l -> fits (length l + length vs) = true ->
  exists m1 f1, run K (map (OPush 0) vs) (m, [f]) = Ok ((m1, [f1]), []) /\
    2 * used m1 = 2 * used m + 2 * length vs * length l + length vs * (length vs + 1).
Proof.
  intros K vs. induction vs as [|v vs IH]; intros m f l H C Fn; cbn [map run].
  - eexists _, _. split; [reflexivity|]. cbn. lia.
  - cbn [length] in Fn. assert (F1 : fits (length l + 1) = true) by (eapply fits_le; [exact Fn|lia]).
    pose proof H as (S & _ & blk & B & Lb & Fl).
    cbn [step fget nth_error Archive.bind]. unfold push_back, resize, reserve. rewrite S, F1, C.
    replace (length l <? length l + 1) with true by (symmetry; apply Nat.ltb_lt; lia). cbn zeta.
    rewrite (W_load m f l 0 (length l) H) by lia. cbn [skipn]. rewrite firstn_all. cbn [Archive.bind f_content].
    replace (length l + 1 - length l) with 1 by lia. cbn [repeat].
    assert (B1 : block (m ++ [l ++ [None]]) (Some (length m)) = Ok (l ++ [None])).
    { cbn. rewrite nth_error_app2, Nat.sub_diag by lia. reflexivity. }
    destruct (store_ok _ _ _ (length l) [k_fresh K] B1) as (m2 & -> & B2 & L2 & O2); [rewrite app_length; cbn; lia|].
    cbn [Archive.bind f_content f_cap f_size]. rewrite firstn_exact, skipn_all2, app_nil_r in B2 by (rewrite app_length; cbn; lia).
    destruct (store_ok _ _ _ (length l) [Some v] B2) as (m3 & -> & B3 & L3 & O3); [rewrite app_length; cbn; lia|].
    cbn [Archive.bind f_content f_cap f_size]. rewrite firstn_exact, skipn_all2, app_nil_r in B3 by (rewrite app_length; cbn; lia).
    cbn [update].
    assert (M3 : m3 = m ++ [l ++ [Some v]]).
    { rewrite app_length in L2. cbn in L2. assert (L3' : length m3 = length m + 1) by lia.
      assert (Z : forall b, b < length m -> nth_error m3 b = nth_error m b).
      { intros b Hb. assert (Some (length m) <> Some b) by (intro Q; injection Q; lia).
        rewrite O3, O2 by assumption. now apply nth_error_app1. }
      cbn in B3. destruct (nth_error m3 (length m)) eqn:N3; [|discriminate]. injection B3 as ->.
      clear - L3' Z N3. revert m3 L3' Z N3. induction m as [|x m IH]; intros m3 L Z N.
      - destruct m3 as [|y [|]]; cbn in *; try lia. congruence.
      - destruct m3 as [|y m3]; cbn in L; [lia|]. pose proof (Z 0) as Z0. cbn in Z0.
        assert (y = x) by (assert (Some y = Some x) by (apply Z0; lia); congruence). subst y. cbn. f_equal.
        apply IH; [lia| |exact N]. intros b Hb. apply (Z (S b)). cbn. lia. }
    subst m3.
    destruct (IH (m ++ [l ++ [Some v]]) (mk_fld (Some (length m)) (length l + 1) (length l + 1)) (l ++ [Some v]))
      as (m4 & f4 & E4 & U4).
    { split; [cbn; now rewrite app_length|]. split; [cbn; rewrite app_length; cbn; lia|]. eexists. split; [exact B3|].
      split; [cbn; rewrite app_length; cbn; lia|apply firstn_all]. }
    { cbn. now rewrite app_length. }
    { rewrite app_length. cbn [length]. eapply fits_le; [exact Fn|lia]. }
    rewrite E4. cbn [Archive.bind app]. eexists _, _. split; [reflexivity|]. rewrite U4.
    unfold used. rewrite concat_app, !app_length. cbn. rewrite app_nil_r, !app_length. cbn. nia.
Qed.

Lemma push_memory : forall (K : kind V) vs, fits (length vs) = true ->
  exists st, run K (map (OPush 0) vs) (start 1) = Ok (st, []) /\ 2 * used (fst st) = length vs * (length vs + 1).
Proof.
  intros K vs Fn. destruct (pushes_used K vs [] empty_fld [] (W_empty []) eq_refl Fn) as (m1 & f1 & E & U).
  exists (m1, [f1]). split; [exact E|]. cbn [fst]. rewrite U. cbn. lia.
Qed.

Lemma push_memory_reserved : forall (K : kind V) vs, fits (length vs) = true ->
  exists st, run K (OReserve 0 (length vs) :: map (OPush 0) vs) (start 1) = Ok (st, []) /\ used (fst st) = length vs.
Proof.
  intros K vs Fn.
  assert (Q : forall vs m f l, W m f l -> length l + length vs <= f_cap f -> fits (f_cap f) = true ->
    exists m1 f1, run K (map (OPush 0) vs) (m, [f]) = Ok ((m1, [f1]), []) /\ used m1 = used m).
  { clear. intros vs. induction vs as [|v vs IH]; intros m f l H C Fn; cbn [map run].
    - eauto.
    - cbn [length] in C. assert (F1 : fits (length l + 1) = true) by (eapply fits_le; [exact Fn|lia]).
      pose proof H as (S & _ & blk & B & Lb & Fl). cbn [step fget nth_error Archive.bind].
      assert (Us : forall m c i cs m1, store m c i cs = Ok m1 -> used m1 = used m).
      { clear. intros m c i cs m1 E. destruct c as [b|]; cbn [store] in E; [|destruct (length cs =? 0); congruence].
        unfold block in E. destruct (nth_error m b) as [l|] eqn:N; cbn [Archive.bind] in E; [|discriminate].
        destruct (i + length cs <=? length l) eqn:G; [|discriminate]. apply Nat.leb_le in G. injection E as <-.
        unfold used. clear - N G. revert b N. induction m as [|x m IH]; intros b N; destruct b; cbn in *; try discriminate.
        - injection N as ->. rewrite !app_length, firstn_length, skipn_length. lia.
        - rewrite !app_length. f_equal. now apply IH. }
      destruct (push_back_ok K m f l v H F1) as (m1 & f1 & E1 & W1 & _ & _). rewrite E1. cbn [Archive.bind update].
      assert (Z : used m1 = used m /\ f_cap f1 = f_cap f).
      { unfold push_back, resize in E1. rewrite S, F1 in E1.
        replace (f_cap f <? length l + 1) with false in E1 by (symmetry; apply Nat.ltb_ge; lia). cbn [Archive.bind] in E1.
        replace (length l <? length l + 1) with true in E1 by (symmetry; apply Nat.ltb_lt; lia).
        destruct (store m _ _ _) as [ma| | | |] eqn:Ea; cbn [Archive.bind f_content] in E1; try discriminate.
        destruct (store ma _ _ _) as [mb| | | |] eqn:Eb; cbn [Archive.bind] in E1; try discriminate.
        injection E1 as <- <-. split; [|reflexivity]. rewrite (Us _ _ _ _ _ Eb). exact (Us _ _ _ _ _ Ea). }
      destruct Z as (U1 & C1). destruct (IH m1 f1 (l ++ [Some v]) W1) as (m2 & f2 & E2 & U2).
      { rewrite app_length, C1. cbn. lia. }
      { now rewrite C1. }
      rewrite E2. cbn [Archive.bind app]. eexists _, _. split; [reflexivity|]. lia. }
  cbn [run step start repeat fget nth_error Archive.bind]. unfold reserve. rewrite Fn. cbn [f_cap empty_fld].
  destruct (0 <? length vs) eqn:Z.
  - cbn [load block f_content f_size empty_fld Archive.bind length Nat.add Nat.leb skipn firstn app update]. rewrite Nat.sub_0_r.
    destruct (Q vs [repeat None (length vs)] (mk_fld (Some 0) (length vs) 0) []) as (m1 & f1 & E & U).
    { split; [reflexivity|]. split; [cbn; lia|]. eexists. split; [reflexivity|]. split; [cbn; rewrite repeat_length; lia|reflexivity]. }
    { cbn. lia. }
    { exact Fn. }
    rewrite E. cbn [Archive.bind app]. eexists. split; [reflexivity|]. cbn [fst]. rewrite U. unfold used. cbn.
    rewrite app_nil_r. apply repeat_length.
  - apply Nat.ltb_ge in Z. destruct vs; [|cbn in Z; lia]. eexists. split; [reflexivity|]. reflexivity.
Qed.

End WithElements.
