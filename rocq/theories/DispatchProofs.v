(** The field lookup finds exactly the member declaring a number. *)
Require Import Verif.Bits Verif.Schema Verif.Dispatch.
Open Scope nat_scope.

(** ** Specification *)

(** Member [i] of the tuple declares field number [n]. *)
Definition declares (ms : list meta) (i : nat) (n : Z) : Prop :=
  match nth_error ms i with
  | Some (MField num) => num = n
  | Some (MOneof nums) => In n nums
  | None => False
  end.

(** The member without a number, if any, is the last one. *)
Definition unknown_last (ms : list meta) : Prop :=
  forall i, declares ms i uint32_max -> nth_error ms i = Some (MField uint32_max) /\ S i = length ms.

(** ** Arrays *)

Lemma store_spec {T} (x : T) : forall a i, i < length a ->
  exists a', store i x a = Some a' /\ length a' = length a /\
    forall j, nth_error a' j = if Nat.eqb j i then Some x else nth_error a j.
Proof.
  induction a as [|h t IH]; intros i H; [cbn in H; lia|]. destruct i as [|i]; cbn [store].
  - eexists. split; [reflexivity|]. split; [reflexivity|]. intros [|j]; reflexivity.
  - cbn [length] in H. destruct (IH i ltac:(lia)) as (t' & -> & L & N). eexists. split; [reflexivity|].
    split; [cbn; lia|]. intros [|j]; [reflexivity|]. cbn [nth_error Nat.eqb]. apply N.
Qed.

Lemma combine_app {A B} (a a' : list A) (b b' : list B) : length a = length b ->
  combine (a ++ a') (b ++ b') = combine a b ++ combine a' b'.
Proof. revert b. induction a as [|x a IH]; intros [|y b] H; cbn in *; try lia; [reflexivity|]. f_equal. apply IH. lia. Qed.

Section Sort.
  Context (mask : Z) (L : nat).
  Notation key := (masked mask).

  Definition cnt (k : nat) (ns : list Z) : nat := length (filter (fun n => key n =? k) ns).

  Lemma cnt_cons k n ns : cnt k (n :: ns) = (if key n =? k then 1 else 0) + cnt k ns.
  Proof. unfold cnt. cbn [filter]. destruct (key n =? k); reflexivity. Qed.

  Lemma cnt_app k a b : cnt k (a ++ b) = cnt k a + cnt k b.
  Proof. unfold cnt. rewrite filter_app, app_length. reflexivity. Qed.

  Lemma count_spec ns : Forall (fun n => key n < L) ns -> forall occ, length occ = L ->
    exists occ', count_masked mask ns occ = Some occ' /\ length occ' = L /\
      forall k c, nth_error occ k = Some c -> nth_error occ' k = Some (c + cnt k ns).
  Proof.
    induction ns as [|n t IH]; intros F occ HL; cbn [count_masked].
    { eexists. split; [reflexivity|]. split; [exact HL|]. intros k c H. unfold cnt. cbn. rewrite H. f_equal. lia. }
    pose proof (Forall_inv F) as Hk. cbn beta in Hk. pose proof (Forall_inv_tail F) as Ft.
    destruct (nth_error occ (key n)) as [c|] eqn:E; [|apply nth_error_None in E; lia].
    destruct (store_spec (S c) occ (key n) ltac:(lia)) as (o1 & -> & L1 & N1).
    destruct (IH Ft o1 ltac:(lia)) as (o2 & -> & L2 & N2). eexists. split; [reflexivity|]. split; [exact L2|].
    intros k c' H. rewrite cnt_cons. specialize (N1 k). rewrite Nat.eqb_sym in N1.
    destruct (Nat.eqb_spec (key n) k) as [Hek|Hek].
    - subst k. assert (c' = c) by congruence. subst. rewrite (N2 _ _ N1). f_equal. lia.
    - rewrite H in N1. rewrite (N2 _ _ N1). f_equal.
  Qed.

  (** Start of the range of masked number [k]. *)
  Fixpoint off (ns : list Z) (k : nat) : nat := match k with O => 0 | S k' => off ns k' + cnt k' ns end.

  Lemma partial_spec ns : forall occ acc s, (forall k, k < length occ -> nth_error occ k = Some (cnt (s + k) ns)) -> acc = off ns s ->
    forall k, k < length occ -> nth_error (partial_sums acc occ) k = Some (off ns (s + S k)).
  Proof.
    induction occ as [|x t IH]; intros acc s H Ha k Hk; [cbn in Hk; lia|]. cbn [partial_sums].
    assert (Ex : x = cnt s ns). { pose proof (H 0 ltac:(cbn; lia)) as E. cbn in E. rewrite Nat.add_0_r in E. congruence. }
    destruct k as [|k]; cbn [nth_error].
    - f_equal. replace (s + 1) with (S s) by lia. cbn [off]. lia.
    - replace (s + S (S k)) with (S s + S k) by lia. cbn [length] in Hk. apply IH; [|cbn [off]; lia|lia].
      intros j Hj. replace (S s + j) with (s + S j) by lia. apply (H (S j)). cbn. lia.
  Qed.

  Lemma partial_length occ : forall acc, length (partial_sums acc occ) = length occ.
  Proof. induction occ; intros; cbn; auto. Qed.

  Lemma offsets_spec ns : Forall (fun n => key n < L) ns -> L = Z.to_nat mask + 1 ->
    exists o, lookup_offsets mask ns = Some o /\ length o = S L /\ forall k, k <= L -> nth_error o k = Some (off ns k).
  Proof.
    intros F HL. unfold lookup_offsets. destruct (count_spec ns F (repeat 0 (Z.to_nat mask + 1))) as (occ & -> & Lo & N).
    { rewrite repeat_length. lia. }
    eexists. split; [reflexivity|]. split; [cbn; rewrite partial_length; lia|].
    intros [|k] Hk; [reflexivity|]. cbn [nth_error]. apply (partial_spec ns occ 0 0); [|reflexivity|lia].
    intros j Hj. apply (N j 0). rewrite nth_error_repeat by lia. reflexivity.
  Qed.

  Lemma off_mono ns k k' : k <= k' -> off ns k <= off ns k'.
  Proof. induction 1; cbn [off]; lia. Qed.

  Lemma off_sep ns k k' : k < k' -> off ns k + cnt k ns <= off ns k'.
  Proof. intros H. pose proof (off_mono ns (S k) k' ltac:(lia)) as M. cbn [off] in M. lia. Qed.

  Lemma off_cons n ns k : off (n :: ns) k = (if key n <? k then 1 else 0) + off ns k.
  Proof.
    induction k as [|k IH]; [reflexivity|]. cbn [off]. rewrite IH, cnt_cons.
    destruct (Nat.ltb_spec (key n) k), (Nat.eqb_spec (key n) k), (Nat.ltb_spec (key n) (S k)); lia.
  Qed.

  Lemma off_total ns : Forall (fun n => key n < L) ns -> off ns L = length ns.
  Proof.
    induction ns as [|n t IH]; intros F.
    - clear. induction L as [|l IH]; [reflexivity|]. cbn [off]. rewrite IH. reflexivity.
    - rewrite off_cons. rewrite (IH (Forall_inv_tail F)). pose proof (Forall_inv F) as Hf. cbn beta in Hf.
      destruct (Nat.ltb_spec (key n) L); cbn [length]; lia.
  Qed.

  Definition with_masked (k : nat) (xs : list (Z * nat)) : list (Z * nat) := filter (fun x => key (fst x) =? k) xs.

  Lemma with_masked_length k ns is : length ns <= length is -> length (with_masked k (combine ns is)) = cnt k ns.
  Proof.
    revert is. induction ns as [|n t IH]; intros is H; [reflexivity|]. destruct is as [|i is]; [cbn in H; lia|].
    cbn [combine]. unfold with_masked in *. cbn [filter fst]. rewrite cnt_cons. cbn [length] in H.
    destruct (key n =? k); cbn [length]; rewrite IH by lia; lia.
  Qed.

  (** After the numbers [p], the rest being [ns]. *)
  Lemma fill_spec all : Forall (fun n => key n < L) all -> forall ns is p pi counts result,
    all = p ++ ns -> length p = length pi -> length ns <= length is ->
    length counts = L -> (forall k, k < L -> nth_error counts k = Some (off all k + cnt k p)) ->
    length result = length all ->
    (forall k j, k < L -> j < cnt k p -> nth_error result (off all k + j) = nth_error (with_masked k (combine p pi)) j) ->
    exists t, fill_table mask ns is counts result = Some t /\ length t = length all /\
      forall k j, k < L -> j < cnt k all -> nth_error t (off all k + j) = nth_error (with_masked k (combine (p ++ ns) (pi ++ firstn (length ns) is))) j.
  Proof.
    intros F. induction ns as [|n t IH]; intros is p pi counts result Ha Hp Hi Lc Hc Lr Hr.
    - cbn [fill_table]. eexists. split; [reflexivity|]. split; [exact Lr|]. intros k j Hk Hj. cbn [length firstn].
      rewrite !app_nil_r in *. subst all. apply Hr; auto.
    - destruct is as [|i is]; [cbn in Hi; lia|]. cbn [fill_table].
      assert (Hn : key n < L).
      { rewrite Forall_forall in F. apply F. rewrite Ha. apply in_or_app. right. left. reflexivity. }
      rewrite (Hc _ Hn).
      assert (Hcn : cnt (key n) all = cnt (key n) p + (1 + cnt (key n) t)).
      { rewrite Ha, cnt_app, cnt_cons, Nat.eqb_refl. reflexivity. }
      assert (Hb : off all (key n) + cnt (key n) p < length all).
      { pose proof (off_sep all (key n) L Hn). rewrite (off_total all F) in H. lia. }
      destruct (store_spec (n, i) result (off all (key n) + cnt (key n) p) ltac:(lia)) as (r1 & -> & Lr1 & Nr1).
      destruct (store_spec (S (off all (key n) + cnt (key n) p)) counts (key n) ltac:(lia)) as (c1 & -> & Lc1 & Nc1).
      cbn [length] in Hi.
      destruct (IH is (p ++ [n]) (pi ++ [i]) c1 r1) as (tb & -> & Lt & Nt).
      + rewrite <- app_assoc. exact Ha.
      + rewrite !app_length. cbn. lia.
      + lia.
      + lia.
      + intros k Hk. rewrite Nc1. destruct (Nat.eqb_spec k (key n)) as [-> |Hne].
        * rewrite cnt_app, cnt_cons, Nat.eqb_refl. f_equal. unfold cnt at 3. cbn. lia.
        * rewrite (Hc k Hk), cnt_app, cnt_cons. replace (key n =? k) with false by (symmetry; apply Nat.eqb_neq; auto).
          f_equal. unfold cnt at 3. cbn. lia.
      + lia.
      + intros k j Hk Hj. rewrite Nr1, combine_app by exact Hp. unfold with_masked. rewrite filter_app. cbn [combine filter fst].
        rewrite cnt_app, cnt_cons in Hj. unfold cnt at 2 in Hj. cbn [filter length] in Hj.
        fold (with_masked k (combine p pi)).
        assert (Lw : length (with_masked k (combine p pi)) = cnt k p) by (apply with_masked_length; lia).
        assert (Hck : cnt k p <= cnt k all) by (rewrite Ha, cnt_app; lia).
        destruct (Nat.eqb_spec (key n) k) as [Hek|Hne].
        * subst k. destruct (Nat.eqb_spec (off all (key n) + j) (off all (key n) + cnt (key n) p)) as [He|He].
          { assert (j = cnt (key n) p) by lia. subst j. rewrite nth_error_app2 by lia. rewrite Lw, Nat.sub_diag. reflexivity. }
          { rewrite nth_error_app1 by lia. apply Hr; lia. }
        * cbn [length] in Hj. rewrite app_nil_r.
          destruct (Nat.eqb_spec (off all k + j) (off all (key n) + cnt (key n) p)) as [He|He]; [exfalso|apply Hr; lia].
          destruct (Nat.lt_total k (key n)) as [G|[G|G]]; [|congruence|].
          { pose proof (off_sep all k (key n) G). lia. }
          { pose proof (off_sep all (key n) k G). lia. }
      + eexists. split; [reflexivity|]. split; [exact Lt|]. intros k j Hk Hj. rewrite (Nt k j Hk Hj).
        rewrite <- !app_assoc. cbn [app length firstn]. reflexivity.
  Qed.

  Lemma table_spec ns is o : Forall (fun n => key n < L) ns -> L = Z.to_nat mask + 1 -> length ns <= length is ->
    lookup_offsets mask ns = Some o ->
    exists t, lookup_table mask ns is o = Some t /\ length t = length ns /\
      forall k j, k < L -> j < cnt k ns -> nth_error t (off ns k + j) = nth_error (with_masked k (combine ns is)) j.
  Proof.
    intros F HL Hi Ho. destruct (offsets_spec ns F HL) as (o' & E & Lo & No). assert (o' = o) by congruence. subst o'. clear E.
    assert (Lr : length (removelast o) = L).
    { rewrite removelast_firstn_len, firstn_length, Lo. lia. }
    destruct (fill_spec ns F ns is [] [] (removelast o) (repeat (0%Z, 0) (length ns))) as (t & E & Lt & Nt); auto.
    - intros k Hk. unfold cnt at 1. cbn [filter length]. rewrite Nat.add_0_r. rewrite <- (No k ltac:(lia)).
      rewrite removelast_firstn_len, Lo. cbn [pred]. clear -Hk. revert o k Hk. induction L as [|l IH]; intros o k Hk; [lia|].
      destruct o as [|x o]; [destruct k; reflexivity|]. destruct k; [reflexivity|]. cbn. apply IH. lia.
    - apply repeat_length.
    - intros k j _ Hj. unfold cnt in Hj. cbn in Hj. lia.
    - exists t. split; [exact E|]. split; [exact Lt|]. intros k j Hk Hj. rewrite (Nt k j Hk Hj). cbn [app].
      replace (combine ns (firstn (length ns) is)) with (combine ns is); [reflexivity|].
      clear. revert is. induction ns as [|n ns IH]; intros is; [reflexivity|]. destruct is; [reflexivity|]. cbn. f_equal. apply IH.
  Qed.
End Sort.

(** ** Looking up *)

Fixpoint lookup (n : Z) (xs : list (Z * nat)) : option nat :=
  match xs with [] => None | (num, i) :: t => if (n =? num)%Z then Some i else lookup n t end.

Lemma range_spec n table e : e <= length table -> forall fuel b, b <= e -> e - b < fuel ->
  dispatch_range fuel table b e n = Some (lookup n (firstn (e - b) (skipn b table))).
Proof.
  intros He. induction fuel as [|f IH]; intros b Hb Hf; [lia|]. cbn [dispatch_range].
  destruct (Nat.eqb_spec b e) as [-> |Hne]; [rewrite Nat.sub_diag; reflexivity|].
  destruct (nth_error table b) as [[num i]|] eqn:E; [|apply nth_error_None in E; lia].
  assert (S1 : skipn b table = (num, i) :: skipn (S b) table).
  { clear -E. revert b E. induction table as [|x t IH]; intros [|b] E; cbn in *; try discriminate.
    - injection E as ->. reflexivity.
    - apply IH. exact E. }
  rewrite S1. replace (e - b) with (S (e - S b)) by lia. cbn [firstn lookup].
  destruct (n =? num)%Z; [reflexivity|]. apply IH; lia.
Qed.

Lemma masked_mod mask w n : mask = (2 ^ w - 1)%Z -> (0 <= w)%Z -> masked mask n = Z.to_nat (n mod 2 ^ w).
Proof. intros -> Hw. unfold masked. rewrite <- Z.land_ones by lia. rewrite Z.ones_equiv. rewrite <- Z.sub_1_r. reflexivity. Qed.

Lemma masked_lt mask w n : mask = (2 ^ w - 1)%Z -> (0 <= w)%Z -> masked mask n < Z.to_nat mask + 1.
Proof.
  intros E Hw. rewrite (masked_mod mask w n E Hw). pose proof (Z.mod_pos_bound n (2 ^ w) ltac:(apply Z.pow_pos_nonneg; lia)).
  subst mask. lia.
Qed.

Lemma bit_width_nonneg n : (0 <= n)%Z -> (0 <= bit_width n)%Z.
Proof. intros H. unfold bit_width. destruct (Z.eqb_spec n 0); [lia|]. pose proof (Z.log2_nonneg n). lia. Qed.

Lemma lookup_with_masked mask n xs : lookup n (with_masked mask (masked mask n) xs) = lookup n xs.
Proof.
  induction xs as [|[num i] t IH]; [reflexivity|]. unfold with_masked in *. cbn [filter fst].
  destruct (Nat.eqb_spec (masked mask num) (masked mask n)) as [E|E]; cbn [lookup].
  - rewrite IH. reflexivity.
  - rewrite IH. destruct (Z.eqb_spec n num) as [-> |]; [congruence|reflexivity].
Qed.

Lemma dispatch_masked_in mask o t n : forall ks, In (masked mask n) ks ->
  dispatch_masked ks mask o t n =
  match nth_error o (masked mask n), nth_error o (S (masked mask n)) with
  | Some b, Some e => dispatch_range (S (length t)) t b e n
  | _, _ => None
  end.
Proof.
  induction ks as [|k r IH]; intros H; [destruct H|]. cbn [dispatch_masked].
  destruct (Nat.eqb_spec (masked mask n) k) as [<- |Hne]; [reflexivity|].
  apply IH. destruct H; [congruence|assumption].
Qed.

(** What dispatch computes, for any numbers and indices. *)
Lemma dispatch_lookup ms n : length (get_numbers ms) <= length (get_indices ms) ->
  dispatch ms n = Some (lookup n (combine (get_numbers ms) (get_indices ms))).
Proof.
  intros Hl. unfold dispatch. cbv zeta. set (ns := get_numbers ms) in *. set (is := get_indices ms) in *.
  set (mask := mask_of ns). set (w := bit_width (zlen ns)).
  assert (Hw : (0 <= w)%Z) by (apply bit_width_nonneg; unfold zlen; lia).
  assert (Em : mask = (2 ^ w - 1)%Z) by reflexivity.
  assert (F : Forall (fun m => masked mask m < Z.to_nat mask + 1) ns) by (apply Forall_forall; intros; eapply masked_lt; eauto).
  destruct (offsets_spec mask _ ns F eq_refl) as (o & Eo & Lo & No). rewrite Eo.
  destruct (table_spec mask _ ns is o F eq_refl Hl Eo) as (t & Et & Lt & Nt). rewrite Et.
  pose proof (masked_lt mask w n Em Hw) as Hk. set (k := masked mask n) in *.
  rewrite dispatch_masked_in by (apply in_seq; fold k; lia). fold k.
  rewrite (No k) by lia. rewrite (No (S k)) by lia. cbn [off].
  assert (Hb : off mask ns k + cnt mask k ns <= length t).
  { pose proof (off_sep mask ns k _ Hk) as X. rewrite (off_total mask _ ns F) in X. lia. }
  rewrite range_spec by lia. f_equal.
  replace (off mask ns k + cnt mask k ns - off mask ns k) with (cnt mask k ns) by lia.
  replace (firstn (cnt mask k ns) (skipn (off mask ns k) t)) with (with_masked mask k (combine ns is)); [apply lookup_with_masked|].
  pose proof (with_masked_length mask k ns is Hl) as Lw.
  specialize (Nt k). clear -Nt Lw Hb Hk. set (c := cnt mask k ns) in *. set (b := off mask ns k) in *.
  set (W := with_masked mask k (combine ns is)) in *. clearbody W c b.
  assert (Nt' : forall j, j < c -> nth_error (skipn b t) j = nth_error W j).
  { intros j Hj. rewrite <- (Nt j Hk Hj). clear. revert t. induction b as [|b IH]; intros t; [reflexivity|]. destruct t; [destruct j; reflexivity|]. cbn. apply IH. }
  assert (Ls : c <= length (skipn b t)) by (rewrite skipn_length; lia).
  set (s := skipn b t) in *. clearbody s. clear -Nt' Lw Ls. revert c W Nt' Lw Ls. induction s as [|x s IH]; intros c W Nt' Lw Ls.
  - cbn in Ls. assert (c = 0) by lia. subst. destruct W; [reflexivity|cbn in *; lia].
  - destruct c as [|c]; [destruct W; [reflexivity|cbn in *; lia]|]. destruct W as [|y W]; [cbn in Lw; lia|].
    cbn [firstn]. pose proof (Nt' 0 ltac:(lia)) as E. cbn in E. injection E as ->. f_equal. apply IH; cbn in Lw, Ls; try lia.
    intros j Hj. apply (Nt' (S j)). lia.
Qed.

(** ** The pairs of numbers and indices *)

Definition has_number (n : Z) (m : meta) : Prop :=
  match m with MField num => num = n | MOneof l => In n l end.

Lemma no_max_numbers l : ~ In uint32_max l -> List.flat_map number_of l = l.
Proof.
  induction l as [|n t IH]; intros H; [reflexivity|]. cbn [List.flat_map]. unfold number_of at 1.
  destruct (Z.eqb_spec n uint32_max) as [-> |]; [exfalso; apply H; left; reflexivity|].
  cbn. f_equal. apply IH. intros K. apply H. right. exact K.
Qed.

Lemma lookup_app n a b : lookup n (a ++ b) = match lookup n a with Some i => Some i | None => lookup n b end.
Proof. induction a as [|[num i] t IH]; [reflexivity|]. cbn. destruct (n =? num)%Z; auto. Qed.

Lemma lookup_repeat n l i : lookup n (combine l (repeat i (length l))) = if existsb (fun x => (n =? x)%Z) l then Some i else None.
Proof. induction l as [|x t IH]; [reflexivity|]. cbn. destruct (n =? x)%Z; cbn; auto. Qed.

Definition unknown_last_from (ms : list meta) : Prop :=
  forall j m, nth_error ms j = Some m -> has_number uint32_max m -> m = MField uint32_max /\ S j = length ms.

Fixpoint first_member (n : Z) (i : nat) (ms : list meta) : option nat :=
  match ms with
  | [] => None
  | m :: t =>
      if match m with MField num => (n =? num)%Z | MOneof l => existsb (fun x => (n =? x)%Z) l end then Some i
      else first_member n (S i) t
  end.

Lemma pairs_lookup n : n <> uint32_max -> forall ms i, unknown_last_from ms ->
  length (get_numbers ms) <= length (get_indices_from i ms) /\
  lookup n (combine (get_numbers ms) (get_indices_from i ms)) = first_member n i ms.
Proof.
  intros Hn. induction ms as [|m t IH]; intros i H; [split; [cbn; lia|reflexivity]|].
  assert (Ht : unknown_last_from t).
  { intros j m' Hj Hm. destruct (H (S j) m' Hj Hm) as [-> E]. split; [reflexivity|]. cbn in E. lia. }
  destruct (IH (S i) Ht) as [IL IE]. pose proof (H 0 m eq_refl) as H0. change (get_numbers (m :: t)) with (numbers_of m ++ get_numbers t).
  cbn [get_indices_from first_member].
  destruct m as [num|l]; cbn [has_number numbers_of indices_of] in *.
  - unfold number_of. destruct (Z.eqb_spec num uint32_max) as [-> |Hm].
    + destruct (H0 eq_refl) as [_ E]. cbn in E. assert (t = []) by (destruct t; [reflexivity|cbn in E; lia]). subst t.
      cbn. split; [lia|]. destruct (Z.eqb_spec n uint32_max); [congruence|reflexivity].
    + cbn [app length combine lookup]. split; [lia|]. rewrite IE. reflexivity.
  - assert (Nm : ~ In uint32_max l) by (intros K; destruct (H0 K); discriminate). rewrite (no_max_numbers l Nm).
    rewrite !app_length, repeat_length. split; [lia|]. rewrite combine_app by (rewrite repeat_length; reflexivity).
    rewrite lookup_app, lookup_repeat, IE. destruct (existsb _ l); reflexivity.
Qed.

Lemma first_member_some n : forall ms i k, first_member n i ms = Some k <->
  i <= k /\ declares ms (k - i) n /\ forall j, declares ms j n -> k - i <= j.
Proof.
  induction ms as [|m t IH]; intros i k.
  - cbn. split; [discriminate|]. intros (_ & D & _). unfold declares in D. destruct (k - i); contradiction.
  - cbn [first_member].
    set (b := match m with MField num => (n =? num)%Z | MOneof l => existsb (fun x => (n =? x)%Z) l end).
    assert (Hb : b = true <-> declares (m :: t) 0 n).
    { unfold b, declares. cbn [nth_error]. destruct m as [num|l]; [lia|]. rewrite existsb_exists. split.
      - intros (x & Hx & E). apply Z.eqb_eq in E. subst. exact Hx.
      - intros Hx. exists n. split; [exact Hx|lia]. }
    assert (HS : forall j, declares (m :: t) (S j) n <-> declares t j n) by (intros; reflexivity).
    destruct b.
    + split.
      * intros [= <-]. rewrite Nat.sub_diag. split; [lia|]. split; [apply Hb; reflexivity|]. intros; lia.
      * intros (Hk & _ & M). specialize (M 0 (proj1 Hb eq_refl)). f_equal. lia.
    + assert (N0 : ~ declares (m :: t) 0 n) by (intros K; apply Hb in K; discriminate).
      rewrite IH. split.
      * intros (Hk & D & M). split; [lia|]. replace (k - i) with (S (k - S i)) by lia. split; [apply HS; exact D|].
        intros [|j] Dj; [contradiction|]. apply HS in Dj. specialize (M j Dj). lia.
      * intros (Hk & D & M). destruct (k - i) as [|q] eqn:Eq; [contradiction|]. split; [lia|]. replace (k - S i) with q by lia.
        split; [apply HS; exact D|]. intros j Dj. specialize (M (S j) (proj2 (HS j) Dj)). lia.
Qed.

Lemma unknown_last_iff ms : unknown_last ms -> unknown_last_from ms.
Proof.
  intros H j m Hj Hm. destruct (H j) as [E1 E2].
  - unfold declares. rewrite Hj. destruct m; exact Hm.
  - split; [congruence|exact E2].
Qed.

(** The first member declaring the number is found, and only then. *)
Theorem dispatch_found ms n : unknown_last ms -> n <> uint32_max -> forall i,
  dispatch ms n = Some (Some i) <-> declares ms i n /\ forall j, declares ms j n -> i <= j.
Proof.
  intros H Hn i. destruct (pairs_lookup n Hn ms 0 (unknown_last_iff ms H)) as [HL HE].
  rewrite (dispatch_lookup ms n HL). unfold get_indices. rewrite HE.
  pose proof (first_member_some n ms 0 i) as F. rewrite Nat.sub_0_r in F. split.
  - intros E. assert (first_member n 0 ms = Some i) by congruence. apply F in H0. tauto.
  - intros D. f_equal. apply F. split; [lia|exact D].
Qed.

Theorem dispatch_not_found ms n : unknown_last ms -> n <> uint32_max ->
  dispatch ms n = Some None <-> forall i, ~ declares ms i n.
Proof.
  intros H Hn. destruct (pairs_lookup n Hn ms 0 (unknown_last_iff ms H)) as [HL HE].
  rewrite (dispatch_lookup ms n HL). unfold get_indices. rewrite HE. split.
  - intros E i D. assert (N : first_member n 0 ms = None) by congruence.
    assert (X : exists k, first_member n 0 ms = Some k).
    { clear -D. generalize 0. revert i D. induction ms as [|m t IH]; intros i D s; [destruct i; destruct D|]. cbn [first_member].
      destruct (match m with MField num => (n =? num)%Z | MOneof l => existsb (fun x => (n =? x)%Z) l end) eqn:B; [eauto|].
      destruct i as [|i]; [|exact (IH i D (S s))]. exfalso. unfold declares in D. cbn in D. destruct m as [num|l]; [lia|].
      rewrite <- not_true_iff_false in B. apply B. apply existsb_exists. exists n. split; [exact D|lia]. }
    destruct X as [k X]. congruence.
  - intros D. f_equal. destruct (first_member n 0 ms) as [k|] eqn:E; [|reflexivity].
    apply first_member_some in E. exfalso. exact (D _ (proj1 (proj2 E))).
Qed.

(** The decoder model looks members up by searching the descriptor; that is what
    dispatch computes. *)
Lemma find_first n : forall fs i, match find_field n fs i with Some (k, _) => Some k | None => None end =
  first_member n i (map meta_of_field fs).
Proof.
  induction fs as [|f t IH]; intros i; [reflexivity|]. cbn [find_field map first_member].
  assert (E : has_num n f = match meta_of_field f with MField num => (n =? num)%Z | MOneof l => existsb (fun x => (n =? x)%Z) l end).
  { destruct f as [num e c|alts]; cbn [has_num meta_of_field]; [apply Z.eqb_sym|]. induction alts as [|a r IHr]; [reflexivity|].
    cbn. rewrite IHr, (Z.eqb_sym (fst a)). reflexivity. }
  rewrite E. destruct (match meta_of_field f with MField num => (n =? num)%Z | MOneof l => existsb (fun x => (n =? x)%Z) l end); [reflexivity|apply IH].
Qed.

Definition legal_numbers (d : mdesc) : Prop := Forall (fun f => has_num uint32_max f = false) (m_fields d).

Lemma first_member_app n a b : forall i, first_member n i (a ++ b) =
  match first_member n i a with Some k => Some k | None => first_member n (i + length a) b end.
Proof.
  induction a as [|m t IH]; intros i; [cbn; rewrite Nat.add_0_r; reflexivity|]. cbn [app first_member length].
  destruct (match m with MField num => _ | MOneof l => _ end); [reflexivity|]. rewrite IH.
  replace (S i + length t) with (i + S (length t)) by lia. reflexivity.
Qed.

Theorem dispatch_find d n : legal_numbers d -> n <> uint32_max ->
  dispatch (metas_of d) n = Some (match find_field n (m_fields d) 0 with Some (i, _) => Some i | None => None end).
Proof.
  intros HD Hn.
  assert (U : unknown_last_from (metas_of d)).
  { intros j m Hj Hm. unfold metas_of in *. destruct (Nat.lt_ge_cases j (length (map meta_of_field (m_fields d)))) as [G|G].
    - rewrite nth_error_app1 in Hj by exact G. exfalso. rewrite nth_error_map in Hj.
      destruct (nth_error (m_fields d) j) as [f|] eqn:Ef; [|discriminate]. injection Hj as <-.
      unfold legal_numbers in HD. rewrite Forall_forall in HD. specialize (HD f (nth_error_In _ _ Ef)).
      destruct f as [num e c|alts]; cbn [meta_of_field has_number has_num] in *; [lia|].
      rewrite <- not_true_iff_false in HD. apply HD. apply existsb_exists. apply in_map_iff in Hm.
      destruct Hm as (a & E & Ha). exists a. split; [exact Ha|lia].
    - rewrite nth_error_app2 in Hj by exact G. rewrite app_length.
      destruct (m_unk d); cbn in Hj; [destruct (j - _); discriminate| | |];
        (destruct (j - length (map meta_of_field (m_fields d))) as [|q] eqn:Eq;
         [cbn in Hj; injection Hj as <-; split; [reflexivity|cbn; lia]|destruct q; discriminate]). }
  destruct (pairs_lookup n Hn (metas_of d) 0 U) as [HL HE]. rewrite (dispatch_lookup _ n HL). unfold get_indices. rewrite HE.
  f_equal. unfold metas_of. rewrite first_member_app, <- find_first.
  destruct (find_field n (m_fields d) 0) as [[k f]|]; [reflexivity|].
  destruct (m_unk d); cbn; try reflexivity; (destruct (Z.eqb_spec n uint32_max); [congruence|reflexivity]).
Qed.
