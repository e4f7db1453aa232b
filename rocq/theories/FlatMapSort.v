(** Proofs about flat_map: construction from an arbitrary range. *)
From Coq Require Import List Arith Lia Bool Sorted Permutation.
Import ListNotations.
Require Import Verif.FlatMap Verif.FlatMapProofs.

Lemma nth_error_ext {T} (l l' : list T) : (forall i, nth_error l i = nth_error l' i) -> l = l'.
Proof.
  revert l'; induction l as [|a l IH]; intros [|b l'] H; auto; try (specialize (H 0); discriminate).
  f_equal; [specialize (H 0); cbn in H; congruence|]. apply IH. intros i. apply (H (S i)).
Qed.

Section Sort.
  Context {K V : Type} (less : K -> K -> bool).
  Hypothesis SW : strict_weak less.
  Notation fmap := (fmap K V).
  Implicit Types (m : fmap) (p : K -> bool).
  Notation lt a b := (less a b = true).
  Notation sorted := (StronglySorted (fun a b => less a b = true)).

  Definition wf m : Prop := length (keys m) = length (vals m).
  Definition key m i := nth_error (keys m) i.

  (** [m'] is [m] with the elements in positions [l, r) rearranged. *)
  Record moved (l r : nat) (m m' : fmap) : Prop := {
    mv_wf : wf m -> wf m';
    mv_len : length (keys m') = length (keys m);
    mv_perm : wf m -> Permutation (elements m) (elements m');
    mv_out : forall i, i < l \/ r <= i -> key m' i = key m i;
    mv_in : forall Q : K -> Prop, (forall i x, l <= i < r -> key m i = Some x -> Q x) -> forall i x, l <= i < r -> key m' i = Some x -> Q x
  }.
  Lemma moved_refl l r m : moved l r m m.
  Proof. constructor; auto. Qed.
  Lemma moved_trans l r m1 m2 m3 : moved l r m1 m2 -> moved l r m2 m3 -> moved l r m1 m3.
  Proof.
    intros [A1 A2 A3 A4 A5] [B1 B2 B3 B4 B5]. constructor; auto; try congruence.
    - intros H. eapply Permutation_trans; auto.
    - intros i Hi. rewrite B4, A4; auto.
    - intros Q HQ. apply B5, A5, HQ.
  Qed.
  Lemma moved_wider l r l' r' m m' : moved l r m m' -> l' <= l -> r <= r' -> moved l' r' m m'.
  Proof.
    intros [A1 A2 A3 A4 A5] Hl Hr. constructor; auto.
    - intros i Hi. apply A4. lia.
    - intros Q HQ i x Hi Hx. destruct (le_lt_dec l i), (le_lt_dec r i); try (rewrite A4 in Hx by lia; eapply HQ; eauto; lia).
      eapply A5; [|split; eauto|exact Hx]. intros j y Hj. apply HQ. lia.
  Qed.
  Lemma combine_nth_error {A B} (l : list A) (l' : list B) i : nth_error (combine l l') i =
    match nth_error l i, nth_error l' i with Some x, Some y => Some (x, y) | _, _ => None end.
  Proof. revert l' i; induction l as [|a l IH]; intros [|b l'] [|i]; cbn; auto. destruct (nth_error l i); reflexivity. Qed.
  Lemma swap_elements i j m : wf m -> i < length (keys m) -> j < length (keys m) -> elements (swap_together i j m) = swap i j (elements m).
  Proof.
    intros Hw Hi Hj. apply nth_error_ext. intros q. unfold wf in Hw. rewrite swap_nth by (unfold elements; rewrite combine_length; lia).
    unfold elements. rewrite !combine_nth_error. cbn [swap_together keys vals]. rewrite !swap_nth by lia. destruct (q =? i), (q =? j); reflexivity.
  Qed.
  Lemma moved_swap l r i j m : l <= i < r -> l <= j < r -> r <= length (keys m) -> moved l r m (swap_together i j m).
  Proof.
    intros Hi Hj Hr. constructor.
    - unfold wf. cbn. rewrite !swap_length. auto.
    - cbn. apply swap_length.
    - intros Hw. rewrite swap_elements by (auto; lia). apply swap_perm.
    - intros q Hq. unfold key. cbn. rewrite swap_nth by lia. destruct (Nat.eqb_spec q i); [lia|]. destruct (Nat.eqb_spec q j); [lia|reflexivity].
    - intros Q HQ q x Hq Hx. unfold key in Hx. cbn in Hx. rewrite swap_nth in Hx by lia. destruct (Nat.eqb_spec q i); [eapply HQ; [exact Hj|exact Hx]|].
      destruct (Nat.eqb_spec q j); [eapply HQ; [exact Hi|exact Hx]|eapply HQ; eauto].
  Qed.
  Lemma key_swap i j m q : i < length (keys m) -> j < length (keys m) ->
    key (swap_together i j m) q = if q =? i then key m j else if q =? j then key m i else key m q.
  Proof. intros Hi Hj. unfold key. cbn. apply swap_nth; auto. Qed.

  (** ** Partition *)
  Lemma scan_up_spec p (l : list K) right : forall fuel left, left <= right -> right - left <= fuel ->
    left <= scan_up fuel left right p l <= right /\ (forall i, left <= i < scan_up fuel left right p l -> test p l i = true) /\
    (scan_up fuel left right p l = right \/ test p l (scan_up fuel left right p l) = false).
  Proof.
    induction fuel as [|f IH]; intros left Hl Hf; cbn [scan_up]; [repeat split; try lia; auto|].
    destruct (Nat.eqb_spec left right) as [->|Hn]; cbn [negb andb]; [repeat split; try lia; auto|]. destruct (test p l left) eqn:E; [|repeat split; try lia; auto].
    destruct (IH (S left) ltac:(lia) ltac:(lia)) as (H1 & H2 & H3). split; [lia|]. split; [|exact H3].
    intros i Hi. destruct (Nat.eq_dec i left) as [->|]; [exact E|apply H2; lia].
  Qed.
  Lemma scan_down_spec p (l : list K) left : forall fuel right, left <= right -> right - left <= fuel ->
    left <= scan_down fuel left right p l <= right /\ (forall i, scan_down fuel left right p l <= i < right -> test p l i = false) /\
    (scan_down fuel left right p l = left \/ test p l (scan_down fuel left right p l - 1) = true).
  Proof.
    induction fuel as [|f IH]; intros right Hl Hf; cbn [scan_down]; [repeat split; try lia; auto|].
    destruct (Nat.eqb_spec left right) as [->|Hn]; cbn [negb andb]; [repeat split; try lia; auto|]. destruct (test p l (right - 1)) eqn:E; cbn [negb]; [repeat split; try lia; auto|].
    destruct (IH (right - 1) ltac:(lia) ltac:(lia)) as (H1 & H2 & H3). split; [lia|]. split; [|exact H3].
    intros i Hi. destruct (Nat.eq_dec i (right - 1)) as [->|]; [exact E|apply H2; lia].
  Qed.

  Lemma partition_spec p lo hi : forall fuel left right m, lo <= left -> left <= right -> right <= hi -> hi <= length (keys m) -> right - left < fuel ->
    (forall i, lo <= i < left -> test p (keys m) i = true) -> (forall i, right <= i < hi -> test p (keys m) i = false) ->
    let '(c, m') := partition_loop fuel left right p m in
    moved lo hi m m' /\ lo <= c <= hi /\ (forall i, lo <= i < c -> test p (keys m') i = true) /\ (forall i, c <= i < hi -> test p (keys m') i = false).
  Proof.
    induction fuel as [|f IH]; intros left right m Hlo Hlr Hhi Hlen Hf Ht Hfa; [lia|]. cbn [partition_loop].
    destruct (Nat.ltb_spec left right) as [Hlt|Hge].
    2: { assert (left = right) by lia. subst. split; [apply moved_refl|]. repeat split; auto; lia. }
    destruct (scan_up_spec p (keys m) right (length (keys m)) left ltac:(lia) ltac:(lia)) as (U1 & U2 & U3).
    set (l1 := scan_up (length (keys m)) left right p (keys m)) in *.
    destruct (scan_down_spec p (keys m) l1 (length (keys m)) right ltac:(lia) ltac:(lia)) as (D1 & D2 & D3).
    set (r1 := scan_down (length (keys m)) l1 right p (keys m)) in *.
    assert (Ht1 : forall i, lo <= i < l1 -> test p (keys m) i = true).
    { intros i Hi. destruct (le_lt_dec left i); [apply U2; lia|apply Ht; lia]. }
    assert (Hf1 : forall i, r1 <= i < hi -> test p (keys m) i = false).
    { intros i Hi. destruct (le_lt_dec right i); [apply Hfa; lia|apply D2; lia]. }
    destruct (Nat.ltb_spec (l1 + 1) r1) as [H1|H1].
    - assert (Hfl : test p (keys m) l1 = false) by (destruct U3; [lia|assumption]).
      assert (Htr : test p (keys m) (r1 - 1) = true) by (destruct D3; [lia|assumption]).
      assert (Hk : forall i, test p (keys (swap_together l1 (r1 - 1) m)) i = if i =? l1 then true else if i =? r1 - 1 then false else test p (keys m) i).
      { intros i. unfold test in *. pose proof (key_swap l1 (r1 - 1) m i ltac:(lia) ltac:(lia)) as Hk. unfold key in Hk. rewrite Hk.
        destruct (i =? l1); [exact Htr|]. destruct (i =? r1 - 1); [exact Hfl|reflexivity]. }
      pose proof (moved_swap lo hi l1 (r1 - 1) m ltac:(lia) ltac:(lia) ltac:(lia)) as Hm.
      specialize (IH (S l1) (r1 - 1) (swap_together l1 (r1 - 1) m)). destruct (partition_loop f (S l1) (r1 - 1) p (swap_together l1 (r1 - 1) m)) as [c m'].
      destruct IH as (I1 & I2 & I3 & I4); try lia.
      + rewrite (mv_len _ _ _ _ Hm). lia.
      + intros i Hi. rewrite Hk. destruct (Nat.eqb_spec i l1); [reflexivity|]. destruct (Nat.eqb_spec i (r1 - 1)); [lia|]. apply Ht1. lia.
      + intros i Hi. rewrite Hk. destruct (Nat.eqb_spec i l1); [lia|]. destruct (Nat.eqb_spec i (r1 - 1)); [reflexivity|]. apply Hf1. lia.
      + split; [eapply moved_trans; eauto|]. auto.
    - assert (l1 = r1).
      { destruct (Nat.eq_dec l1 r1) as [|Hne]; [assumption|]. assert (r1 = l1 + 1) by lia. destruct U3 as [|U3]; [lia|]. destruct D3 as [|D3]; [lia|].
        replace (r1 - 1) with l1 in D3 by lia. congruence. }
      destruct f as [|f]; [lia|]. cbn [partition_loop]. destruct (Nat.ltb_spec l1 r1); [lia|]. split; [apply moved_refl|]. repeat split; try lia.
      + intros i Hi. apply Ht1. lia.
      + intros i Hi. apply Hf1. lia.
  Qed.

  (** ** Sorting *)
  Definition range_sorted (l r : nat) m : Prop := forall i j x y, l <= i -> i < j -> j < r -> key m i = Some x -> key m j = Some y -> less y x = false.

  Lemma sort_range_spec : forall fuel left right m, right <= length (keys m) -> right - left <= fuel ->
    moved left right m (sort_range less fuel left right m) /\ range_sorted left right (sort_range less fuel left right m).
  Proof.
    induction fuel as [|f IH]; intros left right m Hr Hf.
    - cbn. split; [apply moved_refl|]. intros i j x y H1 H2 H3. lia.
    - cbn [sort_range]. destruct (Nat.leb_spec 3 (right - left)) as [H3|H3].
      + set (pv := left + (right - left) / 2). assert (Hpv : left <= pv < right). { assert ((right - left) / 2 < right - left) by (apply Nat.div_lt; lia). unfold pv. lia. }
        set (m1 := if pv =? right - 1 then m else swap_together pv (right - 1) m).
        assert (Hm1 : moved left right m m1) by (unfold m1; destruct (pv =? right - 1); [apply moved_refl|apply moved_swap; lia]).
        assert (L1 : length (keys m1) = length (keys m)) by apply Hm1.
        destruct (nth_error (keys m1) (right - 1)) as [pk|] eqn:Epk; [|apply nth_error_None in Epk; lia].
        pose proof (partition_spec (fun x => less x pk) left (right - 1) (S (right - left)) left (right - 1) m1 ltac:(lia) ltac:(lia) ltac:(lia) ltac:(lia) ltac:(lia) ltac:(intros; lia) ltac:(intros; lia)) as Hp.
        destruct (partition_loop (S (right - left)) left (right - 1) (fun x => less x pk) m1) as [c m2].
        destruct Hp as (P1 & P2 & P3 & P4). assert (L2 : length (keys m2) = length (keys m1)) by apply P1.
        assert (Ep2 : key m2 (right - 1) = Some pk) by (rewrite (mv_out _ _ _ _ P1) by lia; exact Epk).
        set (m3 := if c =? right - 1 then m2 else swap_together c (right - 1) m2).
        assert (Hm3 : moved left right m2 m3) by (unfold m3; destruct (c =? right - 1); [apply moved_refl|apply moved_swap; lia]).
        assert (L3 : length (keys m3) = length (keys m2)) by apply Hm3.
        assert (K3 : key m3 c = Some pk).
        { unfold m3. destruct (Nat.eqb_spec c (right - 1)) as [->|Hc]; [exact Ep2|]. rewrite key_swap, Nat.eqb_refl by lia. exact Ep2. }
        assert (A3 : forall i x, left <= i < c -> key m3 i = Some x -> lt x pk).
        { intros i x Hi Hx. assert (Hx2 : key m2 i = Some x).
          { revert Hx. unfold m3. destruct (Nat.eqb_spec c (right - 1)); [auto|]. rewrite key_swap by lia. destruct (Nat.eqb_spec i c); [lia|]. destruct (Nat.eqb_spec i (right - 1)); [lia|auto]. }
          specialize (P3 i Hi). unfold test in P3. unfold key in Hx2. rewrite Hx2 in P3. exact P3. }
        assert (B3 : forall i x, c + 1 <= i < right -> key m3 i = Some x -> less x pk = false).
        { intros i x Hi Hx. assert (Hx2 : exists q, c <= q < right - 1 /\ key m2 q = Some x).
          { revert Hx. unfold m3. destruct (Nat.eqb_spec c (right - 1)); [lia|]. rewrite key_swap by lia. destruct (Nat.eqb_spec i c); [lia|].
            destruct (Nat.eqb_spec i (right - 1)); intros Hx; [exists c|exists i]; split; auto; lia. }
          destruct Hx2 as (q & Hq & Hx2). specialize (P4 q Hq). unfold test in P4. unfold key in Hx2. rewrite Hx2 in P4. exact P4. }
        destruct (IH left c m3 ltac:(lia) ltac:(lia)) as [M4 T4]. set (m4 := sort_range less f left c m3) in *.
        assert (L4 : length (keys m4) = length (keys m3)) by apply M4.
        destruct (IH (c + 1) right m4 ltac:(lia) ltac:(lia)) as [M5 T5]. set (m5 := sort_range less f (c + 1) right m4) in *.
        split.
        * eapply moved_trans; [exact Hm1|]. eapply moved_trans; [eapply moved_wider; [exact P1|lia|lia]|]. eapply moved_trans; [exact Hm3|].
          eapply moved_trans; [eapply moved_wider; [exact M4|lia|lia]|]. eapply moved_wider; [exact M5|lia|lia].
        * assert (A5 : forall i x, left <= i < c -> key m5 i = Some x -> lt x pk).
          { intros i x Hi Hx. rewrite (mv_out _ _ _ _ M5) in Hx by lia. exact (mv_in _ _ _ _ M4 (fun x => lt x pk) A3 i x Hi Hx). }
          assert (B5 : forall i x, c + 1 <= i < right -> key m5 i = Some x -> less x pk = false).
          { apply (mv_in _ _ _ _ M5 (fun x => less x pk = false)). intros i x Hi Hx. rewrite (mv_out _ _ _ _ M4) in Hx by lia. eapply B3; eauto. }
          assert (C5 : key m5 c = Some pk) by (rewrite (mv_out _ _ _ _ M5), (mv_out _ _ _ _ M4) by lia; exact K3).
          intros i j x y Hi Hij Hj Hx Hy. destruct (lt_eq_lt_dec j c) as [[Hjc| ->]|Hjc].
          -- rewrite (mv_out _ _ _ _ M5) in Hx, Hy by lia. eapply (T4 i j); eauto.
          -- rewrite C5 in Hy. injection Hy as <-. apply (less_asym less SW). eapply A5; [|exact Hx]. lia.
          -- assert (Hyp : less y pk = false) by (eapply B5; [|exact Hy]; lia). destruct (lt_eq_lt_dec i c) as [[Hic| ->]|Hic].
             ++ assert (Hxp : lt x pk) by (eapply A5; [|exact Hx]; lia). destruct (less y x) eqn:E; [|reflexivity]. rewrite (sw_trans _ SW _ _ _ E Hxp) in Hyp. discriminate.
             ++ rewrite C5 in Hx. injection Hx as <-. exact Hyp.
             ++ eapply (T5 i j); eauto. lia.
      + destruct (Nat.eqb_spec (right - left) 2) as [H2|H2].
        * destruct (nth_error (keys m) left) as [a|] eqn:Ea; [|apply nth_error_None in Ea; lia].
          destruct (nth_error (keys m) (left + 1)) as [b|] eqn:Eb; [|apply nth_error_None in Eb; lia].
          destruct (less a b) eqn:E.
          -- split; [apply moved_refl|]. intros i j x y Hi Hij Hj Hx Hy. assert (i = left) by lia. assert (j = left + 1) by lia. subst i j. unfold key in Hx, Hy.
             rewrite Ea in Hx. rewrite Eb in Hy. injection Hx as <-. injection Hy as <-. apply (less_asym less SW). exact E.
          -- split; [apply moved_swap; lia|]. intros i j x y Hi Hij Hj Hx Hy. assert (i = left) by lia. assert (j = left + 1) by lia. subst i j.
             rewrite key_swap in Hx, Hy by lia. rewrite Nat.eqb_refl in Hx. destruct (Nat.eqb_spec (left + 1) left); [lia|]. rewrite Nat.eqb_refl in Hy. unfold key in Hx, Hy.
             rewrite Eb in Hx. rewrite Ea in Hy. injection Hx as <-. injection Hy as <-. exact E.
        * split; [apply moved_refl|]. intros i j x y Hi Hij Hj. lia.
  Qed.

  Notation weakly := (StronglySorted (fun a b : K => less b a = false)).
  Lemma nth_sorted (R : K -> K -> Prop) (l : list K) : (forall i j x y, i < j -> nth_error l i = Some x -> nth_error l j = Some y -> R x y) -> StronglySorted R l.
  Proof.
    induction l as [|a l IH]; intros H; constructor.
    - apply IH. intros i j x y Hij Hx Hy. apply (H (S i) (S j)); auto. lia.
    - apply Forall_forall. intros x Hx. apply In_nth_error in Hx. destruct Hx as [j Hj]. apply (H 0 (S j)); auto. lia.
  Qed.
  Theorem sort_together_spec m : wf m -> wf (sort_together less m) /\ Permutation (elements m) (elements (sort_together less m)) /\ weakly (keys (sort_together less m)).
  Proof.
    intros Hw. destruct (sort_range_spec (length (keys m)) 0 (length (keys m)) m ltac:(lia) ltac:(lia)) as [M S]. fold (sort_together less m) in *.
    split; [apply M; auto|]. split; [apply M; auto|]. apply nth_sorted. intros i j x y Hij Hx Hy. eapply (S i j); auto; [lia|].
    rewrite <- (mv_len _ _ _ _ M). apply nth_error_Some. congruence.
  Qed.

  (** ** Removing duplicates *)
  Fixpoint uniq (l : list (K * V)) : list (K * V) :=
    match l with
    | [] => []
    | x :: t => match t with y :: _ => if less (fst x) (fst y) then x :: uniq t else uniq t | [] => [x] end
    end.
  Lemma uniq_step x t : uniq (x :: t) = (if match t with y :: _ => negb (less (fst x) (fst y)) | [] => false end then [] else [x]) ++ uniq t.
  Proof. cbn [uniq]. destruct t as [|y t]; [reflexivity|]. destruct (less (fst x) (fst y)); reflexivity. Qed.
  Lemma elements_length m : wf m -> length (elements m) = length (keys m).
  Proof. unfold wf, elements. rewrite combine_length. lia. Qed.
  Lemma upd_elements d k v m : wf m -> elements (FM (upd d k (keys m)) (upd d v (vals m))) = upd d (k, v) (elements m).
  Proof.
    intros Hw. apply nth_error_ext. intros i. rewrite upd_nth. unfold elements. cbn [keys vals]. rewrite !combine_nth_error, !upd_nth, combine_length, <- Hw, Nat.min_id.
    destruct ((d =? i) && (d <? length (keys m))); reflexivity.
  Qed.
  Lemma firstn_upd {T} d i x (l : list T) : i <= d -> firstn i (upd d x l) = firstn i l.
  Proof. revert d i; induction l as [|a l IH]; intros [|d] [|i] H; cbn; auto; try lia. f_equal. apply IH. lia. Qed.
  Lemma skipn_upd {T} d i x (l : list T) : d < i -> skipn i (upd d x l) = skipn i l.
  Proof. revert d i; induction l as [|a l IH]; intros [|d] [|i] H; cbn; auto; try lia. apply IH. lia. Qed.

  Lemma unique_loop_spec l : forall fuel i d m, wf m -> length (keys m) = length l -> length l - i <= fuel -> d <= i -> i <= length l ->
    firstn d (elements m) ++ uniq (skipn i l) = uniq l -> skipn i (elements m) = skipn i l ->
    let '(d', m') := unique_loop less fuel i d m in wf m' /\ length (keys m') = length l /\ d' <= length l /\ firstn d' (elements m') = uniq l.
  Proof.
    induction fuel as [|f IH]; intros i d m Hw Hl Hf Hd Hi Hu Hs; cbn [unique_loop].
    - assert (i = length l) by lia. subst i. rewrite skipn_all in Hu. cbn [uniq] in Hu. rewrite app_nil_r in Hu. repeat split; auto.
    - destruct (Nat.eq_dec i (length l)) as [->|Hne].
      { rewrite (proj2 (nth_error_None _ _)) by lia. rewrite skipn_all in Hu. cbn [uniq] in Hu. rewrite app_nil_r in Hu. repeat split; auto. }
      destruct (nth_error l i) as [[k v]|] eqn:El; [|apply nth_error_None in El; lia].
      assert (Hn : forall q, i <= q -> nth_error (elements m) q = nth_error l q).
      { intros q Hq. rewrite <- (firstn_skipn i (elements m)), <- (firstn_skipn i l), Hs. pose proof (elements_length m Hw). rewrite !nth_error_app2 by (rewrite firstn_length; lia). rewrite !firstn_length. f_equal. lia. }
      assert (Ee : nth_error (elements m) i = Some (k, v)) by (rewrite Hn; auto). pose proof (proj1 (elements_nth m i k v) Ee) as [-> ->].
      assert (Hsk : skipn i l = (k, v) :: skipn (S i) l).
      { destruct (split_at _ _ _ El) as [H1 H2]. rewrite H1 at 1. rewrite <- H2 at 1. rewrite skipn_len. reflexivity. }
      assert (Hdup : match nth_error (keys m) (S i) with Some k' => negb (less k k') | None => false end = match skipn (S i) l with y :: _ => negb (less k (fst y)) | [] => false end).
      { destruct (nth_error l (S i)) as [[k' v']|] eqn:E1.
        - assert (nth_error (keys m) (S i) = Some k') as -> by (apply (elements_nth m (S i) k' v'); rewrite Hn; auto).
          destruct (split_at _ _ _ E1) as [H1 H2]. rewrite H1. rewrite <- H2 at 1. rewrite skipn_len. reflexivity.
        - apply nth_error_None in E1. rewrite (proj2 (nth_error_None (keys m) _)) by lia. rewrite skipn_all2 by lia. reflexivity. }
      rewrite Hdup. rewrite Hsk, uniq_step in Hu. cbn [fst] in Hu.
      destruct (match skipn (S i) l with y :: _ => negb (less k (fst y)) | [] => false end).
      + apply IH; auto; try lia. rewrite <- (Nat.add_1_r i), !skipn_add, Hs. reflexivity.
      + set (m' := if i =? d then m else FM (upd d k (keys m)) (upd d v (vals m))).
        assert (Hm' : elements m' = upd d (k, v) (elements m)).
        { unfold m'. destruct (Nat.eqb_spec i d) as [<-|]; [|apply upd_elements; auto]. apply nth_error_ext. intros q. rewrite upd_nth. destruct (Nat.eqb_spec i q) as [<-|]; [|reflexivity].
          rewrite elements_length, Hl by auto. destruct (Nat.ltb_spec i (length l)); [exact Ee|lia]. }
        apply IH; try lia.
        * unfold m'. destruct (i =? d); auto. unfold wf. cbn. rewrite !upd_length. auto.
        * unfold m'. destruct (i =? d); auto. cbn. rewrite upd_length. auto.
        * rewrite <- Hu, app_assoc. f_equal. rewrite Hm'. rewrite (firstn_succ d _ (k, v)); [rewrite firstn_upd by lia; reflexivity|].
          rewrite upd_nth, Nat.eqb_refl, elements_length by auto. destruct (Nat.ltb_spec d (length (keys m))); [reflexivity|lia].
        * rewrite Hm', skipn_upd by lia. rewrite <- (Nat.add_1_r i), !skipn_add, Hs. reflexivity.
  Qed.

  Lemma uniq_in l x : In x (uniq l) -> In x l.
  Proof.
    induction l as [|a l IH]; [auto|]. rewrite uniq_step. intros H. apply in_app_or in H. destruct H as [H|H]; [|right; auto].
    destruct (match l with y :: _ => negb (less (fst a) (fst y)) | [] => false end); [destruct H|]. destruct H as [->|[]]. left. reflexivity.
  Qed.
  Lemma uniq_keeps l : weakly (map fst l) -> forall k v, In (k, v) l -> exists k' v', In (k', v') (uniq l) /\ same_key less k k'.
  Proof.
    induction l as [|[a w] l IH]; intros Hs k v Hin; [destruct Hin|]. inversion Hs as [|? ? Hs1 Hs2]; subst. specialize (IH Hs1). rewrite uniq_step.
    destruct Hin as [[= -> ->]|Hin].
    - cbn [fst]. destruct l as [|[b u] l]; [exists k, v; split; [left; reflexivity|apply same_refl; auto]|]. cbn [fst]. destruct (less k b) eqn:E; cbn [negb].
      + exists k, v. split; [left; reflexivity|apply same_refl; auto].
      + destruct (IH b u (or_introl eq_refl)) as (k' & v' & H1 & H2). exists k', v'. split; [exact H1|]. eapply same_trans; eauto. inversion Hs2; subst. split; auto.
    - destruct (IH k v Hin) as (k' & v' & H1 & H2). exists k', v'. split; [|exact H2]. apply in_or_app. auto.
  Qed.
  Lemma uniq_sorted l : weakly (map fst l) -> sorted (map fst (uniq l)).
  Proof.
    induction l as [|[a w] l IH]; intros Hs; [constructor|]. inversion Hs as [|? ? Hs1 Hs2]; subst. rewrite uniq_step. cbn [fst].
    destruct l as [|[b u] l]; [repeat constructor|]. cbn [fst]. destruct (less a b) eqn:E; cbn [negb]; [|apply IH; auto]. cbn [app map fst]. constructor; [apply IH; auto|].
    apply Forall_forall. intros x Hx. apply in_map_iff in Hx. destruct Hx as ([x' v'] & <- & Hx). apply uniq_in in Hx. cbn [fst].
    destruct Hx as [[= <- <-]|Hx]; [exact E|]. eapply less_le; eauto. inversion Hs1 as [|? ? _ F]; subst. rewrite Forall_forall in F. apply F. apply (in_map fst) in Hx. exact Hx.
  Qed.

  Lemma uniq_all l : sorted (map fst l) -> uniq l = l.
  Proof.
    induction l as [|[a w] l IH]; intros Hs; [reflexivity|]. inversion Hs as [|? ? Hs1 Hs2]; subst. rewrite uniq_step, IH by auto. cbn [fst].
    destruct l as [|[b u] l]; [reflexivity|]. inversion Hs2; subst. cbn [fst] in *. match goal with H : less a b = true |- _ => rewrite H end. reflexivity.
  Qed.
  Lemma keys_elements m : wf m -> keys m = map fst (elements m).
  Proof. unfold wf, elements. destruct m as [ks vs]. cbn. revert vs; induction ks as [|k ks IH]; intros [|v vs]; cbn; try discriminate; auto. intros [= H]. f_equal. auto. Qed.

  Theorem sort_unique_elements m : wf m -> wf (sort_and_unique less m) /\ elements (sort_and_unique less m) = uniq (elements (sort_together less m)).
  Proof.
    intros Hw. destruct (sort_together_spec m Hw) as (H1 & H2 & H3). unfold sort_and_unique. set (m1 := sort_together less m) in *.
    pose proof (unique_loop_spec (elements m1) (length (keys m1)) 0 0 m1 H1) as U. rewrite (elements_length m1 H1) in U.
    specialize (U eq_refl ltac:(lia) ltac:(lia) ltac:(lia) eq_refl eq_refl). destruct (unique_loop less (length (keys m1)) 0 0 m1) as [d m2].
    destruct U as (U1 & U2 & U3 & U4). unfold erase_between, erase_range. rewrite skipn_all, app_nil_r. unfold wf in U1.
    rewrite (skipn_all2 (vals m2)) by lia. rewrite app_nil_r. split.
    - unfold wf. cbn. rewrite !firstn_length. lia.
    - rewrite <- U4. unfold elements. cbn [keys vals]. symmetry. apply combine_firstn.
  Qed.
  Theorem sort_unique_spec m : wf m ->
    inv less (sort_and_unique less m) /\
    (forall k v, In (k, v) (elements (sort_and_unique less m)) -> In (k, v) (elements m)) /\
    (forall k v, In (k, v) (elements m) -> exists w, maps_to less (sort_and_unique less m) k w).
  Proof.
    intros Hw. destruct (sort_unique_elements m Hw) as [H1 H2]. destruct (sort_together_spec m Hw) as (S1 & S2 & S3). rewrite (keys_elements _ S1) in S3. split; [|split].
    - split; [exact H1|]. rewrite (keys_elements _ H1), H2. apply uniq_sorted. exact S3.
    - intros k v H. rewrite H2 in H. apply uniq_in in H. eapply Permutation_in; [apply Permutation_sym; exact S2|exact H].
    - intros k v H. eapply Permutation_in in H; [|exact S2]. destruct (uniq_keeps _ S3 k v H) as (k' & v' & A & B). exists v', k'. rewrite H2. auto.
  Qed.
  (** With no two keys the same, the result holds every given pair. *)
  Theorem sort_unique_distinct m : wf m -> (forall i j x y, i < j -> nth_error (keys m) i = Some x -> nth_error (keys m) j = Some y -> ~ same_key less x y) ->
    Permutation (elements m) (elements (sort_and_unique less m)).
  Proof.
    intros Hw Hd. destruct (sort_unique_elements m Hw) as [H1 H2]. destruct (sort_together_spec m Hw) as (S1 & S2 & S3). rewrite H2, uniq_all; [exact S2|].
    rewrite <- (keys_elements _ S1). apply nth_sorted. intros i j x y Hij Hx Hy.
    assert (Hyx : less y x = false).
    { assert (HS : forall l : list K, weakly l -> forall i j x y, i < j -> nth_error l i = Some x -> nth_error l j = Some y -> less y x = false).
      { clear. induction 1 as [|a l H1 IH H2]; intros [|i] [|j] x y Hij; cbn; try discriminate; try lia.
        - intros [= <-] Hy. rewrite Forall_forall in H2. apply H2. eapply nth_error_In; eauto.
        - apply IH. lia. }
      eapply HS; eauto. }
    destruct (less x y) eqn:E; [reflexivity|]. exfalso.
    assert (Hp : Permutation (keys m) (keys (sort_together less m))). { rewrite (keys_elements m Hw), (keys_elements _ S1). apply Permutation_map. exact S2. }
    apply Permutation_nth_error in Hp. destruct Hp as (_ & f & Hf & He). rewrite He in Hx, Hy.
    assert (Hfn : f i <> f j) by (intros Hc; apply Hf in Hc; lia).
    destruct (Nat.lt_trichotomy (f i) (f j)) as [Hl|[Hl|Hl]]; [|contradiction|].
    - eapply Hd; eauto. split; auto.
    - eapply Hd; [exact Hl|exact Hy|exact Hx|]. split; auto.
  Qed.
  Theorem of_range_spec (l : list (K * V)) : inv less (of_range less l) /\
    (forall k v, In (k, v) (elements (of_range less l)) -> In (k, v) l) /\ (forall k v, In (k, v) l -> exists w, maps_to less (of_range less l) k w).
  Proof.
    assert (Hw : wf (FM (map fst l) (map snd l) : fmap)) by (unfold wf; cbn; rewrite !map_length; reflexivity).
    assert (He : elements (FM (map fst l) (map snd l)) = l) by (unfold elements; cbn; induction l as [|[a b] l IH]; cbn; f_equal; apply IH; unfold wf; cbn; rewrite !map_length; reflexivity).
    pose proof (sort_unique_spec _ Hw) as H. rewrite He in H. exact H.
  Qed.
  Theorem of_sorted_spec (l : list (K * V)) : sorted (map fst l) -> inv less (of_sorted l) /\ elements (of_sorted l) = l.
  Proof.
    intros Hs. split; [split; cbn; [rewrite !map_length; reflexivity|exact Hs]|]. unfold elements, of_sorted. cbn. clear. induction l as [|[a b] l IH]; cbn; f_equal; auto.
  Qed.
End Sort.
