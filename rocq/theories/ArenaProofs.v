(** Proofs about the model of arena_vector. *)
From Coq Require Import List Arith Bool Lia.
Import ListNotations.
Require Import Verif.Arena.
Local Open Scope nat_scope.
Local Open Scope list_scope.

Lemma list_ext {T} (l l' : list T) : (forall i, nth_error l i = nth_error l' i) -> l = l'.
Proof.
  revert l'; induction l as [|x l IH]; intros [|y l'] H; auto.
  - specialize (H 0). discriminate.
  - specialize (H 0). discriminate.
  - f_equal.
    + specialize (H 0). cbn in H. congruence.
    + apply IH. intros i. exact (H (S i)).
Qed.

Section Mem.
  Context {V : Type}.
  Implicit Types (m : mem V) (c : cell V).

  Definition at_ m (b x : nat) : option (cell V) :=
    match nth_error m b with None => None | Some bl => nth_error bl x end.

  Lemma load_at m b o i : load m (Some (b, o)) i = at_ m b (o + i).
  Proof. reflexivity. Qed.

  Lemma set_nth_length {T} i (x : T) l : length (set_nth i x l) = length l.
  Proof. revert i; induction l; destruct i; cbn; auto. Qed.

  Lemma nth_set_nth {T} i j (x : T) l :
    nth_error (set_nth i x l) j = if (j =? i) && (i <? length l) then Some x else nth_error l j.
  Proof.
    revert i j; induction l as [|h t IH]; intros i j; destruct i, j; cbn; auto.
    - now rewrite andb_false_r.
    - rewrite IH. reflexivity.
  Qed.

  Lemma at_some_lt m b x c : at_ m b x = Some c -> b < length m.
  Proof. unfold at_. destruct (nth_error m b) eqn:E; [|discriminate]. intros _. apply nth_error_Some. congruence. Qed.

  Lemma store_at m b o i c :
    at_ m b (o + i) <> None ->
    exists m', store m (Some (b, o)) i c = Some m' /\ length m' = length m /\
      forall b' x, at_ m' b' x = if (b' =? b) && (x =? o + i) then Some c else at_ m b' x.
  Proof.
    unfold at_, store. intros H. destruct (nth_error m b) as [bl|] eqn:E; [|congruence].
    apply nth_error_Some in H.
    assert (L : (o + i <? length bl) = true) by now apply Nat.ltb_lt.
    rewrite L. eexists. split; [reflexivity|]. split; [apply set_nth_length|]. intros b' x.
    rewrite nth_set_nth.
    assert (B : (b <? length m) = true) by (apply Nat.ltb_lt, nth_error_Some; congruence).
    rewrite B, andb_true_r. destruct (Nat.eqb_spec b' b) as [->|N]; cbn [andb]; [|reflexivity].
    rewrite nth_set_nth, L, andb_true_r, E. now destruct (x =? o + i).
  Qed.

  Lemma copy_at k : forall m bs os i bd od j,
    (forall t, t < k -> at_ m bs (os + i + t) <> None) ->
    (forall t, t < k -> at_ m bd (od + j + t) <> None) ->
    (bs <> bd \/ od + j <= os + i \/ os + i + k <= od + j) ->
    exists m', copy m (Some (bs, os)) i (Some (bd, od)) j k = Some m' /\ length m' = length m /\
      forall b x, at_ m' b x =
        if (b =? bd) && ((od + j <=? x) && (x <? od + j + k)) then at_ m bs (os + i + (x - (od + j))) else at_ m b x.
  Proof.
    induction k as [|k IH]; intros m bs os i bd od j HS HD HZ.
    - exists m. split; [reflexivity|]. split; [reflexivity|]. intros b x.
      destruct (Nat.leb_spec (od + j) x), (Nat.ltb_spec x (od + j + 0)); try lia; cbn; now rewrite andb_false_r.
    - cbn [copy]. rewrite load_at.
      destruct (at_ m bs (os + i)) as [c|] eqn:EC.
      2:{ exfalso. apply (HS 0); [lia|]. now rewrite Nat.add_0_r. }
      destruct (store_at m bd od j c) as (m1 & E1 & L1 & A1).
      { specialize (HD 0). rewrite Nat.add_0_r in HD. apply HD. lia. }
      rewrite E1.
      destruct (IH m1 bs os (S i) bd od (S j)) as (m2 & E2 & L2 & A2).
      + intros t Ht. rewrite A1. destruct (_ && _); [discriminate|].
        replace (os + S i + t) with (os + i + S t) by lia. apply HS. lia.
      + intros t Ht. rewrite A1. destruct (_ && _); [discriminate|].
        replace (od + S j + t) with (od + j + S t) by lia. apply HD. lia.
      + lia.
      + exists m2. split; [exact E2|]. split; [congruence|]. intros b x. rewrite A2.
        destruct (Nat.eqb_spec b bd) as [->|Nb]; cbn [andb].
        2:{ rewrite A1. destruct (Nat.eqb_spec b bd); [congruence|]. reflexivity. }
        destruct (Nat.leb_spec (od + S j) x), (Nat.ltb_spec x (od + S j + k)),
          (Nat.leb_spec (od + j) x), (Nat.ltb_spec x (od + j + S k)); try lia; cbn [andb].
        * rewrite A1. replace (os + S i + (x - (od + S j))) with (os + i + (x - (od + j))) by lia.
          destruct (Nat.eqb_spec bs bd); cbn [andb]; [|reflexivity].
          destruct (Nat.eqb_spec (os + i + (x - (od + j))) (od + j)); [lia|reflexivity].
        * rewrite A1. destruct (Nat.eqb_spec bd bd); [|congruence]. cbn [andb].
          destruct (Nat.eqb_spec x (od + j)); [lia|reflexivity].
        * rewrite A1. rewrite Nat.eqb_refl. cbn [andb].
          assert (x = od + j) by lia. subst x. rewrite Nat.eqb_refl, Nat.sub_diag, Nat.add_0_r. now rewrite EC.
        * rewrite A1. rewrite Nat.eqb_refl. cbn [andb].
          destruct (Nat.eqb_spec x (od + j)); [lia|reflexivity].
  Qed.

  Lemma fill_at k : forall m bd od j c,
    (forall t, t < k -> at_ m bd (od + j + t) <> None) ->
    exists m', fill m (Some (bd, od)) j k c = Some m' /\ length m' = length m /\
      forall b x, at_ m' b x = if (b =? bd) && ((od + j <=? x) && (x <? od + j + k)) then Some c else at_ m b x.
  Proof.
    induction k as [|k IH]; intros m bd od j c HD.
    - exists m. split; [reflexivity|]. split; [reflexivity|]. intros b x.
      destruct (Nat.leb_spec (od + j) x), (Nat.ltb_spec x (od + j + 0)); try lia; cbn; now rewrite andb_false_r.
    - cbn [fill].
      destruct (store_at m bd od j c) as (m1 & E1 & L1 & A1).
      { specialize (HD 0). rewrite Nat.add_0_r in HD. apply HD. lia. }
      rewrite E1.
      destruct (IH m1 bd od (S j) c) as (m2 & E2 & L2 & A2).
      + intros t Ht. rewrite A1. destruct (_ && _); [discriminate|].
        replace (od + S j + t) with (od + j + S t) by lia. apply HD. lia.
      + exists m2. split; [exact E2|]. split; [congruence|]. intros b x. rewrite A2, A1.
        destruct (Nat.eqb_spec b bd) as [->|Nb]; cbn [andb]; [|reflexivity].
        destruct (Nat.leb_spec (od + S j) x), (Nat.ltb_spec x (od + S j + k)),
          (Nat.leb_spec (od + j) x), (Nat.ltb_spec x (od + j + S k)), (Nat.eqb_spec x (od + j));
          try lia; reflexivity.
  Qed.

  Lemma put_list_at : forall (l : list V) m bd od j,
    (forall t, t < length l -> at_ m bd (od + j + t) <> None) ->
    exists m', put_list m (Some (bd, od)) j l = Some m' /\ length m' = length m /\
      forall b x, at_ m' b x =
        if (b =? bd) && ((od + j <=? x) && (x <? od + j + length l)) then nth_error (map Some l) (x - (od + j)) else at_ m b x.
  Proof.
    induction l as [|v l IH]; intros m bd od j HD.
    - exists m. split; [reflexivity|]. split; [reflexivity|]. intros b x. cbn [length].
      destruct (Nat.leb_spec (od + j) x), (Nat.ltb_spec x (od + j + 0)); try lia; cbn [andb]; now rewrite andb_false_r.
    - cbn [put_list]. cbn [length] in *.
      destruct (store_at m bd od j (Some v)) as (m1 & E1 & L1 & A1).
      { specialize (HD 0). rewrite Nat.add_0_r in HD. apply HD. lia. }
      rewrite E1.
      destruct (IH m1 bd od (S j)) as (m2 & E2 & L2 & A2).
      + intros t Ht. rewrite A1. destruct (_ && _); [discriminate|].
        replace (od + S j + t) with (od + j + S t) by lia. apply HD. lia.
      + exists m2. split; [exact E2|]. split; [congruence|]. intros b x. rewrite A2, A1.
        destruct (Nat.eqb_spec b bd) as [->|Nb]; cbn [andb]; [|reflexivity].
        destruct (Nat.leb_spec (od + S j) x), (Nat.ltb_spec x (od + S j + length l)),
          (Nat.leb_spec (od + j) x), (Nat.ltb_spec x (od + j + S (length l))), (Nat.eqb_spec x (od + j));
          try lia; cbn [andb]; try reflexivity.
        * replace (x - (od + j)) with (S (x - (od + S j))) by lia. reflexivity.
        * subst x. now rewrite Nat.sub_diag.
  Qed.

  Lemma allocate_at m n b x :
    at_ (fst (allocate m n)) b x = if b =? length m then (if x <? n then Some None else None) else at_ m b x.
  Proof.
    cbn [allocate fst]. unfold at_. destruct (Nat.eqb_spec b (length m)) as [->|N].
    - rewrite nth_error_app2, Nat.sub_diag by lia. cbn [nth_error].
      destruct (Nat.ltb_spec x n).
      + now apply nth_error_repeat.
      + apply nth_error_None. rewrite repeat_length. lia.
    - destruct (Nat.lt_ge_cases b (length m)).
      + now rewrite nth_error_app1.
      + rewrite (proj2 (nth_error_None m b)) by lia.
        rewrite (proj2 (nth_error_None _ b)); [reflexivity|]. rewrite app_length. cbn. lia.
  Qed.

  (** Views, pointwise. *)
  Lemma read_cells_spec k : forall m p i (xs : list (cell V)),
    read_cells m p i k = Some xs <-> length xs = k /\ forall t, t < k -> load m p (i + t) = nth_error xs t.
  Proof.
    induction k as [|k IH]; intros m p i xs; cbn [read_cells].
    - split.
      + intros [= <-]. split; [reflexivity|lia].
      + intros [L _]. destruct xs; [reflexivity|discriminate].
    - destruct (load m p i) as [c|] eqn:E.
      + destruct (read_cells m p (S i) k) as [l|] eqn:R.
        * apply IH in R as [L R]. split.
          -- intros [= <-]. split; [cbn; lia|]. intros [|t] Ht.
             ++ now rewrite Nat.add_0_r.
             ++ replace (i + S t) with (S i + t) by lia. apply R. lia.
          -- intros [L' R']. f_equal. apply (@list_ext (cell V)). intros [|t].
             ++ rewrite <- R', Nat.add_0_r by lia. now symmetry.
             ++ change (nth_error (c :: l) (S t)) with (nth_error l t). destruct (Nat.lt_ge_cases t k).
                ** rewrite <- R' by lia. rewrite <- R by lia. f_equal. lia.
                ** rewrite !(proj2 (nth_error_None _ _)); [reflexivity|lia|cbn; lia].
        * split; [discriminate|]. intros [L' R']. destruct xs as [|x xs]; [discriminate|].
          assert (read_cells m p (S i) k = Some xs) as C; [|congruence].
          apply IH. split; [cbn in L'; lia|]. intros t Ht.
          replace (S i + t) with (i + S t) by lia. now rewrite R' by lia.
      + split; [discriminate|]. intros [L' R']. specialize (R' 0). rewrite Nat.add_0_r, E in R'.
        destruct xs; [discriminate|]. specialize (R' ltac:(lia)). discriminate.
  Qed.

  Lemma shown_spec m v (xs : list (cell V)) :
    shown m v = Some xs <-> length xs = v_size v /\ forall t, t < v_size v -> load m (v_ptr v) t = nth_error xs t.
  Proof. unfold shown. rewrite read_cells_spec. reflexivity. Qed.

  Lemma shown_load m v (xs : list (cell V)) t :
    shown m v = Some xs -> t < v_size v -> exists b o c, v_ptr v = Some (b, o) /\ at_ m b (o + t) = Some c /\ nth_error xs t = Some c.
  Proof.
    rewrite shown_spec. intros [L H] Ht. specialize (H t Ht).
    destruct (nth_error xs t) as [c|] eqn:E; [|apply nth_error_None in E; lia].
    destruct (v_ptr v) as [[b o]|]; [|discriminate]. exists b, o, c. auto.
  Qed.

  (** The cells of [m] are kept in [m']. *)
  Definition kept m m' := forall b x c, at_ m b x = Some c -> at_ m' b x = Some c.
  Definition framed (base : nat) m m' :=
    length m <= length m' /\ forall b x, b < base -> at_ m' b x = at_ m b x.

  Lemma shown_kept m m' v (xs : list (cell V)) : kept m m' -> shown m v = Some xs -> shown m' v = Some xs.
  Proof.
    intros K H. rewrite shown_spec in *. destruct H as [L H]. split; [exact L|]. intros t Ht.
    specialize (H t Ht). destruct (v_ptr v) as [[b o]|].
    - rewrite load_at in *. destruct (nth_error xs t) eqn:E; [|apply nth_error_None in E; lia]. now apply K.
    - destruct (nth_error xs t) eqn:E; [|apply nth_error_None in E; lia]. discriminate.
  Qed.

  Lemma shown_app m b o n k (xs ys : list (cell V)) :
    shown m (View (Some (b, o)) n) = Some xs -> shown m (View (Some (b, o + n)) k) = Some ys ->
    shown m (View (Some (b, o)) (n + k)) = Some (xs ++ ys).
  Proof.
    rewrite !shown_spec. cbn [v_ptr v_size]. intros [L H] [L' H']. split; [rewrite app_length; lia|].
    intros t Ht. destruct (Nat.lt_ge_cases t n).
    - rewrite nth_error_app1 by lia. auto.
    - rewrite nth_error_app2 by lia. rewrite L, <- H' by lia. rewrite !load_at. f_equal. lia.
  Qed.

  (** [own base a n]: the storage is the vector's own and holds [n] elements. *)
  Definition own (base : nat) (a : arena V) (n : nat) :=
    exists b, a_data a = Some (b, 0) /\ base <= b /\ n <= a_cap a /\ forall x, x < a_cap a -> at_ (a_mem a) b x <> None.
  Definition none (a : arena V) := a_data a = None /\ a_cap a = 0.

  Definition inv (base : nat) (a : arena V) (xs : list (cell V)) :=
    shown (a_mem a) (a_view a) = Some xs /\ base <= length (a_mem a) /\
    (none a \/ (own base a (v_size (a_view a)) /\ v_ptr (a_view a) = a_data a)).

  Lemma inv_open m v (xs : list (cell V)) : shown m v = Some xs -> inv (length m) (arena_open m v) xs.
  Proof. intros H. split; [exact H|]. split; [reflexivity|]. left. split; reflexivity. Qed.

  Lemma inv_size base a xs : inv base a xs -> v_size (a_view a) = length xs.
  Proof. intros [H _]. apply shown_spec in H as [L _]. lia. Qed.

  Lemma kept_allocate m n : kept m (fst (allocate m n)).
  Proof.
    intros b x c H. rewrite allocate_at. destruct (Nat.eqb_spec b (length m)) as [->|]; [|exact H].
    apply at_some_lt in H. lia.
  Qed.
  Lemma framed_allocate base m n : base <= length m -> framed base m (fst (allocate m n)).
  Proof.
    intros L. split.
    - cbn [allocate fst]. rewrite app_length. lia.
    - intros b x H. rewrite allocate_at. destruct (Nat.eqb_spec b (length m)); [lia|reflexivity].
  Qed.
  Lemma kept_trans m1 m2 m3 : kept m1 m2 -> kept m2 m3 -> kept m1 m3.
  Proof. unfold kept. auto. Qed.
  Lemma framed_trans base m1 m2 m3 : framed base m1 m2 -> framed base m2 m3 -> framed base m1 m3.
  Proof. intros [A B] [C D]. split; [lia|]. intros b x H. rewrite D, B; auto. Qed.

  (** Copying the first [k] elements of a view into a new block of [n]. *)
  Lemma renew m base r (xs : list (cell V)) n k :
    base <= length m -> shown m r = Some xs -> k <= v_size r -> k <= n -> exists m',
      copy (fst (allocate m n)) (v_ptr r) 0 (snd (allocate m n)) 0 k = Some m' /\
      kept m m' /\ framed base m m' /\ length m' = S (length m) /\
      (forall x, x < n -> at_ m' (length m) x <> None) /\
      shown m' (View (snd (allocate m n)) k) = Some (firstn k xs).
  Proof.
    intros HB HS Hk Hn. destruct k as [|k].
    - exists (fst (allocate m n)). split; [reflexivity|]. split; [apply kept_allocate|].
      split; [now apply framed_allocate|]. split; [cbn [allocate fst]; rewrite app_length; cbn; lia|].
      split; [|reflexivity]. intros x Hx. rewrite allocate_at, Nat.eqb_refl.
      destruct (Nat.ltb_spec x n); [discriminate|lia].
    - destruct (shown_load _ _ _ 0 HS ltac:(lia)) as (b & o & c & P & _). cbn [allocate snd].
      destruct (copy_at (S k) (fst (allocate m n)) b o 0 (length m) 0 0) as (m' & E & L & A).
      + intros t Ht. destruct (shown_load _ _ _ t HS ltac:(lia)) as (b' & o' & c' & P' & A' & _).
        rewrite P in P'. injection P' as <- <-. rewrite Nat.add_0_r.
        rewrite (kept_allocate _ _ _ _ _ A'). discriminate.
      + intros t Ht. rewrite allocate_at, Nat.eqb_refl. destruct (Nat.ltb_spec (0 + 0 + t) n); [discriminate|lia].
      + left. destruct (shown_load _ _ _ 0 HS ltac:(lia)) as (b' & o' & c' & P' & A' & _).
        rewrite P in P'. injection P' as <- <-. apply at_some_lt in A'. lia.
      + assert (K : kept m m').
        { intros b' x c' H. rewrite A. destruct (Nat.eqb_spec b' (length m)) as [->|N].
          - apply at_some_lt in H. lia.
          - cbn [andb]. now apply kept_allocate. }
        exists m'. rewrite P. split; [exact E|]. split; [exact K|]. split.
        { split; [rewrite L; cbn [allocate fst]; rewrite app_length; lia|].
          intros b' x H. rewrite A. destruct (Nat.eqb_spec b' (length m)); [lia|]. cbn [andb].
          now apply (framed_allocate base m n HB). }
        split; [rewrite L; cbn [allocate fst]; rewrite app_length; cbn; lia|]. split.
        { intros x Hx. rewrite A, Nat.eqb_refl. cbn [andb].
          destruct (Nat.leb_spec (0 + 0) x); [|lia]. destruct (Nat.ltb_spec x (0 + 0 + S k)); cbn [andb].
          - destruct (shown_load _ _ _ x HS ltac:(lia)) as (b' & o' & c' & P' & A' & _).
            rewrite P in P'. injection P' as <- <-. replace (o + 0 + (x - (0 + 0))) with (o + x) by lia.
            rewrite (kept_allocate _ _ _ _ _ A'). discriminate.
          - rewrite allocate_at, Nat.eqb_refl. destruct (Nat.ltb_spec x n); [discriminate|lia]. }
        apply shown_spec. cbn [v_ptr v_size]. pose proof (proj1 (shown_spec _ _ _) HS) as [LX _].
        split; [apply firstn_length_le; lia|]. intros t Ht. rewrite load_at, A, Nat.eqb_refl.
        replace (0 + t) with t by lia. destruct (Nat.leb_spec (0 + 0) t); [|lia].
        destruct (Nat.ltb_spec t (0 + 0 + S k)); [|lia]. cbn [andb].
        destruct (shown_load _ _ _ t HS ltac:(lia)) as (b' & o' & c' & P' & A' & N').
        rewrite P in P'. injection P' as <- <-. replace (o + 0 + (t - (0 + 0))) with (o + t) by lia.
        rewrite (kept_allocate _ _ _ _ _ A'). rewrite <- (firstn_skipn (S k) xs), nth_error_app1 in N'; [now symmetry|].
        rewrite firstn_length_le; lia.
  Qed.
End Mem.
