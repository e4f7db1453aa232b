(** arena_vector behaves like a vector and writes only into memory it allocated. *)
From Coq Require Import List Arith Bool Lia.
Import ListNotations.
Require Import Verif.Arena Verif.ArenaProofs.
Local Open Scope nat_scope.
Local Open Scope list_scope.

Lemma ptr_eqb_spec p q : ptr_eqb p q = true <-> p = q.
Proof.
  destruct p as [[b o]|], q as [[c u]|]; cbn; split; intros H; try discriminate; auto.
  - apply andb_true_iff in H as [H1 H2]. apply Nat.eqb_eq in H1, H2. now subst.
  - injection H as -> ->. now rewrite !Nat.eqb_refl.
Qed.

Section Main.
  Context {V : Type}.
  Implicit Types (m : mem V) (c : cell V) (a : arena V).

  Lemma assign_self base a xs n :
    inv base a xs -> length xs <= n -> exists a1,
      assign_with_size a (a_view a) n = Some a1 /\ kept (a_mem a) (a_mem a1) /\ framed base (a_mem a) (a_mem a1) /\
      a_view a1 = View (a_data a1) n /\ ((n = 0 /\ none a1) \/ own base a1 n) /\
      base <= length (a_mem a1) /\ shown (a_mem a1) (View (a_data a1) (length xs)) = Some xs /\
      (a_data a1 = a_data a \/ a_data a1 = Some (length (a_mem a), 0)).
  Proof.
    intros HI Hn. pose proof (inv_size _ _ _ HI) as HZ. destruct HI as (HS & HB & HD).
    unfold assign_with_size. destruct (Nat.ltb_spec (a_cap a) n) as [Hc|Hc].
    - destruct (renew (a_mem a) base (a_view a) xs n (Nat.min (v_size (a_view a)) n)) as (m' & E & K & F & L & O & R);
        auto; try lia.
      unfold allocate in *. cbn [fst snd] in *. rewrite E. eexists. split; [reflexivity|]. cbn [a_mem a_view a_data a_cap].
      split; [exact K|]. split; [exact F|]. split; [reflexivity|]. split.
      + right. exists (length (a_mem a)). cbn [a_data a_cap a_mem]. repeat split; auto.
      + split; [lia|]. split; [|now right]. rewrite Nat.min_l in R by lia.
        rewrite HZ, firstn_all in R. exact R.
    - rewrite (proj2 (ptr_eqb_spec _ _) eq_refl). eexists. split; [reflexivity|]. cbn [a_mem a_view a_data a_cap].
      split; [intros b x c H; exact H|]. split; [split; auto|]. split; [reflexivity|].
      destruct HD as [[D C]|[(b & D & HBb & Hsz & O) P]].
      + rewrite C in Hc. split; [left; split; [lia|]; split; auto|]. split; [exact HB|]. split; [|now left].
        destruct xs; cbn [length] in *; [reflexivity|lia].
      + split; [right; exists b; cbn [a_data a_cap a_mem]; repeat split; auto|]. split; [exact HB|]. split; [|now left].
        rewrite <- P. destruct (a_view a) as [p z]. cbn [v_ptr v_size] in *. now rewrite <- HZ.
  Qed.

  Lemma tail base a1 (xs ys : list (cell V)) k m' b :
    own base a1 (length xs + k) -> a_data a1 = Some (b, 0) ->
    shown (a_mem a1) (View (a_data a1) (length xs)) = Some xs -> base <= length (a_mem a1) ->
    length ys = k -> length m' = length (a_mem a1) ->
    (forall b' x, at_ m' b' x =
      if (b' =? b) && ((length xs <=? x) && (x <? length xs + k)) then nth_error ys (x - length xs) else at_ (a_mem a1) b' x) ->
    inv base (Arena m' (View (a_data a1) (length xs + k)) (a_data a1) (a_cap a1)) (xs ++ ys) /\ framed base (a_mem a1) m'.
  Proof.
    intros (b0 & D0 & HB & HC & O) D HS HL HK HM A. rewrite D in D0. injection D0 as <-. split.
    - split; [|split].
      + cbn [a_mem a_view]. rewrite D in *. apply shown_app; apply shown_spec; cbn [v_ptr v_size].
        * apply shown_spec in HS as [_ HS]. cbn [v_ptr v_size] in HS. split; [reflexivity|]. intros t Ht.
          rewrite <- HS by lia. rewrite !load_at, A. rewrite Nat.eqb_refl.
          destruct (Nat.leb_spec (length xs) (0 + t)); [lia|]. reflexivity.
        * split; [exact HK|]. intros t Ht. rewrite load_at, A, Nat.eqb_refl.
          destruct (Nat.leb_spec (length xs) (0 + length xs + t)); [|lia].
          destruct (Nat.ltb_spec (0 + length xs + t) (length xs + k)); [|lia]. cbn [andb]. f_equal. lia.
      + cbn [a_mem]. lia.
      + right. cbn [a_view v_size v_ptr a_data]. split; [|reflexivity]. exists b. cbn [a_data a_cap a_mem].
        repeat split; auto. intros x Hx. rewrite A. destruct (_ && _) eqn:E; [|auto].
        apply andb_true_iff in E as [_ E]. apply andb_true_iff in E as [E1 E2].
        apply Nat.leb_le in E1. apply Nat.ltb_lt in E2. apply nth_error_Some. lia.
    - split; [lia|]. intros b' x H. rewrite A. destruct (Nat.eqb_spec b' b); [lia|reflexivity].
  Qed.

  (** The specification: what each operation does to the elements.  [m] is the memory in
      which the arguments are read. *)
  Variable dflt : cell V.
  Inductive a_spec (base : nat) (a : arena V) (xs : list (cell V)) : aop V -> list (cell V) -> Prop :=
  | S_resize n : a_spec base a xs (AResize n) (firstn n xs ++ repeat dflt (n - length xs))
  | S_push v : a_spec base a xs (APush (EVal v)) (xs ++ [Some v])
  | S_push_ref p c : load (a_mem a) p 0 = Some c -> a_spec base a xs (APush (ERef p)) (xs ++ [c])
  | S_clear : a_spec base a xs AClear []
  | S_assign r ys : shown (a_mem a) r = Some ys -> a_spec base a xs (AAssign (RView r)) ys
  | S_assign_self : a_spec base a xs (AAssign RSelf) xs
  | S_append_old b o n ys : b < base -> shown (a_mem a) (View (Some (b, o)) n) = Some ys ->
      a_spec base a xs (AAppend (RView (View (Some (b, o)) n))) (xs ++ ys)
  | S_append_own b o i n : v_ptr (a_view a) = Some (b, o) -> i + n <= length xs ->
      a_spec base a xs (AAppend (RView (View (Some (b, o + i)) n))) (xs ++ firstn n (skipn i xs))
  | S_append_empty p : a_spec base a xs (AAppend (RView (View p 0))) xs
  | S_raw l : a_spec base a xs (ARaw l) (xs ++ map Some l)
  | S_reserve n : length xs <= n -> a_spec base a xs (AReserve n) xs.

  Lemma raw_step base a xs l :
    inv base a xs -> exists a', append_raw a l = Some a' /\ inv base a' (xs ++ map Some l) /\ framed base (a_mem a) (a_mem a').
  Proof.
    intros HI. pose proof (inv_size _ _ _ HI) as HZ. unfold append_raw. rewrite HZ.
    destruct (assign_self base a xs (length xs + length l) HI ltac:(lia)) as (a1 & E & K & F & Vw & D & HB & HS & DD).
    rewrite E. destruct D as [[N D]|OW].
    - assert (l = []) as -> by (destruct l; [reflexivity|cbn in N; lia]).
      assert (xs = []) as -> by (destruct xs; [reflexivity|cbn in N; lia]).
      cbn [put_list]. eexists. split; [reflexivity|]. split; [|exact F].
      split; [|split; [exact HB|left; exact D]]. cbn [a_mem a_view]. rewrite Vw. exact HS.
    - pose proof OW as (b & Db & Hb & Hc & O). rewrite Db.
      destruct (put_list_at l (a_mem a1) b 0 (length xs)) as (m' & E' & L' & A').
      { intros t Ht. apply O. lia. }
      rewrite E'. eexists. split; [reflexivity|].
      destruct (tail base a1 xs (map Some l) (length l) m' b OW Db HS HB) as [I F']; auto.
      { apply map_length. }
      rewrite Vw. rewrite Db in I |- *. split; [exact I|]. now apply (framed_trans _ _ _ _ F).
  Qed.

  Lemma push_step base a xs x c :
    inv base a xs -> (match x with EVal v => Some (Some v) | ERef p => load (a_mem a) p 0 end) = Some c ->
    exists a', push_back a x = Some a' /\ inv base a' (xs ++ [c]) /\ framed base (a_mem a) (a_mem a').
  Proof.
    intros HI HX. pose proof (inv_size _ _ _ HI) as HZ. unfold push_back. rewrite HZ.
    destruct (assign_self base a xs (length xs + 1) HI ltac:(lia)) as (a1 & E & K & F & Vw & D & HB & HS & DD).
    rewrite E. destruct D as [[N D]|OW]; [lia|].
    assert (match x with EVal v => Some (Some v) | ERef p => load (a_mem a1) p 0 end = Some c) as ->.
    { destruct x as [v|[[b o]|]]; auto. rewrite load_at in *. now apply K. }
    pose proof OW as (b & Db & Hb & Hc & O). rewrite Db.
    destruct (store_at (a_mem a1) b 0 (length xs) c) as (m' & E' & L' & A').
    { apply O. lia. }
    rewrite E'. eexists. split; [reflexivity|].
    destruct (tail base a1 xs [c] 1 m' b OW Db HS HB) as [I F']; auto.
    { intros b' x'. rewrite A'. destruct (Nat.eqb_spec b' b); cbn [andb]; [|reflexivity].
      destruct (Nat.eqb_spec x' (0 + length xs)), (Nat.leb_spec (length xs) x'), (Nat.ltb_spec x' (length xs + 1));
        try lia; cbn [andb]; [|reflexivity|reflexivity]. subst x'. now rewrite Nat.add_0_l, Nat.sub_diag. }
    rewrite Vw. rewrite Db in I |- *. split; [exact I|]. now apply (framed_trans _ _ _ _ F).
  Qed.

  (** Appending elements in memory that are not behind the present end of the storage. *)
  Lemma append_step base a xs b o n ys :
    inv base a xs -> shown (a_mem a) (View (Some (b, o)) n) = Some ys ->
    (b < base \/ forall d, a_data a = Some (d, 0) -> d <> b \/ o + n <= length xs) ->
    exists a', append_range a (RView (View (Some (b, o)) n)) = Some a' /\ inv base a' (xs ++ ys) /\ framed base (a_mem a) (a_mem a').
  Proof.
    intros HI HY HO. pose proof (inv_size _ _ _ HI) as HZ. unfold append_range. cbn [range_of v_size v_ptr]. rewrite HZ.
    pose proof (proj1 (shown_spec _ _ _) HY) as [LY AY]. cbn [v_size v_ptr] in LY, AY.
    destruct (assign_self base a xs (length xs + n) HI ltac:(lia)) as (a1 & E & K & F & Vw & D & HB & HS & DD).
    rewrite E. destruct D as [[N D]|OW].
    - assert (n = 0) as -> by lia. assert (xs = []) as -> by (destruct xs; [reflexivity|cbn in N; lia]).
      assert (ys = []) as -> by (destruct ys; [reflexivity|discriminate]).
      cbn [copy]. eexists. split; [reflexivity|]. split; [|exact F].
      split; [|split; [exact HB|left; exact D]]. cbn [a_mem a_view]. rewrite Vw. exact HS.
    - pose proof OW as (d & Dd & Hd & Hc & O). rewrite Dd.
      assert (AK : forall t, t < n -> exists c, at_ (a_mem a1) b (o + t) = Some c /\ nth_error ys t = Some c).
      { intros t Ht. destruct (shown_load _ _ _ t HY ltac:(cbn; lia)) as (b' & o' & c' & P' & A' & N').
        cbn [v_ptr] in P'. injection P' as <- <-. exists c'. split; [now apply K|exact N']. }
      destruct (copy_at n (a_mem a1) b o 0 d 0 (length xs)) as (m' & E' & L' & A').
      { intros t Ht. rewrite Nat.add_0_r. destruct (AK t Ht) as (c' & -> & _). discriminate. }
      { intros t Ht. apply O. lia. }
      { destruct n as [|n]; [right; destruct (Nat.le_gt_cases (length xs) o); lia|].
        destruct (Nat.eq_dec b d) as [->|]; [|now left]. right. right.
        destruct HO as [HO|HO]; [lia|].
        destruct (shown_load _ _ _ 0 HY ltac:(cbn; lia)) as (b' & o' & c' & P' & A' & N').
        cbn [v_ptr] in P'. injection P' as <- <-. apply at_some_lt in A'.
        destruct DD as [DD|DD]; rewrite Dd in DD.
        - symmetry in DD. destruct (HO _ DD); [congruence|lia].
        - injection DD as ->. lia. }
      rewrite E'. eexists. split; [reflexivity|].
      destruct (tail base a1 xs ys n m' d OW Dd HS HB) as [I F']; auto.
      { intros b' x'. rewrite A'. rewrite !Nat.add_0_l. destruct (Nat.eqb_spec b' d); cbn [andb]; [|reflexivity].
        destruct (Nat.leb_spec (length xs) x'), (Nat.ltb_spec x' (length xs + n)); cbn [andb]; try reflexivity.
        destruct (AK (x' - length xs) ltac:(lia)) as (c' & A1 & A2). rewrite Nat.add_0_r, A1, A2. reflexivity. }
      rewrite Vw. rewrite Dd in I |- *. split; [exact I|]. now apply (framed_trans _ _ _ _ F).
  Qed.

  Lemma reserve_step base a xs n :
    inv base a xs -> length xs <= n ->
    exists a', reserve a n = Some a' /\ inv base a' xs /\ framed base (a_mem a) (a_mem a').
  Proof.
    intros HI Hn. pose proof (inv_size _ _ _ HI) as HZ. pose proof HI as (HS & HB & HD). unfold reserve.
    destruct (Nat.ltb_spec (a_cap a) n) as [Hc|Hc].
    - destruct (renew (a_mem a) base (a_view a) xs n (Nat.min (v_size (a_view a)) n)) as (m' & E & K & F & L & O & R);
        auto; try lia.
      unfold allocate in *. cbn [fst snd] in *. rewrite E. eexists. split; [reflexivity|]. split; [|exact F].
      rewrite Nat.min_l in R by lia. rewrite HZ, firstn_all in R. split; [|split].
      + cbn [a_mem a_view]. rewrite HZ. exact R.
      + cbn [a_mem]. lia.
      + right. cbn [a_view v_ptr v_size a_data]. split; [|reflexivity]. exists (length (a_mem a)).
        cbn [a_data a_cap a_mem]. repeat split; auto. lia.
    - eexists. split; [reflexivity|]. split; [exact HI|]. split; auto.
  Qed.

  Lemma resize_step base a xs n :
    inv base a xs ->
    exists a', resize dflt a n = Some a' /\ inv base a' (firstn n xs ++ repeat dflt (n - length xs)) /\ framed base (a_mem a) (a_mem a').
  Proof.
    intros HI. pose proof (inv_size _ _ _ HI) as HZ. pose proof HI as (HS & HB & HD). unfold resize. rewrite HZ.
    destruct (Nat.ltb_spec (a_cap a) n) as [Hc|Hc].
    - destruct (Nat.ltb_spec (length xs) n) as [Hl|Hl].
      + destruct (renew (a_mem a) base (a_view a) xs n (length xs)) as (m' & E & K & F & L & O & R); auto; try lia.
        unfold allocate in *. cbn [fst snd] in *. rewrite E. rewrite firstn_all in R.
        destruct (fill_at (n - length xs) m' (length (a_mem a)) 0 (length xs) dflt) as (m2 & E2 & L2 & A2).
        { intros t Ht. apply O. lia. }
        rewrite E2. eexists. split; [reflexivity|].
        set (a1 := Arena m' (View (Some (length (a_mem a), 0)) n) (Some (length (a_mem a), 0)) n).
        destruct (tail base a1 xs (repeat dflt (n - length xs)) (n - length xs) m2 (length (a_mem a))) as [I F2].
        * exists (length (a_mem a)). subst a1. cbn [a_data a_cap a_mem]. repeat split; auto. lia.
        * reflexivity.
        * exact R.
        * subst a1. cbn [a_mem]. lia.
        * apply repeat_length.
        * exact L2.
        * intros b' x. rewrite A2. subst a1. cbn [a_mem]. rewrite !Nat.add_0_l.
          destruct (_ && _) eqn:EE; [|reflexivity].
          apply andb_true_iff in EE as [_ EE]. apply andb_true_iff in EE as [E1 E3].
          apply Nat.leb_le in E1. apply Nat.ltb_lt in E3. symmetry. apply nth_error_repeat. lia.
        * rewrite (firstn_all2 xs) by lia. subst a1. cbn [a_data a_cap a_mem] in *.
          replace (length xs + (n - length xs)) with n in I by lia. split; [exact I|].
          apply (framed_trans _ _ _ _ F F2).
      + destruct (renew (a_mem a) base (a_view a) xs n n) as (m' & E & K & F & L & O & R); auto; try lia.
        unfold allocate in *. cbn [fst snd] in *. rewrite E. eexists. split; [reflexivity|]. split; [|exact F].
        replace (n - length xs) with 0 by lia. cbn [repeat]. rewrite app_nil_r. split; [exact R|]. split; [cbn [a_mem]; lia|].
        right. cbn [a_view v_ptr v_size a_data]. split; [|reflexivity]. exists (length (a_mem a)).
        cbn [a_data a_cap a_mem]. repeat split; auto.
    - destruct (Nat.ltb_spec (length xs) n) as [Hl|Hl].
      + destruct HD as [[D C]|[OW P]]; [lia|]. pose proof OW as (b & Db & Hb & Hs & O). rewrite Db.
        destruct (fill_at (n - length xs) (a_mem a) b 0 (length xs) dflt) as (m2 & E2 & L2 & A2).
        { intros t Ht. apply O. lia. }
        rewrite E2. eexists. split; [reflexivity|].
        destruct (tail base a xs (repeat dflt (n - length xs)) (n - length xs) m2 b) as [I F2]; auto.
        * exists b. repeat split; auto. lia.
        * rewrite <- P, <- HZ. destruct (a_view a); exact HS.
        * apply repeat_length.
        * intros b' x. rewrite A2. rewrite !Nat.add_0_l.
          destruct (_ && _) eqn:EE; [|reflexivity].
          apply andb_true_iff in EE as [_ EE]. apply andb_true_iff in EE as [E1 E3].
          apply Nat.leb_le in E1. apply Nat.ltb_lt in E3. symmetry. apply nth_error_repeat. lia.
        * rewrite (firstn_all2 xs) by lia. rewrite Db in I.
          replace (length xs + (n - length xs)) with n in I by lia. split; [exact I|exact F2].
      + eexists. split; [reflexivity|]. split; [|split; auto].
        replace (n - length xs) with 0 by lia. cbn [repeat]. rewrite app_nil_r. split; [|split].
        * cbn [a_mem a_view]. destruct HD as [[D C]|[OW P]].
          { assert (n = 0) as -> by lia. reflexivity. }
          rewrite <- P. apply shown_spec in HS as [_ HS]. apply shown_spec. cbn [v_ptr v_size].
          split; [apply firstn_length_le; lia|]. intros t Ht. rewrite HS by lia.
          rewrite <- (firstn_skipn n xs) at 1. apply nth_error_app1. rewrite firstn_length_le; lia.
        * cbn [a_mem]. exact HB.
        * destruct HD as [HD|[(b & Db & Hb & Hs & O) P]]; [left; exact HD|]. right.
          cbn [a_view v_ptr v_size a_data]. split; [|reflexivity]. exists b. cbn [a_data a_cap a_mem]. repeat split; auto.
  Qed.

  Lemma assign_step base a xs r ys :
    inv base a xs -> shown (a_mem a) r = Some ys ->
    exists a', assign_with_size a r (v_size r) = Some a' /\ inv base a' ys /\ framed base (a_mem a) (a_mem a').
  Proof.
    intros HI HY. pose proof (proj1 (shown_spec _ _ _) HY) as [LY AY].
    pose proof HI as (HS & HB & HD). unfold assign_with_size.
    destruct (Nat.ltb_spec (a_cap a) (v_size r)) as [Hc|Hc].
    - destruct (renew (a_mem a) base r ys (v_size r) (Nat.min (v_size r) (v_size r))) as (m' & E & K & F & L & O & R);
        auto; try lia.
      unfold allocate in *. cbn [fst snd] in *. rewrite E. eexists. split; [reflexivity|]. split; [|exact F].
      rewrite Nat.min_id, <- LY, firstn_all in R. split; [|split].
      + cbn [a_mem a_view]. rewrite <- LY. exact R.
      + cbn [a_mem]. lia.
      + right. cbn [a_view v_ptr v_size a_data]. split; [|reflexivity]. exists (length (a_mem a)).
        cbn [a_data a_cap a_mem]. repeat split; auto.
    - destruct HD as [[D C]|[OW P]].
      + assert (Z : v_size r = 0) by lia. rewrite Z. destruct ys; [|cbn in LY; lia].
        exists (Arena (a_mem a) (View (a_data a) 0) (a_data a) (a_cap a)). split.
        { destruct (ptr_eqb _ _); reflexivity. }
        split; [|split; auto]. split; [reflexivity|]. split; [exact HB|]. left. split; auto.
      + pose proof OW as (b & Db & Hb & Hs & O). destruct (ptr_eqb (v_ptr (a_view a)) (v_ptr r)) eqn:EQ.
        * apply ptr_eqb_spec in EQ. eexists. split; [reflexivity|]. split; [|split; auto]. split; [|split].
          -- cbn [a_mem a_view]. rewrite <- P, EQ. destruct r; exact HY.
          -- exact HB.
          -- right. cbn [a_view v_ptr v_size a_data]. split; [|reflexivity]. exists b. cbn [a_data a_cap a_mem]. repeat split; auto.
        * assert (NE : v_ptr r <> Some (b, 0)).
          { intros Q. rewrite <- Db, <- P in Q. symmetry in Q. apply ptr_eqb_spec in Q. congruence. }
          destruct (v_size r) as [|k] eqn:Z.
          { destruct ys; [|cbn in LY; lia]. cbn [copy]. eexists. split; [reflexivity|]. split; [|split; auto].
            split; [reflexivity|]. split; [exact HB|]. right. cbn [a_view v_ptr v_size a_data]. split; [|reflexivity].
            exists b. cbn [a_data a_cap a_mem]. repeat split; auto; lia. }
          destruct (shown_load _ _ _ 0 HY ltac:(lia)) as (b1 & o1 & c1 & P1 & A1 & _). rewrite P1, Db.
          destruct (copy_at (S k) (a_mem a) b1 o1 0 b 0 0) as (m' & E & L & A).
          { intros t Ht. destruct (shown_load _ _ _ t HY ltac:(lia)) as (b' & o' & c' & P' & A' & _).
            rewrite P1 in P'. injection P' as <- <-. rewrite Nat.add_0_r, A'. discriminate. }
          { intros t Ht. apply O. lia. }
          { right. left. lia. }
          rewrite E. eexists. split; [reflexivity|].
          set (a1 := a).
          destruct (tail base a [] ys (S k) m' b) as [I F2]; auto.
          -- exists b. repeat split; auto.
          -- intros b' x. rewrite A, !Nat.add_0_l. cbn [length].
             destruct (Nat.eqb_spec b' b); cbn [andb]; [|reflexivity].
             destruct (Nat.leb_spec 0 x), (Nat.ltb_spec x (S k)); try lia; cbn [andb]; try reflexivity.
             destruct (shown_load _ _ _ x HY ltac:(lia)) as (b2 & o2 & c2 & P2 & A2 & N2).
             rewrite P1 in P2. injection P2 as <- <-. rewrite Nat.sub_0_r, Nat.add_0_r, A2. now symmetry.
          -- cbn [length Nat.add app] in I. rewrite Db in I. split; [exact I|exact F2].
  Qed.

  Lemma step_ok base a xs o ys :
    inv base a xs -> a_spec base a xs o ys ->
    exists a', a_step dflt a o = Some a' /\ inv base a' ys /\ framed base (a_mem a) (a_mem a').
  Proof.
    intros HI HO. destruct HO as [n|v|p c Hp| |r ys Hr| |b o n ys Hb Hy|b o i n Hv Hn|p|l|n Hn]; cbn [a_step].
    - now apply resize_step.
    - apply (push_step base a xs (EVal v) (Some v)); auto.
    - apply (push_step base a xs (ERef p) c); auto.
    - eexists. split; [reflexivity|]. split; [|split; auto]. split; [reflexivity|].
      split; [apply HI|]. left. split; reflexivity.
    - now apply (assign_step base a xs r ys).
    - apply (assign_step base a xs (a_view a) xs); auto. apply HI.
    - apply append_step; auto.
    - apply append_step; auto.
      + destruct HI as (HS & _ & _). apply shown_spec in HS as [L HS]. apply shown_spec. cbn [v_ptr v_size]. split.
        * rewrite firstn_length_le; [reflexivity|]. rewrite skipn_length. lia.
        * intros t Ht. rewrite Hv in HS. specialize (HS (i + t) ltac:(lia)).
          rewrite load_at in *. rewrite <- Nat.add_assoc, HS.
          rewrite <- (firstn_skipn i xs) at 1.
          rewrite nth_error_app2; rewrite firstn_length_le by lia; [|lia].
          replace (i + t - i) with t by lia. rewrite <- (firstn_skipn n (skipn i xs)) at 1.
          apply nth_error_app1. rewrite firstn_length_le; [lia|]. rewrite skipn_length. lia.
      + right. intros d Dd. destruct HI as (_ & _ & [[D C]|[_ P]]); [congruence|].
        rewrite Hv, Dd in P. injection P as -> ->. right. lia.
    - pose proof (inv_size _ _ _ HI) as HZ. unfold append_range. cbn [range_of v_size v_ptr]. rewrite HZ.
      destruct (assign_self base a xs (length xs + 0) HI ltac:(lia)) as (a1 & E & K & F & Vw & D & HB & HS & DD).
      rewrite E. cbn [copy]. eexists. split; [reflexivity|]. split; [|exact F]. rewrite Vw.
      rewrite Nat.add_0_r in *. split; [exact HS|]. split; [exact HB|]. cbn [a_data a_view v_size v_ptr].
      destruct D as [[_ D]|OW]; [left; exact D|right]. split; [|reflexivity]. exact OW.
    - now apply raw_step.
    - now apply reserve_step.
  Qed.
End Main.
