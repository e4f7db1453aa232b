(** Sequences of operations on arena_vector, and unknown fields kept through it. *)
From Coq Require Import List Arith Bool Lia.
Import ListNotations.
Require Import Verif.Arena Verif.ArenaProofs Verif.ArenaMain.
Local Open Scope nat_scope.
Local Open Scope list_scope.

(** ** Specification: the vector operations on lists *)
Section VecSpec.
  Context {V : Type} (dflt : cell V).

  (** Arguments in memory are read in the memory [m0] that existed before. *)
  Definition vec_op (m0 : mem V) (xs : list (cell V)) (o : aop V) : option (list (cell V)) :=
    match o with
    | AResize n => Some (firstn n xs ++ repeat dflt (n - length xs))
    | APush (EVal v) => Some (xs ++ [Some v])
    | APush (ERef p) => match load m0 p 0 with Some c => Some (xs ++ [c]) | None => None end
    | AClear => Some []
    | AAssign (RView r) => shown m0 r
    | AAssign RSelf => Some xs
    | AAppend (RView r) => match shown m0 r with Some ys => Some (xs ++ ys) | None => None end
    | AAppend RSelf => None
    | ARaw l => Some (xs ++ map Some l)
    | AReserve n => if length xs <=? n then Some xs else None
    end.
  Fixpoint vec_ops (m0 : mem V) (xs : list (cell V)) (os : list (aop V)) : option (list (cell V)) :=
    match os with
    | [] => Some xs
    | o :: t => match vec_op m0 xs o with None => None | Some ys => vec_ops m0 ys t end
    end.
End VecSpec.

Section Run.
  Context {V : Type} (dflt : cell V).
  Implicit Types (m : mem V) (a : arena V).

  Lemma framed_kept m m' : framed (length m) m m' -> kept m m'.
  Proof. intros [_ F] b x c H. rewrite F; [exact H|]. now apply at_some_lt in H. Qed.

  Lemma framed_blocks base m m' b : framed base m m' -> base <= length m -> b < base -> nth_error m' b = nth_error m b.
  Proof.
    intros [L F] HB Hb. specialize (F b). unfold at_ in F.
    destruct (nth_error m b) as [l|] eqn:E; [|apply nth_error_None in E; lia].
    destruct (nth_error m' b) as [l'|] eqn:E'; [|apply nth_error_None in E'; lia].
    f_equal. apply (@list_ext (cell V)). intros i. now apply F.
  Qed.

  Lemma vec_op_spec m0 a xs o ys :
    inv (length m0) a xs -> framed (length m0) m0 (a_mem a) -> vec_op dflt m0 xs o = Some ys ->
    a_spec dflt (length m0) a xs o ys.
  Proof.
    intros HI HF. pose proof (framed_kept _ _ HF) as K.
    destruct o as [n|[v|p]| |[r|]|[r|]|l|n]; cbn [vec_op]; intros H.
    - injection H as <-. constructor.
    - injection H as <-. constructor.
    - destruct (load m0 p 0) as [c|] eqn:E; [|discriminate]. injection H as <-. constructor.
      destruct p as [[b o]|]; [|discriminate]. rewrite load_at in *. now apply K.
    - injection H as <-. constructor.
    - constructor. now apply (shown_kept _ _ _ _ K).
    - injection H as <-. constructor.
    - destruct (shown m0 r) as [zs|] eqn:E; [|discriminate]. injection H as <-.
      destruct r as [p [|n]].
      + cbn in E. injection E as <-. rewrite app_nil_r. constructor.
      + destruct (shown_load _ _ _ 0 E ltac:(cbn; lia)) as (b & o & c & P & A & _). cbn [v_ptr] in P. subst p.
        apply at_some_lt in A. constructor; [exact A|]. now apply (shown_kept _ _ _ _ K).
    - discriminate.
    - injection H as <-. constructor.
    - destruct (Nat.leb_spec (length xs) n); [|discriminate]. injection H as <-. now constructor.
  Qed.

  Lemma run_ok m0 os : forall a xs ys,
    inv (length m0) a xs -> framed (length m0) m0 (a_mem a) -> vec_ops dflt m0 xs os = Some ys ->
    exists a', a_run dflt a os = Some a' /\ inv (length m0) a' ys /\ framed (length m0) m0 (a_mem a').
  Proof.
    induction os as [|o os IH]; intros a xs ys HI HF H; cbn [vec_ops a_run] in *.
    - injection H as <-. eauto.
    - destruct (vec_op dflt m0 xs o) as [zs|] eqn:E; [|discriminate].
      destruct (step_ok dflt (length m0) a xs o zs HI (vec_op_spec _ _ _ _ _ HI HF E)) as (a1 & -> & I1 & F1).
      apply (IH a1 zs ys); auto. now apply (framed_trans _ _ _ _ HF).
  Qed.

  Lemma open_framed m v : framed (length m) m (a_mem (arena_open m v)).
  Proof. split; auto. Qed.

  (** After an operation, the elements are reached through data_ as well. *)
  Lemma step_data a o a' base xs :
    inv base a xs -> a_step dflt a o = Some a' -> (forall n, o = AReserve n -> length xs <= n) ->
    a_cap a' = 0 -> v_size (a_view a') = 0.
  Proof.
    intros HI H HR.
    assert (AW : forall r n a1, assign_with_size a r n = Some a1 -> a_cap a1 = 0 -> v_size (a_view a1) = 0).
    { intros r n a1. unfold assign_with_size. destruct (Nat.ltb_spec (a_cap a) n); [cbn [allocate]|];
        destruct (if ptr_eqb _ _ then _ else _) || destruct (copy _ _ _ _ _ _); try discriminate;
        intros [= <-]; cbn; lia. }
    destruct o as [n|x| |r|r|l|n]; cbn [a_step] in H.
    - unfold resize in H. destruct (Nat.ltb_spec (a_cap a) n); [unfold allocate in H; cbv zeta in H|].
      + destruct (if v_size (a_view a) <? n then _ else _); [|discriminate]. injection H as <-. cbn. lia.
      + destruct (if v_size (a_view a) <? n then _ else _); [|discriminate]. injection H as <-. cbn. lia.
    - unfold push_back in H. destruct (assign_with_size _ _ _) as [a1|] eqn:E; [|discriminate].
      destruct (match x with EVal _ => _ | ERef _ => _ end); [|discriminate].
      destruct (store _ _ _ _); [|discriminate]. injection H as <-. cbn. intros C. exact (AW _ _ _ E C).
    - injection H as <-. reflexivity.
    - exact (AW _ _ _ H).
    - unfold append_range in H. destruct (assign_with_size _ _ _) as [a1|] eqn:E; [|discriminate].
      destruct (copy _ _ _ _ _ _); [|discriminate]. injection H as <-. cbn. intros C. exact (AW _ _ _ E C).
    - unfold append_raw in H. destruct (assign_with_size _ _ _) as [a1|] eqn:E; [|discriminate].
      destruct (put_list _ _ _ _); [|discriminate]. injection H as <-. cbn. intros C. exact (AW _ _ _ E C).
    - pose proof (inv_size _ _ _ HI) as HZ. specialize (HR n eq_refl).
      unfold reserve in H. destruct (Nat.ltb_spec (a_cap a) n); [unfold allocate in H; cbv zeta in H|].
      + destruct (copy _ _ _ _ _ _); [|discriminate]. injection H as <-. cbn. lia.
      + injection H as <-. lia.
  Qed.

  Lemma inv_index base a xs :
    inv base a xs -> (a_cap a = 0 -> v_size (a_view a) = 0) -> forall i, i < length xs -> index a i = nth_error xs i.
  Proof.
    intros HI HC i Hi. pose proof (inv_size _ _ _ HI) as HZ. destruct HI as (HS & _ & [[D C]|[_ P]]).
    - specialize (HC C). lia.
    - apply shown_spec in HS as [_ HS]. unfold index. rewrite <- P. apply HS. lia.
  Qed.

  Lemma run_index m0 os : forall a xs ys a',
    inv (length m0) a xs -> framed (length m0) m0 (a_mem a) -> vec_ops dflt m0 xs os = Some ys ->
    a_run dflt a os = Some a' -> os <> [] -> a_cap a' = 0 -> v_size (a_view a') = 0.
  Proof.
    induction os as [|o os IH]; intros a xs ys a' HI HF H R N; [congruence|]. cbn [vec_ops a_run] in *.
    destruct (vec_op dflt m0 xs o) as [zs|] eqn:E; [|discriminate].
    destruct (step_ok dflt (length m0) a xs o zs HI (vec_op_spec _ _ _ _ _ HI HF E)) as (a1 & S1 & I1 & F1).
    rewrite S1 in R. destruct os as [|o' os].
    - cbn [a_run] in R. injection R as <-. apply (step_data a o a1 _ xs HI S1). intros n ->. cbn [vec_op] in E.
      destruct (Nat.leb_spec (length xs) n); [assumption|discriminate].
    - apply (IH a1 zs ys a' I1); auto; [|discriminate]. now apply (framed_trans _ _ _ _ HF).
  Qed.

  (** Writing past the end of a block. *)
  Lemma store_none m b o i c : at_ m b (o + i) = None -> store m (Some (b, o)) i c = None.
  Proof.
    unfold at_, store. destruct (nth_error m b) as [bl|]; [|reflexivity]. intros H. apply nth_error_None in H.
    destruct (Nat.ltb_spec (o + i) (length bl)); [lia|reflexivity].
  Qed.
  Lemma store_valid m b o i c m' b' x : store m (Some (b, o)) i c = Some m' -> at_ m b' x = None -> at_ m' b' x = None.
  Proof.
    intros H N. destruct (at_ m b (o + i)) as [c0|] eqn:E.
    - destruct (store_at m b o i c) as (m1 & E1 & _ & A1); [congruence|]. rewrite E1 in H. injection H as <-.
      rewrite A1. destruct (Nat.eqb_spec b' b) as [->|]; [|exact N]. destruct (Nat.eqb_spec x (o + i)) as [->|]; [congruence|exact N].
    - rewrite store_none in H; [discriminate|exact E].
  Qed.
  Lemma copy_overrun k : forall m src i bd od j t, t < k -> at_ m bd (od + j + t) = None -> copy m src i (Some (bd, od)) j k = None.
  Proof.
    induction k as [|k IH]; intros m src i bd od j t Ht N; [lia|]. cbn [copy].
    destruct (load m src i) as [c|]; [|reflexivity].
    destruct (store m (Some (bd, od)) j c) as [m'|] eqn:E; [|reflexivity].
    destruct t as [|t].
    - rewrite Nat.add_0_r in N. rewrite (store_none _ _ _ _ _ N) in E. discriminate.
    - apply (IH m' src (S i) bd od (S j) t); [lia|]. apply (store_valid _ _ _ _ _ _ _ _ E).
      rewrite <- N. f_equal. lia.
  Qed.

  (** append_range(view_) with the storage not yet renewed. *)
  Lemma self_append m v xs : shown m v = Some xs -> 0 < v_size v -> append_range (arena_open m v) RSelf = None.
  Proof.
    intros HS Hv. unfold append_range. cbn [range_of arena_open a_view]. unfold assign_with_size. cbn [a_cap a_mem a_view arena_open].
    destruct (Nat.ltb_spec 0 (v_size v + v_size v)); [|lia].
    destruct (renew m 0 v xs (v_size v + v_size v) (Nat.min (v_size v) (v_size v + v_size v))) as (m' & E & K & F & L & O & R);
      auto; try lia.
    unfold allocate in *. cbn [fst snd] in *. rewrite E. cbn [a_mem a_data a_view range_of v_ptr v_size].
    rewrite (copy_overrun _ m' _ _ (length m) 0 (v_size v) (v_size v)); [reflexivity|lia|].
    rewrite Nat.min_l in E by lia. destruct v as [[[b o]|] n]; cbn [v_size v_ptr] in *.
    2:{ destruct (shown_load _ _ _ 0 HS ltac:(cbn; lia)) as (? & ? & ? & P & _). discriminate. }
    destruct (copy_at n (m ++ [repeat None (n + n)]) b o 0 (length m) 0 0) as (m2 & E2 & L2 & A2).
    - intros t Ht. destruct (shown_load _ _ _ t HS ltac:(cbn; lia)) as (b' & o' & c' & P' & A' & _).
      cbn [v_ptr] in P'. injection P' as <- <-. rewrite Nat.add_0_r. pose proof (kept_allocate m (n + n) _ _ _ A') as Q.
      cbn [allocate fst] in Q. rewrite Q. discriminate.
    - intros t Ht. pose proof (allocate_at m (n + n) (length m) (0 + 0 + t)) as Q. cbn [allocate fst] in Q. rewrite Q, Nat.eqb_refl.
      destruct (Nat.ltb_spec (0 + 0 + t) (n + n)); [discriminate|lia].
    - left. destruct (shown_load _ _ _ 0 HS ltac:(cbn; lia)) as (b' & o' & c' & P' & A' & _).
      cbn [v_ptr] in P'. injection P' as <- <-. apply at_some_lt in A'. lia.
    - rewrite E2 in E. injection E as <-. rewrite A2, Nat.eqb_refl.
      destruct (Nat.ltb_spec (0 + n + n) (0 + 0 + n)); [lia|]. rewrite andb_false_r.
      pose proof (allocate_at m (n + n) (length m) (0 + n + n)) as Q. cbn [allocate fst] in Q. rewrite Q, Nat.eqb_refl. cbn [andb].
      destruct (Nat.ltb_spec (0 + n + n) (n + n)); [lia|reflexivity].
  Qed.

  (** reserve(n) with fewer than the present elements. *)
  Lemma reserve_short m v xs n : shown m v = Some xs -> 0 < n -> n < v_size v ->
    exists a, reserve (arena_open m v) n = Some a /\ v_size (a_view a) = v_size v /\ shown (a_mem a) (a_view a) = None.
  Proof.
    intros HS H0 Hn. unfold reserve. cbn [a_cap arena_open a_mem a_view].
    destruct (Nat.ltb_spec 0 n); [|lia].
    destruct (renew m 0 v xs n (Nat.min (v_size v) n)) as (m' & E & K & F & L & O & R); auto; try lia.
    unfold allocate in *. cbn [fst snd] in *. rewrite E. eexists. split; [reflexivity|]. split; [reflexivity|].
    cbn [a_mem a_view]. clear R. destruct (shown m' _) as [ys|] eqn:SH; [exfalso|reflexivity].
    apply shown_spec in SH as [LS SH]. cbn [v_ptr v_size] in *. specialize (SH n Hn). rewrite load_at in SH.
    destruct (nth_error ys n) as [c|] eqn:N; [|apply nth_error_None in N; lia].
    rewrite Nat.min_r in E by lia. destruct v as [[[b o]|] z]; cbn [v_size v_ptr] in *.
    2:{ destruct (shown_load _ _ _ 0 HS ltac:(cbn; lia)) as (? & ? & ? & P & _). discriminate. }
    destruct (copy_at n (m ++ [repeat None n]) b o 0 (length m) 0 0) as (m2 & E2 & L2 & A2).
    - intros t Ht. destruct (shown_load _ _ _ t HS ltac:(cbn; lia)) as (b' & o' & c' & P' & A' & _).
      cbn [v_ptr] in P'. injection P' as <- <-. rewrite Nat.add_0_r. pose proof (kept_allocate m n _ _ _ A') as Q.
      cbn [allocate fst] in Q. rewrite Q. discriminate.
    - intros t Ht. pose proof (allocate_at m n (length m) (0 + 0 + t)) as Q. cbn [allocate fst] in Q. rewrite Q, Nat.eqb_refl.
      destruct (Nat.ltb_spec (0 + 0 + t) n); [discriminate|lia].
    - left. destruct (shown_load _ _ _ 0 HS ltac:(cbn; lia)) as (b' & o' & c' & P' & A' & _).
      cbn [v_ptr] in P'. injection P' as <- <-. apply at_some_lt in A'. lia.
    - rewrite E2 in E. injection E as <-. rewrite A2, Nat.eqb_refl in SH.
      destruct (Nat.ltb_spec (0 + n) (0 + 0 + n)); [lia|]. rewrite andb_false_r in SH.
      pose proof (allocate_at m n (length m) (0 + n)) as Q. cbn [allocate fst] in Q. rewrite Q, Nat.eqb_refl in SH. cbn [andb] in SH.
      destruct (Nat.ltb_spec (0 + n) n); [lia|discriminate].
  Qed.
End Run.

(** ** Unknown fields kept as pairs *)
Section CaptureSpec.
  Context {B : Type}.
  (** The fields by number, in order of their first occurrence, with the bytes of all
      occurrences one after the other. *)
  Fixpoint add_field (num : nat) (data : list B) (l : list (nat * list B)) : list (nat * list B) :=
    match l with
    | [] => [(num, data)]
    | (n, d) :: t => if n =? num then (n, d ++ data) :: t else (n, d) :: add_field num data t
    end.
  Definition add_fields (fs : list (nat * list B)) (l : list (nat * list B)) : list (nat * list B) :=
    fold_left (fun l f => add_field (fst f) (snd f) l) fs l.
  Definition as_cells (l : list (nat * list B)) : list (nat * list (cell B)) :=
    map (fun f => (fst f, map Some (snd f))) l.
End CaptureSpec.

Section CaptureProofs.
  Context {B : Type}.
  Implicit Types (bm : mem B) (ps : list (nat * view)) (l : list (nat * list B)).

  (** The pairs [ps] show the fields [l]. *)
  Definition shows bm ps l :=
    Forall2 (fun p f => fst p = fst f /\ shown bm (snd p) = Some (map Some (snd f))) ps l.

  Definition cinv (pbase bbase : nat) (c : capt B) l :=
    exists ps, inv pbase (c_list c) (map Some ps) /\
      (a_cap (c_list c) = 0 -> v_size (a_view (c_list c)) = 0) /\
      shows (c_bytes c) ps l /\ bbase <= length (c_bytes c).

  Lemma shows_kept bm bm' ps l : kept bm bm' -> shows bm ps l -> shows bm' ps l.
  Proof.
    intros K H. induction H as [|p f ps l [H1 H2] H IH]; constructor; auto. split; auto. now apply (shown_kept _ _ _ _ K).
  Qed.

  (** Appending bytes to a view through a new arena_vector: all old cells are kept. *)
  Lemma append_fresh bm v (xs : list B) data :
    shown bm v = Some (map Some xs) -> exists f,
      append_raw (arena_open bm v) data = Some f /\ shown (a_mem f) (a_view f) = Some (map Some (xs ++ data)) /\
      framed (length bm) bm (a_mem f).
  Proof.
    intros H. destruct (raw_step (length bm) (arena_open bm v) _ data (inv_open _ _ _ H)) as (f & E & I & F).
    exists f. split; [exact E|]. split; [|exact F]. rewrite map_app. apply I.
  Qed.

  Lemma find_pair_spec (a : arena pair_cell) num ps : forall k i,
    (forall t, t < length ps -> index a t = nth_error (map Some ps) t) -> i + k = length ps ->
    match find_pair a num i k with
    | None => False
    | Some None => forall t p, i <= t -> nth_error ps t = Some p -> fst p <> num
    | Some (Some j) => i <= j /\ (exists p, nth_error ps j = Some p /\ fst p = num) /\
        forall t p, i <= t -> t < j -> nth_error ps t = Some p -> fst p <> num
    end.
  Proof.
    induction k as [|k IH]; intros i HI Hk; cbn [find_pair].
    - intros t p Ht Hp. assert (t < length ps) by (apply nth_error_Some; congruence). lia.
    - rewrite HI by lia. rewrite nth_error_map.
      destruct (nth_error ps i) as [[f v]|] eqn:E; [|apply nth_error_None in E; lia]. cbn [option_map].
      destruct (Nat.eqb_spec f num) as [->|N].
      + split; [lia|]. split; [exists (num, v); auto|]. intros; lia.
      + specialize (IH (S i) HI ltac:(lia)). destruct (find_pair a num (S i) k) as [[j|]|]; [| |exact IH].
        * destruct IH as (L & X & Y). split; [lia|]. split; [exact X|]. intros t p Ht Htj Hp.
          destruct (Nat.eq_dec t i) as [->|]; [|apply (Y t p); auto; lia]. rewrite E in Hp. injection Hp as <-. exact N.
        * intros t p Ht Hp. destruct (Nat.eq_dec t i) as [->|]; [|apply (IH t p); auto; lia].
          rewrite E in Hp. injection Hp as <-. exact N.
  Qed.

  Lemma add_field_new bm ps l num data :
    shows bm ps l -> (forall t p, nth_error ps t = Some p -> fst p <> num) -> add_field num data l = l ++ [(num, data)].
  Proof.
    intros H. induction H as [|p [n d] ps l [H1 H2] H IH]; intros N; [reflexivity|]. cbn [add_field app].
    destruct (Nat.eqb_spec n num) as [E|_].
    - exfalso. apply (N 0 p eq_refl). cbn [fst] in H1. congruence.
    - rewrite IH; [reflexivity|]. intros t q Hq. exact (N (S t) q Hq).
  Qed.

  Lemma add_field_old bm bm' ps l num data j p v :
    shows bm ps l -> kept bm bm' -> nth_error ps j = Some p -> fst p = num ->
    (forall t q, t < j -> nth_error ps t = Some q -> fst q <> num) ->
    (forall d, nth_error l j = Some (num, d) -> shown bm' v = Some (map Some (d ++ data))) ->
    shows bm' (set_nth j (num, v) ps) (add_field num data l).
  Proof.
    intros H K. revert j. induction H as [|q [n d] ps l [H1 H2] H IH]; intros j Hj Hp Hn Hv; [destruct j; discriminate|].
    cbn [fst snd] in *. destruct j as [|j]; cbn [set_nth add_field nth_error] in *.
    - injection Hj as ->. rewrite <- H1, Hp, Nat.eqb_refl. constructor.
      + split; [reflexivity|]. apply Hv. congruence.
      + now apply (shows_kept bm).
    - destruct (Nat.eqb_spec n num) as [E|N].
      + exfalso. apply (Hn 0 q ltac:(lia) eq_refl). congruence.
      + constructor.
        * split; [exact H1|]. now apply (shown_kept _ _ _ _ K).
        * apply IH; auto. intros t r Ht Hr. apply (Hn (S t) r); [lia|exact Hr].
  Qed.

  Lemma map_set_nth {X Y} (f : X -> Y) i (x : X) (l : list X) : map f (set_nth i x l) = set_nth i (f x) (map f l).
  Proof. revert i; induction l; destruct i; cbn; congruence. Qed.

  Lemma capture_ok pbase bbase c l num data :
    cinv pbase bbase c l -> exists c', capture c num data = Some c' /\ cinv pbase bbase c' (add_field num data l) /\
      framed pbase (a_mem (c_list c)) (a_mem (c_list c')) /\ framed bbase (c_bytes c) (c_bytes c').
  Proof.
    intros (ps & HI & HC & HS & HB).
    pose proof (inv_index _ _ _ HI HC) as HX. rewrite map_length in HX.
    pose proof (inv_size _ _ _ HI) as HZ. rewrite map_length in HZ.
    unfold capture, find_number. rewrite HZ.
    pose proof (find_pair_spec (c_list c) num ps (length ps) 0 HX ltac:(lia)) as HF.
    destruct (find_pair (c_list c) num 0 (length ps)) as [[j|]|]; [| |contradiction].
    - destruct HF as (_ & (p & Hp & Hn) & Hm). rewrite HX by (apply nth_error_Some; congruence).
      rewrite nth_error_map, Hp. destruct p as [n v]. cbn [option_map fst] in *. subst n.
      assert (exists f, nth_error l j = Some f /\ fst f = num /\ shown (c_bytes c) v = Some (map Some (snd f))) as (f & Hf & Hf1 & Hf2).
      { clear -HS Hp. revert j Hp. induction HS as [|q f ps l [H1 H2] H IH]; intros j Hp; [destruct j; discriminate|].
        destruct j as [|j]; cbn [nth_error] in *; [|apply IH; exact Hp]. injection Hp as ->. exists f. auto. }
      destruct (append_fresh (c_bytes c) v (snd f) data Hf2) as (fa & E & S1 & F1). rewrite E.
      destruct HI as (S0 & B0 & [[D0 C0]|[(b & Db & Hb & Hc & O) P0]]).
      { specialize (HC C0). assert (j < length ps) by (apply nth_error_Some; congruence). lia. }
      assert (Hj : j < length ps) by (apply nth_error_Some; congruence).
      rewrite Db. destruct (store_at (a_mem (c_list c)) b 0 j (Some (num, a_view fa))) as (m' & E' & L' & A').
      { apply O. lia. }
      rewrite E'. eexists. split; [reflexivity|]. cbn [c_list c_bytes a_mem].
      assert (K1 : kept (c_bytes c) (a_mem fa)) by now apply framed_kept.
      split; [|split].
      + exists (set_nth j (num, a_view fa) ps). split; [|split; [|split]].
        * split; [|split].
          -- cbn [c_list a_mem a_view]. apply shown_spec in S0 as [LS S0]. apply shown_spec.
             rewrite map_set_nth, set_nth_length. split; [exact LS|]. intros t Ht. rewrite nth_set_nth.
             rewrite <- S0 by exact Ht. rewrite P0, Db, !load_at, A', Nat.eqb_refl, !Nat.add_0_l. cbn [andb].
             destruct (Nat.eqb_spec t j) as [->|]; cbn [andb]; [|reflexivity].
             rewrite map_length. destruct (Nat.ltb_spec j (length ps)); [reflexivity|lia].
          -- cbn [c_list a_mem]. lia.
          -- right. cbn [c_list a_view a_data]. split; [|congruence]. exists b. cbn [a_data a_cap a_mem]. repeat split; auto.
             intros x Hx. rewrite A'. destruct (_ && _); [discriminate|]. now apply O.
        * cbn [c_list a_cap a_view]. exact HC.
        * cbn [c_bytes]. apply (add_field_old (c_bytes c) _ ps l num data j (num, v)); auto.
          -- intros t q Ht Hq. apply (Hm t q); [lia|exact Ht|exact Hq].
          -- intros d Hd. rewrite Hf in Hd. injection Hd as ->. cbn [snd] in S1. exact S1.
        * cbn [c_bytes]. destruct F1. lia.
      + split; [lia|]. intros b' x Hb'. rewrite A'. destruct (Nat.eqb_spec b' b); [lia|reflexivity].
      + destruct F1 as [F1 F2]. split; [exact F1|]. intros b' x Hb'. apply F2. lia.
    - destruct (append_fresh (c_bytes c) (View None 0) [] data eq_refl) as (fa & E & S1 & F1). rewrite E. cbn [app] in S1.
      destruct (push_step pbase (c_list c) _ (EVal (num, a_view fa)) (Some (num, a_view fa)) HI eq_refl) as (a' & E' & I' & F').
      rewrite E'. eexists. split; [reflexivity|]. cbn [c_list c_bytes].
      assert (K1 : kept (c_bytes c) (a_mem fa)) by now apply framed_kept.
      split; [|split; [exact F'|]].
      + exists (ps ++ [(num, a_view fa)]). rewrite map_app. cbn [map c_list c_bytes]. split; [exact I'|]. split; [|split].
        * apply (step_data None (c_list c) (APush (EVal (num, a_view fa))) a' pbase _ HI E'). discriminate.
        * rewrite (add_field_new (c_bytes c) ps); auto.
          -- apply Forall2_app; [now apply (shows_kept (c_bytes c))|]. constructor; [|constructor]. split; [reflexivity|exact S1].
          -- intros t p Hp. apply (HF t p); [lia|exact Hp].
        * destruct F1. lia.
      + destruct F1 as [F1 F2]. split; [exact F1|]. intros b' x Hb'. apply F2. lia.
  Qed.

  Lemma capture_all_ok pbase bbase fs : forall c l,
    cinv pbase bbase c l -> exists c', capture_all c fs = Some c' /\ cinv pbase bbase c' (add_fields fs l) /\
      framed pbase (a_mem (c_list c)) (a_mem (c_list c')) /\ framed bbase (c_bytes c) (c_bytes c').
  Proof.
    induction fs as [|[n d] fs IH]; intros c l HC.
    - exists c. split; [reflexivity|]. split; [exact HC|]. split; split; auto.
    - cbn [capture_all]. destruct (capture_ok pbase bbase c l n d HC) as (c1 & -> & C1 & F1 & G1).
      destruct (IH c1 _ C1) as (c2 & -> & C2 & F2 & G2). exists c2. split; [reflexivity|]. split; [exact C2|].
      split; eapply framed_trans; eauto.
  Qed.

  Lemma shows_shown bm ps l : shows bm ps l -> show_pairs bm (map Some ps) = Some (as_cells l).
  Proof.
    intros H. induction H as [|[n v] f ps l [H1 H2] H IH]; [reflexivity|]. cbn [map show_pairs fst snd] in *.
    rewrite H2, IH, H1. reflexivity.
  Qed.

  Lemma occurrence_ok pm bm ext fs :
    v_size ext = 0 -> exists c, read_occurrence pm bm ext fs = Some c /\
      shown_ext (a_mem (c_list c)) (c_bytes c) (a_view (c_list c)) = Some (as_cells (add_fields fs [])) /\
      (forall b, b < length pm -> nth_error (a_mem (c_list c)) b = nth_error pm b) /\
      (forall b, b < length bm -> nth_error (c_bytes c) b = nth_error bm b).
  Proof.
    intros H0. destruct (capture_all_ok (length pm) (length bm) fs (Capt (arena_open pm ext) bm) []) as (c & E & (ps & HI & _ & HS & _) & F & G).
    - exists []. split; [|split; [|split]].
      + split; [|split; [cbn; lia|left; split; reflexivity]]. cbn [c_list a_mem a_view arena_open]. apply shown_spec.
        rewrite H0. split; [reflexivity|]. intros; lia.
      + intros _. exact H0.
      + constructor.
      + cbn. lia.
    - exists c. split; [exact E|]. split; [|split].
      + unfold shown_ext. destruct HI as [-> _]. now apply shows_shown.
      + intros b Hb. apply (framed_blocks (length pm)); auto.
      + intros b Hb. apply (framed_blocks (length bm)); auto.
  Qed.

  Lemma occurrence_again pm bm ext f fs : 0 < v_size ext -> read_occurrence pm bm ext (f :: fs) = None.
  Proof.
    intros H. unfold read_occurrence. destruct f as [n d]. cbn [capture_all]. unfold capture, find_number.
    cbn [c_list arena_open a_view]. destruct (v_size ext) as [|k]; [lia|]. reflexivity.
  Qed.
End CaptureProofs.

(** ** Memory used *)
Section Total.
  Context {V : Type}.
  Implicit Types (m : mem V) (a : arena V).
  (** The number of elements that fit in all blocks. *)
  Definition total m : nat := list_sum (map (@length (cell V)) m).

  Lemma total_set m b bl x : nth_error m b = Some bl -> length x = length bl -> total (set_nth b x m) = total m.
  Proof.
    unfold total. revert b; induction m as [|h m IH]; intros [|b] E L; try discriminate.
    - cbn in *. injection E as ->. lia.
    - specialize (IH b E L). unfold list_sum in *. cbn [set_nth map fold_right]. lia.
  Qed.
  Lemma total_store m p i c m' : store m p i c = Some m' -> total m' = total m.
  Proof.
    destruct p as [[b o]|]; [|discriminate]. cbn [store]. destruct (nth_error m b) as [bl|] eqn:E; [|discriminate].
    destruct (_ <? _); [|discriminate]. intros [= <-]. apply (total_set _ _ bl _ E). apply set_nth_length.
  Qed.
  Lemma total_copy k : forall m s i d j m', copy m s i d j k = Some m' -> total m' = total m.
  Proof.
    induction k as [|k IH]; intros m s i d j m'; cbn [copy]; [congruence|].
    destruct (load m s i) as [c|]; [|discriminate]. destruct (store m d j c) as [m1|] eqn:E; [|discriminate].
    intros H. rewrite (IH _ _ _ _ _ _ H). exact (total_store _ _ _ _ _ E).
  Qed.
  Lemma total_app m bl : total (m ++ [bl]) = total m + length bl.
  Proof. unfold total. rewrite map_app, list_sum_app. cbn. lia. Qed.

  (** Each push_back onto full storage takes a new block one larger. *)
  Lemma push_total dflt vs : forall a a', (a_cap a = 0 \/ a_cap a = v_size (a_view a)) ->
    a_run dflt a (map (fun v => APush (EVal v)) vs) = Some a' ->
    2 * total (a_mem a') = 2 * total (a_mem a) + length vs * (2 * v_size (a_view a) + length vs + 1).
  Proof.
    induction vs as [|v vs IH]; intros a a' HC H; cbn [map a_run length] in *; [injection H as <-; lia|].
    destruct (a_step dflt a (APush (EVal v))) as [a1|] eqn:E; [|discriminate]. cbn [a_step] in E.
    unfold push_back, assign_with_size in E. destruct (Nat.ltb_spec (a_cap a) (v_size (a_view a) + 1)) as [Hc|]; [|lia].
    unfold allocate in E. cbv zeta in E. destruct (copy _ _ _ _ _ _) as [m1|] eqn:EC in E; [|discriminate].
    cbn [a_mem a_data a_view a_cap] in E. destruct (store m1 _ _ _) as [m2|] eqn:ES in E; [|discriminate].
    injection E as <-. apply IH in H; [|right; reflexivity]. cbn [a_mem a_view v_size] in H. rewrite H.
    rewrite (total_store _ _ _ _ _ ES), (total_copy _ _ _ _ _ _ _ EC), total_app, repeat_length. lia.
  Qed.
End Total.
