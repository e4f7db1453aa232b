(** Model of the functions of the generator on dotted names, and proof that they work on
    the components of the names.

    Source: /repo/src/protoc-plugin/hpp_generator.cpp 181-202 and 796-797.  Characters are
    numbers. *)
Require Import List Arith ZArith Bool Lia.
Require Import Verif.Archive Verif.Gen Verif.GenSpec.
Import ListNotations.
Local Open Scope nat_scope.

Definition dot : Z := 46%Z.

(** std::ranges::mismatch(s1, s2).in1 - s1.begin() (182) *)
Fixpoint mismatch (a b : list Z) : nat :=
  match a, b with
  | x :: a', y :: b' => if (x =? y)%Z then S (mismatch a' b') else 0
  | _, _ => 0
  end.

(** The last dot of a string: find_last_of('.', pos - 1) (193) is this on the first [pos]
    characters. *)
Fixpoint last_dot (s : list Z) : option nat :=
  match s with
  | [] => None
  | x :: r => match last_dot r with
              | Some i => Some (S i)
              | None => if (x =? dot)%Z then Some 0 else None
              end
  end.

(** shared_scope_position (181-199); [s2[pos]] at the end of the string is undefined. *)
Definition shared_scope_position (s1 s2 : list Z) : res nat :=
  let pos := mismatch s1 s2 in
  if (pos =? length s1) && (pos =? length s2) then Ok pos
  else if 0 <? pos then
    let '(a, b) := if length s2 <? length s1 then (s2, s1) else (s1, s2) in
    let rest := match last_dot (firstn pos a) with Some i => Ok i | None => Ok 0 end in
    if pos =? length a then
      match nth_error b pos with
      | None => UB
      | Some c => if (c =? dot)%Z then Ok pos else rest
      end
    else rest
  else Ok 0.

(** get_common_ancestor (201-203) *)
Definition get_common_ancestor (s1 s2 : list Z) : res (list Z) :=
  n <- shared_scope_position s1 s2 ;; Ok (firstn n s1).

(** find('.', from) *)
Fixpoint find_dot (s : list Z) : option nat :=
  match s with
  | [] => None
  | x :: r => if (x =? dot)%Z then Some 0 else option_map S (find_dot r)
  end.
(** name.substr(0, name.find('.', common_ancestor.size() + 1)) (796-797) *)
Definition one_below (name : list Z) (ancestor : list Z) : list Z :=
  let from := S (length ancestor) in
  match find_dot (skipn from name) with
  | Some i => firstn (from + i) name
  | None => name
  end.

(** ** Names and components *)

(** the name made of components *)
Fixpoint join (cs : list (list Z)) : list Z :=
  match cs with
  | [] => []
  | [c] => c
  | c :: r => c ++ dot :: join r
  end.
Definition component (c : list Z) := c <> [] /\ ~ In dot c.

Lemma join_cons c r : r <> [] -> join (c :: r) = c ++ dot :: join r.
Proof. destruct r; [congruence | reflexivity]. Qed.
Lemma join_app a b : a <> [] -> b <> [] -> join (a ++ b) = join a ++ dot :: join b.
Proof.
  intros Ha Hb. induction a as [|x a IH]; [congruence|]. destruct a as [|y a].
  - cbn [app]. rewrite join_cons by exact Hb. reflexivity.
  - change ((x :: y :: a) ++ b) with (x :: (y :: a) ++ b). rewrite join_cons by discriminate. rewrite IH by discriminate.
    rewrite (join_cons x (y :: a)) by discriminate. rewrite <- app_assoc. reflexivity.
Qed.
Lemma join_nonempty a : a <> [] -> Forall component a -> join a <> [].
Proof.
  intros Ha H. destruct a as [|x a]; [congruence|]. inversion H as [|? ? [Hx _]]; subst. destruct a as [|y a]; [exact Hx|].
  rewrite join_cons by discriminate. destruct x; [congruence | discriminate].
Qed.

Lemma mismatch_same s : mismatch s s = length s.
Proof. induction s as [|x s IH]; [reflexivity|]. cbn [mismatch length]. rewrite Z.eqb_refl. f_equal. exact IH. Qed.
Lemma mismatch_app s a b : mismatch (s ++ a) (s ++ b) = length s + mismatch a b.
Proof. induction s as [|x s IH]; [reflexivity|]. cbn [app mismatch length]. rewrite Z.eqb_refl. cbn [plus]. f_equal. exact IH. Qed.
Lemma mismatch_sym a : forall b, mismatch a b = mismatch b a.
Proof. induction a as [|x a IH]; intros [|y b]; try reflexivity. cbn [mismatch]. rewrite Z.eqb_sym. destruct (y =? x)%Z; [f_equal; apply IH | reflexivity]. Qed.

(** strings that start with different components *)
Definition starts (x s : list Z) := s = x \/ exists r, s = x ++ dot :: r.
Lemma join_starts x r : starts x (join (x :: r)).
Proof. destruct r; [left; reflexivity | right; eexists; apply join_cons; discriminate]. Qed.

Lemma mismatch_apart x : forall y s t, ~ In dot x -> ~ In dot y -> x <> y -> starts x s -> starts y t ->
  let j := mismatch s t in
  j <= length x /\ j <= length y /\ ~ In dot (firstn j s) /\ firstn j s = firstn j t /\
  (j < length s \/ j < length t) /\
  (j = length s -> exists c, nth_error t j = Some c /\ c <> dot) /\ (j = length t -> exists c, nth_error s j = Some c /\ c <> dot).
Proof.
  induction x as [|a x IH]; intros y s t Dx Dy N Hs Ht.
  - destruct y as [|b y]; [congruence|].
    assert (Nb : b <> dot) by (intros ->; apply Dy; left; reflexivity).
    assert (T : exists r, t = b :: r) by (destruct Ht as [->|[r ->]]; eexists; reflexivity). destruct T as [r ->].
    assert (J : mismatch s (b :: r) = 0).
    { destruct Hs as [->|[q ->]]; [reflexivity|]. cbn [app mismatch]. destruct (Z.eqb_spec dot b); [congruence | reflexivity]. }
    rewrite J. cbn [length firstn]. split; [lia|]. split; [lia|]. split; [intros []|]. split; [reflexivity|]. split; [right; lia|]. split.
    + intros _. exists b. split; [reflexivity | exact Nb].
    + intros C. lia.
  - assert (Na : a <> dot) by (intros ->; apply Dx; left; reflexivity).
    assert (S1 : exists r, s = a :: r /\ starts x r).
    { destruct Hs as [->|[r ->]]; eexists; (split; [reflexivity|]); [left | right; eexists]; reflexivity. }
    destruct S1 as [s' [-> Hs']]. destruct y as [|b y].
    + assert (J : mismatch (a :: s') t = 0).
      { destruct Ht as [->|[q ->]]; [reflexivity|]. cbn [app mismatch]. destruct (Z.eqb_spec a dot); [congruence | reflexivity]. }
      rewrite J. cbn [length firstn]. split; [lia|]. split; [lia|]. split; [intros []|]. split; [reflexivity|]. split; [left; lia|]. split.
      * intros C. lia.
      * intros _. exists a. split; [reflexivity | exact Na].
    + assert (T1 : exists r, t = b :: r /\ starts y r).
      { destruct Ht as [->|[r ->]]; eexists; (split; [reflexivity|]); [left | right; eexists]; reflexivity. }
      destruct T1 as [t' [-> Ht']]. cbn [mismatch]. destruct (Z.eqb_spec a b) as [<-|Nab].
      * destruct (IH y s' t') as [A [B [C [D [E [F G]]]]]]; [intros H; apply Dx; right; exact H | intros H; apply Dy; right; exact H | congruence | exact Hs' | exact Ht'|].
        cbn [length firstn nth_error]. split; [lia|]. split; [lia|]. split; [intros [H|H]; [exact (Na H) | exact (C H)]|].
        split; [f_equal; exact D|]. split; [lia|]. split; [intros H; apply F; lia | intros H; apply G; lia].
      * cbn [length firstn]. split; [lia|]. split; [lia|]. split; [intros []|]. split; [reflexivity|]. split; [left; lia|]. split; intros H; lia.
Qed.

Lemma last_dot_none s : ~ In dot s -> last_dot s = None.
Proof.
  induction s as [|x s IH]; intros H; [reflexivity|]. cbn [last_dot]. rewrite IH by (intros C; apply H; right; exact C).
  destruct (Z.eqb_spec x dot) as [->|]; [exfalso; apply H; left; reflexivity | reflexivity].
Qed.
Lemma last_dot_mid a b : ~ In dot b -> last_dot (a ++ dot :: b) = Some (length a).
Proof.
  intros H. induction a as [|x a IH]; cbn [app last_dot length]; [rewrite last_dot_none by exact H; reflexivity|]. rewrite IH. reflexivity.
Qed.

(** how two lists of components part *)
Lemma parting (a b : list (list Z)) : exists c a' b', a = c ++ a' /\ b = c ++ b' /\
  (forall x y ra rb, a' = x :: ra -> b' = y :: rb -> x <> y).
Proof.
  revert b. induction a as [|x a IH]; intros b.
  - exists [], [], b. split; [reflexivity|]. split; [reflexivity|]. discriminate.
  - destruct b as [|y b]; [exists [], (x :: a), []; split; [reflexivity|]; split; [reflexivity|]; discriminate|].
    destruct (list_eq_dec Z.eq_dec x y) as [<-|N].
    + destruct (IH b) as [c [a' [b' [-> [-> H]]]]]. exists (x :: c), a', b'. split; [reflexivity|]. split; [reflexivity | exact H].
    + exists [], (x :: a), (y :: b). split; [reflexivity|]. split; [reflexivity|]. intros x0 y0 ra rb E1 E2. congruence.
Qed.

Lemma position c a b : Forall component (c ++ a) -> Forall component (c ++ b) ->
  (forall x y ra rb, a = x :: ra -> b = y :: rb -> x <> y) ->
  shared_scope_position (join (c ++ a)) (join (c ++ b)) = Ok (length (join c)).
Proof.
  intros Ha Hb N. unfold shared_scope_position.
  destruct a as [|x ra].
  - rewrite app_nil_r in *. destruct b as [|y rb].
    + rewrite app_nil_r, mismatch_same, !Nat.eqb_refl. reflexivity.
    + destruct c as [|c0 c].
      * generalize (join ([] ++ y :: rb)). intros t. cbn [join]. destruct t; reflexivity.
      * remember (c0 :: c) as cc eqn:Ecc. rewrite (join_app cc (y :: rb)) by (subst; discriminate).
        assert (L : 0 < length (join cc)).
        { pose proof (join_nonempty cc) as J. destruct (join cc); [exfalso; apply J; [subst; discriminate | exact Ha | reflexivity] | cbn; lia]. }
        set (s := join cc) in *. set (t := join (y :: rb)).
        assert (M : mismatch s (s ++ dot :: t) = length s).
        { rewrite <- (app_nil_r s) at 1. rewrite mismatch_app. cbn [mismatch]. lia. }
        rewrite M, Nat.eqb_refl. rewrite app_length. cbn [length andb].
        replace (length s =? length s + S (length t)) with false by (symmetry; apply Nat.eqb_neq; lia).
        replace (0 <? length s) with true by (symmetry; apply Nat.ltb_lt; lia).
        replace (length s + S (length t) <? length s) with false by (symmetry; apply Nat.ltb_ge; lia).
        rewrite Nat.eqb_refl. rewrite nth_error_app2 by lia. rewrite Nat.sub_diag. reflexivity.
  - destruct b as [|y rb].
    + rewrite app_nil_r in *. destruct c as [|c0 c].
      * generalize (join ([] ++ x :: ra)). intros t. cbn [join]. destruct t; reflexivity.
      * remember (c0 :: c) as cc eqn:Ecc. rewrite (join_app cc (x :: ra)) by (subst; discriminate).
        assert (L : 0 < length (join cc)).
        { pose proof (join_nonempty cc) as J. destruct (join cc); [exfalso; apply J; [subst; discriminate | exact Hb | reflexivity] | cbn; lia]. }
        set (s := join cc) in *. set (t := join (x :: ra)).
        assert (M : mismatch (s ++ dot :: t) s = length s).
        { rewrite <- (app_nil_r s) at 2. rewrite mismatch_app. cbn [mismatch]. lia. }
        rewrite M, Nat.eqb_refl. rewrite app_length. cbn [length andb].
        replace (length s =? length s + S (length t)) with false by (symmetry; apply Nat.eqb_neq; lia). cbn [andb].
        replace (0 <? length s) with true by (symmetry; apply Nat.ltb_lt; lia).
        replace (length s <? length s + S (length t)) with true by (symmetry; apply Nat.ltb_lt; lia).
        rewrite Nat.eqb_refl. rewrite nth_error_app2 by lia. rewrite Nat.sub_diag. reflexivity.
    + specialize (N x y ra rb eq_refl eq_refl).
      assert (Cx : component x) by (apply Forall_app in Ha as [_ H]; inversion H; assumption).
      assert (Cy : component y) by (apply Forall_app in Hb as [_ H]; inversion H; assumption).
      set (s := join (x :: ra)). set (t := join (y :: rb)).
      destruct (mismatch_apart x y s t (proj2 Cx) (proj2 Cy) N (join_starts x ra) (join_starts y rb)) as [_ [_ [J3 [J4 [J5 [J6 J7]]]]]].
      set (j := mismatch s t) in *.
      assert (Pre : exists h, (h = [] /\ join c = [] \/ h = join c ++ [dot]) /\ join (c ++ x :: ra) = h ++ s /\ join (c ++ y :: rb) = h ++ t).
      { destruct c as [|c0 c]; [exists []; split; [left; split; reflexivity|]; split; reflexivity|].
        exists (join (c0 :: c) ++ [dot]). split; [right; reflexivity|]. rewrite !join_app by discriminate. rewrite <- !app_assoc. split; reflexivity. }
      destruct Pre as [h [Hh [-> ->]]]. rewrite mismatch_app. fold j. rewrite !app_length.
      replace ((length h + j =? length h + length s) && (length h + j =? length h + length t)) with false.
      2:{ symmetry. apply andb_false_iff. rewrite !Nat.eqb_neq. lia. }
      assert (Rest : forall u, firstn j u = firstn j s -> 0 < length h + j ->
        match last_dot (firstn (length h + j) (h ++ u)) with Some i => Ok i | None => Ok 0 end = Ok (length (join c))).
      { intros u U _. rewrite firstn_app_2, U. destruct Hh as [[-> ->]| ->].
        - cbn [app]. rewrite last_dot_none by exact J3. reflexivity.
        - rewrite <- app_assoc. cbn [app]. rewrite last_dot_mid by exact J3. reflexivity. }
      destruct (Nat.ltb_spec 0 (length h + j)) as [Lp|Lp].
      2:{ destruct Hh as [[-> ->]| ->]; [reflexivity|]. rewrite app_length in Lp. cbn in Lp. lia. }
      destruct (Nat.ltb_spec (length h + length t) (length h + length s)) as [Lt|Ge].
      * rewrite !app_length. destruct (Nat.eqb_spec (length h + j) (length h + length t)) as [Q|_]; [|apply Rest; [symmetry; exact J4 | exact Lp]].
        destruct J7 as [ch [Nc Cd]]; [lia|]. rewrite nth_error_app2 by lia. replace (length h + j - length h) with j by lia. rewrite Nc.
        destruct (Z.eqb_spec ch dot); [contradiction|]. apply Rest; [symmetry; exact J4 | exact Lp].
      * rewrite !app_length. destruct (Nat.eqb_spec (length h + j) (length h + length s)) as [Q|_]; [|apply Rest; [reflexivity | exact Lp]].
        destruct J6 as [ch [Nc Cd]]; [lia|]. rewrite nth_error_app2 by lia. replace (length h + j - length h) with j by lia. rewrite Nc.
        destruct (Z.eqb_spec ch dot); [contradiction|]. apply Rest; [reflexivity | exact Lp].
Qed.

Lemma join_prefix c a : firstn (length (join c)) (join (c ++ a)) = join c.
Proof.
  destruct c as [|c0 c]; [reflexivity|]. destruct a as [|x a]; [rewrite app_nil_r; apply firstn_all|].
  rewrite join_app by discriminate. rewrite firstn_app, Nat.sub_diag, firstn_all. cbn [firstn]. apply app_nil_r.
Qed.

Theorem ancestor_components c a b : Forall component (c ++ a) -> Forall component (c ++ b) ->
  (forall x y ra rb, a = x :: ra -> b = y :: rb -> x <> y) ->
  get_common_ancestor (join (c ++ a)) (join (c ++ b)) = Ok (join c).
Proof.
  intros Ha Hb N. unfold get_common_ancestor. rewrite position by assumption. cbn [bind]. rewrite join_prefix. reflexivity.
Qed.

Lemma find_dot_none s : ~ In dot s -> find_dot s = None.
Proof.
  induction s as [|x s IH]; intros H; [reflexivity|]. cbn [find_dot]. destruct (Z.eqb_spec x dot) as [->|]; [exfalso; apply H; left; reflexivity|].
  rewrite IH by (intros C; apply H; right; exact C). reflexivity.
Qed.
Lemma find_dot_mid a b : ~ In dot a -> find_dot (a ++ dot :: b) = Some (length a).
Proof.
  induction a as [|x a IH]; intros H; cbn [app find_dot length]; [reflexivity|].
  destruct (Z.eqb_spec x dot) as [->|]; [exfalso; apply H; left; reflexivity|]. rewrite IH by (intros C; apply H; right; exact C). reflexivity.
Qed.

Theorem one_below_components c a : Forall component (c ++ a) -> one_below (join (c ++ a)) (join c) = join (c ++ firstn 1 a).
Proof.
  intros H. unfold one_below. destruct a as [|x a].
  - cbn [firstn]. rewrite app_nil_r. rewrite skipn_all2 by lia. reflexivity.
  - cbn [firstn]. assert (Cx : component x) by (apply Forall_app in H as [_ H]; inversion H; assumption). destruct Cx as [Nx Dx].
    destruct c as [|c0 c].
    + change (join []) with (@nil Z). change (@nil (list Z) ++ x :: a) with (x :: a). change (join ([] ++ [x])) with x. change (length (@nil Z)) with 0.
      destruct x as [|z x]; [congruence|]. assert (Dx' : ~ In dot x) by (intros C; apply Dx; right; exact C).
      destruct a as [|y a].
      * cbn [join skipn]. rewrite find_dot_none by exact Dx'. reflexivity.
      * rewrite (join_cons (z :: x) (y :: a)) by discriminate. cbn [app skipn]. rewrite find_dot_mid by exact Dx'. cbn [plus firstn]. f_equal.
        rewrite firstn_app, Nat.sub_diag, firstn_all. cbn [firstn]. apply app_nil_r.
    + remember (c0 :: c) as cc eqn:Ecc. rewrite (join_app cc (x :: a)) by (subst cc; discriminate). rewrite (join_app cc [x]) by (first [discriminate | subst cc; discriminate]).
      set (s := join cc). change (join [x]) with x. replace (skipn (S (length s)) (s ++ dot :: join (x :: a))) with (join (x :: a)).
      2:{ replace (s ++ dot :: join (x :: a)) with ((s ++ [dot]) ++ join (x :: a)) by (rewrite <- app_assoc; reflexivity).
          replace (S (length s)) with (length (s ++ [dot])) by (rewrite app_length; cbn; lia). rewrite skipn_app, Nat.sub_diag, skipn_all. reflexivity. }
      destruct a as [|y a].
      * cbn [join]. rewrite find_dot_none by exact Dx. reflexivity.
      * rewrite join_cons by discriminate. rewrite find_dot_mid by exact Dx.
        replace (s ++ dot :: x ++ dot :: join (y :: a)) with ((s ++ dot :: x) ++ dot :: join (y :: a)) by (rewrite <- app_assoc; reflexivity).
        replace (S (length s) + length x) with (length (s ++ dot :: x)) by (rewrite app_length; cbn; lia).
        rewrite firstn_app, Nat.sub_diag, firstn_all. cbn [firstn]. apply app_nil_r.
Qed.

(** ** The names of the model *)

(** a spelling of the components of the model *)
Definition spelling (nm : nat -> list Z) := (forall i, component (nm i)) /\ forall i j, nm i = nm j -> i = j.
Definition full (nm : nat -> list Z) (p : path) := join (map nm p).

Lemma common_parts p : forall q, exists p' q', p = common p q ++ p' /\ q = common p q ++ q' /\ forall x y rp rq, p' = x :: rp -> q' = y :: rq -> x <> y.
Proof.
  induction p as [|x p IH]; intros q.
  - exists [], q. split; [reflexivity|]. split; [reflexivity|]. discriminate.
  - destruct q as [|y q]; [exists (x :: p), []; split; [reflexivity|]; split; [reflexivity|]; discriminate|]. cbn [common].
    destruct (Nat.eqb_spec x y) as [<-|N].
    + destruct (IH q) as [p' [q' [A [B C]]]]. exists p', q'. cbn [app]. split; [f_equal; exact A|]. split; [f_equal; exact B | exact C].
    + exists (x :: p), (y :: q). split; [reflexivity|]. split; [reflexivity|]. intros. congruence.
Qed.

Lemma components nm p : spelling nm -> Forall component (map nm p).
Proof. intros [H _]. apply Forall_forall. intros x Hx. apply in_map_iff in Hx as [i [<- _]]. apply H. Qed.

Theorem names_agree nm p q : spelling nm ->
  get_common_ancestor (full nm p) (full nm q) = Ok (full nm (common p q)) /\
  one_below (full nm p) (full nm (common p q)) = full nm (firstn (S (length (common p q))) p) /\
  one_below (full nm q) (full nm (common p q)) = full nm (firstn (S (length (common p q))) q).
Proof.
  intros H. destruct (common_parts p q) as [p' [q' [Ep [Eq N]]]]. set (c := common p q) in *.
  assert (F : forall r, firstn (S (length c)) (c ++ r) = c ++ firstn 1 r).
  { intros r. rewrite firstn_app, firstn_all2 by lia. replace (S (length c) - length c) with 1 by lia. reflexivity. }
  unfold full. split; [|split].
  - rewrite Ep, Eq, !map_app. apply ancestor_components.
    + rewrite <- map_app. apply components. exact H.
    + rewrite <- map_app. apply components. exact H.
    + intros x y ra rb E1 E2 E. destruct p' as [|i p']; [discriminate|]. destruct q' as [|k q']; [discriminate|].
      cbn [map] in E1, E2. injection E1 as E1 _. injection E2 as E2 _. apply (N i k p' q' eq_refl eq_refl). apply (proj2 H). congruence.
  - rewrite Ep at 2. rewrite F. rewrite Ep at 1. rewrite !map_app, one_below_components.
    + rewrite firstn_map. reflexivity.
    + rewrite <- map_app. apply components. exact H.
  - rewrite Eq at 2. rewrite F. rewrite Eq at 1. rewrite !map_app, one_below_components.
    + rewrite firstn_map. reflexivity.
    + rewrite <- map_app. apply components. exact H.
Qed.

(** full names of different messages are different *)
Lemma join_inj a : forall b, Forall component a -> Forall component b -> join a = join b -> a = b.
Proof.
  intros b Ha Hb E. destruct (parting a b) as [c [a' [b' [-> [-> N]]]]].
  pose proof (position c a' b' Ha Hb N) as Q. rewrite E in Q. unfold shared_scope_position in Q. rewrite mismatch_same, !Nat.eqb_refl in Q.
  cbn [andb] in Q. assert (L : length (join (c ++ b')) = length (join c)) by congruence.
  assert (Nil : forall r, length (join (c ++ r)) = length (join c) -> Forall component (c ++ r) -> r = []).
  { clear. intros r L F. destruct r as [|x r]; [reflexivity|]. exfalso. destruct c as [|c0 c].
    - cbn [app] in *. pose proof (join_nonempty (x :: r) ltac:(discriminate) F) as J. destruct (join (x :: r)); [congruence | discriminate].
    - rewrite join_app in L by discriminate. rewrite app_length in L. cbn in L. lia. }
  rewrite (Nil b' L Hb). rewrite (Nil a'); [reflexivity | rewrite E; exact L | exact Ha].
Qed.
Theorem full_inj nm p q : spelling nm -> full nm p = full nm q -> p = q.
Proof.
  intros H E. apply join_inj in E; [|apply components; exact H | apply components; exact H].
  revert q E. induction p as [|x p IH]; intros [|y q] E; try discriminate; [reflexivity|]. cbn [map] in E. injection E as E1 E2.
  f_equal; [apply (proj2 H); exact E1 | apply IH; exact E2].
Qed.
