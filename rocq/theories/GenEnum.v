(** The function is_valid of a generated enum: src/protoc-plugin/hpp_generator.cpp:382-410
    (values sorted, whether they are contiguous) and 1396-1411 (the text). *)
From Coq Require Import Sorted Permutation.
Require Import Verif.Bits Verif.Archive.
Local Open Scope Z_scope.

(** std::ranges::sort on the numbers. *)
Fixpoint put (x : Z) (l : list Z) : list Z := match l with [] => [x] | y :: t => if x <=? y then x :: l else y :: put x t end.
Definition sorted_values (values : list Z) : list Z := fold_right put [] values.
(** 399-404: the difference of neighbours is computed in int ([UB]: it overflows); the
    loop stops at the first gap. *)
Fixpoint continuous (l : list Z) : res bool :=
  match l with
  | a :: ((b :: _) as t) =>
      let d := b - a in
      if (d <? - 2 ^ 31) || (2 ^ 31 <=? d) then UB else if 1 <? d then Ok false else continuous t
  | _ => Ok true
  end.
(** 1396-1411: the body of is_valid. *)
Inductive check := CNever | CRange (lo hi : Z) | CAmong (l : list Z).
Definition enum_check (values : list Z) : res check :=
  let s := sorted_values values in
  c <- continuous s ;;
  Ok (match s with [] => CNever | lo :: _ => if c then CRange lo (last s 0) else CAmong s end).
(** Calling it. *)
Definition is_valid (c : check) (v : Z) : bool :=
  match c with CNever => false | CRange lo hi => (lo <=? v) && (v <=? hi) | CAmong l => existsb (Z.eqb v) l end.

(** ** Proofs *)
Lemma put_perm x l : Permutation (put x l) (x :: l).
Proof.
  induction l as [|y t IH]; [reflexivity|]. cbn [put]. destruct (x <=? y); [reflexivity|]. rewrite IH. apply perm_swap.
Qed.
Lemma sorted_perm l : Permutation (sorted_values l) l.
Proof. induction l as [|x t IH]; [reflexivity|]. cbn. rewrite put_perm, IH. reflexivity. Qed.
Lemma put_sorted x l : StronglySorted Z.le l -> StronglySorted Z.le (put x l).
Proof.
  induction 1 as [|y t Hs IH Hf]; cbn [put]; [repeat constructor|]. destruct (Z.leb_spec x y).
  - constructor; [constructor; assumption|]. constructor; [assumption|]. rewrite Forall_forall in *. intros z Hz. specialize (Hf z Hz). lia.
  - constructor; [exact IH|]. rewrite Forall_forall in *. intros z Hz. apply (Permutation_in _ (put_perm x t)) in Hz. destruct Hz as [<- | Hz]; [lia|apply Hf; exact Hz].
Qed.
Lemma sorted_sorted l : StronglySorted Z.le (sorted_values l).
Proof. induction l as [|x t IH]; [constructor|]. apply put_sorted. exact IH. Qed.
Lemma range_of s : StronglySorted Z.le s -> continuous s = Ok true -> forall lo t, s = lo :: t -> forall v, (lo <= v <= last s 0 <-> In v s).
Proof.
  induction 1 as [|a s Hs IH Hf]; intros Hc lo t E v; [discriminate E|]. injection E as <- <-. destruct s as [|b t]; [cbn; split; [intros; left; lia|intros [<- | []]; lia]|].
  cbn [continuous] in Hc. destruct ((b - a <? - 2 ^ 31) || (2 ^ 31 <=? b - a)); [discriminate|]. destruct (Z.ltb_spec 1 (b - a)); [discriminate|].
  specialize (IH Hc b t eq_refl v). change (last (a :: b :: t) 0) with (last (b :: t) 0). rewrite Forall_forall in Hf. specialize (Hf b (or_introl eq_refl)).
  cbn [In] in *. split.
  - intros (K1 & K2). destruct (Z.eq_dec a v) as [-> | K3]; [left; reflexivity|]. right. apply IH. lia.
  - intros [-> | K]; [|apply IH in K; lia]. split; [lia|]. assert (Q : b <= last (b :: t) 0 <= last (b :: t) 0).
    { clear -Hs. split; [|lia]. apply StronglySorted_inv in Hs. destruct Hs as (_ & Hs). destruct t as [|c t]; [cbn; lia|]. change (last (b :: c :: t) 0) with (last (c :: t) 0).
      assert (I : In (last (c :: t) 0) (c :: t)) by (clear; revert c; induction t as [|d t IHt]; intros c; [left; reflexivity|right; apply IHt]). rewrite Forall_forall in Hs. exact (Hs _ I). }
    lia.
Qed.
Theorem check_exact values c : enum_check values = Ok c -> forall v, is_valid c v = true <-> In v values.
Proof.
  unfold enum_check. intros H v. pose proof (sorted_sorted values) as S. pose proof (sorted_perm values) as P. assert (I : In v (sorted_values values) <-> In v values) by (split; apply Permutation_in; [|symmetry]; exact P).
  rewrite <- I. clear I P. destruct (continuous (sorted_values values)) as [b|e| | |] eqn:Hc; try discriminate H. cbn [bind] in H. injection H as <-.
  destruct (sorted_values values) as [|lo t] eqn:E; [cbn; split; [discriminate|intros []]|]. destruct b; cbn [is_valid].
  - rewrite andb_true_iff, !Z.leb_le. exact (range_of (lo :: t) S Hc lo t eq_refl v).
  - rewrite existsb_exists. split; [intros (x & Hx & K); apply Z.eqb_eq in K; subst; exact Hx|intros K; exists v; split; [exact K|apply Z.eqb_refl]].
Qed.
(** The differences do not overflow if the values are less than 2^31 apart. *)
Lemma continuous_total s : StronglySorted Z.le s -> (forall a b, In a s -> In b s -> b - a < 2 ^ 31) -> exists b, continuous s = Ok b.
Proof.
  induction 1 as [|a s Hs IH Hf]; intros D; [exists true; reflexivity|]. destruct s as [|b t]; [exists true; reflexivity|]. cbn [continuous].
  rewrite Forall_forall in Hf. pose proof (Hf b (or_introl eq_refl)). pose proof (D a b (or_introl eq_refl) (or_intror (or_introl eq_refl))).
  destruct (Z.ltb_spec (b - a) (- 2 ^ 31)); [lia|]. destruct (Z.leb_spec (2 ^ 31) (b - a)); [lia|]. cbn [orb]. destruct (1 <? b - a); [exists false; reflexivity|]. apply IH. intros x y Hx Hy. apply D; right; assumption.
Qed.
Theorem check_total values : (forall a b, In a values -> In b values -> b - a < 2 ^ 31) -> exists c, enum_check values = Ok c.
Proof.
  intros D. destruct (continuous_total (sorted_values values) (sorted_sorted values)) as (b & Hb).
  - intros x y Hx Hy. apply D; eapply Permutation_in; try apply sorted_perm; assumption.
  - unfold enum_check. rewrite Hb. cbn [bind]. eexists. reflexivity.
Qed.
