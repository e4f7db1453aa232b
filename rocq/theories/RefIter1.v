(** Proofs about iterators. *)
Require Import Verif.Bits Verif.Archive Verif.RefIter Verif.RefIterSpec.
Local Open Scope list_scope.
Local Open Scope Z_scope.

Lemma wrap_small z : 0 <= z < 2 ^ 64 -> wrap z = z.
Proof. intros H. apply Z.mod_small. exact H. Qed.
Lemma to_diff_small z : z < 2 ^ 63 -> to_diff z = z.
Proof. intros H. unfold to_diff. apply Z.ltb_lt in H. rewrite H. reflexivity. Qed.
Lemma diff_small z : - 2 ^ 63 <= z < 2 ^ 63 -> diff_ok z = true.
Proof. intros H. unfold diff_ok. apply andb_true_intro. split; [apply Z.leb_le|apply Z.ltb_lt]; lia. Qed.
Lemma pow_le : 0 < 2 ^ 63 /\ 2 ^ 64 = 2 * 2 ^ 63.
Proof. split; reflexivity. Qed.
Lemma wrap_pos z : 0 <= z < 2 ^ 63 -> wrap z = z.
Proof. intros H. pose proof pow_le. apply wrap_small. lia. Qed.

Lemma apply_pos r p m : 0 <= p < 2 ^ 63 -> 0 <= p + step m < 2 ^ 63 -> apply (Iter r p) m = Ok (Iter r (p + step m)).
Proof.
  intros H K. pose proof pow_le as L. destruct m as [| |n|n]; cbn [apply step] in *; unfold incr, decr, plus, minus; cbn [i_index i_ref]; rewrite ?to_diff_small by lia.
  - rewrite wrap_small by lia. reflexivity.
  - replace (p - 1) with (p + -1) by lia. rewrite wrap_small by lia. reflexivity.
  - rewrite diff_small by lia. rewrite wrap_small by lia. reflexivity.
  - rewrite diff_small by lia. rewrite wrap_small by lia. replace (p - n) with (p + - n) by lia. reflexivity.
Qed.
Theorem moves_lead r size p ms q : size < 2 ^ 63 -> leads size p ms q -> moves (Iter r p) ms = Ok (Iter r q).
Proof.
  intros S. induction 1 as [p H|p m ms q H L IH]; [reflexivity|]. cbn [moves]. rewrite apply_pos; [exact IH|lia|]. inversion L; subst; lia.
Qed.
Theorem distance_pos r s p q : 0 <= p < 2 ^ 63 -> 0 <= q < 2 ^ 63 -> distance (Iter r p) (Iter s q) = Ok (p - q) /\ plus (Iter s q) (p - q) = Ok (Iter s p) /\ minus (Iter r p) (p - q) = Ok (Iter r q).
Proof.
  intros H K. pose proof pow_le as L. unfold distance, plus, minus. cbn [i_index i_ref]. rewrite !to_diff_small by lia. replace (q + (p - q)) with p by lia. replace (p - (p - q)) with q by lia. rewrite !diff_small by lia. rewrite !wrap_small by lia. auto.
Qed.
Theorem order_pos r p q : order (Iter r p) (Iter r q) = Ok (p ?= q) /\ equal (Iter r p) (Iter r q) = Ok (p =? q).
Proof. unfold order, equal. cbn [i_ref i_index]. rewrite Nat.eqb_refl. auto. Qed.
Theorem deref_pos {X} (R : refs) r (l : list X) p x : R r = Some l -> nth_error l p = Some x -> deref R (Iter r (Z.of_nat p)) = Ok x.
Proof. intros H E. unfold deref. cbn [i_ref i_index]. rewrite H, Nat2Z.id, E. reflexivity. Qed.
Theorem offset_pos {X} (R : refs) r (l : list X) p n q x : R r = Some l -> zlen l < 2 ^ 63 -> 0 <= p <= zlen l -> p + n = Z.of_nat q -> nth_error l q = Some x -> at_offset R (Iter r p) n = Ok x.
Proof.
  intros H L P Q E. assert (B : (q < length l)%nat) by (apply nth_error_Some; congruence). unfold zlen in *. unfold at_offset. pose proof (apply_pos r p (MPlus n)) as A. cbn [apply step] in A. rewrite A by lia. cbn [bind]. rewrite Q. eapply deref_pos; eassumption.
Qed.

Lemma forward_from {X} (R : refs) r (l : list X) d : R r = Some l -> zlen l < 2 ^ 63 -> forall p fuel, (p + d = length l)%nat -> (d < fuel)%nat -> forward fuel R (Iter r (Z.of_nat p)) (Iter r (zlen l)) = Ok (skipn p l).
Proof.
  intros H L. pose proof pow_le as W. induction d as [|d IH]; intros p fuel Hp F; (destruct fuel as [|fuel]; [lia|]); cbn [forward]; rewrite (proj2 (order_pos r _ _)); unfold zlen in *; cbn [bind].
  - assert (E : Z.of_nat p =? Z.of_nat (length l) = true) by (apply Z.eqb_eq; lia). rewrite E. rewrite skipn_all2 by lia. reflexivity.
  - assert (E : Z.of_nat p =? Z.of_nat (length l) = false) by (apply Z.eqb_neq; lia). rewrite E. destruct (nth_error l p) as [x|] eqn:N; [|apply nth_error_None in N; lia].
    rewrite (deref_pos R r l p x H N). cbn [bind]. unfold incr. cbn [i_ref i_index]. rewrite wrap_pos by lia. replace (Z.of_nat p + 1) with (Z.of_nat (S p)) by lia. rewrite (IH (S p) fuel) by lia. cbn [bind]. f_equal.
    clear - N. revert l N. induction p as [|p IHp]; intros l N; destruct l as [|y l]; try discriminate N; cbn in *; [congruence|apply IHp; exact N].
Qed.
Theorem forward_all {X} (R : refs) r (l : list X) : R r = Some l -> zlen l < 2 ^ 63 -> exists e, end_of R r = Ok e /\ forward (S (length l)) R (begin_of r) e = Ok l.
Proof.
  intros H L. exists (Iter r (zlen l)). unfold end_of. rewrite H. split; [reflexivity|]. exact (forward_from R r l (length l) H L 0%nat (S (length l)) ltac:(lia) ltac:(lia)).
Qed.
Lemma firstn_last {X} (l : list X) p x : nth_error l p = Some x -> firstn (S p) l = firstn p l ++ [x].
Proof. revert l. induction p as [|p IH]; intros [|y l] H; try discriminate H; cbn in *; [congruence|]. f_equal. apply IH. exact H. Qed.
Lemma backward_from {X} (R : refs) r (l : list X) : R r = Some l -> zlen l < 2 ^ 63 -> forall p fuel, (p <= length l)%nat -> (p < fuel)%nat -> backward fuel R (Iter r (Z.of_nat p)) (Iter r 0) = Ok (rev (firstn p l)).
Proof.
  intros H L. pose proof pow_le as W. induction p as [|p IH]; intros fuel Hp F; (destruct fuel as [|fuel]; [lia|]); cbn [backward]; rewrite (proj2 (order_pos r _ _)); unfold zlen in *; cbn [bind]; [reflexivity|].
  assert (E : Z.of_nat (S p) =? 0 = false) by (apply Z.eqb_neq; lia). rewrite E. destruct (nth_error l p) as [x|] eqn:N; [|apply nth_error_None in N; lia].
  unfold decr. cbn [i_ref i_index]. rewrite wrap_pos by lia. replace (Z.of_nat (S p) - 1) with (Z.of_nat p) by lia. rewrite (deref_pos R r l p x H N). cbn [bind]. rewrite (IH fuel) by lia. cbn [bind]. rewrite (firstn_last l p x N), rev_app_distr. reflexivity.
Qed.
Theorem backward_all {X} (R : refs) r (l : list X) : R r = Some l -> zlen l < 2 ^ 63 -> exists e, end_of R r = Ok e /\ backward (S (length l)) R e (begin_of r) = Ok (rev l).
Proof.
  intros H L. exists (Iter r (zlen l)). unfold end_of. rewrite H. split; [reflexivity|]. pose proof (backward_from R r l H L (length l) (S (length l)) ltac:(lia) ltac:(lia)) as B. rewrite firstn_all in B. exact B.
Qed.
