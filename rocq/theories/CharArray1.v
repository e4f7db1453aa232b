(** Proofs about setting fields from arrays of char. *)
Require Import Verif.Bits Verif.DynSlots Verif.Dyn Verif.DynMain Verif.DynAccess Verif.DynAccessSpec Verif.DynAccess1 Verif.DynAccess2 Verif.CharArray Verif.CharArraySpec.
Require Verif.PropertiesAccess.
Local Open Scope list_scope.
Local Open Scope Z_scope.

Lemma last_at (b : bytes) c d : nth (length (b ++ [c]) - 1) (b ++ [c]) d = c.
Proof. rewrite app_length. cbn [length]. replace (length b + 1 - 1)%nat with (length b) by lia. rewrite app_nth2 by lia. rewrite Nat.sub_diag. reflexivity. Qed.
Lemma text_literal b : array_text (b ++ [0]) = b.
Proof.
  unfold array_text. rewrite last_at, Z.eqb_refl, app_length. cbn [length]. replace (length b + 1 - 1)%nat with (length b + 0)%nat by lia. rewrite firstn_app_2. cbn [firstn]. apply app_nil_r.
Qed.
Lemma text_whole b c : c <> 0 -> array_text (b ++ [c]) = b ++ [c].
Proof. intros H. unfold array_text. rewrite last_at. apply Z.eqb_neq in H. rewrite H. apply firstn_all. Qed.
Lemma set_array_is E fuel t fs k b c m : set_array E fuel t fs k (b ++ [c]) m = set_by E fuel t fs k (AStr (array_text (b ++ [c]))) m.
Proof. unfold set_array. destruct b; reflexivity. Qed.
Lemma c_string_app b r : ~ In 0 b -> c_string (b ++ 0 :: r) = b.
Proof. induction b as [|c b IH]; intros N; [reflexivity|]. cbn [app c_string]. destruct (Z.eqb_spec c 0) as [->|_]; [exfalso; apply N; left; reflexivity|]. rewrite IH; [reflexivity|]. intros H. apply N. right. exact H. Qed.

Section Set_.
  Variables (E : nat -> dtype) (fuel count : nat) (t : dtype) (fs : list tfield) (k : key) (i : nat) (f : tfield).
  Hypothesis M : made count (map dynf_of fs) t.
  Hypothesis K : meant fs k i f.
  Lemma set_string b m : length m = t_slots t -> tf_type f = PString -> tf_repeated f = false ->
    exists m', set_by E fuel t fs k (AStr b) m = Some (m', None) /\ look t i m' = Some (true, FBytes b).
  Proof.
    intros L P R. destruct (proj2 (PropertiesAccess.C105_ends E count t fs k (AStr b) m M) (fun H => H) fuel) as ([m' e] & H). exists m'.
    pose proof (PropertiesAccess.C105_set E fuel count t fs k i f (AStr b) m m' e M K H) as V. rewrite P, R in V.
    assert (e = None) as -> by (destruct e as [[]|]; cbn in V; try reflexivity; exfalso; try tauto; destruct V as (_ & x & y & Q & _); discriminate Q). split; [exact H|].
    destruct (PropertiesAccess.C105_value E fuel count t fs k i f (AStr b) m m' M L K (fun H => H) H) as (x & Mx & ->). inversion Mx; subst; reflexivity.
  Qed.
  Lemma set_other b m : tf_type f <> PString \/ tf_repeated f = true -> set_by E fuel t fs k (AStr b) m = Some (m, Some InvalidType).
  Proof.
    intros O. destruct (proj2 (PropertiesAccess.C105_ends E count t fs k (AStr b) m M) (fun H => H) fuel) as ([m' e] & H).
    pose proof (PropertiesAccess.C105_set E fuel count t fs k i f (AStr b) m m' e M K H) as V.
    assert (e = Some InvalidType) as ->.
    { destruct e as [[]|]; cbn in V; try reflexivity; exfalso; try tauto; destruct V as ((A & B) & _); destruct O; congruence. }
    rewrite H. f_equal. f_equal. eapply (set_unchanged E fuel count t fs M k (AStr b) m m' InvalidType H). left. intros [].
  Qed.
End Set_.

Lemma set_literal E fuel count t fs k i f b m : made count (map dynf_of fs) t -> meant fs k i f -> length m = t_slots t -> tf_type f = PString -> tf_repeated f = false ->
  exists m', set_array E fuel t fs k (b ++ [0]) m = Some (m', None) /\ look t i m' = Some (true, FBytes b).
Proof. intros M K L P R. rewrite set_array_is, text_literal. exact (set_string E fuel count t fs k i f M K b m L P R). Qed.
Lemma set_whole E fuel count t fs k i f b c m : made count (map dynf_of fs) t -> meant fs k i f -> length m = t_slots t -> tf_type f = PString -> tf_repeated f = false -> c <> 0 ->
  exists m', set_array E fuel t fs k (b ++ [c]) m = Some (m', None) /\ look t i m' = Some (true, FBytes (b ++ [c])).
Proof. intros M K L P R N. rewrite set_array_is, text_whole by exact N. exact (set_string E fuel count t fs k i f M K (b ++ [c]) m L P R). Qed.
Lemma set_array_other E fuel count t fs k i f a m : made count (map dynf_of fs) t -> meant fs k i f -> a <> [] -> tf_type f <> PString \/ tf_repeated f = true ->
  set_array E fuel t fs k a m = Some (m, Some InvalidType).
Proof. intros M K N O. unfold set_array. destruct a as [|c a]; [congruence|]. exact (set_other E fuel count t fs k i f M K _ m O). Qed.
Lemma set_padded E fuel count t fs k i f b n m : made count (map dynf_of fs) t -> meant fs k i f -> length m = t_slots t -> tf_type f = PString -> tf_repeated f = false -> ~ In 0 b ->
  c_string (b ++ repeat 0 (S n)) = b /\ exists m', set_array E fuel t fs k (b ++ repeat 0 (S n)) m = Some (m', None) /\ look t i m' = Some (true, FBytes (b ++ repeat 0 n)).
Proof.
  intros M K L P R N. split; [exact (c_string_app b _ N)|]. replace (repeat 0 (S n)) with (repeat 0 n ++ [0]) by (symmetry; apply repeat_cons). rewrite app_assoc. exact (set_literal E fuel count t fs k i f _ m M K L P R).
Qed.
