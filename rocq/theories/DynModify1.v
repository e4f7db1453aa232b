(** Proofs about changing fields with function objects. *)
Require Import Verif.Bits Verif.DynSlots Verif.DynSlotsProofs Verif.Dyn Verif.DynMain Verif.DynAccess Verif.DynAccessSpec Verif.DynAccess1 Verif.DynAccess2 Verif.DynModify Verif.DynModifySpec.
Local Open Scope list_scope.
Local Open Scope Z_scope.

Section Proofs.
  Context {S : Type}.
  Variables (count : nat) (t : dtype) (fs : list tfield).
  Hypothesis M : made count (map dynf_of fs) t.

  Lemma modify_none k (mu : mutator S) st m : (forall f, In f fs -> ~ is_key k f) -> modify_by S t fs k mu st m = Some (m, Some NoSuchField, st).
  Proof. intros N. apply found_none in N. unfold modify_by. rewrite N. reflexivity. Qed.
  Lemma modify_found k i f : meant fs k i f -> exists l, field t i = Some (dynf_of f, l) /\ forall (mu : mutator S) st m,
    modify_by S t fs k mu st m = let '(s, e, _) := modify_field S mu st f l (slot_at m l) in Some (put m (l_slot l) s, e, st).
  Proof.
    intros K. destruct K as (Hf & K). destruct (field_is count t fs M i f Hf) as (l & Hi). exists l. split; [exact Hi|]. intros mu st m. unfold modify_by.
    assert (F : found_at k fs = Some i) by (apply found_some; exists f; split; assumption). rewrite F, Hf, Hi. reflexivity.
  Qed.
  Lemma put_own m i f l : length m = t_slots t -> field t i = Some (f, l) -> put m (l_slot l) (slot_at m l) = m.
  Proof.
    intros L H. apply nth_ext with (d := zero_slot) (d' := zero_slot); [apply put_length|]. intros n _. destruct (Nat.eq_dec (l_slot l) n) as [<-|N].
    - rewrite put_same; [reflexivity|]. rewrite L. eapply slot_bound; eauto.
    - apply put_other. exact N.
  Qed.
  Lemma modify_refused k i f (mu : mutator S) st m : meant fs k i f -> length m = t_slots t -> takes mu (tf_type f) (tf_repeated f) = false -> modify_by S t fs k mu st m = Some (m, Some InvalidType, st).
  Proof. intros K L T. destruct (modify_found k i f K) as (l & Hi & ->). unfold modify_field. rewrite T. rewrite (put_own m i _ l L Hi). reflexivity. Qed.
  Lemma alt_same i j : alternatives (dfields (map dynf_of fs)) i j -> in_same_oneof fs i j.
  Proof.
    intros (o & A & B). unfold oneof_at in A, B. unfold dfields in A, B. rewrite map_map, nth_error_map in A, B. unfold in_same_oneof.
    destruct (nth_error fs i) as [f|]; [|discriminate A]. destruct (nth_error fs j) as [g|]; [|discriminate B]. exists f, g, o. auto.
  Qed.
  Lemma modify_runs k i f (mu : mutator S) st m : meant fs k i f -> length m = t_slots t -> takes mu (tf_type f) (tf_repeated f) = true ->
    exists l m', field t i = Some (dynf_of f, l) /\
      modify_by S t fs k mu st m = Some (m', snd (fst (run mu st f l (slot_at m l))), st) /\
      slot_at m' l = fst (fst (run mu st f l (slot_at m l))) /\
      forall j, j <> i -> ~ in_same_oneof fs i j -> look t j m' = look t j m.
  Proof.
    intros K L T. destruct (modify_found k i f K) as (l & Hi & Eq). exists l. rewrite Eq. unfold modify_field. rewrite T. destruct (run mu st f l (slot_at m l)) as [[s e] st'] eqn:R. exists (put m (l_slot l) s).
    split; [exact Hi|]. split; [reflexivity|]. split.
    - unfold slot_at. rewrite put_same; [reflexivity|]. rewrite L. eapply slot_bound; eauto.
    - intros j N A. apply (put_look_other _ _ _ i j _ l m s M Hi N). intros C. exact (A (alt_same i j C)).
  Qed.
  Lemma modify_sets E fuel k v m r : set_by E fuel t fs k v m = Some r -> modify_by unit t fs k (setter E fuel v) tt m = Some (r, tt).
  Proof.
    unfold set_by, modify_by. destruct (found_at k fs) as [i|]; [|intros [= <-]; reflexivity]. destruct (nth_error fs i) as [f|]; [|discriminate]. destruct (field t i) as [[g l]|]; [|discriminate].
    unfold modify_field. cbn [takes run setter]. destruct (set_value E fuel f l v (slot_at m l)) as [[s e]|]; [|discriminate]. intros [= <-]. reflexivity.
  Qed.
  Lemma calls_are E fuel : forall (cs : list (call S)) m m' e, calls_on E fuel S t fs cs m = Some (m', e) ->
    (e = None /\ succeed E fuel t fs cs m m') \/
    (exists done c rest m1 err, cs = done ++ c :: rest /\ succeed E fuel t fs done m m1 /\ call_on E fuel S t fs c m1 = Some (m', Some err) /\ e = Some err).
  Proof.
    induction cs as [|c cs IH]; intros m m' e; cbn [calls_on].
    - intros [= <- <-]. left. split; [reflexivity|constructor].
    - destruct (call_on E fuel S t fs c m) as [[m1 [err|]]|] eqn:Q; [| |discriminate].
      + intros [= <- <-]. right. exists [], c, cs, m, err. split; [reflexivity|]. split; [constructor|]. auto.
      + intros C. destruct (IH _ _ _ C) as [[A B]|(d & c' & rest & m2 & err & A & B & D & F)].
        * left. split; [exact A|]. econstructor; eauto.
        * right. exists (c :: d), c', rest, m2, err. split; [cbn; rewrite A; reflexivity|]. split; [econstructor; eauto|]. auto.
  Qed.
End Proofs.
