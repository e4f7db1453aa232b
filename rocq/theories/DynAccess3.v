(** Proofs about the access to fields of dynamic messages by name and number: messages as values, and well-typedness. *)
Require Import Verif.Bits Verif.DynSlots Verif.DynSlotsProofs Verif.Dyn Verif.DynMain Verif.DynClone Verif.DynJson Verif.DynJson1 Verif.DynAccess Verif.DynAccessSpec Verif.DynAccess1 Verif.DynAccess2.
Local Open Scope Z_scope.

(** Messages among the arguments are well typed. *)
Definition arg_typed (E : nat -> dtype) (v : arg) : Prop :=
  match v with AMsg ty m => typed E ty m | AMsgs l => Forall (fun x => typed E (fst x) (snd x)) l | _ => True end.

Lemma kind_msg f ty : tf_type f = PMsg ty -> y_kind (dynf_of f) = if tf_repeated f then KMsgs ty else KMsg ty.
Proof. intros P. unfold dynf_of. cbn. rewrite P. reflexivity. Qed.
Lemma kind_enum f vs : tf_type f = PEnum vs -> y_kind (dynf_of f) = if tf_repeated f then KInts else KEnum.
Proof. intros P. unfold dynf_of. cbn. rewrite P. reflexivity. Qed.

Lemma ints_typed E f l zs : y_kind f = KInts -> typed_slot (typed E) f l (Z.of_nat (length zs), CInts zs).
Proof.
  intros K. destruct zs as [|z zs]; [apply TyEmpty; [unfold repeated; rewrite K; reflexivity|reflexivity]|]. apply (TyInts _ _ _ _ (z :: zs)); [exact K|reflexivity|]. cbn [fst]. split; [cbn [length]; lia|apply Z.le_refl].
Qed.
Lemma msgs_typed E f l ty r : y_kind f = KMsgs ty -> Forall (typed E ty) r -> typed_slot (typed E) f l (Z.of_nat (length r), CMsgs r).
Proof.
  intros K H. destruct r as [|x r]; [apply TyEmpty; [unfold repeated; rewrite K; reflexivity|reflexivity]|]. apply (TyMsgs _ _ _ _ ty (x :: r)); [exact K|reflexivity| |exact H]. cbn [fst]. split; [cbn [length]; lia|apply Z.le_refl].
Qed.
Lemma ints_value f l zs : y_kind f = KInts -> has_value f l (Z.of_nat (length zs), CInts zs) = shows (FInts zs) /\ value f l (Z.of_nat (length zs), CInts zs) = FInts zs.
Proof.
  intros K. apply (set_slot_value f l (IInts zs) zero_slot). unfold set_slot. rewrite K. reflexivity.
Qed.
Lemma msgs_value f l ty r : y_kind f = KMsgs ty -> has_value f l (Z.of_nat (length r), CMsgs r) = shows (FMsgs r) /\ value f l (Z.of_nat (length r), CMsgs r) = FMsgs r.
Proof.
  intros K. unfold has_value, has_word, repeated, value. rewrite K. cbn [repeated_kind fst snd]. destruct r as [|x r]; [split; reflexivity|]. cbn [length shows].
  rewrite (proj2 (Z.ltb_lt _ _)) by lia. rewrite (proj2 (Z.eqb_neq _ _)) by lia. rewrite Nat2Z.id. cbn [firstn]. rewrite firstn_all. auto.
Qed.

Section Messages.
  Context (E : nat -> dtype) (fuel : nat) (HE : env_single E).

  Lemma resized_typed ty n l : Forall (typed E ty) l -> Forall (typed E ty) (resized n (new_message (E ty)) l).
  Proof.
    intros H. unfold resized. apply Forall_app. split; [apply Forall_firstn; exact H|]. apply Forall_forall. intros x Hx. apply repeat_spec in Hx. subst x. apply new_typed. apply single_made. exact HE.
  Qed.
  Lemma old_typed f l s ty : y_kind (dynf_of f) = KMsgs ty -> typed_slot (typed E) (dynf_of f) l s -> Forall (typed E ty) (match value (dynf_of f) l s with FMsgs y => y | _ => [] end).
  Proof. intros K T. destruct (value_msgs_all E _ _ _ ty T K) as (x & -> & _ & H). exact H. Qed.
  Lemma elements_show ty : forall src cur r, length cur = length src -> Forall (typed E ty) cur -> Forall (fun x => typed E (fst x) (snd x)) src -> set_elements E fuel ty cur src = Some (r, None) ->
    Forall2 (fun x y => (forall n, tidy (view E n ty (snd x)) = true) -> forall n, view E n ty y = copied (view E n ty (snd x))) src r.
  Proof.
    induction src as [|[ty' m] src IH]; intros [|x cur] r L Hc Hs; cbn [length] in L; try discriminate; cbn [set_elements].
    - intros [= <-]. constructor.
    - inversion Hc; subst. inversion Hs; subst. destruct (Nat.eqb_spec ty' ty) as [->|N]; [|discriminate].
      destruct (clone_message E fuel ty x m) as [q|] eqn:C; [|discriminate]. destruct (set_elements E fuel ty cur src) as [[rs e']|] eqn:S; [|discriminate]. intros [= <- ->].
      constructor; [|eapply IH; eauto]. cbn [snd fst] in *. intros Ht. refine (proj2 (clone_good E fuel HE ty x m q _ _ C) Ht); assumption.
  Qed.
  Lemma elements_len ty src cur r e : length cur = length src -> set_elements E fuel ty cur src = Some (r, e) -> length r = length src.
  Proof. intros L S. exact (proj1 (set_elements_verdict E fuel ty src cur r e L S)). Qed.

  Lemma set_value_typed f l v s s' e : typed_slot (typed E) (dynf_of f) l s -> arg_typed E v -> set_value E fuel f l v s = Some (s', e) -> typed_slot (typed E) (dynf_of f) l s'.
  Proof.
    intros T A S. destruct v as [n z|b|b|z|b|ty m|n x|x|x|x|x|x|x];
      try (destruct e as [e|]; [apply set_value_fails in S; [subst s'; exact T|exact (fun K => K)]|apply set_value_stores in S; [|exact (fun K => K)]; destruct S as (j & J & _); eapply set_slot_typed; exact J]).
    - destruct e as [e|]; [apply set_value_fails in S; [subst s'; exact T|exact (fun K => K)]|]. pose proof (set_value_verdict _ _ _ _ _ _ _ _ S) as ((R & tm & P) & _ & V). cbn [types_in] in V.
      assert (ty = tm) by (apply (V tm P); left; reflexivity). subst ty. unfold set_value in S. rewrite R, P, Nat.eqb_refl in S. destruct (set_message E fuel tm l m s) as [w|] eqn:W; [|discriminate]. injection S as <-.
      pose proof (kind_msg f tm P) as K. rewrite R in K. unfold set_message in W. match type of W with match clone_message _ _ _ ?d _ with _ => _ end = _ => set (dd := d) in W end.
      assert (Td : typed E tm dd).
      { subst dd. destruct (fst s =? l_ordinal l) eqn:Hw; [|apply new_typed, single_made; exact HE]. assert (Hh : has_value (dynf_of f) l s = true) by (unfold has_value, has_word, repeated; rewrite K; exact Hw).
        destruct (value_msg_has E _ l s tm T K Hh) as (q & Q & Tq). unfold value in Q. rewrite K, Hh in Q. destruct (snd s); try discriminate. injection Q as ->. exact Tq. }
      destruct (clone_message E fuel tm dd m) as [r|] eqn:C; [|discriminate]. injection W as <-.
      eapply TyMsg; [exact K| |reflexivity|].
      + unfold has_value, has_word, repeated. rewrite K. cbn. apply Z.eqb_refl.
      + exact (proj1 (clone_good E fuel HE _ _ _ _ Td A C)).
    - pose proof (set_value_verdict _ _ _ _ _ _ _ _ S) as V. destruct e as [[]|]; cbn [verdict] in V; try contradiction.
      + apply set_value_unsuited in S. subst s'. exact T.
      + destruct V as ((R & _) & vs & b & P & _). unfold set_value in S. rewrite R, P in S. destruct (numbers_of vs x) as [zs ok]. pose proof (kind_enum f vs P) as K. rewrite R in K.
        destruct ok; unfold stored, set_slot in S; rewrite ?K in S; injection S as <-; apply ints_typed; exact K.
      + destruct V as ((R & vs & P) & ty & w & P' & _). rewrite P in P'. discriminate.
      + apply set_value_stores in S; [|exact (fun K => K)]; destruct S as (j & J & _); eapply set_slot_typed; exact J.
    - unfold set_value in S. destruct (tf_repeated f) eqn:R; destruct (tf_type f) as [| | | | | | | | |tm| | |vs| | | |] eqn:P; try (injection S as <- _; exact T).
      pose proof (kind_msg f tm P) as K. rewrite R in K. destruct (set_elements _ _ _ _ _) as [[r e']|] eqn:Q; [|discriminate]. injection S as <- _.
      eapply msgs_typed; [exact K|]. eapply ends_typed; [exact HE| | |exact Q].
      + apply resized_typed. apply old_typed; assumption.
      + cbn in A. eapply Forall_impl; [|exact A]. cbn. intros y Ty <-. exact Ty.
  Qed.

  Lemma set_by_typed count ty fs k v m m' e : made count (map dynf_of fs) (E ty) -> typed E ty m -> arg_typed E v -> set_by E fuel (E ty) fs k v m = Some (m', e) -> typed E ty m'.
  Proof.
    intros M T A S. destruct (key_or fs k) as [(i & f & H)|H]; [|rewrite (proj1 (no_field E fuel _ fs k H v RStr m)) in S; injection S as <- _; exact T].
    destruct (set_by_found E fuel count _ fs M k i f v m H) as (l & L & K). rewrite K in S. destruct (set_value E fuel f l v (slot_at m l)) as [[s e']|] eqn:V; [|discriminate]. injection S as <- <-.
    destruct e' as [e'|].
    - destruct (tf_repeated f) eqn:R.
      + eapply put_typed; [apply single_made; exact HE|exact T|exact L|eapply set_value_typed; eauto; eapply typed_field; eauto|]. rewrite rep_dynf, R. discriminate.
      + assert (s = slot_at m l).
        { destruct v as [n z|b|b|z|b|ty' q|n x|x|x|x|x|x|x]; try (apply set_value_fails in V; [exact V|exact (fun Q => Q)]); unfold set_value in V; rewrite R in V; destruct (tf_type f); injection V as <- _; reflexivity. }
        subst s. unfold slot_at. rewrite put_self. exact T.
    - eapply put_typed; [apply single_made; exact HE|exact T|exact L|eapply set_value_typed; eauto; eapply typed_field; eauto|]. rewrite rep_dynf. intros R. left. eapply set_value_word; eauto.
  Qed.

  Lemma set_one_message count ty fs k i f ty' w m m' : made count (map dynf_of fs) (E ty) -> typed E ty m -> meant fs k i f -> typed E ty' w -> (forall n, tidy (view E n ty' w) = true) ->
    set_by E fuel (E ty) fs k (AMsg ty' w) m = Some (m', None) -> exists r, look (E ty) i m' = Some (true, FMsg r) /\ forall n, view E n ty' r = copied (view E n ty' w).
  Proof.
    intros M T H Tw Ht S. destruct (set_by_found E fuel count _ fs M k i f (AMsg ty' w) m H) as (l & L & K). rewrite K in S. destruct (set_value E fuel f l _ (slot_at m l)) as [[s e']|] eqn:V; [|discriminate]. injection S as <- ->.
    pose proof (set_value_verdict _ _ _ _ _ _ _ _ V) as ((R & tm & P) & _ & Q). cbn [types_in] in Q. assert (ty' = tm) by (apply (Q tm P); left; reflexivity). subst ty'.
    unfold set_value in V. rewrite R, P, Nat.eqb_refl in V. destruct (set_message E fuel tm l w (slot_at m l)) as [q|] eqn:W; [|discriminate]. injection V as <-. pose proof (kind_msg f tm P) as Ki. rewrite R in Ki.
    destruct (set_message_shows E fuel tm l w _ _ (dynf_of f) HE Ki (typed_field _ _ _ _ _ _ T L) Tw Ht W) as (r & A & B & C). exists r. split; [|exact C].
    unfold look. rewrite L. unfold slot_at. rewrite put_same by (rewrite (typed_len _ _ _ T); eapply slot_bound; eauto). rewrite A, B. reflexivity.
  Qed.
  Lemma set_messages count ty fs k i f ty' ws m m' : made count (map dynf_of fs) (E ty) -> typed E ty m -> meant fs k i f -> tf_type f = PMsg ty' -> arg_typed E (AMsgs ws) ->
    set_by E fuel (E ty) fs k (AMsgs ws) m = Some (m', None) -> exists rs, look (E ty) i m' = Some (shows (FMsgs rs), FMsgs rs) /\
    Forall2 (fun x y => (forall n, tidy (view E n ty' (snd x)) = true) -> forall n, view E n ty' y = copied (view E n ty' (snd x))) ws rs.
  Proof.
    intros M T H P Tw S. destruct (set_by_found E fuel count _ fs M k i f (AMsgs ws) m H) as (l & L & K). rewrite K in S. destruct (set_value E fuel f l _ (slot_at m l)) as [[s e']|] eqn:V; [|discriminate]. injection S as <- ->.
    pose proof (set_value_verdict _ _ _ _ _ _ _ _ V) as ((R & _) & _). unfold set_value in V. rewrite R, P in V. destruct (set_elements _ _ _ _ _) as [[r e']|] eqn:Q; [|discriminate]. injection V as <- ->.
    pose proof (kind_msg f ty' P) as Ki. rewrite R in Ki. exists r. split.
    - unfold look. rewrite L. unfold slot_at. rewrite put_same by (rewrite (typed_len _ _ _ T); eapply slot_bound; eauto). destruct (msgs_value (dynf_of f) l ty' r Ki) as [A B]. exact (f_equal Some (f_equal2 pair A B)).
    - refine (elements_show ty' ws _ r (resized_len E _ _ _) _ Tw Q). apply resized_typed. apply old_typed; [exact Ki|]. eapply typed_field; eauto.
  Qed.
End Messages.

(** ** Every call ends *)
Lemma elements_end E ty src : forall fuel, (forall x, In x src -> (mdepth (snd x) < fuel)%nat) -> forall cur, exists r, set_elements E fuel ty cur src = Some r.
Proof.
  induction src as [|[ty' m] src IH]; intros fuel H [|x cur]; cbn [set_elements]; eauto. destruct (ty' =? ty)%nat; [|eauto].
  destruct (clone_ends E fuel ty x m) as [r ->]; [apply (H (ty', m)); left; reflexivity|]. destruct (IH fuel) with (cur := cur) as [[rs e] ->]; [intros y Hy; apply H; right; exact Hy|]. eauto.
Qed.
Lemma bounded_depth (src : list (nat * list slot)) : exists n, forall x, In x src -> (mdepth (snd x) < n)%nat.
Proof.
  induction src as [|y src [n IH]]; [exists O; intros x []|]. exists (S (n + mdepth (snd y))). intros x [->|Hx]; [lia|]. specialize (IH x Hx). lia.
Qed.
Lemma set_by_ends E count t fs k v m : made count (map dynf_of fs) t -> exists fuel r, set_by E fuel t fs k v m = Some r.
Proof.
  intros M. destruct (key_or fs k) as [(i & f & H)|H]; [|exists O; rewrite (proj1 (no_field E O t fs k H v RStr m)); eauto].
  assert (V : exists fuel, forall l s, exists r, set_value E fuel f l v s = Some r).
  { destruct v as [n z|b|b|z|b|ty w|n x|x|x|x|x|x|x]; try (exists O; intros l s; apply set_value_total; exact (fun K => K)).
    - exists (S (mdepth w)). intros l s. unfold set_value. destruct (tf_repeated f), (tf_type f); eauto. destruct (ty =? ty0)%nat; [|eauto]. unfold set_message.
      destruct (clone_ends E (S (mdepth w)) ty0 (if fst s =? l_ordinal l then match snd s with CMsg q => q | _ => [] end else new_message (E ty0)) w) as [r ->]; [lia|eauto].
    - destruct (bounded_depth x) as [n Hn]. exists n. intros l s. unfold set_value. destruct (tf_repeated f), (tf_type f); eauto.
      destruct (elements_end E ty x n Hn (resized (length x) (new_message (E ty)) match value (dynf_of f) l s with FMsgs y => y | _ => [] end)) as [[r e] ->]. eauto. }
  destruct V as [fuel V]. exists fuel. destruct (set_by_found E fuel count t fs M k i f v m H) as (l & L & ->). destruct (V l (slot_at m l)) as [[s e] ->]. eauto.
Qed.

(** ** What a failed call with names leaves *)
Lemma numbers_prefix vs l : forall zs, numbers_of vs l = (zs, false) -> exists h b r, l = h ++ b :: r /\ Forall2 (number_of vs) h zs /\ ~ In b (map fst vs).
Proof.
  induction l as [|b l IH]; intros zs; cbn [numbers_of]; [discriminate|]. destruct (value_of vs b) as [z|] eqn:V.
  - destruct (numbers_of vs l) as [y ok]. intros [= <- ->]. destruct (IH y eq_refl) as (h & c & r & -> & A & B). exists (b :: h), c, r. split; [reflexivity|]. split; [constructor; [apply value_of_some; exact V|exact A]|exact B].
  - intros [= <-]. exists [], b, l. split; [reflexivity|]. split; [constructor|]. apply value_of_none. exact V.
Qed.
Lemma names_left E fuel count t fs k i f vs l m m' : made count (map dynf_of fs) t -> length m = t_slots t -> meant fs k i f -> tf_type f = PEnum vs ->
  set_by E fuel t fs k (AENames l) m = Some (m', Some InvalidEnumName) ->
  exists h b r zs, l = h ++ b :: r /\ ~ In b (map fst vs) /\ Forall2 (number_of vs) h zs /\ look t i m' = Some (shows (FInts zs), FInts zs).
Proof.
  intros M Hm H P S. destruct (set_by_found E fuel count t fs M k i f (AENames l) m H) as (la & L & K). rewrite K in S. destruct (set_value E fuel f la _ (slot_at m la)) as [[s e']|] eqn:V; [|discriminate]. injection S as <- ->.
  pose proof (set_value_verdict _ _ _ _ _ _ _ _ V) as ((R & _) & _). unfold set_value in V. rewrite R, P in V. destruct (numbers_of vs l) as [zs ok] eqn:N. destruct ok; [unfold stored in V; destruct (set_slot _ _ _ _); discriminate|].
  injection V as <-. destruct (numbers_prefix _ _ _ N) as (h & b & r & -> & A & B). exists h, b, r, zs. split; [reflexivity|]. split; [exact B|]. split; [exact A|].
  pose proof (kind_enum f vs P) as Ki. rewrite R in Ki. unfold look. rewrite L. unfold slot_at. rewrite put_same by (rewrite Hm; eapply slot_bound; eauto). destruct (ints_value (dynf_of f) la zs Ki) as [-> ->]. reflexivity.
Qed.

(** ** The specification leaves no choice *)
Lemma verdict_one p rep v e e' : verdict p rep v e -> verdict p rep v e' -> e' = e.
Proof.
  destruct e as [[]|], e' as [[]|]; cbn [verdict]; try reflexivity; try contradiction; try tauto.
  - intros (_ & vs & b & P & _) (_ & ty & ty' & Q & _). congruence.
  - intros (_ & vs & b & P & A & B) (_ & C & _). exfalso. apply B. exact (C vs P b A).
  - intros (_ & ty & ty' & Q & _) (_ & vs & b & P & _). congruence.
  - intros (_ & ty & ty' & Q & A & B) (_ & _ & C). exfalso. apply B. exact (C ty Q ty' A).
  - intros (_ & C & _) (_ & vs & b & P & A & B). exfalso. apply B. exact (C vs P b A).
  - intros (_ & _ & C) (_ & ty & ty' & Q & A & B). exfalso. apply B. exact (C ty Q ty' A).
Qed.
Lemma names_one vs zs bs : Forall2 (name_is vs) zs bs -> forall cs, Forall2 (name_is vs) zs cs -> cs = bs.
Proof.
  intros H. induction H as [|z b zs bs A H IH]; intros cs K; inversion K as [|z' c zs' cs' B K']; subst; [reflexivity|]. f_equal; [eapply name_is_fun; eauto|apply IH; assumption].
Qed.
Lemma answers_one p rep present x r a b : answers p rep present x r a -> answers p rep present x r b -> b = a.
Proof.
  intros A B. inversion A; subst; inversion B; subst; try reflexivity; try congruence; try (exfalso; match goal with H : ~ asks _ _ _ |- _ => apply H; first [assumption | cbn; unfold is_enum; eauto] end; fail).
  all: try (match goal with Q : PEnum _ = PEnum _ |- _ => injection Q as -> end); try (match goal with Q : FInt _ = FInt _ |- _ => injection Q as -> end); try (match goal with Q : FInts _ = FInts _ |- _ => injection Q as -> end).
  - f_equal. f_equal. eapply name_is_fun; eauto.
  - exfalso. match goal with H : ?b <> [] |- _ => apply H end. eapply name_is_fun; eauto.
  - exfalso. match goal with H : ?b <> [] |- _ => apply H end. eapply name_is_fun; eauto.
  - f_equal. f_equal. eapply names_one; eauto.
Qed.
