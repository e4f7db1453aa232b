(** Proofs about the access to fields of dynamic messages by name and number: whole messages. *)
Require Import Verif.Bits Verif.DynSlots Verif.DynSlotsProofs Verif.Dyn Verif.DynMain Verif.DynClone Verif.DynJson Verif.DynJson1 Verif.DynAccess Verif.DynAccessSpec Verif.DynAccess1.
Local Open Scope Z_scope.

Lemma made_has count fs t i f : made count fs t -> nth_error fs i = Some f -> exists l, field t i = Some (f, l).
Proof.
  intros (V & _ & M) H. unfold dtype_of in M. fold (dfields fs) in M. destruct (slot_layout count (dfields fs)) as [[ls n]|] eqn:Hl; [|discriminate]. injection M as <-.
  destruct (slots_used _ _ _ _ V Hl) as [Hlen _]. unfold dfields in Hlen. rewrite map_length in Hlen. unfold field. cbn [t_fields].
  clear - H Hlen. revert fs ls H Hlen. induction i as [|i IH]; intros [|g fs] [|k ls] H Hlen; try discriminate; cbn [combine nth_error] in *.
  - injection H as <-. eauto.
  - apply IH; auto.
Qed.
Lemma put_self : forall m i, put m i (nth i m zero_slot) = m.
Proof. induction m as [|x m IH]; intros [|i]; cbn [put nth]; [reflexivity|reflexivity|reflexivity|]. rewrite IH. reflexivity. Qed.
Lemma shows_input i : shows (input_value i) = input_present i.
Proof. destruct i as [| |[|]|[|]]; reflexivity. Qed.
Lemma means_fun p v x : means p v x -> forall y, means p v y -> y = x.
Proof.
  assert (N : forall vs b z w, number_of vs b z -> number_of vs b w -> w = z).
  { intros vs b z w A B. apply value_of_some in A, B. congruence. }
  assert (L : forall vs l zs, Forall2 (number_of vs) l zs -> forall ws, Forall2 (number_of vs) l ws -> ws = zs).
  { intros vs l zs A. induction A as [|b z l zs A0 A IH]; intros ws B; inversion B; subst; [reflexivity|]. f_equal; eauto. }
  intros H y K. inversion H; subst; inversion K; subst; try reflexivity; try congruence.
  - f_equal. match goal with A : PEnum _ = PEnum _ |- _ => injection A as -> end. eapply N; eauto.
  - f_equal. match goal with A : PEnum _ = PEnum _ |- _ => injection A as -> end. eapply L; eauto.
Qed.

Section Whole.
  Context (E : nat -> dtype) (fuel : nat) (count : nat) (t : dtype) (fs : list tfield).
  Context (M : made count (map dynf_of fs) t).

  Lemma field_is i f : nth_error fs i = Some f -> exists l, field t i = Some (dynf_of f, l).
  Proof. intros H. eapply made_has; [exact M|]. apply map_nth_error. exact H. Qed.

  Lemma set_by_found k i f v m : meant fs k i f -> exists l, field t i = Some (dynf_of f, l) /\
    set_by E fuel t fs k v m = match set_value E fuel f l v (slot_at m l) with Some (s, e) => Some (put m (l_slot l) s, e) | None => None end.
  Proof.
    intros H. unfold set_by. rewrite (proj2 (found_some k fs i)) by eauto. destruct (field_is i f (proj1 H)) as [l L]. exists l. split; [exact L|]. rewrite (proj1 H), L. reflexivity.
  Qed.
  Lemma get_by_found k i f r m : meant fs k i f -> exists l, field t i = Some (dynf_of f, l) /\ get_by t fs k r m = get_value f l r (slot_at m l).
  Proof.
    intros H. unfold get_by. rewrite (proj2 (found_some k fs i)) by eauto. destruct (field_is i f (proj1 H)) as [l L]. exists l. split; [exact L|]. rewrite (proj1 H), L. reflexivity.
  Qed.

  Lemma no_field k : (forall f, In f fs -> ~ is_key k f) -> forall v r m, set_by E fuel t fs k v m = Some (m, Some NoSuchField) /\ get_by t fs k r m = inr NoSuchField.
  Proof. intros H v r m. apply found_none in H. unfold set_by, get_by. rewrite H. auto. Qed.
  Lemma key_or k : (exists i f, meant fs k i f) \/ (forall f, In f fs -> ~ is_key k f).
  Proof. destruct (found_at k fs) as [i|] eqn:F; [left; exists i; apply found_some; exact F|right; apply found_none; exact F]. Qed.

  Lemma set_verdict k i f v m m' e : meant fs k i f -> set_by E fuel t fs k v m = Some (m', e) -> verdict (tf_type f) (tf_repeated f) v e.
  Proof.
    intros H. destruct (set_by_found k i f v m H) as (l & L & ->). destruct (set_value E fuel f l v (slot_at m l)) as [[s e']|] eqn:S; [|discriminate]. intros [= <- <-]. eapply set_value_verdict; eauto.
  Qed.
  Lemma set_total k v m : ~ is_messages v -> exists r, set_by E fuel t fs k v m = Some r.
  Proof.
    intros N. destruct (key_or k) as [(i & f & H)|H]; [|rewrite (proj1 (no_field k H v RStr m)); eauto].
    destruct (set_by_found k i f v m H) as (l & L & ->). destruct (set_value_total E fuel f l v (slot_at m l) N) as [[s e] ->]. eauto.
  Qed.
  Lemma set_means k i f v m m' : length m = t_slots t -> meant fs k i f -> ~ is_messages v -> set_by E fuel t fs k v m = Some (m', None) ->
    exists x, means (tf_type f) v x /\ look t i m' = Some (shows x, x).
  Proof.
    intros Hm H N. destruct (set_by_found k i f v m H) as (l & L & ->). destruct (set_value E fuel f l v (slot_at m l)) as [[s e]|] eqn:S; [|discriminate]. intros [= <- ->].
    destruct (set_value_stores E fuel f l v _ _ N S) as (j & A & B). exists (input_value j). split; [exact B|]. rewrite shows_input.
    destruct (set_slot_value _ _ _ _ _ A) as [P Q]. unfold look. rewrite L. unfold slot_at. rewrite put_same by (rewrite Hm; eapply slot_bound; eauto). rewrite P, Q. reflexivity.
  Qed.
  Lemma set_unchanged k v m m' e : set_by E fuel t fs k v m = Some (m', Some e) -> ~ by_element v \/ e = NoSuchField \/ e = InvalidType -> m' = m.
  Proof.
    intros S C. destruct (key_or k) as [(i & f & H)|H]; [|rewrite (proj1 (no_field k H v RStr m)) in S; congruence].
    destruct (set_by_found k i f v m H) as (l & L & K). rewrite K in S. destruct (set_value E fuel f l v (slot_at m l)) as [[s e']|] eqn:V; [|discriminate]. injection S as <- ->.
    assert (Q : s = slot_at m l); [|rewrite Q; apply put_self].
    destruct C as [C|[->| ->]]; [eapply set_value_fails; eauto| |eapply set_value_unsuited; eauto]. apply set_value_verdict in V. destruct V.
  Qed.
  Lemma set_others k i f v m m' e j : meant fs k i f -> set_by E fuel t fs k v m = Some (m', e) -> j <> i -> ~ alternatives (dfields (map dynf_of fs)) i j -> look t j m' = look t j m.
  Proof.
    intros H. destruct (set_by_found k i f v m H) as (l & L & ->). destruct (set_value E fuel f l v (slot_at m l)) as [[s e']|] eqn:V; [|discriminate]. intros [= <- <-] Hn Ha. eapply put_look_other; eauto.
  Qed.

  (** The word of a slot after a call that succeeded *)
  Lemma set_value_word f l v s s' : tf_repeated f = false -> set_value E fuel f l v s = Some (s', None) -> fst s' = l_ordinal l.
  Proof.
    intros R S. destruct v as [n z|b|b|z|b|ty w|n x|x|x|x|x|x|x];
      try (apply set_value_stores in S; [|exact (fun K => K)]; destruct S as (j & A & _); eapply set_slot_word; [exact A|]; unfold repeated, dynf_of; cbn; destruct (tf_type f); cbn; rewrite ?R; reflexivity).
    - unfold set_value in S. rewrite R in S. destruct (tf_type f); try discriminate. destruct (ty =? ty0)%nat; [|discriminate]. unfold set_message in S.
      destruct (clone_message _ _ _ _ _); [|discriminate]. injection S as <-. reflexivity.
    - unfold set_value in S. rewrite R in S. destruct (tf_type f); discriminate.
  Qed.
  Lemma rep_dynf f : repeated (dynf_of f) = tf_repeated f.
  Proof. unfold repeated, dynf_of. cbn. destruct (tf_type f), (tf_repeated f); reflexivity. Qed.
  Lemma set_drops k i f v m m' j g : length m = t_slots t -> meant fs k i f -> set_by E fuel t fs k v m = Some (m', None) -> nth_error fs j = Some g -> j <> i -> alternatives (dfields (map dynf_of fs)) i j ->
    look t j m' = Some (false, default_value (dynf_of g)).
  Proof.
    intros Hm H. destruct (set_by_found k i f v m H) as (l & L & ->). destruct (set_value E fuel f l v (slot_at m l)) as [[s e']|] eqn:V; [|discriminate]. intros [= <- ->] Hg Hn Ha.
    destruct (field_is j g Hg) as [l' L']. eapply put_look_alt; eauto. left. eapply set_value_word; [|exact V]. rewrite <- rep_dynf. eapply alt_singular; eauto.
  Qed.
  Lemma set_len k v m m' e : set_by E fuel t fs k v m = Some (m', e) -> length m' = length m.
  Proof.
    intros S. destruct (key_or k) as [(i & f & H)|H]; [|rewrite (proj1 (no_field k H v RStr m)) in S; injection S as <- _; reflexivity].
    destruct (set_by_found k i f v m H) as (l & L & K). rewrite K in S. destruct (set_value E fuel f l v (slot_at m l)) as [[s e']|] eqn:V; [|discriminate]. injection S as <- _. apply put_length.
  Qed.

  (** ** Chains *)
  Lemma chain_is : forall calls m m' e, chain E fuel t fs calls m = Some (m', e) ->
    (e = None /\ all_succeed E fuel t fs calls m m') \/
    (exists done k v rest m1 err, calls = done ++ (k, v) :: rest /\ all_succeed E fuel t fs done m m1 /\ set_by E fuel t fs k v m1 = Some (m', Some err) /\ e = Some err).
  Proof.
    induction calls as [|[k v] calls IH]; intros m m' e; cbn [chain].
    - intros [= <- <-]. left. split; [reflexivity|constructor].
    - destruct (set_by E fuel t fs k v m) as [[m1 [err|]]|] eqn:S; [| |discriminate].
      + intros [= <- <-]. right. exists [], k, v, calls, m, err. split; [reflexivity|]. split; [constructor|]. auto.
      + intros C. destruct (IH _ _ _ C) as [[A B]|(d & k' & v' & rest & m2 & err & A & B & D & F)].
        * left. split; [exact A|]. econstructor; eauto.
        * right. exists ((k, v) :: d), k', v', rest, m2, err. split; [cbn; rewrite A; reflexivity|]. split; [econstructor; eauto|]. auto.
  Qed.
  Lemma chain_total : forall calls m, (forall k v, In (k, v) calls -> ~ is_messages v) -> exists r, chain E fuel t fs calls m = Some r.
  Proof.
    induction calls as [|[k v] calls IH]; intros m H; cbn [chain]; [eauto|]. destruct (set_total k v m) as [[m1 e] S]; [apply (H k v); left; reflexivity|]. rewrite S. destruct e; [eauto|].
    apply IH. intros k' v' K. apply (H k' v'). right. exact K.
  Qed.
End Whole.

(** ** Getting *)
Lemma value_kind E f l s : typed_slot (typed E) (dynf_of f) l s -> tf_repeated f = false -> (exists vs, tf_type f = PEnum vs) -> exists z, value (dynf_of f) l s = FInt z.
Proof.
  intros T R [vs P]. pose proof (typed_value _ _ _ _ T) as U. unfold value in *. unfold dynf_of in U |- *. cbn [y_kind y_explicit y_dint] in *. rewrite R, P in *. cbn [kind_of] in *.
  destruct (_ && _); [eauto|]. destruct (snd s); try (exfalso; apply U; reflexivity); eauto.
Qed.
Lemma value_kinds E f l s : typed_slot (typed E) (dynf_of f) l s -> tf_repeated f = true -> (exists vs, tf_type f = PEnum vs) -> exists z, value (dynf_of f) l s = FInts z.
Proof.
  intros T R [vs P]. destruct (value_ints E _ l s T) as (x & K & _); [|eauto]. unfold dynf_of. cbn. rewrite R, P. reflexivity.
Qed.
Lemma names_map vs zs : Forall2 (name_is vs) zs (map (name_of vs) zs).
Proof. induction zs; constructor; auto. apply name_of_is. Qed.
Lemma get_value_answers E f l r s : typed_slot (typed E) (dynf_of f) l s ->
  answers (tf_type f) (tf_repeated f) (has_value (dynf_of f) l s) (value (dynf_of f) l s) r (get_value f l r s).
Proof.
  intros T. unfold get_value. destruct (tf_repeated f) eqn:R.
  - destruct r as [n| | | | | | |n| | | |]; destruct (tf_type f) as [| | | | | | | | |tm| | |vs| | | |] eqn:P;
      try (apply NoType; cbn; unfold is_enum, is_message; intros [A B]; first [discriminate A | discriminate B | (destruct B as [q B]; discriminate B)]).
    all: try (destruct (is_num _ n) eqn:Q; [apply AsIs; [cbn [asks]; split; [reflexivity|apply num_iff; exact Q]|discriminate|discriminate|discriminate]|apply NoType; cbn [asks]; intros [_ K]; exact (num_not _ _ Q K)]).
    all: try (apply NoType; cbn; intros [_ K]; repeat (destruct K as [K|K]; [discriminate K|]); exact K).
    all: try (apply AsIs; [cbn; unfold is_enum; eauto|discriminate|discriminate|discriminate]).
    destruct (value_kinds E f l s T R) as [zs V]; [eauto|]. rewrite V. eapply Names; [reflexivity|reflexivity|reflexivity|]. apply names_map.
  - destruct r as [n| | | | | | |n| | | |]; destruct (tf_type f) as [| | | | | | | | |tm| | |vs| | | |] eqn:P;
      try (apply NoType; cbn; unfold is_enum, is_message; intros [A B]; first [discriminate A | discriminate B | (destruct B as [q B]; discriminate B)]).
    all: try (destruct (is_num _ n) eqn:Q; [apply AsIs; [cbn [asks]; split; [reflexivity|apply num_iff; exact Q]|discriminate|discriminate|discriminate]|apply NoType; cbn [asks]; intros [_ K]; exact (num_not _ _ Q K)]).
    all: try (apply NoType; cbn; intros [_ K]; repeat (destruct K as [K|K]; [discriminate K|]); exact K).
    all: try (apply AsIs; [cbn; unfold is_enum; eauto|discriminate|discriminate|discriminate]).
    + destruct (value_kind E f l s T R) as [z V]; [eauto|]. rewrite V. pose proof (name_of_is vs z) as N. destruct (name_of vs z) as [|c b] eqn:Q.
      * eapply NoName; [reflexivity|reflexivity|reflexivity|exact N].
      * eapply Name; [reflexivity|reflexivity|reflexivity|exact N|discriminate].
    + destruct (has_value (dynf_of f) l s) eqn:H.
      * destruct (value_msg_has E _ l s tm T) as (w & V & _); [unfold dynf_of; cbn; rewrite R, P; reflexivity|exact H|]. eapply Message; [split; [reflexivity|exists tm; reflexivity]|reflexivity|exact V].
      * apply NoMessage; [split; [reflexivity|exists tm; reflexivity]|reflexivity].
Qed.
Lemma get_answers E count ty fs k i f r m : made count (map dynf_of fs) (E ty) -> typed E ty m -> meant fs k i f ->
  exists present x, look (E ty) i m = Some (present, x) /\ answers (tf_type f) (tf_repeated f) present x r (get_by (E ty) fs k r m).
Proof.
  intros M T H. destruct (get_by_found count _ fs M k i f r m H) as (l & L & ->). unfold look. rewrite L. eexists. eexists. split; [reflexivity|]. eapply get_value_answers. eapply typed_field; eauto.
Qed.
(** The answer is determined. *)
Lemma name_is_fun vs z b c : name_is vs z b -> name_is vs z c -> c = b.
Proof.
  assert (F : forall (h : list (bytes * Z)) b r h' c r', h ++ (b, z) :: r = h' ++ (c, z) :: r' -> ~ In z (map snd h) -> ~ In z (map snd h') -> c = b).
  { induction h as [|[x y] h IH]; intros b0 r [|[x' y'] h'] c0 r' Q A B; cbn in Q; injection Q; intros; subst.
    - reflexivity.
    - exfalso. apply B. cbn. auto.
    - exfalso. apply A. cbn. auto.
    - eapply IH; eauto; intros K; [apply A|apply B]; cbn; auto. }
  intros [(h & r & -> & A)|[-> A]] [(h' & r' & Q & B)|[-> B]].
  - eapply F; eauto.
  - exfalso. apply B. rewrite map_app, in_app_iff. cbn. auto.
  - exfalso. apply A. rewrite Q, map_app, in_app_iff. cbn. auto.
  - reflexivity.
Qed.
Lemma name_back vs b z : NoDup (map snd vs) -> number_of vs b z -> name_is vs z b.
Proof.
  intros N (h & r & -> & _). left. exists h, r. split; [reflexivity|]. rewrite map_app in N. cbn in N. apply NoDup_remove_2 in N. intros K. apply N. apply in_app_iff. auto.
Qed.

Lemma names_back vs l zs : NoDup (map snd vs) -> Forall2 (number_of vs) l zs -> map (name_of vs) zs = l.
Proof.
  intros N H. induction H as [|b z l zs A H IH]; cbn [map]; [reflexivity|]. rewrite IH. f_equal. eapply name_is_fun; [apply (name_back _ _ _ N A)|apply name_of_is].
Qed.
Lemma get_back E fuel count t fs k k' i f v m m' r y : made count (map dynf_of fs) t -> length m = t_slots t -> meant fs k i f -> meant fs k' i f ->
  set_by E fuel t fs k v m = Some (m', None) -> back v r y -> asks (tf_type f) (tf_repeated f) r -> no_aliases (tf_type f) -> get_by t fs k' r m' = inl y.
Proof.
  intros M Hm K K' S B A N. assert (NM : ~ is_messages v) by (destruct B; exact (fun Q => Q)).
  destruct (set_means E fuel count t fs M k i f v m m' Hm K NM S) as (x & X & L). destruct (get_by_found count t fs M k' i f r m' K') as (l & F & ->). unfold look in L. rewrite F in L. injection L as _ L.
  unfold get_value. rewrite L. destruct B; cbn [asks] in A; destruct A as [R A]; rewrite R; inversion X; subst; try congruence;
    try (apply num_iff in A); try (match type of A with is_enum _ => destruct A as [vs0 A]; rewrite A in * end).
  all: try (destruct (tf_type f); cbn in A; try discriminate A; cbn [is_num num_of]; rewrite ?A; try reflexivity; cbn; unfold is_num in A; cbn in A; rewrite A; reflexivity).
  all: try (rewrite A; reflexivity). all: try reflexivity.
  - match goal with Q : PEnum _ = PEnum _ |- _ => injection Q as -> end. destruct (N _ eq_refl) as [N1 N2]. match goal with Q : number_of _ _ _ |- _ => rename Q into Z0 end.
    rewrite (name_is_fun _ _ _ _ (name_back _ _ _ N1 Z0) (name_of_is _ _)). destruct b as [|c b]; [|reflexivity]. exfalso. apply N2. eapply number_known; eauto.
  - match goal with Q : PEnum _ = PEnum _ |- _ => injection Q as -> end. destruct (N _ eq_refl) as [N1 N2]. match goal with Q : Forall2 _ _ _ |- _ => rewrite (names_back _ _ _ N1 Q); reflexivity end.
Qed.
