(** Proofs about the storage of dynamic messages. *)
Require Import Verif.Bits Verif.DynSlots Verif.DynSlotsProofs Verif.Dyn.

(** ** Specification *)
Definition dfields (fs : list dynf) : list dfield := map (fun f => DField (y_oneof f) (repeated f)) fs.
(** Guaranteed by the descriptor pool and presence_for (factory.cpp:306-317): members
    of oneofs have explicit presence, fields with implicit presence have no default value. *)
Definition fields_valid (fs : list dynf) : Prop :=
  Forall (fun f => (forall o, y_oneof f = Some o -> y_explicit f = true) /\ (y_explicit f = false -> y_dint f = 0 /\ y_dbytes f = [])) fs.
(** [t] is a message type the factory makes of the fields [fs]. *)
Definition made (count : nat) (fs : list dynf) (t : dtype) : Prop := oneofs_valid count (dfields fs) /\ fields_valid fs /\ dtype_of count fs = Some t.

Definition default_value (f : dynf) : fval :=
  match y_kind f with KInt | KEnum => FInt (y_dint f) | KBytes => FBytes (y_dbytes f) | KMsg _ => FNone | KInts => FInts [] | KStrs => FStrs [] | KMsgs _ => FMsgs [] end.
Definition input_value (v : input) : fval := match v with IInt z => FInt z | IBytes b => FBytes b | IInts x => FInts x | IStrs x => FStrs x end.
(** A field set to [v] is present, a repeated one if it has elements. *)
Definition input_present (v : input) : bool := match v with IInts [] | IStrs [] => false | _ => true end.
Definition accepts (k : dkind) (v : input) : bool :=
  match k, v with KInt, IInt _ | KEnum, IInt _ | KBytes, IBytes _ | KInts, IInts _ | KStrs, IStrs _ => true | _, _ => false end.

(** The state of a field a user can query. *)
Definition look (t : dtype) (i : nat) (m : list slot) : option (bool * fval) :=
  match field t i with None => None | Some (f, l) => Some (has_value f l (slot_at m l), value f l (slot_at m l)) end.

(** ** Layout facts *)
Lemma made_field count fs t i f l : made count fs t -> field t i = Some (f, l) ->
  exists ls, slot_layout count (dfields fs) = Some (ls, t_slots t) /\ length ls = length fs /\ nth_error fs i = Some f /\ nth_error ls i = Some l.
Proof.
  intros (V & _ & M) H. unfold dtype_of in M. fold (dfields fs) in M. destruct (slot_layout count (dfields fs)) as [[ls n]|] eqn:Hl; [|discriminate]. injection M as <-.
  exists ls. split; [reflexivity|]. destruct (slots_used _ _ _ _ V Hl) as [Hlen _]. unfold dfields in Hlen. rewrite map_length in Hlen. split; [exact Hlen|].
  unfold field in H. cbn [t_fields] in H. revert ls i H Hlen Hl. clear. intros ls i H Hlen _. revert ls i H Hlen. induction fs as [|g fs IH]; intros [|k ls] i H Hlen; try discriminate; try (destruct i; discriminate).
  destruct i as [|i]; cbn [combine nth_error] in *; [injection H as <- <-; auto|]. apply IH; auto.
Qed.

Lemma nth_dfields fs i f : nth_error fs i = Some f -> nth_error (dfields fs) i = Some (DField (y_oneof f) (repeated f)).
Proof. intros H. unfold dfields. rewrite nth_error_map, H. reflexivity. Qed.
Lemma oneof_dfields fs i f : nth_error fs i = Some f -> oneof_at (dfields fs) i = y_oneof f.
Proof. intros H. unfold oneof_at. rewrite (nth_dfields _ _ _ H). reflexivity. Qed.

Lemma ordinal_pos count fs t i f l : made count fs t -> field t i = Some (f, l) -> repeated f = false -> 1 <= l_ordinal l.
Proof.
  intros M H Hr. destruct (made_field _ _ _ _ _ _ M H) as (ls & Hl & _ & Hf & Hll). destruct M as (V & _ & _). destruct (laid_of _ _ _ _ V Hl) as (st & _ & L).
  destruct (y_oneof f) as [o|] eqn:Ho.
  - destruct (la_oneof _ _ _ _ L i o l) as (_ & _ & K); [rewrite (oneof_dfields _ _ _ Hf); exact Ho|exact Hll|lia].
  - destruct (la_plain _ _ _ _ L i _ l (nth_dfields _ _ _ Hf) Ho Hll) as (K & _ & _). cbn [d_repeated] in K. rewrite Hr in K. lia.
Qed.

Lemma slot_bound count fs t i f l : made count fs t -> field t i = Some (f, l) -> (l_slot l < t_slots t)%nat.
Proof. intros M H. destruct (made_field _ _ _ _ _ _ M H) as (ls & Hl & _ & Hf & Hll). destruct M as (V & _ & _). apply (slots_used _ _ _ _ V Hl). eauto. Qed.

Lemma made_share count fs t i j f l g k : made count fs t -> field t i = Some (f, l) -> field t j = Some (g, k) -> (l_slot l = l_slot k <-> i = j \/ alternatives (dfields fs) i j).
Proof.
  intros M Hi Hj. destruct (made_field _ _ _ _ _ _ M Hi) as (ls & Hl & _ & _ & Hll). destruct (made_field _ _ _ _ _ _ M Hj) as (ls' & Hl' & _ & _ & Hkk).
  assert (ls' = ls) as -> by congruence. destruct M as (V & _ & _). exact (share_iff _ _ _ _ i j l k V Hl Hll Hkk).
Qed.

Lemma made_alt count fs t i j f l g k : made count fs t -> field t i = Some (f, l) -> field t j = Some (g, k) -> alternatives (dfields fs) i j -> i <> j ->
  l_ordinal l <> l_ordinal k /\ y_explicit g = true /\ repeated g = false.
Proof.
  intros M Hi Hj A Hne. destruct (made_field _ _ _ _ _ _ M Hi) as (ls & Hl & _ & Hf & Hll). destruct (made_field _ _ _ _ _ _ M Hj) as (ls' & Hl' & _ & Hg & Hkk).
  assert (ls' = ls) as -> by congruence. destruct M as (V & F & _). destruct (laid_of _ _ _ _ V Hl) as (st & _ & L). pose proof (la_bias _ _ _ _ L i j l k A Hll Hkk) as Hb.
  destruct A as (o & Ai & Aj). destruct (la_oneof _ _ _ _ L i o l Ai Hll) as (K1 & _ & _). destruct (la_oneof _ _ _ _ L j o k Aj Hkk) as (K2 & _ & _).
  split; [lia|]. rewrite (oneof_dfields _ _ _ Hg) in Aj. unfold fields_valid in F. rewrite Forall_forall in F. split; [eapply (F g); [eapply nth_error_In; eauto|exact Aj]|].
  unfold oneofs_valid in V. rewrite Forall_forall in V. destruct (V (DField (y_oneof g) (repeated g))) with (o := o) as [_ K]; [eapply nth_error_In, nth_dfields; eauto|exact Aj|exact K].
Qed.

(** ** Updates *)
Lemma put_length m i s : length (put m i s) = length m.
Proof. revert i. induction m as [|x m IH]; intros [|i]; cbn; congruence. Qed.
Lemma put_same m i s d : (i < length m)%nat -> nth i (put m i s) d = s.
Proof. revert i. induction m as [|x m IH]; intros [|i] H; cbn in *; try lia; [reflexivity|]. apply IH. lia. Qed.
Lemma put_other m i j s d : i <> j -> nth j (put m i s) d = nth j m d.
Proof. revert i j. induction m as [|x m IH]; intros [|i] [|j] H; cbn; try congruence; try reflexivity. apply IH. lia. Qed.

(** What replacing the slot of field [i] by one whose word is the ordinal of [i], or
    zero, does to the other fields. *)
Lemma put_look_other count fs t i j f l m s : made count fs t -> field t i = Some (f, l) -> j <> i -> ~ alternatives (dfields fs) i j -> look t j (put m (l_slot l) s) = look t j m.
Proof.
  intros M Hi Hne Ha. unfold look. destruct (field t j) as [[g k]|] eqn:Hj; [|reflexivity]. unfold slot_at. rewrite put_other; [reflexivity|].
  intros K. apply (made_share _ _ _ _ _ _ _ _ _ M Hi Hj) in K. destruct K; [congruence|tauto].
Qed.

Lemma put_look_alt count fs t i j f l g k m s : made count fs t -> field t i = Some (f, l) -> field t j = Some (g, k) -> j <> i -> alternatives (dfields fs) i j ->
  length m = t_slots t -> fst s = l_ordinal l \/ fst s = 0 -> look t j (put m (l_slot l) s) = Some (false, default_value g).
Proof.
  intros M Hi Hj Hne Ha Hm Hs. unfold look. rewrite Hj. unfold slot_at. assert (K : l_slot l = l_slot k) by (apply (made_share _ _ _ _ _ _ _ _ _ M Hi Hj); auto).
  rewrite <- K, put_same by (rewrite Hm; eapply slot_bound; eauto). destruct (made_alt _ _ _ _ _ _ _ _ _ M Hi Hj Ha ltac:(congruence)) as (Ho & He & Hr).
  pose proof (ordinal_pos _ _ _ _ _ _ M Hj Hr) as Hp. assert (Hh : has_value g k s = false).
  { unfold has_value, has_word. rewrite Hr. apply Z.eqb_neq. destruct Hs as [->| ->]; lia. }
  rewrite Hh. f_equal. f_equal. unfold value, default_value. rewrite Hh, He. cbn [negb andb]. unfold repeated in Hr. destruct (y_kind g); try reflexivity; discriminate.
Qed.

(** ** Operations *)
Lemma set_slot_some f l v s : accepts (y_kind f) v = true -> exists s', set_slot f l v s = Some s'.
Proof. unfold set_slot. destruct (y_kind f), v; cbn; try discriminate; eauto. Qed.
Lemma set_slot_accepts f l v s s' : set_slot f l v s = Some s' -> accepts (y_kind f) v = true.
Proof. unfold set_slot. destruct (y_kind f), v; cbn; congruence. Qed.

Lemma set_slot_word f l v s s' : set_slot f l v s = Some s' -> repeated f = false -> fst s' = l_ordinal l.
Proof. unfold set_slot, repeated. destruct (y_kind f), v; cbn; try congruence; intros [= <-]; reflexivity. Qed.

Lemma set_slot_value f l v s s' : set_slot f l v s = Some s' -> has_value f l s' = input_present v /\ value f l s' = input_value v.
Proof.
  unfold set_slot, value, has_value, has_word, repeated. destruct (y_kind f), v; try discriminate; intros [= <-]; cbn [fst snd repeated_kind input_present input_value]; rewrite ?Z.eqb_refl; cbn [negb andb]; rewrite ?andb_false_r; auto;
    destruct l0 as [|x r]; cbn [length]; auto; rewrite (proj2 (Z.ltb_lt _ _)) by lia; rewrite (proj2 (Z.eqb_neq _ _)) by lia; rewrite Nat2Z.id; cbn [firstn]; rewrite firstn_all; auto.
Qed.

Lemma set_same count fs t i v m m' : made count fs t -> length m = t_slots t -> set_field t i v m = Some m' -> look t i m' = Some (input_present v, input_value v) /\ length m' = length m.
Proof.
  intros M Hm H. unfold set_field in H. unfold look. destruct (field t i) as [[f l]|] eqn:Hi; [|discriminate]. destruct (set_slot f l v (slot_at m l)) as [s|] eqn:Hs; [|discriminate].
  injection H as <-. unfold slot_at. rewrite put_same by (rewrite Hm; eapply slot_bound; eauto). destruct (set_slot_value _ _ _ _ _ Hs) as [-> ->]. split; [reflexivity|apply put_length].
Qed.

Lemma set_other count fs t i j v m m' : made count fs t -> set_field t i v m = Some m' -> j <> i -> ~ alternatives (dfields fs) i j -> look t j m' = look t j m.
Proof.
  intros M H Hne Ha. unfold set_field in H. destruct (field t i) as [[f l]|] eqn:Hi; [|discriminate]. destruct (set_slot f l v (slot_at m l)) as [s|]; [|discriminate].
  injection H as <-. eapply put_look_other; eauto.
Qed.

Lemma alternatives_sym fs i j : alternatives fs i j -> alternatives fs j i.
Proof. intros (o & A & B). exists o. auto. Qed.

Lemma alt_singular count fs t i j f l : made count fs t -> field t i = Some (f, l) -> alternatives (dfields fs) i j -> repeated f = false.
Proof.
  intros M H (o & A & _). destruct (made_field _ _ _ _ _ _ M H) as (_ & _ & _ & Hf & _). destruct M as (V & _ & _). rewrite (oneof_dfields _ _ _ Hf) in A.
  unfold oneofs_valid in V. rewrite Forall_forall in V. destruct (V (DField (y_oneof f) (repeated f))) with (o := o) as [_ K]; [eapply nth_error_In, nth_dfields; eauto|exact A|exact K].
Qed.

Lemma set_alternative count fs t i j g k v m m' : made count fs t -> length m = t_slots t -> set_field t i v m = Some m' -> field t j = Some (g, k) -> j <> i -> alternatives (dfields fs) i j ->
  look t j m' = Some (false, default_value g).
Proof.
  intros M Hm H Hj Hne Ha. unfold set_field in H. destruct (field t i) as [[f l]|] eqn:Hi; [|discriminate]. destruct (set_slot f l v (slot_at m l)) as [s|] eqn:Hs; [|discriminate].
  injection H as <-. eapply put_look_alt; eauto. left. eapply set_slot_word; eauto. eapply alt_singular; eauto.
Qed.

Lemma set_accepted t i f l v m : field t i = Some (f, l) -> ((exists m', set_field t i v m = Some m') <-> accepts (y_kind f) v = true).
Proof.
  intros H. unfold set_field. rewrite H. split.
  - intros [m' K]. destruct (set_slot f l v (slot_at m l)) eqn:Hs; [|discriminate]. eapply set_slot_accepts; eauto.
  - intros K. destruct (set_slot_some f l v (slot_at m l) K) as [s ->]. eauto.
Qed.

Lemma emplace_same count fs t i f l n m : made count fs t -> length m = t_slots t -> field t i = Some (f, l) -> (exists ty, y_kind f = KMsg ty) ->
  look t i (emplace_field n t i m) = Some (true, FMsg (repeat zero_slot n)).
Proof.
  intros M Hm H [ty Hk]. unfold emplace_field, look. rewrite H. unfold slot_at. rewrite put_same by (rewrite Hm; eapply slot_bound; eauto).
  unfold emplace_slot, value, has_value, has_word, repeated. rewrite Hk. cbn [repeated_kind fst snd]. rewrite Z.eqb_refl. reflexivity.
Qed.

Lemma emplace_other count fs t i j n m : made count fs t -> j <> i -> ~ alternatives (dfields fs) i j -> look t j (emplace_field n t i m) = look t j m.
Proof. intros M Hne Ha. unfold emplace_field. destruct (field t i) as [[f l]|] eqn:Hi; [|reflexivity]. eapply put_look_other; eauto. Qed.

Lemma emplace_alternative count fs t i j g k n m : made count fs t -> length m = t_slots t -> field t j = Some (g, k) -> field t i <> None -> j <> i -> alternatives (dfields fs) i j ->
  look t j (emplace_field n t i m) = Some (false, default_value g).
Proof.
  intros M Hm Hj Hi Hne Ha. unfold emplace_field. destruct (field t i) as [[f l]|] eqn:Hf; [|congruence]. apply (put_look_alt count fs t i j f l g k m); auto.
Qed.

Lemma clear_same count fs t i f l m : made count fs t -> length m = t_slots t -> field t i = Some (f, l) ->
  exists v, look t i (clear_field t i m) = Some (false, v) /\ (y_explicit f = true \/ repeated f = true -> v = default_value f).
Proof.
  intros M Hm H. unfold clear_field, look. rewrite H. unfold slot_at. rewrite put_same by (rewrite Hm; eapply slot_bound; eauto). fold (slot_at m l).
  assert (Hh : has_value f l (clear_slot (slot_at m l)) = false).
  { unfold has_value, has_word, clear_slot. cbn [fst]. destruct (repeated f) eqn:Hr; [reflexivity|]. pose proof (ordinal_pos _ _ _ _ _ _ M H Hr). apply Z.eqb_neq. lia. }
  rewrite Hh. eexists. split; [reflexivity|]. intros K. unfold value, default_value. rewrite Hh. cbn [negb]. rewrite andb_true_r. unfold repeated in K.
  destruct (y_kind f); try reflexivity; destruct K as [->|K]; try reflexivity; discriminate.
Qed.

Lemma clear_other count fs t i j m : made count fs t -> j <> i -> ~ alternatives (dfields fs) i j -> look t j (clear_field t i m) = look t j m.
Proof. intros M Hne Ha. unfold clear_field. destruct (field t i) as [[f l]|] eqn:Hi; [|reflexivity]. eapply put_look_other; eauto. Qed.

Lemma nth_repeat_zero n k : nth k (repeat zero_slot n) zero_slot = zero_slot.
Proof. revert k. induction n as [|n IH]; intros [|k]; cbn; auto. Qed.

Lemma new_look count fs t i f l : made count fs t -> field t i = Some (f, l) -> look t i (new_message t) = Some (false, default_value f).
Proof.
  intros M H. unfold look, slot_at, new_message. rewrite H, nth_repeat_zero. assert (Hh : has_value f l zero_slot = false).
  { unfold has_value, has_word, zero_slot. cbn [fst]. destruct (repeated f) eqn:Hr; [reflexivity|]. pose proof (ordinal_pos _ _ _ _ _ _ M H Hr). apply Z.eqb_neq. lia. }
  rewrite Hh. destruct (made_field _ _ _ _ _ _ M H) as (_ & _ & _ & Hf & _). destruct M as (_ & F & _). unfold fields_valid in F. rewrite Forall_forall in F.
  destruct (F f (nth_error_In _ _ Hf)) as [_ D]. f_equal. f_equal. unfold value, default_value. rewrite Hh. cbn [negb fst snd zero_slot]. rewrite andb_true_r.
  destruct (y_kind f); try reflexivity; (destruct (y_explicit f) eqn:He; [reflexivity|]; destruct (D eq_refl) as [D1 D2]; congruence).
Qed.
