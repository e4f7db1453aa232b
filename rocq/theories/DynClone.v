(** The contents of dynamic messages match their types; cloning. *)
Require Import Verif.Bits Verif.DynSlots Verif.DynSlotsProofs Verif.Dyn Verif.DynMain.

(** ** Specification *)
(** The content of the slot of field [f] is what the accessors of [f] may read. *)
Inductive typed_slot (P : nat -> list slot -> Prop) (f : dynf) (l : layout) (s : slot) : Prop :=
| TyInt : y_kind f = KInt \/ y_kind f = KEnum -> (has_value f l s = true \/ y_explicit f = false -> snd s = CZero \/ exists z, snd s = CInt z) -> typed_slot P f l s
| TyBytes : y_kind f = KBytes -> (has_value f l s = true \/ y_explicit f = false -> snd s = CZero \/ exists b, snd s = CBytes b) -> typed_slot P f l s
| TyNoMsg ty : y_kind f = KMsg ty -> has_value f l s = false -> typed_slot P f l s
| TyMsg ty m : y_kind f = KMsg ty -> has_value f l s = true -> snd s = CMsg m -> P ty m -> typed_slot P f l s
| TyEmpty : repeated f = true -> fst s = 0 -> typed_slot P f l s
| TyInts x : y_kind f = KInts -> snd s = CInts x -> 0 < fst s <= Z.of_nat (length x) -> typed_slot P f l s
| TyStrs x : y_kind f = KStrs -> snd s = CStrs x -> 0 < fst s <= Z.of_nat (length x) -> typed_slot P f l s
| TyMsgs ty x : y_kind f = KMsgs ty -> snd s = CMsgs x -> 0 < fst s <= Z.of_nat (length x) -> Forall (P ty) x -> typed_slot P f l s.

(** A message of type [ty], at every depth. *)
Inductive typed (E : nat -> dtype) : nat -> list slot -> Prop :=
| Typed ty m : length m = t_slots (E ty) -> (forall f l, In (f, l) (t_fields (E ty)) -> typed_slot (typed E) f l (slot_at m l)) -> typed E ty m.

Definition env_made (E : nat -> dtype) : Prop := forall ty, exists count fs, made count fs (E ty).

(** Every field of every message seen has a value that is specified. *)
Fixpoint defined_val (v : dval) : bool :=
  match v with
  | VUndef => false
  | VMsg m => forallb (fun x => defined_val (snd x)) m
  | VMsgs l => forallb (forallb (fun x => defined_val (snd x))) l
  | _ => true
  end.
Definition defined (m : list (bool * bool * dval)) : bool := forallb (fun x => defined_val (snd x)) m.

Lemma typed_len E ty m : typed E ty m -> length m = t_slots (E ty).
Proof. intros []. assumption. Qed.
Lemma typed_field E ty m i f l : typed E ty m -> field (E ty) i = Some (f, l) -> typed_slot (typed E) f l (slot_at m l).
Proof. intros [ty' m' _ H] Hi. apply H. eapply nth_error_In; eauto. Qed.
Lemma in_field t f l : In (f, l) (t_fields t) -> exists i, field t i = Some (f, l).
Proof. intros H. apply In_nth_error in H. exact H. Qed.

Lemma not_default_has f l s : y_explicit f && negb (has_value f l s) = false -> has_value f l s = true \/ y_explicit f = false.
Proof. destruct (y_explicit f), (has_value f l s); auto; discriminate. Qed.

Lemma typed_value E f l s : typed_slot (typed E) f l s -> value f l s <> FUndef.
Proof.
  intros H. unfold value. destruct H as [[K|K] H|K H|ty K H|ty m K H C _|K H|x K C H|x K C H|ty x K C H _]; rewrite ?K.
  - destruct (y_explicit f && negb (has_value f l s)) eqn:Ha; [discriminate|]. apply not_default_has in Ha. destruct (H Ha) as [->|[z ->]]; discriminate.
  - destruct (y_explicit f && negb (has_value f l s)) eqn:Ha; [discriminate|]. apply not_default_has in Ha. destruct (H Ha) as [->|[z ->]]; discriminate.
  - destruct (y_explicit f && negb (has_value f l s)) eqn:Ha; [discriminate|]. apply not_default_has in Ha. destruct (H Ha) as [->|[z ->]]; discriminate.
  - rewrite H. discriminate.
  - rewrite H, C. discriminate.
  - unfold repeated in K. rewrite H. destruct (y_kind f); discriminate.
  - rewrite C. destruct (fst s =? 0); discriminate.
  - rewrite C. destruct (fst s =? 0); discriminate.
  - rewrite C. destruct (fst s =? 0); discriminate.
Qed.

Lemma value_msg E f l s m : typed_slot (typed E) f l s -> value f l s = FMsg m -> exists ty, y_kind f = KMsg ty /\ typed E ty m /\ has_value f l s = true.
Proof.
  intros H. unfold value. destruct H as [[K|K] H|K H|ty K H|ty m' K H C P|K H|x K C H|x K C H|ty x K C H _]; rewrite ?K.
  - destruct (_ && _); [discriminate|]. destruct (snd s); discriminate.
  - destruct (_ && _); [discriminate|]. destruct (snd s); discriminate.
  - destruct (_ && _); [discriminate|]. destruct (snd s); discriminate.
  - rewrite H. discriminate.
  - rewrite H, C. intros [= <-]. eauto.
  - unfold repeated in K. rewrite H. destruct (y_kind f); discriminate.
  - rewrite C. destruct (fst s =? 0); discriminate.
  - rewrite C. destruct (fst s =? 0); discriminate.
  - rewrite C. destruct (fst s =? 0); discriminate.
Qed.

Lemma Forall_firstn {A} (P : A -> Prop) n l : Forall P l -> Forall P (firstn n l).
Proof. revert n. induction l as [|x l IH]; intros [|n] H; cbn; auto. inversion H; subst. constructor; auto. Qed.

Lemma value_msgs E f l s x : typed_slot (typed E) f l s -> value f l s = FMsgs x -> exists ty, y_kind f = KMsgs ty /\ Forall (typed E ty) x /\ Z.of_nat (length x) = fst s.
Proof.
  intros H. unfold value. destruct H as [[K|K] H|K H|ty K H|ty m' K H C P|K H|x' K C H|x' K C H|ty x' K C H P]; rewrite ?K.
  - destruct (_ && _); [discriminate|]. destruct (snd s); discriminate.
  - destruct (_ && _); [discriminate|]. destruct (snd s); discriminate.
  - destruct (_ && _); [discriminate|]. destruct (snd s); discriminate.
  - rewrite H. discriminate.
  - rewrite H, C. discriminate.
  - unfold repeated in K. rewrite H. destruct (y_kind f); try discriminate. cbn. intros [= <-]. exists ty. auto.
  - rewrite C. destruct (fst s =? 0); discriminate.
  - rewrite C. destruct (fst s =? 0); discriminate.
  - rewrite C. destruct (Z.eqb_spec (fst s) 0); [lia|]. intros [= <-]. exists ty. split; [reflexivity|]. split; [apply Forall_firstn; exact P|]. rewrite firstn_length. lia.
Qed.

(** The value of a field of each kind. *)
Ltac kinds Ts Hk := destruct Ts as [[K|K] Ts|K Ts|t0 K Ts|t0 m0 K Ts C P|K Ts|x0 K C Ts|x0 K C Ts|t0 x0 K C Ts P]; try congruence; try (unfold repeated in K; rewrite Hk in K; discriminate).
Lemma value_int E f l s : typed_slot (typed E) f l s -> y_kind f = KInt -> exists z, value f l s = FInt z.
Proof.
  intros Ts Hk. unfold value. rewrite Hk. destruct (y_explicit f && negb (has_value f l s)) eqn:Ha; [eauto|]. apply not_default_has in Ha. kinds Ts Hk. destruct (Ts Ha) as [->|[z ->]]; eauto.
Qed.
Lemma value_bytes E f l s : typed_slot (typed E) f l s -> y_kind f = KBytes -> exists b, value f l s = FBytes b.
Proof.
  intros Ts Hk. unfold value. rewrite Hk. destruct (y_explicit f && negb (has_value f l s)) eqn:Ha; [eauto|]. apply not_default_has in Ha. kinds Ts Hk. destruct (Ts Ha) as [->|[z ->]]; eauto.
Qed.
Lemma value_msg_has E f l s ty : typed_slot (typed E) f l s -> y_kind f = KMsg ty -> has_value f l s = true -> exists m, value f l s = FMsg m /\ typed E ty m.
Proof. intros Ts Hk Hh. unfold value. rewrite Hk, Hh. kinds Ts Hk. rewrite C. exists m0. split; [reflexivity|]. congruence. Qed.
Lemma value_ints E f l s : typed_slot (typed E) f l s -> y_kind f = KInts -> exists x, value f l s = FInts x /\ Z.of_nat (length x) = fst s.
Proof.
  intros Ts Hk. unfold value. rewrite Hk. kinds Ts Hk; [rewrite Ts; exists []; auto|]. rewrite C. destruct (Z.eqb_spec (fst s) 0); [lia|]. eexists. split; [reflexivity|]. rewrite firstn_length. lia.
Qed.
Lemma value_strs E f l s : typed_slot (typed E) f l s -> y_kind f = KStrs -> exists x, value f l s = FStrs x /\ Z.of_nat (length x) = fst s.
Proof.
  intros Ts Hk. unfold value. rewrite Hk. kinds Ts Hk; [rewrite Ts; exists []; auto|]. rewrite C. destruct (Z.eqb_spec (fst s) 0); [lia|]. eexists. split; [reflexivity|]. rewrite firstn_length. lia.
Qed.
Lemma value_msgs_all E f l s ty : typed_slot (typed E) f l s -> y_kind f = KMsgs ty -> exists x, value f l s = FMsgs x /\ Z.of_nat (length x) = fst s /\ Forall (typed E ty) x.
Proof.
  intros Ts Hk. unfold value. rewrite Hk. kinds Ts Hk; [rewrite Ts; exists []; auto|]. rewrite C. destruct (Z.eqb_spec (fst s) 0); [lia|]. eexists. split; [reflexivity|].
  rewrite firstn_length. split; [lia|]. assert (t0 = ty) as -> by congruence. apply Forall_firstn. exact P.
Qed.

Lemma typed_defined E n : forall ty m, typed E ty m -> defined (view E n ty m) = true.
Proof.
  induction n as [|n IH]; intros ty m T; unfold defined; cbn [view]; rewrite forallb_forall; intros x Hx; apply in_map_iff in Hx; destruct Hx as ([f l] & <- & Hx); cbn [fst snd];
    destruct T as [ty m Hl T]; specialize (T f l Hx); pose proof (typed_value _ _ _ _ T) as Hv; unfold see.
  - destruct (value f l (slot_at m l)) eqn:Ev; try reflexivity; try (destruct (y_kind f); reflexivity); try congruence.
    + destruct (value_msg _ _ _ _ _ T Ev) as (ty' & -> & _). reflexivity.
    + destruct (value_msgs _ _ _ _ _ T Ev) as (ty' & -> & _). reflexivity.
  - destruct (value f l (slot_at m l)) eqn:Ev; try reflexivity; try (destruct (y_kind f); reflexivity); try congruence.
    + destruct (value_msg _ _ _ _ _ T Ev) as (ty' & -> & K & _). cbn [defined_val]. exact (IH _ _ K).
    + destruct (value_msgs _ _ _ _ _ T Ev) as (ty' & -> & K & _). cbn [defined_val]. rewrite forallb_forall. intros y Hy. apply in_map_iff in Hy. destruct Hy as (z & <- & Hz).
      rewrite Forall_forall in K. exact (IH _ _ (K z Hz)).
Qed.

(** ** The operations keep messages typed *)
Lemma typed_zero E f l : (repeated f = false -> 1 <= l_ordinal l) -> typed_slot (typed E) f l zero_slot.
Proof.
  intros Ho. destruct (repeated f) eqn:Hr; [apply TyEmpty; auto|]. specialize (Ho eq_refl).
  destruct (y_kind f) as [| | |ty| | |] eqn:Hk; try (unfold repeated in Hr; rewrite Hk in Hr; discriminate).
  - apply TyInt; auto.
  - apply TyInt; auto.
  - apply TyBytes; auto.
  - apply (TyNoMsg _ _ _ _ ty Hk). unfold has_value, has_word. rewrite Hr. cbn [zero_slot fst]. apply Z.eqb_neq. lia.
Qed.

Lemma new_typed E ty : env_made E -> typed E ty (new_message (E ty)).
Proof.
  intros HE. constructor; [apply repeat_length|]. intros f l H. destruct (in_field _ _ _ H) as [i Hi]. destruct (HE ty) as (count & fs & M).
  unfold slot_at, new_message. rewrite nth_repeat_zero. apply typed_zero. intros Hr. eapply ordinal_pos; eauto.
Qed.

(** Replacing the slot of a field by one that suits the field. *)
Lemma put_typed E ty i f l m s : env_made E -> typed E ty m -> field (E ty) i = Some (f, l) -> typed_slot (typed E) f l s ->
  (repeated f = false -> fst s = l_ordinal l \/ fst s = 0) -> typed E ty (put m (l_slot l) s).
Proof.
  intros HE [ty' m' Hl T] Hi Hs Hw. constructor; [rewrite put_length; exact Hl|]. intros g k Hg. destruct (in_field _ _ _ Hg) as [j Hj]. destruct (HE ty') as (count & fs & M).
  pose proof (made_share _ _ _ _ _ _ _ _ _ M Hi Hj) as Sh. unfold slot_at. destruct (Nat.eq_dec (l_slot l) (l_slot k)) as [Heq|Hne].
  - rewrite <- Heq, put_same by (rewrite Hl; eapply slot_bound; eauto). destruct (Nat.eq_dec i j) as [<-|Hij]; [assert (f = g /\ l = k) as [-> ->] by (split; congruence); exact Hs|].
    assert (A : alternatives (dfields fs) i j) by (destruct (proj1 Sh Heq); [congruence|assumption]).
    destruct (made_alt _ _ _ _ _ _ _ _ _ M Hi Hj A Hij) as (Ho & He & Hr). pose proof (ordinal_pos _ _ _ _ _ _ M Hj Hr).
    assert (Hf : repeated f = false) by (eapply alt_singular; eauto).
    assert (Hh : has_value g k s = false) by (unfold has_value, has_word; rewrite Hr; apply Z.eqb_neq; destruct (Hw Hf); lia).
    destruct (y_kind g) as [| | |t0| | |] eqn:Hk; try (unfold repeated in Hr; rewrite Hk in Hr; discriminate).
    + apply TyInt; auto. intros [K|K]; congruence.
    + apply TyInt; auto. intros [K|K]; congruence.
    + apply TyBytes; auto. intros [K|K]; congruence.
    + eapply TyNoMsg; eauto.
  - rewrite put_other by exact Hne. apply T. exact Hg.
Qed.

Lemma set_slot_typed E f l v s s' : set_slot f l v s = Some s' -> typed_slot (typed E) f l s'.
Proof.
  unfold set_slot. destruct (y_kind f) eqn:Hk, v; try discriminate; intros [= <-].
  - apply TyInt; [auto|]. cbn [snd]. eauto.
  - apply TyInt; [auto|]. cbn [snd]. eauto.
  - apply TyBytes; [auto|]. cbn [snd]. eauto.
  - destruct l0 as [|a r]; [apply TyEmpty; [unfold repeated; rewrite Hk; reflexivity|reflexivity]|]. eapply (TyInts _ _ _ _ (a :: r) Hk); [reflexivity|]. cbn [fst length]. lia.
  - destruct l0 as [|a r]; [apply TyEmpty; [unfold repeated; rewrite Hk; reflexivity|reflexivity]|]. eapply (TyStrs _ _ _ _ (a :: r) Hk); [reflexivity|]. cbn [fst length]. lia.
Qed.

Lemma set_typed E ty i v m m' : env_made E -> typed E ty m -> set_field (E ty) i v m = Some m' -> typed E ty m'.
Proof.
  intros HE T H. unfold set_field in H. destruct (field (E ty) i) as [[f l]|] eqn:Hi; [|discriminate]. destruct (set_slot f l v (slot_at m l)) as [s|] eqn:Hs; [|discriminate]. injection H as <-.
  eapply put_typed; eauto; [eapply set_slot_typed; eauto|]. intros Hr. left. eapply set_slot_word; eauto.
Qed.

Lemma emplace_typed E ty i m f l ty' : env_made E -> typed E ty m -> field (E ty) i = Some (f, l) -> y_kind f = KMsg ty' -> typed E ty (emplace_field (t_slots (E ty')) (E ty) i m).
Proof.
  intros HE T Hi Hk. unfold emplace_field. rewrite Hi. eapply put_typed; eauto. eapply (TyMsg _ _ _ _ ty'); [exact Hk| |reflexivity|exact (new_typed E ty' HE)].
  unfold has_value, has_word, repeated. rewrite Hk. cbn [repeated_kind]. apply Z.eqb_refl.
Qed.

Lemma clear_slot_typed E f l s : (repeated f = false -> 1 <= l_ordinal l) -> typed_slot (typed E) f l s -> typed_slot (typed E) f l (clear_slot s).
Proof.
  intros Ho H. assert (Hh : repeated f = false -> has_value f l (clear_slot s) = false) by (intros Hr; specialize (Ho Hr); unfold has_value, has_word, clear_slot; rewrite Hr; cbn [fst]; apply Z.eqb_neq; lia).
  unfold repeated in Hh. destruct H as [[K|K] H|K H|ty K H|ty m K H C _|K H|x K C H|x K C H|ty x K C H _].
  - rewrite K in Hh. apply TyInt; [auto|]. rewrite (Hh eq_refl). intros [Q|Q]; [discriminate|]. cbn [clear_slot snd]. auto.
  - rewrite K in Hh. apply TyInt; [auto|]. rewrite (Hh eq_refl). intros [Q|Q]; [discriminate|]. cbn [clear_slot snd]. auto.
  - rewrite K in Hh. apply TyBytes; [auto|]. rewrite (Hh eq_refl). intros [Q|Q]; [discriminate|]. cbn [clear_slot snd]. auto.
  - rewrite K in Hh. eapply TyNoMsg; eauto.
  - rewrite K in Hh. eapply TyNoMsg; eauto.
  - apply TyEmpty; auto.
  - apply TyEmpty; [unfold repeated; rewrite K; reflexivity|reflexivity].
  - apply TyEmpty; [unfold repeated; rewrite K; reflexivity|reflexivity].
  - apply TyEmpty; [unfold repeated; rewrite K; reflexivity|reflexivity].
Qed.

Lemma clear_typed E ty i m : env_made E -> typed E ty m -> typed E ty (clear_field (E ty) i m).
Proof.
  intros HE T. unfold clear_field. destruct (field (E ty) i) as [[f l]|] eqn:Hi; [|exact T]. eapply put_typed; eauto. apply clear_slot_typed; [|eapply typed_field; eauto].
  intros Hr. destruct (HE ty) as (count & fs & M). eapply ordinal_pos; eauto.
Qed.

(** ** Cloning *)
(** No oneof has two members. *)
Definition single (fs : list dynf) : Prop := forall i j, alternatives (dfields fs) i j -> i = j.
Definition env_single (E : nat -> dtype) : Prop := forall ty, exists count fs, made count fs (E ty) /\ single fs.

(** What a clone shows: numeric fields with explicit presence are present. *)
Definition copied_presence (e p : bool) (v : dval) : bool := match v with VInt _ => if e then true else p | _ => p end.
Fixpoint copied_val (v : dval) : dval :=
  match v with
  | VMsg m => VMsg (map (fun x => (fst (fst x), copied_presence (fst (fst x)) (snd (fst x)) (snd x), copied_val (snd x))) m)
  | VMsgs l => VMsgs (map (map (fun x => (fst (fst x), copied_presence (fst (fst x)) (snd (fst x)) (snd x), copied_val (snd x)))) l)
  | _ => v
  end.
Definition copied (m : list (bool * bool * dval)) : list (bool * bool * dval) :=
  map (fun x => (fst (fst x), copied_presence (fst (fst x)) (snd (fst x)) (snd x), copied_val (snd x))) m.

(** At every depth: fields with implicit presence are present exactly when their
    value is not zero or empty (false after clear_field, see C61). *)
Definition tidy_field (e p : bool) (v : dval) : bool :=
  e || match v with VInt z => Bool.eqb p (negb (z =? 0)) | VBytes [] => negb p | VBytes _ => p | _ => true end.
Fixpoint tidy_val (v : dval) : bool :=
  match v with
  | VMsg m => forallb (fun x => tidy_field (fst (fst x)) (snd (fst x)) (snd x) && tidy_val (snd x)) m
  | VMsgs l => forallb (forallb (fun x => tidy_field (fst (fst x)) (snd (fst x)) (snd x) && tidy_val (snd x))) l
  | _ => true
  end.
Definition tidy (m : list (bool * bool * dval)) : bool := forallb (fun x => tidy_field (fst (fst x)) (snd (fst x)) (snd x) && tidy_val (snd x)) m.
(** At every depth: every numeric field with explicit presence is present. *)
Definition set_field_seen (e p : bool) (v : dval) : bool := match v with VInt _ => negb e || p | _ => true end.
Fixpoint all_set_val (v : dval) : bool :=
  match v with
  | VMsg m => forallb (fun x => set_field_seen (fst (fst x)) (snd (fst x)) (snd x) && all_set_val (snd x)) m
  | VMsgs l => forallb (forallb (fun x => set_field_seen (fst (fst x)) (snd (fst x)) (snd x) && all_set_val (snd x))) l
  | _ => true
  end.
Definition all_set (m : list (bool * bool * dval)) : bool := forallb (fun x => set_field_seen (fst (fst x)) (snd (fst x)) (snd x) && all_set_val (snd x)) m.

Lemma map_slots fs ls : length fs = length ls -> map (fun fl : dynf * layout => l_slot (snd fl)) (combine fs ls) = map l_slot ls.
Proof. revert ls. induction fs as [|f fs IH]; intros [|l ls] H; try discriminate; [reflexivity|]. cbn. rewrite IH by (cbn in H; lia). reflexivity. Qed.

Lemma single_slots count fs t : made count fs t -> single fs -> NoDup (map (fun fl : dynf * layout => l_slot (snd fl)) (t_fields t)) /\ t_slots t = length (t_fields t).
Proof.
  intros (V & F & M) Hs. unfold dtype_of in M. fold (dfields fs) in M. destruct (slot_layout count (dfields fs)) as [[ls n]|] eqn:Hl; [|discriminate]. injection M as <-. cbn [t_fields t_slots].
  destruct (slots_used _ _ _ _ V Hl) as [Hlen Hu]. unfold dfields in Hlen. rewrite map_length in Hlen. rewrite map_slots by congruence. rewrite combine_length, Hlen, Nat.min_id.
  assert (N : NoDup (map l_slot ls)).
  { apply (NoDup_nth (map l_slot ls) (l_slot (Layout 0 0 0 0))). rewrite map_length. intros i j Hi Hj E. rewrite !map_nth in E.
    destruct (nth_error ls i) as [l|] eqn:Li; [|apply nth_error_None in Li; lia]. destruct (nth_error ls j) as [k|] eqn:Lj; [|apply nth_error_None in Lj; lia].
    rewrite (nth_error_nth _ _ _ Li), (nth_error_nth _ _ _ Lj) in E. apply (share_iff _ _ _ _ i j l k V Hl Li Lj) in E. destruct E as [E|E]; [exact E|apply Hs; exact E]. }
  split; [exact N|]. rewrite <- Hlen, <- (map_length l_slot ls). assert (A : incl (map l_slot ls) (seq 0 n)).
  { intros s Hin. apply in_map_iff in Hin. destruct Hin as (l & <- & Hin). apply In_nth_error in Hin. destruct Hin as [i Hin]. apply in_seq. split; [lia|]. apply Hu. eauto. }
  assert (B : incl (seq 0 n) (map l_slot ls)).
  { intros s Hin. apply in_seq in Hin. destruct (proj1 (Hu s) ltac:(lia)) as (i & l & Hi & <-). apply in_map. eapply nth_error_In; eauto. }
  pose proof (NoDup_incl_length N A) as K1. pose proof (NoDup_incl_length (seq_NoDup n 0) B) as K2. rewrite seq_length in *. lia.
Qed.

Lemma clone_fields_each clone E' fs : forall dst src r, NoDup (map (fun fl : dynf * layout => l_slot (snd fl)) fs) -> Forall (fun fl => (l_slot (snd fl) < length dst)%nat) fs ->
  clone_fields E' clone fs dst src = Some r ->
  length r = length dst /\ (forall f l, In (f, l) fs -> clone_field E' clone f l (slot_at dst l) (slot_at src l) = Some (slot_at r l)) /\
  (forall k, ~ In k (map (fun fl : dynf * layout => l_slot (snd fl)) fs) -> nth k r zero_slot = nth k dst zero_slot).
Proof.
  induction fs as [|[f l] fs IH]; intros dst src r N B H; cbn [clone_fields] in H.
  - injection H as <-. split; [reflexivity|]. split; [intros f l []|reflexivity].
  - cbn [map snd] in N. apply NoDup_cons_iff in N. destruct N as [Nl N]. apply Forall_cons_iff in B. destruct B as [Bl B]. cbn [snd] in Bl.
    destruct (clone_field E' clone f l (slot_at dst l) (slot_at src l)) as [s|] eqn:Hs; [|discriminate].
    destruct (IH _ _ _ N ltac:(rewrite put_length; exact B) H) as (H1 & H2 & H3). rewrite put_length in H1. split; [exact H1|]. split.
    + intros g k [[= <- <-]|Hin].
      * rewrite Hs. f_equal. unfold slot_at at 1. rewrite (H3 _ Nl), put_same by exact Bl. reflexivity.
      * rewrite <- (H2 g k Hin). f_equal. unfold slot_at. rewrite put_other; [reflexivity|]. intros K. apply Nl. rewrite K. change (l_slot k) with (l_slot (snd (g, k))). apply in_map with (f := fun fl : dynf * layout => l_slot (snd fl)). exact Hin.
    + intros k Hk. cbn [map snd In] in Hk. rewrite H3 by tauto. apply put_other. tauto.
Qed.

Section CloneMain.
  Variable E : nat -> dtype.

  Definition entry (n : nat) (f : dynf) (l : layout) (s : slot) : bool * bool * dval :=
    (y_explicit f, is_present f l s,
     see (fun ty' m' => match n with O => VDeep | S k => VMsg (view E k ty' m') end)
         (fun ty' x => match n with O => VDeep | S k => VMsgs (map (view E k ty') x) end) f l s).
  Lemma view_entries n ty m : view E n ty m = map (fun fl => entry n (fst fl) (snd fl) (slot_at m (snd fl))) (t_fields (E ty)).
  Proof. destruct n; reflexivity. Qed.
  Definition copy_entry (x : bool * bool * dval) : bool * bool * dval := (fst (fst x), copied_presence (fst (fst x)) (snd (fst x)) (snd x), copied_val (snd x)).
  Definition tidy_entry (x : bool * bool * dval) : bool := tidy_field (fst (fst x)) (snd (fst x)) (snd x) && tidy_val (snd x).

  (** What the clone of nested messages does. *)
  Definition good_clone (clone : nat -> list slot -> list slot -> option (list slot)) : Prop :=
    forall ty dst src r, typed E ty dst -> typed E ty src -> clone ty dst src = Some r ->
      typed E ty r /\ ((forall n, tidy (view E n ty src) = true) -> forall n, view E n ty r = copied (view E n ty src)).

  Lemma clone_list_good clone ty : good_clone clone -> env_made E -> forall dst src r, Forall (typed E ty) dst -> Forall (typed E ty) src ->
    clone_list (clone ty) (new_message (E ty)) dst src = Some r ->
    length r = length src /\ Forall (typed E ty) r /\ (Forall (fun m => forall n, tidy (view E n ty m) = true) src -> forall n, map (view E n ty) r = map copied (map (view E n ty) src)).
  Proof.
    intros G HE dst src. revert dst. induction src as [|y ys IH]; intros dst r Hd Hs H; cbn [clone_list] in H; [injection H as <-; auto|].
    apply Forall_cons_iff in Hs. destruct Hs as [Hy Hys].
    set (p := match dst with [] => (new_message (E ty), []) | x :: xs => (x, xs) end) in H.
    assert (Hp : typed E ty (fst p) /\ Forall (typed E ty) (snd p)).
    { subst p. destruct dst as [|x xs]; cbn [fst snd]; [split; [apply new_typed; exact HE|constructor]|apply Forall_cons_iff in Hd; exact Hd]. }
    destruct p as [x xs]. cbn [fst snd] in Hp. destruct Hp as [Hx Hxs]. destruct (clone ty x y) as [z|] eqn:Hz; [|discriminate].
    destruct (clone_list (clone ty) (new_message (E ty)) xs ys) as [zs|] eqn:Hzs; [|discriminate]. injection H as <-.
    destruct (G _ _ _ _ Hx Hy Hz) as [T V]. destruct (IH _ _ Hxs Hys Hzs) as (L1 & L2 & L3). split; [cbn; congruence|]. split; [constructor; auto|].
    intros Hf n. apply Forall_cons_iff in Hf. destruct Hf as [F1 F2]. cbn [map]. rewrite (V F1 n), (L3 F2 n). reflexivity.
  Qed.

  Lemma clone_field_typed clone f l d s r : good_clone clone -> env_made E -> (repeated f = false -> 1 <= l_ordinal l) -> (y_oneof f <> None -> y_explicit f = true) ->
    typed_slot (typed E) f l d -> typed_slot (typed E) f l s ->
    clone_field E clone f l d s = Some r -> typed_slot (typed E) f l r.
  Proof.
    intros G HE Ho Hx Td Ts H. unfold clone_field in H. destruct (y_kind f) as [| | |ty| | |ty] eqn:Hk.
    - destruct (value_int _ _ _ _ Ts Hk) as [z Ev]. rewrite Ev in H. injection H as <-. apply TyInt; [auto|]. cbn [snd]. eauto.
    - injection H as <-. apply TyInt; [auto|]. cbn [fst snd]. kinds Ts Hk.
      intros Q. assert (K' : has_value f l s = true \/ y_explicit f = false) by exact Q. destruct (y_oneof f) as [o|].
      + rewrite Hx in K' by discriminate. destruct K' as [K'|K']; [|discriminate]. assert (W : fst s =? l_ordinal l = true) by (unfold has_value, has_word, repeated in K'; rewrite Hk in K'; exact K'). rewrite W, orb_true_r.
        destruct (Ts (or_introl K')) as [->|[z ->]]; eauto.
      + destruct (Ts K') as [->|[z ->]]; eauto.
    - destruct (value_bytes _ _ _ _ Ts Hk) as [b Ev]. rewrite Ev in H. destruct (has_value f l s) eqn:Hh; injection H as <-.
      + apply TyBytes; [auto|]. cbn [snd]. eauto.
      + apply TyBytes; [auto|]. intros [Q|Q].
        * unfold has_value, has_word, repeated, reset_bytes in Q. rewrite Hk in Q. cbn [repeated_kind fst] in Q. apply Z.eqb_eq in Q.
          assert (1 <= l_ordinal l) by (apply Ho; unfold repeated; rewrite Hk; reflexivity). lia.
        * kinds Td Hk. unfold reset_bytes. cbn [snd]. destruct (Td (or_intror Q)) as [->|[b' ->]]; eauto.
    - destruct (has_value f l s) eqn:Hh; [|injection H as <-; apply clear_slot_typed; auto]. destruct (value_msg_has _ _ _ _ _ Ts Hk Hh) as (m & Ev & T). rewrite Ev in H.
      destruct (clone ty (new_message (E ty)) m) as [z|] eqn:Hz; [|discriminate]. injection H as <-.
      eapply (TyMsg _ _ _ _ ty); [exact Hk| |reflexivity|].
      + unfold has_value, has_word, repeated. rewrite Hk. apply Z.eqb_refl.
      + eapply G; [apply new_typed; exact HE|exact T|exact Hz].
    - destruct (value_ints _ _ _ _ Ts Hk) as (x & Ev & Hlen). rewrite Ev in H. injection H as <-.
      destruct (Z.eqb_spec (fst s) 0) as [Hz|Hz]; [apply clear_slot_typed; auto|]. eapply (TyInts _ _ _ _ x Hk); [reflexivity|]. cbn [fst]. lia.
    - destruct (value_strs _ _ _ _ Ts Hk) as (x & Ev & Hlen). rewrite Ev in H. injection H as <-.
      destruct (Z.eqb_spec (fst s) 0) as [Hz|Hz]; [apply clear_slot_typed; auto|]. eapply (TyStrs _ _ _ _ x Hk); [reflexivity|]. cbn [fst]. lia.
    - destruct (value_msgs_all _ _ _ _ _ Ts Hk) as (x & Ev & Hlen & T). destruct (value_msgs_all _ _ _ _ _ Td Hk) as (y & Ed & _ & Ty). rewrite Ev, Ed in H.
      destruct (clone_list _ _ y x) as [z|] eqn:Hz; [|discriminate]. injection H as <-. destruct (clone_list_good _ _ G HE _ _ _ Ty T Hz) as (L1 & L2 & _).
      destruct z as [|a z]; [apply TyEmpty; [unfold repeated; rewrite Hk; reflexivity|reflexivity]|]. eapply (TyMsgs _ _ _ _ ty (a :: z) Hk); [reflexivity| |exact L2]. cbn [fst]; split; [cbn [length]; lia|apply Z.le_refl].
  Qed.

  Lemma has_ordinal f l c : repeated f = false -> has_value f l (l_ordinal l, c) = true.
  Proof. intros H. unfold has_value, has_word. rewrite H. apply Z.eqb_refl. Qed.
  Lemma has_zero f l c : (repeated f = false -> 1 <= l_ordinal l) -> has_value f l (0, c) = false.
  Proof. intros H. unfold has_value, has_word. cbn [fst]. destruct (repeated f); [reflexivity|]. specialize (H eq_refl). apply Z.eqb_neq. lia. Qed.

  Lemma clone_field_entry clone f l d s r n : good_clone clone -> env_made E -> (repeated f = false -> 1 <= l_ordinal l) -> (y_oneof f <> None -> y_explicit f = true) ->
    (y_explicit f = false -> y_dint f = 0 /\ y_dbytes f = []) ->
    typed_slot (typed E) f l d -> typed_slot (typed E) f l s -> (forall k, tidy_entry (entry k f l s) = true) ->
    clone_field E clone f l d s = Some r -> entry n f l r = copy_entry (entry n f l s).
  Proof.
    intros G HE Ho Hx Hd Td Ts Hti H. pose proof (Hti n) as Hn. unfold clone_field in H. unfold entry, copy_entry, tidy_entry in *. cbn [fst snd] in *. destruct (y_kind f) as [| | |ty| | |ty] eqn:Hk;
      (assert (Hr : repeated f = repeated_kind (y_kind f)) by reflexivity; rewrite Hk in Hr; cbn [repeated_kind] in Hr).
    - destruct (value_int _ _ _ _ Ts Hk) as [z Ev]. rewrite Ev in H. injection H as <-. unfold see in *. rewrite Ev, Hk in *.
      assert (E2 : value f l (l_ordinal l, CInt z) = FInt z) by (unfold value; rewrite Hk, has_ordinal, andb_false_r by exact Hr; reflexivity).
      unfold is_present in *. rewrite E2, Ev, Hk, has_ordinal in * by exact Hr. cbn [copied_presence copied_val andb] in *. f_equal. f_equal.
      destruct (y_explicit f) eqn:He; [reflexivity|]. destruct (Hd eq_refl) as [D _]. rewrite D in *. cbn [orb] in *. unfold tidy_field in Hn. cbn [orb] in Hn.
      rewrite andb_true_r in Hn. apply Bool.eqb_prop in Hn. exact (eq_sym Hn).
    - injection H as <-. cbn [fst snd] in *.
      assert (E1 : forall s0, exists z, typed_slot (typed E) f l s0 -> value f l s0 = FInt z).
      { intros s0. destruct (value f l s0) eqn:Ev; eauto; exists 0; intros T0; exfalso; revert Ev; unfold value; rewrite Hk; (destruct (y_explicit f && negb (has_value f l s0)) eqn:Ha; [discriminate|]); apply not_default_has in Ha; kinds T0 Hk; destruct (T0 Ha) as [->|[z ->]]; discriminate. }
      set (s' := (fst s, _)). assert (Hh : has_value f l s' = has_value f l s) by reflexivity.
      assert (Hv : value f l s' = value f l s).
      { unfold value. rewrite Hk, Hh. destruct (y_explicit f && negb (has_value f l s)) eqn:Ha; [reflexivity|]. apply not_default_has in Ha. kinds Ts Hk.
        subst s'. cbn [snd]. assert (W : match y_oneof f with None => true | Some _ => (fst s =? 0) || (fst s =? l_ordinal l) end = true).
        { destruct (y_oneof f) as [o|]; [|reflexivity]. rewrite Hx in Ha by discriminate. destruct Ha as [Ha|Ha]; [|discriminate]. unfold has_value, has_word in Ha. rewrite Hr in Ha. rewrite Ha. apply orb_true_r. }
        rewrite W. destruct (Ts Ha) as [->|[z ->]]; reflexivity. }
      unfold is_present, see. rewrite Hh, Hv, Hk. destruct (E1 s) as [z Ev]. rewrite (Ev Ts). reflexivity.
    - destruct (value_bytes _ _ _ _ Ts Hk) as [b Ev]. rewrite Ev in H. unfold see in *. rewrite Ev in *. unfold is_present in *. rewrite Ev, Hk in *. destruct (has_value f l s) eqn:Hh; injection H as <-.
      + assert (E2 : value f l (l_ordinal l, CBytes b) = FBytes b) by (unfold value; rewrite Hk, has_ordinal, andb_false_r by exact Hr; reflexivity).
        rewrite E2, has_ordinal by exact Hr. reflexivity.
      + unfold reset_bytes. rewrite has_zero by exact Ho. cbn [andb copied_presence copied_val].
        assert (E2 : value f l (0, match snd d with CBytes _ => CBytes [] | c => c end) = FBytes b).
        { unfold value. rewrite Hk, has_zero by exact Ho. unfold value in Ev. rewrite Hk, Hh in Ev. cbn [negb] in *. rewrite andb_true_r in *. destruct (y_explicit f) eqn:He; [exact Ev|].
          unfold tidy_field in Hn. cbn [orb andb] in Hn. destruct b as [|x b]; [|discriminate]. kinds Td Hk. cbn [snd]. destruct (Td (or_intror He)) as [->|[b' ->]]; reflexivity. }
        rewrite E2. reflexivity.
    - destruct (has_value f l s) eqn:Hh.
      + destruct (value_msg_has _ _ _ _ _ Ts Hk Hh) as (m & Ev & T). rewrite Ev in H. destruct (clone ty (new_message (E ty)) m) as [z|] eqn:Hz; [|discriminate]. injection H as <-.
        assert (E2 : value f l (l_ordinal l, CMsg z) = FMsg z) by (unfold value; rewrite Hk, has_ordinal by exact Hr; reflexivity).
        unfold is_present, see. rewrite Hk, Hh, has_ordinal, E2, Ev by exact Hr. destruct n as [|n]; [reflexivity|]. cbn [copied_presence copied_val]. f_equal. f_equal.
        refine (proj2 (G _ _ _ _ (new_typed E ty HE) T Hz) _ n). intros k. specialize (Hti (S k)). unfold see in Hti. rewrite Ev, Hk in Hti. apply andb_prop in Hti. exact (proj2 Hti).
      + injection H as <-. assert (E1 : value f l s = FNone) by (unfold value; rewrite Hk, Hh; reflexivity).
        unfold clear_slot. assert (E2 : value f l (0, snd d) = FNone) by (unfold value; rewrite Hk, has_zero by exact Ho; reflexivity).
        unfold is_present, see. rewrite Hk, Hh, has_zero, E1, E2 by exact Ho. reflexivity.
    - destruct (value_ints _ _ _ _ Ts Hk) as (x & Ev & Hlen). rewrite Ev in H. injection H as <-. unfold is_present, see. rewrite Hk, Ev. unfold has_value, has_word. rewrite Hr, !andb_true_r.
      destruct (Z.eqb_spec (fst s) 0) as [Hz|Hz].
      + unfold clear_slot. unfold value. rewrite Hk. cbn [fst Z.eqb]. rewrite Hz. destruct x; [reflexivity|cbn [length] in Hlen; lia].
      + unfold value. rewrite Hk. cbn [fst snd]. rewrite Hlen. destruct (Z.eqb_spec (fst s) 0); [lia|]. rewrite <- Hlen, Nat2Z.id, firstn_all. reflexivity.
    - destruct (value_strs _ _ _ _ Ts Hk) as (x & Ev & Hlen). rewrite Ev in H. injection H as <-. unfold is_present, see. rewrite Hk, Ev. unfold has_value, has_word. rewrite Hr, !andb_true_r.
      destruct (Z.eqb_spec (fst s) 0) as [Hz|Hz].
      + unfold clear_slot. unfold value. rewrite Hk. cbn [fst Z.eqb]. rewrite Hz. destruct x; [reflexivity|cbn [length] in Hlen; lia].
      + unfold value. rewrite Hk. cbn [fst snd]. rewrite Hlen. destruct (Z.eqb_spec (fst s) 0); [lia|]. rewrite <- Hlen, Nat2Z.id, firstn_all. reflexivity.
    - destruct (value_msgs_all _ _ _ _ _ Ts Hk) as (x & Ev & Hlen & T). destruct (value_msgs_all _ _ _ _ _ Td Hk) as (y & Ed & _ & Ty). rewrite Ev, Ed in H.
      destruct (clone_list _ _ y x) as [z|] eqn:Hz; [|discriminate]. injection H as <-. destruct (clone_list_good _ _ G HE _ _ _ Ty T Hz) as (L1 & L2 & L3).
      assert (E2 : value f l (Z.of_nat (length z), CMsgs z) = FMsgs z).
      { unfold value. rewrite Hk. cbn [fst snd]. destruct z as [|a z]; [reflexivity|]. destruct (Z.eqb_spec (Z.of_nat (length (a :: z))) 0) as [Q|Q]; [cbn [length] in Q; lia|]. rewrite Nat2Z.id, firstn_all. reflexivity. }
      unfold is_present, see. rewrite Hk, Ev, E2. unfold has_value, has_word. rewrite Hr. cbn [fst]. rewrite L1, Hlen. destruct n as [|n]; [reflexivity|]. cbn [copied_presence copied_val]. f_equal.
      f_equal. apply L3. rewrite Forall_forall. intros m Hm k. specialize (Hti (S k)). unfold see in Hti. rewrite Ev, Hk in Hti. apply andb_prop in Hti. destruct Hti as [_ Hti]. cbn [tidy_val] in Hti.
      rewrite forallb_forall in Hti. exact (Hti _ (in_map _ _ _ Hm)).
  Qed.

  Lemma single_made : env_single E -> env_made E.
  Proof. intros H ty. destruct (H ty) as (count & fs & M & _). eauto. Qed.

  Lemma clone_good fuel : env_single E -> good_clone (clone_message E fuel).
  Proof.
    intros HE. pose proof (single_made HE) as HM. induction fuel as [|fuel IH]; intros ty dst src r Td Ts H; cbn [clone_message] in H; [discriminate|].
    destruct (HE ty) as (count & fs & M & Hs). destruct (single_slots _ _ _ M Hs) as [N Hn]. rewrite Hn, firstn_all in H.
    destruct Td as [ty dst Hld Td]. destruct Ts as [ty src Hls Ts].
    assert (B : Forall (fun fl : dynf * layout => (l_slot (snd fl) < length dst)%nat) (t_fields (E ty))).
    { rewrite Forall_forall. intros [f l] Hin. destruct (in_field _ _ _ Hin) as [i Hi]. rewrite Hld. eapply slot_bound; eauto. }
    destruct (clone_fields_each _ _ _ _ _ _ N B H) as (L1 & L2 & _).
    assert (Side : forall f l, In (f, l) (t_fields (E ty)) -> (repeated f = false -> 1 <= l_ordinal l) /\ (y_oneof f <> None -> y_explicit f = true) /\ (y_explicit f = false -> y_dint f = 0 /\ y_dbytes f = [])).
    { intros f l Hin. destruct (in_field _ _ _ Hin) as [i Hi]. split; [intros Hr; eapply ordinal_pos; eauto|]. destruct (made_field _ _ _ _ _ _ M Hi) as (_ & _ & _ & Hf & _).
      destruct M as (_ & F & _). unfold fields_valid in F. rewrite Forall_forall in F. destruct (F f (nth_error_In _ _ Hf)) as [F1 F2]. split; [|exact F2].
      intros Q. destruct (y_oneof f) as [o|]; [exact (F1 o eq_refl)|congruence]. }
    split.
    - constructor; [congruence|]. intros f l Hin. destruct (Side f l Hin) as (S1 & S2 & S3). exact (clone_field_typed _ _ _ _ _ _ IH HM S1 S2 (Td f l Hin) (Ts f l Hin) (L2 f l Hin)).
    - intros Hti n. rewrite !view_entries. unfold copied. rewrite map_map. apply map_ext_in. intros [f l] Hin. cbn [fst snd]. destruct (Side f l Hin) as (S1 & S2 & S3).
      refine (clone_field_entry _ _ _ _ _ _ _ IH HM S1 S2 S3 (Td f l Hin) (Ts f l Hin) _ (L2 f l Hin)). intros k. specialize (Hti k). rewrite view_entries in Hti. unfold tidy in Hti.
      rewrite forallb_forall in Hti. exact (Hti _ (in_map (fun fl => entry k (fst fl) (snd fl) (slot_at src (snd fl))) _ _ Hin)).
  Qed.

  (** *** Cloning ends *)
  Fixpoint depth (c : content) : nat :=
    match c with
    | CMsg m => S (fold_right (fun s a => Nat.max (depth (snd s)) a) O m)
    | CMsgs x => S (fold_right (fun m b => Nat.max (fold_right (fun s a => Nat.max (depth (snd s)) a) O m) b) O x)
    | _ => O
    end.
  Definition mdepth (m : list slot) : nat := fold_right (fun s a => Nat.max (depth (snd s)) a) O m.

  Lemma mdepth_in (s : slot) m : In s m -> (depth (snd s) <= mdepth m)%nat.
  Proof. induction m as [|x m IH]; intros H; [contradiction|]. cbn [mdepth fold_right]. destruct H as [->|H]; [lia|]. specialize (IH H). unfold mdepth in IH. lia. Qed.
  Lemma mdepth_at m l : (depth (snd (slot_at m l)) <= mdepth m)%nat.
  Proof. unfold slot_at. destruct (Nat.lt_ge_cases (l_slot l) (length m)) as [H|H]; [apply mdepth_in, nth_In; exact H|]. rewrite nth_overflow by exact H. cbn. lia. Qed.
  Lemma msgs_depth (m : list slot) x : In m x -> (mdepth m < depth (CMsgs x))%nat.
  Proof. induction x as [|y x IH]; intros H; [contradiction|]. cbn [depth fold_right] in *. destruct H as [->|H]; [unfold mdepth; lia|]. specialize (IH H). lia. Qed.

  Lemma clone_list_ends {A B} (g : A -> B -> option A) new src : (forall x y, In y src -> exists z, g x y = Some z) -> forall dst, exists r, clone_list g new dst src = Some r.
  Proof.
    induction src as [|y ys IH]; intros H dst; cbn [clone_list]; [eauto|]. destruct (match dst with [] => (new, []) | x :: xs => (x, xs) end) as [x xs].
    destruct (H x y (or_introl eq_refl)) as [z ->]. destruct (IH (fun a b Hb => H a b (or_intror Hb)) xs) as [zs ->]. eauto.
  Qed.

  Lemma In_firstn {A} n (l : list A) x : In x (firstn n l) -> In x l.
  Proof. revert n. induction l as [|y l IH]; intros [|n] H; cbn in *; try contradiction. destruct H; eauto. Qed.

  Lemma clone_field_ends clone f l d s : (forall ty dst m, (mdepth m < depth (snd s))%nat -> exists r, clone ty dst m = Some r) -> exists r, clone_field E clone f l d s = Some r.
  Proof.
    intros H. unfold clone_field. destruct (y_kind f) as [| | |ty| | |ty] eqn:Hk; eauto.
    - destruct (has_value f l s); eauto.
    - destruct (has_value f l s) eqn:Hh; eauto. unfold value. rewrite Hk, Hh. destruct (snd s) as [| | |m| | | |] eqn:Hc; eauto.
      destruct (H ty (new_message (E ty)) m) as [r ->]; [cbn [depth]; unfold mdepth; lia|eauto].
    - destruct (value f l s) as [| | | | |x| |] eqn:Ev; eauto.
      destruct (clone_list_ends (clone ty) (new_message (E ty)) x) with (dst := match value f l d with FMsgs y => y | _ => [] end) as [r ->]; [|eauto].
      intros a b Hb. apply H. unfold value in Ev. rewrite Hk in Ev. destruct (fst s =? 0); [injection Ev as <-; contradiction|]. destruct (snd s) as [| | | | | |y|]; try discriminate. injection Ev as <-.
      apply msgs_depth. eapply In_firstn; eauto.
  Qed.

  Lemma clone_ends fuel : forall ty dst src, (mdepth src < fuel)%nat -> exists r, clone_message E fuel ty dst src = Some r.
  Proof.
    induction fuel as [|fuel IH]; intros ty dst src H; [lia|]. cbn [clone_message]. generalize (firstn (t_slots (E ty)) (t_fields (E ty))) as fs. intros fs. revert dst. induction fs as [|[f l] fs IHf]; intros dst; cbn [clone_fields]; [eauto|].
    destruct (clone_field_ends (clone_message E fuel) f l (slot_at dst l) (slot_at src l)) as [r ->]; [|apply IHf].
    intros ty' d m Hm. apply IH. pose proof (mdepth_at src l). lia.
  Qed.
End CloneMain.

(** Induction over what is seen. *)
Fixpoint dval_rec' (P : dval -> Prop) (HM : forall m, (forall x, In x m -> P (snd x)) -> P (VMsg m)) (HL : forall l, (forall m x, In m l -> In x m -> P (snd x)) -> P (VMsgs l))
  (HO : forall v, (forall m, v <> VMsg m) -> (forall l, v <> VMsgs l) -> P v) (v : dval) : P v :=
  let inner := fix inner (m : list (bool * bool * dval)) : forall x, In x m -> P (snd x) :=
    match m with
    | [] => fun x H => match H with end
    | y :: r => fun x H => match H with or_introl e => match e in _ = z return P (snd z) with eq_refl => dval_rec' P HM HL HO (snd y) end | or_intror H => inner r x H end
    end in
  match v return P v with
  | VMsg m => HM m (inner m)
  | VMsgs l => HL l ((fix outer (l : list (list (bool * bool * dval))) : forall m x, In m l -> In x m -> P (snd x) :=
      match l with
      | [] => fun m x H _ => match H with end
      | y :: r => fun m x H => match H with or_introl e => match e in _ = z return In x z -> P (snd x) with eq_refl => inner y x end | or_intror H => outer r m x H end
      end) l)
  | VInt z => HO (VInt z) ltac:(discriminate) ltac:(discriminate)
  | VEnum z => HO (VEnum z) ltac:(discriminate) ltac:(discriminate)
  | VBytes z => HO (VBytes z) ltac:(discriminate) ltac:(discriminate)
  | VInts z => HO (VInts z) ltac:(discriminate) ltac:(discriminate)
  | VStrs z => HO (VStrs z) ltac:(discriminate) ltac:(discriminate)
  | VNone => HO VNone ltac:(discriminate) ltac:(discriminate)
  | VUndef => HO VUndef ltac:(discriminate) ltac:(discriminate)
  | VDeep => HO VDeep ltac:(discriminate) ltac:(discriminate)
  end.

Lemma copied_entries m : (forall x, In x m -> all_set_val (snd x) = true -> copied_val (snd x) = snd x) -> all_set m = true -> copied m = m.
Proof.
  unfold all_set, copied. intros H K. rewrite forallb_forall in K. rewrite <- (map_id m) at 2. apply map_ext_in. intros [[e p] v] Hin. specialize (K _ Hin). specialize (H _ Hin). cbn [fst snd] in *.
  apply andb_prop in K. destruct K as [K1 K2]. rewrite (H K2). f_equal. f_equal. unfold copied_presence, set_field_seen in *. destruct v; try reflexivity. destruct e, p; try reflexivity; discriminate.
Qed.

Lemma copied_all_set_val v : all_set_val v = true -> copied_val v = v.
Proof.
  induction v as [m IH|l IH|v N1 N2] using dval_rec'.
  - cbn [all_set_val copied_val]. intros H. f_equal. exact (copied_entries m IH H).
  - cbn [all_set_val copied_val]. intros H. f_equal. rewrite forallb_forall in H. rewrite <- (map_id l) at 2. apply map_ext_in. intros m Hm. exact (copied_entries m (fun x => IH m x Hm) (H m Hm)).
  - destruct v; try reflexivity; [congruence|congruence].
Qed.

Lemma copied_all_set m : all_set m = true -> copied m = m.
Proof. apply copied_entries. intros x _. apply copied_all_set_val. Qed.

(** *** Setting a message field *)
Lemma set_message_shows E fuel ty l src s s' f : env_single E -> y_kind f = KMsg ty -> typed_slot (typed E) f l s -> typed E ty src -> (forall n, tidy (view E n ty src) = true) ->
  set_message E fuel ty l src s = Some s' -> exists m, value f l s' = FMsg m /\ has_value f l s' = true /\ forall n, view E n ty m = copied (view E n ty src).
Proof.
  intros HE Hk Ts T Hti H. unfold set_message in H. match type of H with match clone_message _ _ _ ?d _ with _ => _ end = _ => set (dd := d) in H end.
  assert (Td : typed E ty dd).
  { subst dd. destruct (fst s =? l_ordinal l) eqn:Hw; [|apply new_typed, single_made; exact HE]. assert (Hh : has_value f l s = true) by (unfold has_value, has_word, repeated; rewrite Hk; exact Hw).
    kinds Ts Hk. rewrite C. congruence. }
  destruct (clone_message E fuel ty dd src) as [r|] eqn:Hc; [|discriminate]. injection H as <-. exists r.
  assert (Hr : repeated f = false) by (unfold repeated; rewrite Hk; reflexivity).
  split; [unfold value; rewrite Hk, has_ordinal by exact Hr; reflexivity|]. split; [apply has_ordinal; exact Hr|]. exact (proj2 (clone_good E fuel HE _ _ _ _ Td T Hc) Hti).
Qed.

(** *** Tidy messages *)
Lemma tidy_fields E n ty m : (forall f l, In (f, l) (t_fields (E ty)) -> tidy_entry (entry E n f l (slot_at m l)) = true) <-> tidy (view E n ty m) = true.
Proof.
  rewrite view_entries. unfold tidy. rewrite forallb_forall. split.
  - intros H x Hx. apply in_map_iff in Hx. destruct Hx as ([f l] & <- & Hin). exact (H f l Hin).
  - intros H f l Hin. exact (H _ (in_map (fun fl => entry E n (fst fl) (snd fl) (slot_at m (snd fl))) _ _ Hin)).
Qed.

(** An absent field with its default value is tidy. *)
Lemma tidy_absent E n f l s : has_value f l s = false -> value f l s = default_value f -> (y_explicit f = false -> y_dint f = 0 /\ y_dbytes f = []) -> tidy_entry (entry E n f l s) = true.
Proof.
  intros Hh Hv Hd. unfold tidy_entry, entry, see, is_present. cbn [fst snd]. rewrite Hh, Hv. unfold default_value. cbn [andb].
  destruct (y_kind f); destruct (y_explicit f) eqn:He; try (destruct (Hd eq_refl) as [D1 D2]; rewrite ?D1, ?D2); try reflexivity; destruct n; reflexivity.
Qed.

Lemma made_side count fs t i f l : made count fs t -> field t i = Some (f, l) -> (y_explicit f = false -> y_dint f = 0 /\ y_dbytes f = []).
Proof.
  intros M Hi. destruct (made_field _ _ _ _ _ _ M Hi) as (_ & _ & _ & Hf & _). destruct M as (_ & F & _). unfold fields_valid in F. rewrite Forall_forall in F. apply (F f (nth_error_In _ _ Hf)).
Qed.

Lemma new_tidy E n ty : env_made E -> tidy (view E n ty (new_message (E ty))) = true.
Proof.
  intros HE. apply tidy_fields. intros f l Hin. destruct (in_field _ _ _ Hin) as [i Hi]. destruct (HE ty) as (count & fs & M).
  pose proof (new_look _ _ _ _ _ _ M Hi) as L. unfold look in L. rewrite Hi in L. injection L as L1 L2. apply tidy_absent; auto. eapply made_side; eauto.
Qed.

Lemma set_tidy E n ty i v m m' : env_made E -> length m = t_slots (E ty) -> tidy (view E n ty m) = true -> set_field (E ty) i v m = Some m' -> tidy (view E n ty m') = true.
Proof.
  intros HE Hm Ht H. apply tidy_fields. intros g k Hin. destruct (in_field _ _ _ Hin) as [j Hj]. destruct (HE ty) as (count & fs & M). pose proof (proj2 (tidy_fields E n ty m) Ht g k Hin) as Hold.
  pose proof H as H'. unfold set_field in H'. destruct (field (E ty) i) as [[f l]|] eqn:Hi; [|discriminate]. destruct (set_slot f l v (slot_at m l)) as [s|] eqn:Hs; [|discriminate]. injection H' as <-.
  destruct (Nat.eq_dec (l_slot l) (l_slot k)) as [Heq|Hne]; [|unfold slot_at; rewrite put_other by exact Hne; exact Hold].
  destruct (Nat.eq_dec j i) as [->|Hij].
  - assert (f = g /\ l = k) as [-> ->] by (split; congruence). destruct (set_same _ _ _ _ _ _ _ M Hm H) as [L _]. unfold look in L. rewrite Hi in L. injection L as L1 L2.
    unfold tidy_entry, entry, see, is_present. cbn [fst snd]. rewrite L1, L2. pose proof (set_slot_accepts _ _ _ _ _ Hs) as Ha. unfold tidy_field.
    destruct (y_explicit g) eqn:He; [destruct (y_kind g), v; try discriminate; reflexivity|]. destruct (made_side _ _ _ _ _ _ M Hi He) as [D1 D2]. rewrite D1, D2. cbn [orb].
    destruct (y_kind g), v as [z|b|x|x]; try discriminate; cbn [input_value input_present andb tidy_val]; try reflexivity.
    + rewrite Bool.eqb_reflx. reflexivity.
    + destruct b as [|a b]; [destruct (list_eq_dec Z.eq_dec [] []); [reflexivity|congruence]|]. destruct (list_eq_dec Z.eq_dec (a :: b) []); [discriminate|reflexivity].
  - assert (A : alternatives (dfields fs) i j) by (destruct (proj1 (made_share _ _ _ _ _ _ _ _ _ M Hi Hj) Heq); [congruence|assumption]).
    pose proof (set_alternative _ _ _ _ _ _ _ _ _ _ M Hm H Hj Hij A) as L. unfold look in L. rewrite Hj in L. injection L as L1 L2. apply tidy_absent; auto. eapply made_side; eauto.
Qed.
