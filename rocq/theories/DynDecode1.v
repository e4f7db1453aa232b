(** The members of the schema of a dynamic message: slots and lookup by number. *)
Require Import Verif.Bits Verif.Varint Verif.DynSlots Verif.Dyn Verif.Schema Verif.Archive Verif.Decode Verif.Encode Verif.DynWire.
Require Import Verif.DynSlotsProofs Verif.DecodeSafe Verif.EncodeProofs Verif.DynView Verif.DynEncode1 Verif.DynDecode.

Definition mfields (b : member) : list (wfield * layout) := match b with MOne f l => [(f, l)] | MGroup _ g => g end.
Definition mwf (b : member) : Prop :=
  match b with MOne f _ => w_oneof f = None | MGroup o g => g <> [] /\ Forall (fun fl => w_oneof (fst fl) = Some o) g end.

Lemma members_fields fs : flat_map mfields (members_of fs) = fs.
Proof.
  induction fs as [|[f l] t IH]; [reflexivity|]. cbn [members_of]. destruct (w_oneof f) as [o|]; [|cbn; rewrite IH; reflexivity].
  destruct (members_of t) as [|[f' l'|o' g] r]; cbn in *; try (rewrite IH; reflexivity). destruct (Nat.eqb o o'); cbn; rewrite IH; reflexivity.
Qed.
Lemma members_wf fs : Forall mwf (members_of fs).
Proof.
  induction fs as [|[f l] t IH]; [constructor|]. cbn [members_of]. destruct (w_oneof f) as [o|] eqn:Ho; [|constructor; [exact Ho|exact IH]].
  assert (H1 : mwf (MGroup o [(f, l)])) by (split; [discriminate|constructor; [exact Ho|constructor]]).
  destruct (members_of t) as [|[f' l'|o' g] r]; try (constructor; auto). destruct (Nat.eqb_spec o o') as [->|]; [|constructor; auto].
  inversion IH as [|? ? Hg Hr]; subst. destruct Hg as [_ Hg]. constructor; [|exact Hr]. split; [discriminate|]. constructor; [exact Ho|exact Hg].
Qed.

(** ** Oneofs are one member each *)
Definition not_same (a b : member) : Prop := match a, b with MGroup o _, MGroup o' _ => o <> o' | _, _ => True end.
Definition next_to (fs : list (wfield * layout)) : Prop :=
  contiguous (map (fun fl => DField (w_oneof (fst fl)) (is_rep (fst fl))) fs).
Lemma next_tail a fs : next_to (a :: fs) -> next_to fs.
Proof. intros H i j k o Hl Hi Hk. apply (H (S i) (S j) (S k) o); [lia|exact Hi|exact Hk]. Qed.
Lemma next_head f l t o x : next_to ((f, l) :: t) -> w_oneof f = Some o -> In x t -> w_oneof (fst x) = Some o -> exists y r, t = y :: r /\ w_oneof (fst y) = Some o.
Proof.
  intros H Ho Hx Hxo. destruct t as [|y r]; [destruct Hx|]. exists y, r. split; [reflexivity|]. destruct Hx as [->|Hx]; [exact Hxo|].
  apply In_nth_error in Hx. destruct Hx as [k Hk]. specialize (H 0 1 (S (S k)) o)%nat. unfold oneof_at in H. cbn [nth_error map d_oneof fst] in H. apply H; [lia|exact Ho|]. rewrite (map_nth_error _ _ _ Hk). exact Hxo.
Qed.
Lemma members_head y r o : w_oneof (fst y) = Some o -> exists g ms, members_of (y :: r) = MGroup o (y :: g) :: ms.
Proof.
  destruct y as [f l]. cbn [fst members_of]. intros ->. destruct (members_of r) as [|[f' l'|o' g] ms]; eauto. destruct (Nat.eqb_spec o o') as [->|]; eauto.
Qed.
Lemma members_apart fs : next_to fs -> ForallOrdPairs not_same (members_of fs).
Proof.
  induction fs as [|[f l] t IH]; intros H; [constructor|]. specialize (IH (next_tail _ _ H)). cbn [members_of]. destruct (w_oneof f) as [o|] eqn:Ho; [|constructor; [apply Forall_forall; intros; exact I|exact IH]].
  destruct (existsb (fun x => match w_oneof (fst x) with Some o' => Nat.eqb o o' | None => false end) t) eqn:Hex.
  - apply existsb_exists in Hex. destruct Hex as (x & Hx & Hxo). destruct (w_oneof (fst x)) as [o'|] eqn:Eo; [|discriminate]. apply Nat.eqb_eq in Hxo. subst o'.
    destruct (next_head _ _ _ _ _ H Ho Hx Eo) as (y & r & -> & Hy). destruct (members_head _ r _ Hy) as (g & ms & E). rewrite E in *. rewrite Nat.eqb_refl.
    inversion IH as [|? ? H1 H2]; subst. constructor; [|exact H2]. revert H1. apply Forall_impl. intros [|]; cbn; auto.
  - assert (Hno : Forall (not_same (MGroup o [(f, l)])) (members_of t)).
    { apply Forall_forall. intros b Hb. destruct b as [|o' g]; [exact I|]. cbn. intros <-. pose proof (members_wf t) as Hw. rewrite Forall_forall in Hw. specialize (Hw _ Hb). destruct Hw as [Hg Hw].
      destruct g as [|x g]; [congruence|]. inversion Hw as [|? ? Hx _]; subst. assert (Hin : In x t) by (rewrite <- (members_fields t); apply in_flat_map; exists (MGroup o (x :: g)); split; [exact Hb|left; reflexivity]).
      assert (existsb (fun x => match w_oneof (fst x) with Some o' => Nat.eqb o o' | None => false end) t = true) by (apply existsb_exists; exists x; split; [exact Hin|]; rewrite Hx; apply Nat.eqb_refl). congruence. }
    destruct (members_of t) as [|[f' l'|o' g] ms]; try (constructor; assumption). inversion Hno as [|? ? H1 _]; subst. cbn in H1.
    destruct (Nat.eqb_spec o o') as [|Hne]; [congruence|]. constructor; assumption.
Qed.

(** ** Members have their own slots *)
Lemma next_wtype t : wtype_ok t -> next_to (w_fields t).
Proof.
  intros (count & fs & V & _ & H). unfold wtype_of in H. destruct (slot_layout count _) as [[ls n]|] eqn:Hl; [|discriminate]. injection H as <-. cbn [w_fields].
  assert (C : contiguous (map (fun f => DField (w_oneof f) (is_rep f)) fs)) by (apply (accepted_iff count); eauto).
  assert (Hlen : length ls = length fs) by (destruct (slots_used _ _ _ _ V Hl) as [K _]; rewrite K, map_length; reflexivity).
  unfold next_to. replace (map _ (combine fs ls)) with (map (fun f => DField (w_oneof f) (is_rep f)) fs); [exact C|].
  clear -Hlen. revert ls Hlen. induction fs as [|f fs IH]; intros [|l ls] Hlen; try discriminate; [reflexivity|]. cbn. f_equal. apply IH. injection Hlen as Hlen. exact Hlen.
Qed.
Lemma fop_app {T} (R : T -> T -> Prop) a b : ForallOrdPairs R (a ++ b) -> ForallOrdPairs R a /\ ForallOrdPairs R b /\ forall x y, In x a -> In y b -> R x y.
Proof.
  induction a as [|h a IH]; cbn; intros H; [split; [constructor|]; split; [exact H|]; intros x y []|]. inversion H as [|? ? H1 H2]; subst. destruct (IH H2) as (A & B & C). apply Forall_app in H1. destruct H1 as [H1 H3].
  split; [constructor; assumption|]. split; [exact B|]. intros x y [<-|Hx] Hy; [|auto]. rewrite Forall_forall in H3. auto.
Qed.
Definition apart (a b : member) : Prop := forall x y, In x (mfields a) -> In y (mfields b) -> l_slot (snd x) <> l_slot (snd y).
Lemma slots_apart t : wtype_ok t -> ForallOrdPairs apart (members_of (w_fields t)).
Proof.
  intros H. pose proof (members_apart _ (next_wtype t H)) as N. pose proof (members_wf (w_fields t)) as Hw. destruct (wtype_layout t H) as [C _].
  rewrite <- (members_fields (w_fields t)) in C. revert N Hw C. generalize (members_of (w_fields t)). induction 1 as [|a ms Ha _ IH]; intros Hw C; [constructor|]. cbn [flat_map] in C. apply fop_app in C. destruct C as (_ & C & D).
  inversion Hw as [|? ? Hwa Hwm]; subst. constructor; [|apply IH; assumption]. apply Forall_forall. intros b Hb x y Hx Hy.
  assert (K : compat x y) by (apply D; [exact Hx|]; apply in_flat_map; exists b; auto). apply K. intros (o & Ho & Ho').
  rewrite Forall_forall in Ha, Hwm. specialize (Ha _ Hb). specialize (Hwm _ Hb). destruct a as [f l|o1 g]; cbn in Hwa, Hx; [destruct Hx as [<-|[]]; cbn in Ho; congruence|].
  destruct b as [f' l'|o2 g']; cbn in Hwm, Hy; [destruct Hy as [<-|[]]; cbn in Ho'; congruence|]. cbn in Ha. destruct Hwa as [_ Hwa]. destruct Hwm as [_ Hwm]. rewrite Forall_forall in Hwa, Hwm. specialize (Hwa _ Hx). specialize (Hwm _ Hy). congruence.
Qed.
Lemma apart_sym a b : apart a b -> apart b a.
Proof. intros H x y Hx Hy K. exact (H y x Hy Hx (eq_sym K)). Qed.
Lemma fop_index {T} (R : T -> T -> Prop) l : (forall x y, R x y -> R y x) -> ForallOrdPairs R l -> forall i j x y, i <> j -> nth_error l i = Some x -> nth_error l j = Some y -> R x y.
Proof.
  intros Hs. induction 1 as [|a l Ha _ IH]; intros i j x y Hij Hi Hj; [destruct i; discriminate|]. rewrite Forall_forall in Ha.
  destruct i as [|i], j as [|j]; cbn in Hi, Hj; [congruence| | |].
  - injection Hi as <-. apply Ha. eapply nth_error_In; eauto.
  - injection Hj as <-. apply Hs, Ha. eapply nth_error_In; eauto.
  - eapply (IH i j); eauto.
Qed.

(** The alternatives of a oneof share a slot and are told apart by their ordinals. *)
Lemma group_slots t o g : wtype_ok t -> In (MGroup o g) (members_of (w_fields t)) ->
  ForallOrdPairs (fun a b => l_slot (snd a) = l_slot (snd b) /\ l_ordinal (snd a) <> l_ordinal (snd b)) g.
Proof.
  intros H Hin. destruct (wtype_layout t H) as [C _]. pose proof (members_wf (w_fields t)) as Hw. rewrite Forall_forall in Hw. specialize (Hw _ Hin). cbn in Hw. destruct Hw as [_ Hw].
  assert (Cg : ForallOrdPairs compat g).
  { rewrite <- (members_fields (w_fields t)) in C. clear -C Hin. induction (members_of (w_fields t)) as [|b ms IH]; [destruct Hin|]. cbn [flat_map] in C. apply fop_app in C. destruct C as (C1 & C2 & _). destruct Hin as [->|Hin]; [exact C1|auto]. }
  clear -Cg Hw. induction Cg as [|a g Ha _ IH]; [constructor|]. inversion Hw as [|? ? H1 H2]; subst. constructor; [|auto]. rewrite Forall_forall in *. intros b Hb. apply (Ha _ Hb). exists o. auto.
Qed.

(** ** Lookup *)
Lemma find_app {T} (p : T -> bool) a b : find p (a ++ b) = match find p a with Some x => Some x | None => find p b end.
Proof. induction a as [|h a IH]; [reflexivity|]. cbn. destruct (p h); auto. Qed.
Lemma find_none {T} (p : T -> bool) l : find p l = None <-> existsb p l = false.
Proof. induction l as [|h l IH]; cbn; [tauto|]. destruct (p h); cbn; [split; discriminate|exact IH]. Qed.
Definition numbered (n : Z) (fl : wfield * layout) : bool := w_num (fst fl) =? n.
Lemma has_num_member n b : has_num n (member_field b) = existsb (numbered n) (mfields b).
Proof.
  destruct b as [f l|o g]; cbn; [rewrite orb_false_r; reflexivity|]. induction g as [|[f l] g IH]; [reflexivity|]. cbn in *. rewrite IH. reflexivity.
Qed.
Lemma find_alt_group n g i : find_alt n (alts_of g) i =
  match find (numbered n) g with Some (f, _) => match find_alt n (alts_of g) i with Some (j, _) => Some (j, w_elem f) | None => None end | None => None end.
Proof.
  revert i. induction g as [|[f l] g IH]; intros i; [reflexivity|]. cbn [alts_of map find_alt find numbered fst]. unfold numbered at 1; cbn [fst]. destruct (w_num f =? n); [reflexivity|]. exact (IH (S i)).
Qed.
Lemma find_alt_at n g i f l : find (numbered n) g = Some (f, l) -> exists j, find_alt n (alts_of g) i = Some (i + j, w_elem f)%nat /\ nth_error g j = Some (f, l).
Proof.
  revert i. induction g as [|[f' l'] g IH]; intros i; [discriminate|]. cbn [alts_of map find_alt find fst]. unfold numbered at 1; cbn [fst]. destruct (w_num f' =? n).
  - intros [= -> ->]. exists O. rewrite Nat.add_0_r. auto.
  - intros H. destruct (IH (S i) H) as (j & Hj & Hn). exists (S j). rewrite Nat.add_succ_r. auto.
Qed.
(** The member responsible for a number has the field with the number. *)
Lemma lookup n ms i :
  match find (numbered n) (flat_map mfields ms) with
  | None => find_field n (map member_field ms) i = None
  | Some (f, l) => exists j b, find_field n (map member_field ms) i = Some (i + j, member_field b)%nat /\ nth_error ms j = Some b /\ find (numbered n) (mfields b) = Some (f, l)
  end.
Proof.
  revert i. induction ms as [|b ms IH]; intros i; [reflexivity|]. cbn [flat_map map find_field]. rewrite find_app, has_num_member. destruct (find (numbered n) (mfields b)) as [[f l]|] eqn:Hf.
  - assert (existsb (numbered n) (mfields b) = true) as ->. { destruct (existsb _ _) eqn:E; [reflexivity|]. apply find_none in E. congruence. }
    exists O, b. rewrite Nat.add_0_r. auto.
  - rewrite (proj1 (find_none _ _) Hf). specialize (IH (S i)). destruct (find (numbered n) (flat_map mfields ms)) as [[f l]|]; [|exact IH].
    destruct IH as (j & b' & H1 & H2 & H3). exists (S j), b'. rewrite Nat.add_succ_r. auto.
Qed.
Lemma lookup_type n t :
  match by_number n t with
  | None => find_field n (m_fields (desc_of_wtype t)) 0 = None
  | Some (f, l) => exists j b, find_field n (m_fields (desc_of_wtype t)) 0 = Some (j, member_field b) /\ nth_error (members_of (w_fields t)) j = Some b /\ find (numbered n) (mfields b) = Some (f, l)
  end.
Proof. pose proof (lookup n (members_of (w_fields t)) 0) as H. rewrite members_fields in H. exact H. Qed.

(** ** Slots *)
Lemma put_length m i s : length (put m i s) = length m.
Proof. revert i. induction m as [|x m IH]; intros [|i]; cbn; congruence || auto. Qed.
Lemma put_same m i s : (i < length m)%nat -> nth i (put m i s) zero_slot = s.
Proof. revert i. induction m as [|x m IH]; intros [|i] H; cbn in *; try lia; [reflexivity|]. apply IH. lia. Qed.
Lemma put_other m i j s : i <> j -> nth j (put m i s) zero_slot = nth j m zero_slot.
Proof. revert i j. induction m as [|x m IH]; intros [|i] [|j] H; cbn; try reflexivity; try lia. apply IH. lia. Qed.
Lemma set_nth_at i x l : (i < length l)%nat -> forall j, nth_error (set_nth i x l) j = if Nat.eqb j i then Some x else nth_error l j.
Proof.
  revert l. induction i as [|i IH]; intros [|y l] H j; cbn in H; try lia; cbn [set_nth].
  - destruct j; reflexivity.
  - destruct j as [|j]; [reflexivity|]. cbn. apply IH. lia.
Qed.
Lemma set_nth_len i x l : (i < length l)%nat -> length (set_nth i x l) = length l.
Proof. revert l. induction i as [|i IH]; intros [|y l] H; cbn in *; try lia. rewrite IH; lia. Qed.
