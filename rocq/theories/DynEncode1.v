(** Facts about the layout of dynamic messages and the traversal of their fields. *)
Require Import Verif.Bits Verif.Varint Verif.DynSlots Verif.Dyn Verif.Schema Verif.Archive Verif.Decode Verif.Encode Verif.DynWire.
Require Import Verif.DynSlotsProofs Verif.DecodeSafe Verif.EncodeProofs Verif.DynView.

(** ** Layout *)
Definition same_oneof (f g : wfield) : Prop := exists o, w_oneof f = Some o /\ w_oneof g = Some o.
Definition compat (a b : wfield * layout) : Prop :=
  (same_oneof (fst a) (fst b) -> l_slot (snd a) = l_slot (snd b) /\ l_ordinal (snd a) <> l_ordinal (snd b)) /\
  (~ same_oneof (fst a) (fst b) -> l_slot (snd a) <> l_slot (snd b)).
Definition entry_ok (slots : nat) (a : wfield * layout) : Prop :=
  wfield_ok (fst a) /\ (forall o, w_oneof (fst a) = Some o -> w_rep (fst a) = None) /\ (l_slot (snd a) < slots)%nat /\
  (w_rep (fst a) = None -> 1 <= l_ordinal (snd a)).

Lemma fop_nth {T} (R : T -> T -> Prop) l : (forall i j x y, (i < j)%nat -> nth_error l i = Some x -> nth_error l j = Some y -> R x y) -> ForallOrdPairs R l.
Proof.
  induction l as [|a l IH]; intros H; [constructor|]. constructor.
  - apply Forall_forall. intros y Hy. apply In_nth_error in Hy. destruct Hy as [j Hj]. apply (H O (S j)); [lia|reflexivity|exact Hj].
  - apply IH. intros i j x y Hij Hi Hj. apply (H (S i) (S j)); [lia|exact Hi|exact Hj].
Qed.

Lemma nth_combine {A B} (l : list A) : forall (l' : list B) i a b, nth_error (combine l l') i = Some (a, b) -> nth_error l i = Some a /\ nth_error l' i = Some b.
Proof.
  induction l as [|x l IH]; intros [|y l'] [|i] a b H; try discriminate; cbn in *; [injection H as <- <-; auto|]. apply IH. exact H.
Qed.

Lemma wtype_layout t : wtype_ok t -> ForallOrdPairs compat (w_fields t) /\ Forall (entry_ok (w_slots t)) (w_fields t).
Proof.
  intros (count & fs & V & F & H). unfold wtype_of in H. set (ds := map _ fs) in *. destruct (slot_layout count ds) as [[ls n]|] eqn:Hl; [|discriminate]. injection H as <-. cbn [w_fields w_slots].
  destruct (laid_of _ _ _ _ V Hl) as (st & Hn & L).
  assert (Hone : forall i f, nth_error fs i = Some f -> nth_error ds i = Some (DField (w_oneof f) (is_rep f)) /\ oneof_at ds i = w_oneof f).
  { intros i f Hi. unfold ds, oneof_at. rewrite nth_error_map, Hi. auto. }
  split.
  - apply fop_nth. intros i j [f l] [g k] Hij Hi Hj. apply nth_combine in Hi, Hj. destruct Hi as [Hf Hl'], Hj as [Hg Hk]. destruct (Hone _ _ Hf) as [_ Of], (Hone _ _ Hg) as [_ Og].
    pose proof (la_share _ _ _ _ L i j l k Hl' Hk) as S. unfold compat, same_oneof. cbn [fst snd]. split.
    + intros (o & A & B). assert (Hal : alternatives ds i j) by (exists o; rewrite Of, Og; auto). split; [apply S; auto|].
      pose proof (la_bias _ _ _ _ L i j l k Hal Hl' Hk). destruct (la_oneof _ _ _ _ L i o l) as (K1 & _); [congruence|assumption|]. destruct (la_oneof _ _ _ _ L j o k) as (K2 & _); [congruence|assumption|]. lia.
    + intros N K. apply S in K. destruct K as [->|(o & A & B)]; [lia|]. apply N. exists o. split; congruence.
  - apply Forall_forall. intros [f l] Hin. apply In_nth_error in Hin. destruct Hin as [i Hi]. apply nth_combine in Hi. destruct Hi as [Hf Hl']. destruct (Hone _ _ Hf) as [Df Of].
    unfold entry_ok. cbn [fst snd]. rewrite Forall_forall in F. split; [apply F; eapply nth_error_In; eauto|]. split; [|split].
    + intros o Ho. unfold oneofs_valid in V. rewrite Forall_forall in V. destruct (V (DField (w_oneof f) (is_rep f))) with (o := o) as [_ K]; [eapply nth_error_In; eauto|exact Ho|].
      cbn in K. unfold is_rep in K. destruct (w_rep f); congruence.
    + pose proof (la_range _ _ _ _ L i l Hl'). congruence || lia.
    + intros Hr. destruct (w_oneof f) as [o|] eqn:Ho.
      * destruct (la_oneof _ _ _ _ L i o l) as (_ & _ & K); [congruence|assumption|lia].
      * destruct (la_plain _ _ _ _ L i _ l Df) as (K & _); [reflexivity|exact Hl'|]. cbn in K. unfold is_rep in K. rewrite Hr in K. lia.
Qed.

Lemma wty_ok W ty : wtypes_ok W -> wtype_ok (wty W ty).
Proof.
  intros H. unfold wty. destruct (nth_in_or_default ty W (WType [] 0 false)) as [K| ->].
  - unfold wtypes_ok in H. rewrite Forall_forall in H. auto.
  - exists O, []. split; [constructor|]. split; [constructor|]. reflexivity.
Qed.

Lemma desc_env W ty : desc_of (env_of W) ty = desc_of_wtype (wty W ty).
Proof. unfold desc_of, env_of, wty. change empty_desc with (desc_of_wtype (WType [] 0 false)). apply map_nth. Qed.

(** ** Fields and members *)
(** [D] walks over the fields and [E] over the members of the schema. *)
Section Walk.
  Context {X Y : Type} (R : X -> Y -> Prop) (opX : X -> X -> X) (opY : Y -> Y -> Y) (uX : X) (uY : Y) (nX : X) (nY : Y).
  Context (m : list slot) (rec : nat -> list slot -> val) (d : wfield -> layout -> X) (ef : Schema.field -> list val -> Y).
  Hypothesis Rop : forall x y x' y', R x y -> R x' y' -> R (opX x x') (opY y y').
  Hypothesis Ru : R uX uY.
  Hypothesis Rn : R nX nY.
  Hypothesis RuX : forall x y, R x y -> R (opX uX x) y.
  Hypothesis RuY : forall x y, R x (opY uY y) -> R x y.

  Fixpoint walkD (fs : list (wfield * layout)) : X :=
    match fs with
    | [] => nX
    | (f, l) :: t => opX (if present f l (slot_at m l) then d f l else uX) (walkD t)
    end.
  Fixpoint walkE (ms : list member) : Y :=
    match ms with
    | [] => nY
    | b :: t => opY (if omit (member_field b) (member_vals rec m b) then uY else ef (member_field b) (member_vals rec m b)) (walkE t)
    end.

  (** The field of a member, by itself and as an alternative. *)
  Definition walk_ok (fl : wfield * layout) : Prop :=
    let (f, l) := fl in
    match w_oneof f with
    | None => R (if present f l (slot_at m l) then d f l else uX)
                (if omit (member_field (MOne f l)) (member_vals rec m (MOne f l)) then uY else ef (member_field (MOne f l)) (member_vals rec m (MOne f l)))
    | Some _ =>
        w_rep f = None /\ present f l (slot_at m l) = has_value (dyn_of f) l (slot_at m l) /\
        (has_value (dyn_of f) l (slot_at m l) = true ->
         exists v, slot_vals rec f l (slot_at m l) = [v] /\
           forall alts i, nth_error alts i = Some (w_num f, w_elem f) -> R (d f l) (ef (Oneof alts) [VAlt i v]))
    end.

  Definition alts_of (g : list (wfield * layout)) : list (Z * elem) := map (fun fl => (w_num (fst fl), w_elem (fst fl))) g.

  (** Only the alternative matters. *)
  Hypothesis ef_alt : forall alts alts' i i' v, nth_error alts i = nth_error alts' i' -> ef (Oneof alts) [VAlt i v] = ef (Oneof alts') [VAlt i' v].

  Lemma group_cases g : Forall (fun fl => w_oneof (fst fl) <> None /\ walk_ok fl) g ->
    (Forall (fun fl => has_value (dyn_of (fst fl)) (snd fl) (slot_at m (snd fl)) = false) g /\ forall i, group_vals rec i g m = []) \/
    (exists j v, (forall i, group_vals rec i g m = [VAlt (i + j) v])).
  Proof.
    induction 1 as [|[f l] g [Ho Hw] _ IH]; [left; split; [constructor|reflexivity]|]. cbn [fst snd group_vals] in *. unfold walk_ok in Hw. destruct (w_oneof f) as [o|]; [|congruence]. destruct Hw as (_ & _ & Hw).
    destruct (has_value (dyn_of f) l (slot_at m l)) eqn:Hh.
    - right. destruct (Hw eq_refl) as (v & -> & _). exists O, v. intros i. rewrite Nat.add_0_r. reflexivity.
    - destruct IH as [[A B]|(j & v & B)].
      + left. split; [constructor; [exact Hh|exact A]|]. intros i. apply B.
      + right. exists (S j), v. intros i. rewrite B. f_equal. f_equal. lia.
  Qed.

  (** Members made of fields of one oneof only. *)
  Definition group_ok (b : member) : Prop :=
    match b with MOne _ _ => True | MGroup o g => Forall (fun fl => w_oneof (fst fl) = Some o /\ walk_ok fl) g end.
  Lemma members_ok fs : Forall walk_ok fs -> Forall group_ok (members_of fs).
  Proof.
    induction 1 as [|[f l] fs Hf _ IH]; [constructor|]. cbn [members_of]. destruct (w_oneof f) as [o|] eqn:Ho; [|constructor; [exact I|exact IH]].
    assert (H1 : group_ok (MGroup o [(f, l)])) by (constructor; [split; [exact Ho|exact Hf]|constructor]).
    destruct (members_of fs) as [|[f' l'|o' g] r]; [constructor; auto|constructor; auto|]. destruct (Nat.eqb_spec o o') as [->|]; [|constructor; auto].
    inversion IH as [|? ? Hg Hr]; subst. constructor; [|exact Hr]. constructor; [split; [exact Ho|exact Hf]|exact Hg].
  Qed.

  (** The first member contains fields of the list only. *)
  Lemma head_group fs o g r : members_of fs = MGroup o g :: r -> forall fl, In fl g -> In fl fs.
  Proof.
    destruct fs as [|[f l] fs]; [discriminate|]. revert f l o g r. induction fs as [|[f' l'] fs IH]; intros f l o g r.
    - cbn. destruct (w_oneof f); intros H; inversion H; subst. intros fl [<-|[]]. left. reflexivity.
    - intros H. change (members_of ((f, l) :: (f', l') :: fs)) with
        (match w_oneof f with None => MOne f l :: members_of ((f', l') :: fs) | Some o => match members_of ((f', l') :: fs) with
          | MGroup o' g :: r => if Nat.eqb o o' then MGroup o ((f, l) :: g) :: r else MGroup o [(f, l)] :: MGroup o' g :: r | r => MGroup o [(f, l)] :: r end end) in H.
      destruct (w_oneof f) as [o1|]; [|discriminate]. destruct (members_of ((f', l') :: fs)) as [|[|o2 g2] r2] eqn:E.
      + inversion H; subst. intros fl [<-|[]]. left. reflexivity.
      + inversion H; subst. intros fl [<-|[]]. left. reflexivity.
      + specialize (IH _ _ _ _ _ E). destruct (Nat.eqb o1 o2); inversion H; subst; intros fl [<-|K]; try (left; reflexivity); [right; auto|destruct K].
  Qed.

  Lemma walk fs : ForallOrdPairs compat fs -> Forall walk_ok fs -> R (walkD fs) (walkE (members_of fs)).
  Proof.
    intros C Hw. induction fs as [|[f l] fs IH]; [exact Rn|]. inversion C as [|? ? Cf Cr]; subst. inversion Hw as [|? ? Hf Hr]; subst. specialize (IH Cr Hr).
    pose proof (members_ok _ Hr) as MO. pose proof (head_group fs) as HG. cbn [walkD members_of]. unfold walk_ok in Hf. destruct (w_oneof f) as [o|] eqn:Ho.
    2:{ cbn [walkE]. apply Rop; [exact Hf|exact IH]. }
    destruct Hf as (Hnr & Hp & Hv). rewrite Hp.
    assert (Hsingle : R (opX (if has_value (dyn_of f) l (slot_at m l) then d f l else uX) (walkD fs)) (walkE (MGroup o [(f, l)] :: members_of fs))).
    { cbn [walkE member_vals group_vals member_field]. apply Rop; [|exact IH]. destruct (has_value (dyn_of f) l (slot_at m l)) eqn:Hh; [|exact Ru].
      destruct (Hv eq_refl) as (v & -> & K). cbn [map omit]. apply K. reflexivity. }
    destruct (members_of fs) as [|[f' l'|o' g] r]; [exact Hsingle|exact Hsingle|]. destruct (Nat.eqb_spec o o') as [<-|Hne]; [|exact Hsingle]. clear Hsingle.
    inversion MO as [|? ? Hg _]; subst. cbn [group_ok] in Hg.
    assert (Hg' : Forall (fun fl => w_oneof (fst fl) <> None /\ walk_ok fl) g) by (eapply Forall_impl; [|exact Hg]; cbn; intros a [A B]; split; [congruence|exact B]).
    cbn [walkE member_vals group_vals member_field map] in *. destruct (has_value (dyn_of f) l (slot_at m l)) eqn:Hh.
    - destruct (Hv eq_refl) as (v & -> & K). cbn [map omit fst]. apply Rop; [apply K; reflexivity|].
      assert (G0 : forall g i, Forall (fun fl => In fl fs /\ w_oneof (fst fl) = Some o /\ w_rep (fst fl) = None) g -> group_vals rec i g m = []).
      { clear - Cf Ho Hh Hnr. induction g as [|[f1 l1] g IH]; intros i H; [reflexivity|]. inversion H as [|? ? [H1 [H2 H4]] H3]; subst. cbn [group_vals fst] in *.
        rewrite Forall_forall in Cf. destruct (Cf _ H1) as [Cs _]. cbn [fst snd] in Cs. destruct Cs as [S1 S2]; [exists o; auto|]. rewrite (IH (S i) H3).
        unfold slot_at in *. rewrite <- S1. unfold has_value, has_word, repeated, dyn_of, is_rep in *. cbn [y_kind] in *. rewrite H4, Hnr in *.
        assert (R1 : forall e, repeated_kind (kind_of e false) = false) by (intros []; reflexivity). rewrite R1 in *. apply Z.eqb_eq in Hh. rewrite (proj2 (Z.eqb_neq _ _)) by congruence. reflexivity. }
      specialize (G0 g O). rewrite G0 in IH.
      2:{ apply Forall_forall. intros [f1 l1] Hin. rewrite Forall_forall in Hg. destruct (Hg _ Hin) as [K1 K2]. split; [eapply HG; eauto|]. split; [exact K1|]. unfold walk_ok in K2. cbn [fst] in *. rewrite K1 in K2. apply K2. }
      cbn [omit] in IH. apply RuY. exact IH.
    - apply RuX. destruct (group_cases g Hg') as [[_ B]|(j & v & B)].
      + rewrite B in *. cbn [omit] in *. exact IH.
      + rewrite B in *. cbn [omit] in *. rewrite (ef_alt _ (alts_of g) _ (0 + j)); [exact IH|]. unfold alts_of. change (1 + j)%nat with (S j). reflexivity.
  Qed.
End Walk.
