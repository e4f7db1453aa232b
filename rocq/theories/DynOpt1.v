(** Reading back what was written with the options of DynOpt. *)
Require Import Verif.Bits Verif.Varint.
Require Import Verif.DynSlots Verif.Dyn Verif.Schema Verif.Archive Verif.Decode Verif.Encode Verif.DynWire Verif.DynDecode Verif.DynView Verif.DynEncode1 Verif.DynDecode1 Verif.DynEncode3 Verif.DynDecode3.
Require Import Verif.DynJson Verif.DynJsonSpec Verif.DynJson1 Verif.DynJson2 Verif.DynJson3 Verif.DynJson4 Verif.DynJson5 Verif.DynJson6 Verif.DynOpt Verif.DynOptSpec.

Section Slots.
  Context (W : list wtype).
  Hypothesis HW : wtypes_ok W.
  Context (rec : nat -> list slot -> list slot -> Prop) (ty : nat) (m0 : list slot).
  (** A number without presence that is absent and zero *)
  Definition zeroed (f : wfield) (l : layout) : Prop :=
    has (f, l) m0 = false /\ w_explicit f = false /\ w_rep f = None /\ not_message f /\ value (dyn_of f) l (slot_at m0 l) = FInt 0 /\ match w_elem f with EVar _ | EBool | EFix _ _ => True | _ => False end.
  Definition inv2 (done : list (wfield * layout)) (m : list slot) : Prop :=
    length m = w_slots (wty W ty) /\
    (forall f l, In (f, l) done -> In (f, l) (w_fields (wty W ty)) /\ (has (f, l) m0 = true \/ zeroed f l) /\ back rec f l (slot_at m0 l) (slot_at m l)) /\
    (forall i, (forall f l, In (f, l) done -> l_slot l <> i) -> fst (nth i m zero_slot) = 0).
  Lemma own_slot a b : compat a b \/ compat b a -> w_oneof (fst a) = None \/ w_oneof (fst b) = None -> l_slot (snd a) <> l_slot (snd b).
  Proof.
    intros [[_ C]|[_ C]] Ho E; apply C; try congruence; intros (o & A & B); destruct Ho; congruence.
  Qed.
  Lemma oneof_explicit f l : In (f, l) (w_fields (wty W ty)) -> w_explicit f = false -> w_oneof f = None.
  Proof. intros Hf E. destruct (field_in W HW _ _ _ Hf) as ((_ & K & _) & _). cbn [fst] in K. destruct (w_oneof f) as [o|]; [|reflexivity]. rewrite (K o eq_refl) in E. discriminate. Qed.
  Lemma oneof_rep f l p : In (f, l) (w_fields (wty W ty)) -> w_rep f = Some p -> w_oneof f = None.
  Proof. intros Hf E. destruct (field_in W HW _ _ _ Hf) as (_ & K & _). cbn [fst] in K. destruct (w_oneof f) as [o|]; [|reflexivity]. rewrite (K o eq_refl) in E. discriminate. Qed.
  Lemma differ2 done m f l : inv2 done m -> In (f, l) (w_fields (wty W ty)) -> has (f, l) m0 = true \/ w_oneof f = None -> apart_from done (f, l) -> forall f' l', In (f', l') done -> l_slot l' <> l_slot l.
  Proof.
    intros (_ & I & _) Hf Hh A f' l' Hd E. destruct (I _ _ Hd) as (Hf' & Hh' & _).
    destruct Hh as [Hh|Ho]; [|exact (own_slot (f', l') (f, l) (A _ Hd) (or_intror Ho) E)].
    destruct Hh' as [Hh'|(_ & Ex & _)]; [|exact (own_slot (f', l') (f, l) (A _ Hd) (or_introl (oneof_explicit f' l' Hf' Ex)) E)].
    destruct (share W HW ty (f', l') (f, l) Hf' Hf (A _ Hd) E) as (R1 & R2 & N). cbn [fst snd] in *.
    unfold has in Hh, Hh'. cbn [fst snd] in *. rewrite single_word in Hh, Hh' by assumption. unfold slot_at in *. rewrite E in Hh'. lia.
  Qed.
  Lemma free2 done m f l : inv2 done m -> In (f, l) (w_fields (wty W ty)) -> has (f, l) m0 = true \/ w_oneof f = None -> apart_from done (f, l) -> fst (slot_at m l) = 0.
  Proof. intros I Hf Hh A. pose proof (differ2 done m f l I Hf Hh A) as D. destruct I as (I1 & I2 & I3). apply I3. exact D. Qed.
  Lemma step2 done m f l s : inv2 done m -> In (f, l) (w_fields (wty W ty)) -> has (f, l) m0 = true \/ zeroed f l -> apart_from done (f, l) -> back rec f l (slot_at m0 l) s ->
    inv2 ((f, l) :: done) (put m (l_slot l) s).
  Proof.
    intros I Hf Hh A B. assert (Hh2 : has (f, l) m0 = true \/ w_oneof f = None) by (destruct Hh as [Hh|(_ & Ex & _)]; [left; exact Hh|right; exact (oneof_explicit f l Hf Ex)]).
    pose proof (differ2 done m f l I Hf Hh2 A) as D. destruct I as (I1 & I2 & I3). destruct (field_in W HW _ _ _ Hf) as (_ & _ & L & _). cbn [snd] in L.
    assert (S : slot_at (put m (l_slot l) s) l = s) by (unfold slot_at; apply put_same; lia).
    split; [rewrite put_length; exact I1|]. split.
    - intros f' l' [[= <- <-]|Hd]; [rewrite S; auto|]. destruct (I2 _ _ Hd) as (K1 & K2 & K3). split; [exact K1|]. split; [exact K2|].
      unfold slot_at at 2. rewrite put_other by (intros E; apply (D _ _ Hd); congruence). exact K3.
    - intros i Hi. rewrite put_other by (apply (Hi f l); left; reflexivity). apply I3. intros f' l' Hd. apply (Hi f' l'). right. exact Hd.
  Qed.
  Lemma zero2 done m f l s : inv2 done m -> In (f, l) (w_fields (wty W ty)) -> w_oneof f = None -> apart_from done (f, l) -> fst s = 0 -> inv2 done (put m (l_slot l) s).
  Proof.
    intros I Hf Ho A Hs. pose proof (differ2 done m f l I Hf (or_intror Ho) A) as D. destruct I as (I1 & I2 & I3). destruct (field_in W HW _ _ _ Hf) as (_ & _ & L & _). cbn [snd] in L.
    split; [rewrite put_length; exact I1|]. split.
    - intros f' l' Hd. destruct (I2 _ _ Hd) as (K1 & K2 & K3). split; [exact K1|]. split; [exact K2|]. unfold slot_at at 2. rewrite put_other by (intros E; apply (D _ _ Hd); congruence). exact K3.
    - intros j Hj. destruct (Nat.eq_dec (l_slot l) j) as [<-|N]; [rewrite put_same by lia; exact Hs|]. rewrite put_other by exact N. apply I3. exact Hj.
  Qed.
  Lemma new2 : inv2 [] (new_slots W ty).
  Proof. destruct (inv_new W rec ty m0) as (A & B & C). split; [exact A|]. split; [intros f l []|exact C]. Qed.
  Lemma zero_default e v : match e with EVar _ | EBool | EFix _ _ => True | _ => False end -> v = VInt 0 -> is_default e v (VInt 0) = true.
  Proof. intros He ->. destruct e as [| |[] []| | |]; try contradiction; reflexivity. Qed.
  Lemma done2 n done m : rec = same W n -> inv2 done m -> (forall f l, In (f, l) (w_fields (wty W ty)) -> has (f, l) m0 = true -> In (f, l) done) -> same W (S n) ty m0 m.
  Proof.
    intros Er (I1 & I2 & I3) C. cbn [same]. rewrite <- Er. split; [exact I1|]. apply Forall_forall. intros [f l] Hf. cbn [fst snd].
    destruct (has (f, l) m0) eqn:Hh.
    - destruct (I2 _ _ (C _ _ Hf Hh)) as (_ & _ & B). apply back_same; [exact Hh|exact B].
    - pose proof Hh as Hh0. unfold has in Hh. cbn [fst snd] in Hh.
      assert (N : present f l (slot_at m l) = false).
      { destruct (existsb (fun x => (l_slot (snd x) =? l_slot l)%nat) done) eqn:E.
        - apply existsb_exists in E. destruct E as ([f' l'] & Hd & E). cbn [snd] in E. apply Nat.eqb_eq in E. destruct (I2 _ _ Hd) as (Hf' & Hh' & B).
          destruct (wtype_layout _ (wty_ok W ty HW)) as [FOP _]. destruct (ForallOrdPairs_In FOP _ _ Hf' Hf) as [K|K].
          + injection K as -> ->. destruct Hh' as [Hh'|(_ & Ex & R & Nm & V & Hn)]; [congruence|]. destruct B as [_ B]. destruct (field_in W HW _ _ _ Hf) as ((_ & _ & _ & Dz) & _). cbn [fst] in Dz. destruct (Dz Ex) as [Dz1 _].
            unfold present. rewrite Ex. unfold is_rep. rewrite R. unfold single. rewrite V in B.
            assert (V' : value (dyn_of f) l (slot_at m l) = FInt 0) by (destruct (w_elem f); try contradiction; symmetry; exact B). rewrite V'.
            assert (D : w_default f = VInt 0) by (unfold w_default; destruct (w_elem f); try contradiction; rewrite Dz1; reflexivity).
            rewrite (zero_default _ _ Hn D). destruct (w_elem f); try contradiction; cbn; rewrite andb_false_r; reflexivity.
          + unfold present. apply andb_false_intro1.
            destruct Hh' as [Hh'|(_ & Ex & _)]; [|destruct (own_slot (f', l') (f, l) K (or_introl (oneof_explicit f' l' Hf' Ex)) E)].
            destruct (share W HW ty (f', l') (f, l) Hf' Hf K E) as (R1 & R2 & Nq). cbn [fst snd] in *. destruct B as [B _]. rewrite single_word in B |- * by assumption. unfold slot_at in *. rewrite E in B. lia.
        - unfold present. apply andb_false_intro1. apply (zero_absent W HW ty); [exact Hf|]. apply I3. intros f' l' Hd K. assert (X : existsb (fun x => (l_slot (snd x) =? l_slot l)%nat) done = true) by (apply existsb_exists; exists (f', l'); split; [exact Hd|apply Nat.eqb_eq; exact K]). congruence. }
      unfold same_slot. rewrite N. unfold present. rewrite Hh. cbn [andb]. split; [reflexivity|discriminate].
  Qed.
End Slots.
