(** Slots filled while a message is read back, and the fields that fill them. *)
Require Import Verif.Bits Verif.Varint Verif.FieldMaskProofs.
Require Import Verif.DynSlots Verif.Dyn Verif.Schema Verif.Archive Verif.Decode Verif.Encode Verif.DynWire Verif.DynDecode Verif.DynView Verif.DynEncode1 Verif.DynDecode1 Verif.DynEncode3 Verif.DynDecode3 Verif.DynJson Verif.DynJsonSpec Verif.DynJson1.

Section Slots.
  Context (W : list wtype).
  Hypothesis HW : wtypes_ok W.

  Lemma field_in ty f l : In (f, l) (w_fields (wty W ty)) -> entry_ok (w_slots (wty W ty)) (f, l).
  Proof. intros H. destruct (wtype_layout _ (wty_ok W ty HW)) as [_ F]. rewrite Forall_forall in F. apply (F _ H). Qed.
  Lemma zero_absent ty f l s : In (f, l) (w_fields (wty W ty)) -> fst s = 0 -> has_value (dyn_of f) l s = false.
  Proof.
    intros H E. destruct (field_in _ _ _ H) as (_ & _ & _ & K). cbn [fst snd] in K. unfold has_value, has_word. rewrite E. unfold repeated, dyn_of. cbn [y_kind].
    destruct (repeated_kind _) eqn:R; [reflexivity|]. destruct (w_rep f) eqn:Rf; [unfold is_rep in R; rewrite Rf in R; destruct (w_elem f); discriminate R|]. specialize (K eq_refl). apply Z.eqb_neq. lia.
  Qed.
  Lemma single_word f l s : w_rep f = None -> has_value (dyn_of f) l s = (fst s =? l_ordinal l).
  Proof. intros R. unfold has_value, has_word, repeated, dyn_of, is_rep. cbn [y_kind]. rewrite R. destruct (w_elem f); reflexivity. Qed.
  Lemma rep_word f l s p : w_rep f = Some p -> has_value (dyn_of f) l s = (0 <? fst s).
  Proof. intros R. unfold has_value, has_word, repeated, dyn_of, is_rep. cbn [y_kind]. rewrite R. destruct (w_elem f); reflexivity. Qed.
  Lemma share ty a b : In a (w_fields (wty W ty)) -> In b (w_fields (wty W ty)) -> compat a b \/ compat b a -> l_slot (snd a) = l_slot (snd b) ->
    w_rep (fst a) = None /\ w_rep (fst b) = None /\ l_ordinal (snd a) <> l_ordinal (snd b).
  Proof.
    assert (D : forall a b, compat a b -> In a (w_fields (wty W ty)) -> In b (w_fields (wty W ty)) -> l_slot (snd a) = l_slot (snd b) -> w_rep (fst a) = None /\ w_rep (fst b) = None /\ l_ordinal (snd a) <> l_ordinal (snd b)).
    { intros [f l] [g k] [C1 C2] Ha Hb E. cbn [fst snd] in *. destruct (field_in _ _ _ Ha) as (_ & Ra & _), (field_in _ _ _ Hb) as (_ & Rb & _). cbn [fst snd] in *.
      destruct (w_oneof f) as [o|] eqn:Of; [destruct (w_oneof g) as [o'|] eqn:Og; [destruct (Nat.eq_dec o o') as [->|N]|]|].
      - split; [eauto|]. split; [eauto|]. apply C1. exists o'. auto.
      - exfalso. apply C2; [|exact E]. intros (x & A & B). congruence.
      - exfalso. apply C2; [|exact E]. intros (x & A & B). congruence.
      - exfalso. apply C2; [|exact E]. intros (x & A & B). congruence. }
    intros Ha Hb [C|C] E; [apply D; assumption|]. destruct (D b a C Hb Ha (eq_sym E)) as (A & B & N). auto.
  Qed.

  (** A field has got back its value. *)
  Definition back (rec : nat -> list slot -> list slot -> Prop) (f : wfield) (l : layout) (s s' : slot) : Prop :=
    has_value (dyn_of f) l s' = true /\
    match w_elem f, value (dyn_of f) l s, value (dyn_of f) l s' with
    | EMsg ty _, FMsg m, FMsg m' => rec ty m m'
    | EMsg ty _, FMsgs x, FMsgs x' => Forall2 (rec ty) x x'
    | EMsg _ _, _, _ => False
    | _, v, v' => v = v'
    end.
  Lemma back_same rec f l s s' : has_value (dyn_of f) l s = true -> back rec f l s s' -> same_slot rec f l s s'.
  Proof.
    intros H (H' & B). unfold same_slot. split; [|intros _; exact B]. unfold present, single. rewrite H, H'. destruct (w_elem f); try (rewrite B; reflexivity). rewrite !orb_true_r. reflexivity.
  Qed.

  Section Inv.
    Context (rec : nat -> list slot -> list slot -> Prop) (ty : nat) (m0 : list slot).
    Definition inv (done : list (wfield * layout)) (m : list slot) : Prop :=
      length m = w_slots (wty W ty) /\
      (forall f l, In (f, l) done -> In (f, l) (w_fields (wty W ty)) /\ has (f, l) m0 = true /\ back rec f l (slot_at m0 l) (slot_at m l)) /\
      (forall i, (forall f l, In (f, l) done -> l_slot l <> i) -> fst (nth i m zero_slot) = 0).
    Definition apart_from (done : list (wfield * layout)) (x : wfield * layout) : Prop := forall y, In y done -> compat y x \/ compat x y.

    Lemma inv_new : inv [] (new_slots W ty).
    Proof.
      split; [apply repeat_length|]. split; [intros f l []|]. intros i _. unfold new_slots. destruct (Nat.lt_ge_cases i (w_slots (wty W ty))) as [H|H]; [rewrite nth_repeat; reflexivity|rewrite nth_overflow; [reflexivity|rewrite repeat_length; lia]].
    Qed.
    Lemma slots_differ done m f l : inv done m -> In (f, l) (w_fields (wty W ty)) -> has (f, l) m0 = true -> apart_from done (f, l) -> forall f' l', In (f', l') done -> l_slot l' <> l_slot l.
    Proof.
      intros (_ & I & _) Hf Hh A f' l' Hd E. destruct (I _ _ Hd) as (Hf' & Hh' & _). destruct (share ty (f', l') (f, l) Hf' Hf (A _ Hd) E) as (R1 & R2 & N). cbn [fst snd] in *.
      unfold has in Hh, Hh'. cbn [fst snd] in *. rewrite single_word in Hh, Hh' by assumption. unfold slot_at in *. rewrite E in Hh'. lia.
    Qed.
    Lemma inv_free done m f l : inv done m -> In (f, l) (w_fields (wty W ty)) -> has (f, l) m0 = true -> apart_from done (f, l) -> fst (slot_at m l) = 0.
    Proof. intros I Hf Hh A. destruct I as (I1 & I2 & I3). apply I3. apply (slots_differ done m f l); auto. repeat split; try assumption; apply I2; assumption. Qed.
    Lemma inv_step done m f l s : inv done m -> In (f, l) (w_fields (wty W ty)) -> has (f, l) m0 = true -> apart_from done (f, l) -> back rec f l (slot_at m0 l) s ->
      inv ((f, l) :: done) (put m (l_slot l) s).
    Proof.
      intros I Hf Hh A B. pose proof (slots_differ done m f l I Hf Hh A) as D. destruct I as (I1 & I2 & I3). destruct (field_in _ _ _ Hf) as (_ & _ & L & _). cbn [snd] in L.
      assert (S : slot_at (put m (l_slot l) s) l = s) by (unfold slot_at; apply put_same; lia).
      split; [rewrite put_length; exact I1|]. split.
      - intros f' l' [[= <- <-]|Hd]; [rewrite S; auto|]. destruct (I2 _ _ Hd) as (K1 & K2 & K3). split; [exact K1|]. split; [exact K2|].
        unfold slot_at at 2. rewrite put_other by (intros E; apply (D _ _ Hd); congruence). exact K3.
      - intros i Hi. rewrite put_other by (apply (Hi f l); left; reflexivity). apply I3. intros f' l' Hd. apply (Hi f' l'). right. exact Hd.
    Qed.
    Lemma inv_zero done m i s : inv done m -> (forall f l, In (f, l) done -> l_slot l <> i) -> (i < w_slots (wty W ty))%nat -> fst s = 0 -> inv done (put m i s).
    Proof.
      intros (I1 & I2 & I3) D L Hs. split; [rewrite put_length; exact I1|]. split.
      - intros f l Hd. destruct (I2 _ _ Hd) as (K1 & K2 & K3). split; [exact K1|]. split; [exact K2|]. unfold slot_at at 2. rewrite put_other by (intros E; apply (D _ _ Hd); congruence). exact K3.
      - intros j Hj. destruct (Nat.eq_dec i j) as [<-|N]; [rewrite put_same by lia; exact Hs|]. rewrite put_other by exact N. apply I3. exact Hj.
    Qed.
    Lemma inv_done n done m : rec = same W n -> inv done m -> (forall f l, In (f, l) (w_fields (wty W ty)) -> has (f, l) m0 = true -> In (f, l) done) -> same W (S n) ty m0 m.
    Proof.
      intros Er (I1 & I2 & I3) C. cbn [same]. rewrite <- Er. split; [exact I1|]. apply Forall_forall. intros [f l] Hf. cbn [fst snd].
      destruct (has (f, l) m0) eqn:Hh.
      - destruct (I2 _ _ (C _ _ Hf Hh)) as (_ & _ & B). apply back_same; [exact Hh|exact B].
      - unfold has in Hh. cbn [fst snd] in Hh.
        assert (N : has_value (dyn_of f) l (slot_at m l) = false).
        { destruct (existsb (fun x => (l_slot (snd x) =? l_slot l)%nat) done) eqn:E.
          - apply existsb_exists in E. destruct E as ([f' l'] & Hd & E). cbn [snd] in E. apply Nat.eqb_eq in E. destruct (I2 _ _ Hd) as (Hf' & Hh' & B & _).
            destruct (wtype_layout _ (wty_ok W ty HW)) as [FOP _]. destruct (ForallOrdPairs_In FOP _ _ Hf' Hf) as [K|K]; [injection K as -> ->; unfold has in Hh'; cbn [fst snd] in Hh'; congruence|].
            destruct (share ty (f', l') (f, l) Hf' Hf K E) as (R1 & R2 & Nq). cbn [fst snd] in *. rewrite single_word in B |- * by assumption. unfold slot_at in *. rewrite E in B. lia.
          - apply (zero_absent ty); [exact Hf|]. apply I3. intros f' l' Hd K. assert (X : existsb (fun x => (l_slot (snd x) =? l_slot l)%nat) done = true) by (apply existsb_exists; exists (f', l'); split; [exact Hd|apply Nat.eqb_eq; exact K]). congruence. }
        unfold same_slot, present. rewrite Hh, N. cbn [andb]. split; [reflexivity|discriminate].
    Qed.
  End Inv.
End Slots.

Section Fields.
  Context (W : list wtype) (J : list jtype) (utf8_ok : bytes -> bool) (le : bool) (fshow : bool -> Z -> bytes) (fparse : bool -> bytes -> option Z).
  Hypothesis HW : wtypes_ok W.
  Hypothesis HJ : jtypes_ok W J.
  Notation write_field := (write_field W le fshow).
  Notation read_into := (read_into W utf8_ok fparse).
  Notation read_field := (read_field W J utf8_ok fparse).
  Notation slot_printable := (slot_printable utf8_ok fshow fparse).
  Notation scalar_printable := (scalar_printable utf8_ok fshow fparse).

  (** What a message of a type is written as. *)
  Definition wrote (ty : nat) (ts : list tok) : Prop :=
    if w_entry (wty W ty) then exists p, ts = member p
    else exists j, ts = render j /\ (j = JNull -> known_of J ty = KValue) /\
      (known_of J ty = KStruct -> exists l, j = JObj l) /\ (known_of J ty = KListValue -> exists l, j = JArr l).
  Definition null_value (ty : nat) : list slot :=
    match w_fields (wty W ty) with (_, l0) :: _ => put (new_slots W ty) (l_slot l0) (l_ordinal l0, CInt 0) | [] => [] end.

  Section Rec.
    Context (n : nat) (Pr : nat -> list slot -> Prop) (recw : bool -> nat -> list slot -> res (list tok)) (recr : nat -> list slot -> list tok -> res (list slot * list tok)).
    Hypothesis RT : forall ty m ts, typed W n ty m -> Pr ty m -> recw false ty m = Ok ts ->
      wrote ty ts /\ (forall r, exists m', recr ty (new_slots W ty) (ts ++ r) = Ok (m', r) /\ same W n ty m m') /\
      (known_of J ty = KValue -> forall r, w_fields (wty W ty) <> [] /\ recr ty (new_slots W ty) (TNull :: r) = Ok (null_value ty, r)).

    Lemma wrote_item ty ts : wrote ty ts -> item (w_entry (wty W ty)) ts.
    Proof. unfold wrote, item. destruct (w_entry (wty W ty)); [auto|]. intros (j & -> & _). eauto. Qed.

    Lemma messages_back ty x ts : Forall (typed W n ty) x -> Forall (Pr ty) x -> write_messages W recw false ty x = Ok ts ->
      (exists j, ts = render j /\ (if w_entry (wty W ty) then exists l, j = JObj l else exists l, j = JArr l)) /\
      forall r, exists y, read_repeated (w_entry (wty W ty)) (recr ty (new_slots W ty)) (ts ++ r) = Ok (y, r) /\ Forall2 (same W n ty) x y.
    Proof.
      intros T P H. unfold write_messages in H.
      assert (A : exists xs, write_all recw false ty x = Ok xs).
      { destruct (write_all recw false ty x); try discriminate H. eauto. }
      destruct A as (xs & A). rewrite A in H. cbn [bind] in H. apply Ok_inj in H. subst ts.
      assert (F : Forall (item (w_entry (wty W ty))) xs /\ Forall2 (fun ts m => forall r, exists m', recr ty (new_slots W ty) (ts ++ r) = Ok (m', r) /\ same W n ty m m') xs x).
      { revert xs A. induction x as [|m x IH]; intros xs A; [apply Ok_inj in A; subst; split; constructor|]. inversion T; inversion P; subst. cbn [write_all] in A.
        destruct (recw false ty m) as [a| | | |] eqn:Ea; try discriminate A. destruct (write_all recw false ty x) as [b| | | |] eqn:Eb; try discriminate A. cbn [bind] in A. apply Ok_inj in A. subst xs.
        destruct (IH ltac:(assumption) ltac:(assumption) b eq_refl) as [F1 F2]. destruct (RT ty m a) as (R1 & R2 & _); [assumption|assumption|assumption|]. split; constructor; try assumption. apply wrote_item. exact R1. }
      destruct F as [F1 F2].
      assert (N : filter nonempty xs = xs).
      { clear - F1. induction F1 as [|a xs Ha _ IH]; [reflexivity|]. destruct (item_head _ _ Ha) as (t & u & -> & _). cbn [filter nonempty]. rewrite IH. reflexivity. }
      rewrite N. split.
      - destruct (w_entry (wty W ty)).
        + assert (K : exists l, xs = map (fun p => Str (fst p) :: Colon :: render (snd p)) l) by (clear - F1; induction F1 as [|a xs [p ->] _ [l ->]]; [exists []; reflexivity|exists (p :: l); reflexivity]).
          destruct K as (l & ->). exists (JObj l). split; [rewrite commas_separated; reflexivity|eauto].
        + assert (K : exists l, xs = map render l) by (clear - F1; induction F1 as [|a xs [p ->] _ [l ->]]; [exists []; reflexivity|exists (p :: l); reflexivity]).
          destruct K as (l & ->). exists (JArr l). split; [rewrite commas_separated; reflexivity|eauto].
      - intros r. apply (read_repeated_ok (w_entry (wty W ty)) _ (same W n ty) xs x F1 F2).
    Qed.

    (** The condition on scalars of the slot, for each of them. *)
    Lemma scalars_back jf e vs xs : NoDup (map fst (j_values jf)) -> ~ In [] (map fst (j_values jf)) -> Forall (fits e) vs -> Forall (scalar_printable jf e) vs -> write_scalars le fshow false jf e vs = Ok xs ->
      Forall (item false) xs /\ Forall2 (fun ts v => forall r, exists y, read_scalar utf8_ok fparse false jf e (ts ++ r) = Ok (y, r) /\ v = y) xs vs.
    Proof.
      intros Hd Hn. revert xs. induction vs as [|v vs IH]; intros xs F P H; [apply Ok_inj in H; subst; split; constructor|]. inversion F; inversion P; subst. cbn [write_scalars] in H.
      destruct (write_scalar le fshow false jf e v) as [a| | | |] eqn:Ea; try discriminate H. destruct (write_scalars le fshow false jf e vs) as [b| | | |] eqn:Eb; try discriminate H. cbn [bind] in H. apply Ok_inj in H. subst xs.
      destruct (IH b ltac:(assumption) ltac:(assumption) eq_refl) as [F1 F2]. destruct (scalar_back utf8_ok le fshow fparse jf e v a) as [(j & -> & _) R]; try assumption.
      split; constructor; try assumption; [exists j; reflexivity|]. intros r. exists v. split; [apply R|reflexivity].
    Qed.

    Lemma scalars_slot e vs : match e with EMsg _ _ => False | _ => True end -> Forall (fits e) vs -> forall f l, w_elem f = e -> is_rep f = true ->
      several f l (elems_slot e vs) = Ok vs.
    Proof.
      intros He F f l Ef Hr. unfold several, value, elems_slot, dyn_of. cbn [y_kind fst snd]. rewrite Ef, Hr.
      assert (L : forall T (x : list T), firstn (Z.to_nat (zlen x)) x = x) by (intros T x; unfold zlen; rewrite Nat2Z.id; apply firstn_all).
      assert (Z0 : zlen vs = 0 -> vs = []) by (unfold zlen; destruct vs; [auto|cbn; lia]).
      assert (I : forall e, (forall v, fits e v -> exists z, v = VInt z) -> Forall (fits e) vs -> map VInt (map int_of vs) = vs).
      { clear. intros e He F. induction F as [|v vs Hv _ IH]; [reflexivity|]. cbn [map]. rewrite IH. destruct (He v Hv) as (z & ->). reflexivity. }
      assert (B : forall u w, Forall (fits (EBytes u w)) vs -> map VBytes (map (fun v => match v with VBytes b => b | _ => [] end) vs) = vs).
      { clear. intros u w F. induction F as [|v vs Hv _ IH]; [reflexivity|]. cbn [map]. rewrite IH. destruct v; try contradiction. reflexivity. }
      destruct e as [t| |b fl|c|u vw|ty d]; try contradiction; cbn [kind_of];
        (destruct (Z.eqb_spec (zlen vs) 0) as [E|E]; [rewrite (Z0 E); reflexivity|]);
        try (replace (zlen vs) with (zlen (map int_of vs)) by (unfold zlen; rewrite map_length; reflexivity); rewrite L; f_equal; eapply I; [|exact F]; intros [z|b'| |] Hv; try contradiction; eauto).
      set (g := fun v : val => match v with VBytes b => b | _ => [] end) in *. replace (zlen vs) with (zlen (map g vs)) by (unfold zlen; rewrite map_length; reflexivity). rewrite L. f_equal. eapply B. exact F.
    Qed.

    Lemma Forall2_eq {T} (x y : list T) : Forall2 eq x y -> x = y.
    Proof. induction 1; congruence. Qed.
    Lemma scalar_field f l s v : w_rep f = None -> match w_elem f with EMsg _ _ => False | _ => True end -> single f l s = Ok v -> fits (w_elem f) v -> back (same W n) f l s (l_ordinal l, content_of v).
    Proof.
      intros Rf He V Fv. assert (H : has_value (dyn_of f) l (l_ordinal l, content_of v) = true) by (rewrite single_word by exact Rf; cbn [fst]; apply Z.eqb_refl).
      split; [exact H|]. assert (K : value (dyn_of f) l s = value (dyn_of f) l (l_ordinal l, content_of v)); [|destruct (w_elem f); try contradiction; exact K].
      transitivity (match v with VInt z => FInt z | VBytes b => FBytes b | _ => FUndef end).
      - unfold single in V. destruct (value (dyn_of f) l s); try discriminate V; apply Ok_inj in V; subst v; reflexivity.
      - unfold value. rewrite H. rewrite andb_false_r. unfold dyn_of, is_rep. cbn [y_kind snd]. rewrite Rf. destruct (w_elem f); try contradiction; destruct v; try contradiction; reflexivity.
    Qed.
    Lemma scalars_field f l s vs p : w_rep f = Some p -> match w_elem f with EMsg _ _ => False | _ => True end -> has_value (dyn_of f) l s = true -> slot_ok (typed W n) f l s -> several f l s = Ok vs -> Forall (fits (w_elem f)) vs ->
      back (same W n) f l s (elems_slot (w_elem f) vs).
    Proof.
      intros Rf He Hh Ho V Fv. assert (Hr : is_rep f = true) by (unfold is_rep; rewrite Rf; reflexivity). pose proof (scalars_slot (w_elem f) vs He Fv f l eq_refl Hr) as V'.
      specialize (Ho Hh). assert (L : fst s = zlen vs).
      { unfold several in V. destruct (value (dyn_of f) l s); try discriminate V; apply Ok_inj in V; subst vs; unfold zlen; rewrite map_length; destruct Ho; lia. }
      rewrite (rep_word f l s p Rf) in Hh. split; [rewrite (rep_word f l _ p Rf); unfold elems_slot; cbn [fst]; lia|].
      assert (K : value (dyn_of f) l s = value (dyn_of f) l (elems_slot (w_elem f) vs)); [|destruct (w_elem f); try contradiction; exact K].
      assert (Ki : forall x y : list Z, map VInt x = map VInt y -> x = y) by (induction x as [|a x IH]; intros [|b y]; cbn; try discriminate; try reflexivity; intros [= -> E]; f_equal; auto).
      assert (Kb : forall x y : list bytes, map VBytes x = map VBytes y -> x = y) by (induction x as [|a x IH]; intros [|b y]; cbn; try discriminate; try reflexivity; intros [= -> E]; f_equal; auto).
      assert (Ne : vs <> []) by (intros ->; unfold zlen in L; cbn in L; lia).
      unfold several in V, V'. destruct (value (dyn_of f) l s) as [| | |x|x| | |]; try discriminate V; destruct (value (dyn_of f) l (elems_slot (w_elem f) vs)) as [| | |y|y| | |]; try discriminate V'; apply Ok_inj in V, V'; rewrite <- V in V'.
      - f_equal. symmetry. apply Ki. exact V'.
      - exfalso. destruct x; [apply Ne; rewrite <- V; reflexivity|]. destruct y; discriminate V'.
      - exfalso. destruct x; [apply Ne; rewrite <- V; reflexivity|]. destruct y; discriminate V'.
      - f_equal. symmetry. apply Kb. exact V'.
    Qed.

    Definition not_message (f : wfield) : Prop := match w_elem f with EMsg _ _ => False | _ => True end.
    Definition elem_quote (q : bool) (e : elem) : bool := match e with EEnum _ => q | _ => false end.
    Lemma write_plain q jf f l s : not_message f -> write_field recw q jf f l s =
      match w_rep f with
      | None => v <- single f l s ;; write_scalar le fshow q jf (w_elem f) v
      | Some _ => vs <- several f l s ;; xs <- write_scalars le fshow (elem_quote q (w_elem f)) jf (w_elem f) vs ;; Ok (LBrack :: commas xs ++ [RBrack])
      end.
    Proof. unfold not_message, write_field, DynJson.write_field. destruct (w_elem f), (w_rep f); intros N; try contradiction; reflexivity. Qed.
    Lemma read_plain q jf f l s ts : not_message f -> read_into recr q jf f l s ts =
      match w_rep f with
      | None => '(v, r) <- read_scalar utf8_ok fparse q jf (w_elem f) ts ;; Ok ((l_ordinal l, content_of v), r)
      | Some _ => vs <- several f l s ;; '(ws, r) <- read_repeated false (read_scalar utf8_ok fparse false jf (w_elem f)) ts ;; Ok (elems_slot (w_elem f) (vs ++ ws), r)
      end.
    Proof. unfold not_message, read_into, DynJson.read_into. destruct (w_elem f), (w_rep f); intros N; try contradiction; reflexivity. Qed.

    Lemma plain_back ty jf f l s s0 ts : In (jf, (f, l)) (jfields W J ty) -> not_message f -> has_value (dyn_of f) l s = true -> slot_ok (typed W n) f l s -> slot_printable Pr jf f l s -> fst s0 = 0 ->
      write_field recw false jf f l s = Ok ts ->
      (exists j, ts = render j /\ (j = JNull -> exists tv d, w_elem f = EMsg tv d /\ known_of J tv = KValue /\ w_rep f = None) /\ match w_elem f, w_rep f with EMsg tv _, None => wrote tv ts | _, _ => True end) /\
      forall r, exists s', read_into recr false jf f l s0 (ts ++ r) = Ok (s', r) /\ back (same W n) f l s s' /\ (ts = [TNull] -> set_null W J f l s0 = Ok s').
    Proof.
      intros Hin Nm Hh Ho Hp H0 H. destruct (HJ ty) as (_ & _ & Fj & _). rewrite Forall_forall in Fj. specialize (Fj _ Hin). cbn [fst snd] in Fj. destruct Fj as (Hd & Hn & _).
      unfold slot_printable, DynJsonSpec.slot_printable in Hp. rewrite (write_plain false jf f l s Nm) in H.
      assert (Mt : forall ts, match w_elem f, w_rep f with EMsg tv _, None => wrote tv ts | _, _ => True end) by (intros x; unfold not_message in Nm; destruct (w_elem f); try exact I; contradiction).
      destruct (w_rep f) as [p|] eqn:Rf.
      - destruct (several f l s) as [vs| | | |] eqn:V; try discriminate H. cbn [bind] in H.
        destruct (write_scalars le fshow (elem_quote false (w_elem f)) jf (w_elem f) vs) as [xs| | | |] eqn:X; try discriminate H. cbn [bind] in H. apply Ok_inj in H. subst ts.
        replace (elem_quote false (w_elem f)) with false in X by (destruct (w_elem f); reflexivity). pose proof (Ho Hh) as Ho'.
        assert (Fv : Forall (fits (w_elem f)) vs) by (unfold several in V; destruct (value (dyn_of f) l s); try discriminate V; apply Ok_inj in V; subst vs; apply Forall_map; apply Ho').
        assert (Pv : Forall (scalar_printable jf (w_elem f)) vs) by (unfold several in V; destruct (value (dyn_of f) l s); try discriminate V; apply Ok_inj in V; subst vs; apply Forall_map; apply Hp).
        destruct (scalars_back jf _ vs xs Hd Hn Fv Pv X) as [Fi Fr]. split.
        + assert (K : exists l', xs = map render l') by (clear - Fi; induction Fi as [|a xs [q ->] _ [l' ->]]; [exists []; reflexivity|exists (q :: l'); reflexivity]).
          destruct K as (l' & ->). exists (JArr l'). split; [rewrite commas_separated; reflexivity|]. split; [discriminate|]. destruct (w_elem f); exact I.
        + intros r. rewrite read_plain, Rf by exact Nm.
          assert (V0 : several f l s0 = Ok []) by (unfold several, value, dyn_of, is_rep; cbn [y_kind]; rewrite Rf, H0; unfold not_message in Nm; destruct (w_elem f); try contradiction; reflexivity).
          rewrite V0. cbn [bind]. destruct (read_repeated_ok false _ eq xs vs Fi Fr r) as (ys & E & Hy). apply Forall2_eq in Hy. subst ys.
          cbn [opening closing] in E. rewrite E. cbn [bind]. rewrite app_nil_l. eexists. split; [reflexivity|]. split; [|discriminate]. eapply scalars_field; eauto.
      - destruct (single f l s) as [v| | | |] eqn:V; try discriminate H. cbn [bind] in H. pose proof (Ho Hh) as Ho'.
        assert (Fv : fits (w_elem f) v) by (unfold single in V; destruct (value (dyn_of f) l s); try discriminate V; apply Ok_inj in V; subst v; exact Ho').
        assert (Pv : scalar_printable jf (w_elem f) v) by (unfold single in V; destruct (value (dyn_of f) l s); try discriminate V; apply Ok_inj in V; subst v; exact Hp).
        destruct (scalar_back utf8_ok le fshow fparse jf _ v ts Hd Hn Fv Pv H) as [(j & -> & Hj) R]. split; [exists j; split; [reflexivity|]; split; [intros E; congruence|apply Mt]|].
        intros r. rewrite read_plain, Rf, R by exact Nm. cbn [bind]. eexists. split; [reflexivity|]. split; [|intros K; destruct j as [| |[]| | |]; try discriminate K; congruence]. apply scalar_field; auto.
    Qed.

    (** A field that has a value is written as one value, which gives it back. *)
    Lemma field_back ty jf f l s s0 ts : In (jf, (f, l)) (jfields W J ty) -> has_value (dyn_of f) l s = true -> slot_ok (typed W n) f l s -> slot_printable Pr jf f l s -> fst s0 = 0 ->
      write_field recw false jf f l s = Ok ts ->
      (exists j, ts = render j /\ (j = JNull -> exists tv d, w_elem f = EMsg tv d /\ known_of J tv = KValue /\ w_rep f = None) /\
         match w_elem f, w_rep f with
         | EMsg tv _, None => wrote tv ts
         | _, _ => True
         end) /\
      forall r, exists s', read_into recr false jf f l s0 (ts ++ r) = Ok (s', r) /\ back (same W n) f l s s' /\
        (ts = [TNull] -> set_null W J f l s0 = Ok s').
    Proof.
      intros Hin Hh Ho Hp H0 H. assert (Em : not_message f \/ exists tm d, w_elem f = EMsg tm d) by (unfold not_message; destruct (w_elem f); eauto).
      destruct Em as [Nm|Em]; [apply (plain_back ty jf f l s s0 ts); assumption|].
      assert (Hf : In (f, l) (w_fields (wty W ty))) by (unfold jfields in Hin; apply in_combine_r in Hin; exact Hin).
      destruct (HJ ty) as (_ & _ & Fj & _). rewrite Forall_forall in Fj. specialize (Fj _ Hin). cbn [fst snd] in Fj. destruct Fj as (Hd & Hn & Hentry). specialize (Ho Hh). unfold slot_printable, DynJsonSpec.slot_printable in Hp.
      pose proof (zero_absent W HW ty f l s0 Hf H0) as Ha.
      destruct (field_in W HW ty f l Hf) as (_ & _ & _ & Hord). cbn [fst snd] in Hord.
      destruct Em as (tm & d & Ef). rewrite Ef in *. { destruct (w_rep f) as [p|] eqn:Rf.
        - (* repeated messages *)
          unfold write_field, DynJson.write_field in H. rewrite Ef, Rf in H. destruct (value (dyn_of f) l s) as [| | | | |x| |] eqn:V; try discriminate H. destruct Ho as [Hl Ho]. specialize (Hp _ _ eq_refl).
          destruct (messages_back tm x ts Ho Hp H) as [(j & -> & Hj) R]. split.
          + exists j. split; [reflexivity|]. split; [|exact I]. intros ->. destruct (w_entry (wty W tm)); destruct Hj; discriminate.
          + intros r. destruct (R r) as (y & E & Hy). unfold read_into, DynJson.read_into. rewrite Ef, Rf.
            assert (V0 : value (dyn_of f) l s0 = FMsgs []) by (unfold value, dyn_of, is_rep; cbn [y_kind]; rewrite Ef, Rf; cbn [kind_of]; rewrite H0; reflexivity).
            rewrite V0. cbn [app]. rewrite E. cbn [bind app]. eexists. split; [reflexivity|]. pose proof (Forall2_len _ _ _ Hy) as Ly.
            assert (Lx : 0 < zlen y) by (rewrite (rep_word f l s p Rf) in Hh; unfold zlen; lia).
            split; [|intros K; exfalso; destruct (w_entry (wty W tm)); destruct Hj as (z & ->); discriminate K]. split; [rewrite (rep_word f l _ p Rf); cbn [fst]; lia|]. rewrite Ef, V.
            assert (Vy : value (dyn_of f) l (zlen y, CMsgs y) = FMsgs y).
            { unfold value, dyn_of, is_rep. cbn [y_kind fst snd]. rewrite Ef, Rf. cbn [kind_of]. replace (zlen y =? 0) with false by lia. unfold zlen. rewrite Nat2Z.id, firstn_all. reflexivity. }
            rewrite Vy. exact Hy.
        - (* a message *)
          unfold write_field, DynJson.write_field in H. rewrite Ef, Rf in H. destruct (value (dyn_of f) l s) as [| |x| | | | |] eqn:V; try discriminate H. specialize (Hp _ _ eq_refl). specialize (Hentry _ _ eq_refl eq_refl).
          destruct (RT tm x ts Ho Hp H) as (Wr & R & Nv). split.
          + pose proof Wr as Wr'. unfold wrote in Wr. rewrite Hentry in Wr. destruct Wr as (j & -> & Hj & _). exists j. split; [reflexivity|]. split; [|exact Wr']. intros E. exists tm, d. auto.
          + intros r. destruct (R r) as (m' & E & Hm). unfold read_into, DynJson.read_into. rewrite Ef, Rf, Ha. cbn [bind]. rewrite E. cbn [bind]. eexists. split; [reflexivity|].
            assert (Hh' : has_value (dyn_of f) l (l_ordinal l, CMsg m') = true) by (rewrite single_word by exact Rf; cbn [fst]; apply Z.eqb_refl). split.
            * split; [exact Hh'|]. rewrite Ef, V. unfold value, dyn_of. rewrite Ef. unfold is_rep. rewrite Rf. cbn [y_kind kind_of]. 
              pose proof Hh' as Hh2. unfold dyn_of in Hh2. rewrite Ef in Hh2. unfold is_rep in Hh2. rewrite Rf in Hh2. cbn [kind_of] in Hh2. rewrite Hh2. exact Hm.
            * intros ->. unfold wrote in Wr. rewrite Hentry in Wr. destruct Wr as (j & Ej & Hj & _). assert (j = JNull) by (destruct j as [| |[]| | |]; try discriminate Ej; reflexivity). specialize (Hj H1).
              destruct (Nv Hj r) as (Ne & Nr). cbn [app] in E. rewrite Nr in E. apply Ok_inj in E. injection E as Em. subst m'. unfold set_null, is_rep, null_value in *. rewrite Ef, Hj, Rf. destruct (w_fields (wty W tm)) as [|[f0 l0] tl]; [congruence|reflexivity]. }
    Qed.
  End Rec.
End Fields.
