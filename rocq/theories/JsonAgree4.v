(** Messages of every nesting are written the same. *)
Require Import Verif.Bits Verif.Varint Verif.Timestamp Verif.Duration Verif.FieldMask Verif.FieldMaskProofs.
Require Import Verif.DynSlots Verif.Dyn Verif.Schema Verif.Archive Verif.Decode Verif.Encode Verif.DynWire Verif.DynView Verif.DynEncode1 Verif.DynEncode3 Verif.DynJson Verif.DynJsonSpec Verif.DynJson1 Verif.DynJson2 Verif.DynJson3 Verif.GenJson Verif.JsonAgreeSpec Verif.JsonAgree1 Verif.JsonAgree2 Verif.JsonAgree3.

Section Messages.
  Context (W : list wtype) (J : list jtype) (E : env) (G : list gtype) (le : bool) (fshow : bool -> Z -> bytes) (maxd : Z).
  Hypothesis HW : wtypes_ok W.
  Hypothesis HJ : jtypes_ok W J.
  Hypothesis HM : types_match W J E G.
  Notation known_of := (known_of J).
  Notation jfields := (jfields W J).
  Notation common := (common W J).
  Notation view := (view W J G).

  Lemma any_agrees n : forall ty m, w_entry (wty W ty) = false -> typed W n ty m -> common n ty m -> agree ((fun (_ : bool) (_ : nat) (_ : list slot) => Err TooLarge : res (list tok)) false ty m) ((fun _ _ => Err TooLarge : res (list tok)) ty (view n ty m)).
  Proof. intros. left. reflexivity. Qed.

  (** The entries of a struct have a kind. *)
  Lemma kind_view n te m : w_entry (wty W te) = true -> (exists kf vf tv dv, w_fields (wty W te) = [kf; vf] /\ w_elem (fst vf) = EMsg tv dv /\ known_of tv = KValue) ->
    typed W n te m -> common n te m -> has_kind (view n te m) = true.
  Proof.
    intros He (kf0 & vf0 & tv & dv & Hw & Ev & K) T C. destruct n as [|n]; [contradiction C|].
    destruct (entry_fields W J E G le fshow HJ HM n _ _ (any_agrees n) te m He T C) as (kj & kf & kl & vj & vf & vl & k & x & Hj & -> & _ & _ & _ & _ & _ & _ & Hv).
    pose proof (jfields_fields W J HJ te) as Hf. rewrite Hj, Hw in Hf. cbn [map snd] in Hf. injection Hf as <- <-. cbn [fst] in Ev. destruct (Hv tv dv Ev) as (y & _ & -> & Ty & Cy & Hev).
    pose proof (value_has W J n tv y K Hev Cy) as Hh. destruct n as [|n]; [contradiction Cy|]. destruct (value_active W J fshow HJ (view n) tv y K Hh) as (_ & i & jf & f & l & l0 & f0 & t & Hn & _ & Hl & Hhf & Rp & _ & Gv & El).
    destruct (known_facts W J E G HM tv Hev) as (_ & M). destruct (matches_group W le fshow 0%nat (jfields tv) _ _ ltac:(lia) (value_oneof W J HJ tv K) M) as (Hg & _).
    rewrite view_message, Hg. cbn [view_members]. rewrite map_length, firstn_all, Gv.
    assert (Hin : In (jf, (f, l)) (jfields tv)) by (eapply nth_error_In; exact Hn).
    assert (So : slot_ok (typed W n) f l (slot_at y l)) by (apply (typed_slot W n tv); [exact Ty|apply (jfield_in W J HJ tv jf); exact Hin]).
    cbn [JsonAgreeSpec.common] in Cy. rewrite Hev, K in Cy. destruct Cy as (Cs & _).
    assert (Q : exists v, slot_vals (view n) f l (slot_at y l) = [v]).
    { destruct (message_elem (w_elem f)) eqn:Me.
      - destruct (w_elem f) as [| | | | |st d] eqn:Ef; try discriminate Me. destruct (value_message W n (view n) (common n) jf f l (slot_at y l) st d Rp Ef Hhf So (Cs _ _ _ Hin Hhf)) as (z & _ & _ & _ & _ & Sv). eauto.
      - destruct (value_scalar W n (view n) (common n) jf f l (slot_at y l) Rp Me Hhf So (Cs _ _ _ Hin Hhf)) as (z & _ & _ & Sv & _). eauto. }
    destruct Q as (v & ->). reflexivity.
  Qed.

  (** Nothing is only written for a message without content. *)
  Section Nonempty.
    Context (n : nat) (recd : bool -> nat -> list slot -> res (list tok)).
    Hypothesis RN : forall ty m x, typed W n ty m -> common n ty m -> recd false ty m = Ok x -> x <> [].
    Lemma field_nonempty jf f l s x : w_rep f = None -> has_value (dyn_of f) l s = true -> slot_ok (typed W n) f l s -> slot_common (common n) jf f l s -> write_field W le fshow recd false jf f l s = Ok x -> x <> [].
    Proof.
      intros R H S C X. unfold write_field in X. rewrite R in X. destruct (w_elem f) as [| | | | |ty d] eqn:Ef.
      6: { destruct (value_message W n (view n) (common n) jf f l s ty d R Ef H S C) as (y & _ & Vy & Ty & Cy & _). rewrite Vy in X. apply (RN ty y x Ty Cy X). }
      all: destruct (single f l s) as [v| | | |]; try discriminate X; cbn [bind] in X; eapply scalar_nonempty; exact X.
    Qed.
    Lemma body_nonempty ty m x : typed W (S n) ty m -> common (S n) ty m -> write_body W J le fshow recd false ty m = Ok x -> x <> [].
    Proof.
      intros T C X. unfold write_body in X. destruct (w_entry (wty W ty)) eqn:He.
      - destruct (entry_fields W J E G le fshow HJ HM n _ _ (any_agrees n) ty m He T C) as (kj & kf & kl & vj & vf & vl & k & y & Hj & _ & _ & _ & _ & Hk & Hv & _).
        unfold write_entry in X. rewrite (entry_set W J E G le fshow HJ HM n _ _ (any_agrees n) ty m He T C), Hj in X. cbn [bind write_entry_fields orb] in X. unfold has in Hk, Hv. cbn [fst snd] in Hk, Hv. rewrite Hk, Hv in X.
        destruct (write_field W le fshow recd true _ _ _ _) as [a| | | |]; try discriminate X. cbn [bind] in X. destruct (write_field W le fshow recd false _ _ _ _) as [b| | | |]; try discriminate X. cbn [bind] in X. apply Ok_inj in X. subst x.
        intro Q. apply app_eq_nil in Q. destruct Q as (_ & Q). discriminate Q.
      - pose proof C as C0. cbn [JsonAgreeSpec.common] in C0. rewrite He in C0. destruct (known_of ty) eqn:K; try contradiction C0.
        + destruct (write_members _ _ _ _ _ _ _ _) as [y| | | |]; try discriminate X. cbn [bind] in X. apply Ok_inj in X. subst x. discriminate.
        + unfold write_time in X. destruct (w_fields (wty W ty)) as [|a [|b [|? ?]]]; try discriminate X. destruct (number_of a m); try discriminate X. cbn [bind] in X. destruct (number_of b m); try discriminate X. cbn [bind] in X. destruct (timestamp_encode _ _); try discriminate X. apply Ok_inj in X. subst x. discriminate.
        + unfold write_time in X. destruct (w_fields (wty W ty)) as [|a [|b [|? ?]]]; try discriminate X. destruct (number_of a m); try discriminate X. cbn [bind] in X. destruct (number_of b m); try discriminate X. cbn [bind] in X. destruct (duration_encode _ _); try discriminate X. apply Ok_inj in X. subst x. discriminate.
        + unfold write_mask in X. destruct (w_fields (wty W ty)) as [|[f l] [|? ?]]; try discriminate X. destruct (value _ _ _); try discriminate X. destruct (json_unescape _); try discriminate X. apply Ok_inj in X. subst x. discriminate.
        + destruct C0 as (Cs & Hh0). destruct (value_active W J fshow HJ (view n) ty m K Hh0) as (_ & i & jf & f & l & l0 & f0 & t & Hn & Hw & Hl & Hh & Rp & Ix & _).
          unfold write_value in X. rewrite Hw, Ix in X. replace (Z.of_nat i <? 0) with false in X by lia. rewrite Nat2Z.id, Hn in X. unfold write_cref in X. pose proof Hh as Hh'. unfold has in Hh'. cbn [fst snd] in Hh'. rewrite Hh' in X.
          assert (Hin : In (jf, (f, l)) (jfields ty)) by (eapply nth_error_In; exact Hn).
          apply (field_nonempty jf f l (slot_at m l)); try assumption; [apply (typed_slot W n ty); [exact T|apply (jfield_in W J HJ ty jf); exact Hin]|apply Cs; assumption].
        + destruct (jfields ty) as [|[jf [f l]] t]; [discriminate X|]. destruct (w_elem f); try discriminate X. destruct (w_rep f); try discriminate X. destruct (value _ _ _); try discriminate X. unfold write_messages in X. destruct (write_all _ _ _ _) as [y| | | |]; try discriminate X. cbn [bind] in X. apply Ok_inj in X. subst x. destruct (w_entry _); discriminate.
        + destruct (jfields ty) as [|[jf [f l]] t]; [discriminate X|]. destruct (w_elem f); try discriminate X. destruct (w_rep f); try discriminate X. destruct (value _ _ _); try discriminate X. unfold write_messages in X. destruct (write_all _ _ _ _) as [y| | | |]; try discriminate X. cbn [bind] in X. apply Ok_inj in X. subst x. destruct (w_entry _); discriminate.
        + destruct C0 as (Cs & Ch). destruct (HJ ty) as (_ & _ & _ & Kk & _). unfold known_ok in Kk. rewrite K in Kk. destruct Kk as (e & Sh & _). destruct (shapes_one W J HJ ty _ _ _ _ Sh) as (jf & f & l & Hj & Hw & Ef & R & _).
          rewrite Hw in Ch. inversion Ch as [|? ? Hh _]; subst. rewrite Hj in X. unfold write_cref in X. pose proof Hh as Hh'. unfold has in Hh'. cbn [fst snd] in Hh'. rewrite Hh' in X.
          assert (Hin : In (jf, (f, l)) (jfields ty)) by (rewrite Hj; left; reflexivity). unfold is_rep in R. destruct (w_rep f) eqn:Rp; [discriminate|].
          apply (field_nonempty jf f l (slot_at m l)); try assumption; [apply (typed_slot W n ty); [exact T|rewrite Hw; left; reflexivity]|apply Cs; assumption].
    Qed.
  End Nonempty.

  Notation write_msg := (write_msg W J le maxd fshow).
  Notation gwrite := (gwrite E G le fshow false false).
  Lemma msg_nonempty n : forall depth ty m x, typed W n ty m -> common n ty m -> write_msg n depth false ty m = Ok x -> x <> [].
  Proof.
    induction n as [|n IH]; intros depth ty m x T C X; [discriminate X|]. cbn [DynJson.write_msg] in X. destruct (scope_ok maxd depth); [|discriminate X].
    eapply (body_nonempty n); [|exact T|exact C|exact X]. intros ty' m' x'. apply IH.
  Qed.

  Lemma all_same n :
    (forall k depth ty m, (n <= k)%nat -> w_entry (wty W ty) = false -> typed W n ty m -> common n ty m -> agree (write_msg n depth false ty m) (gwrite k ty (view n ty m))) /\
    (forall k depth te m, (n <= S k)%nat -> w_entry (wty W te) = true -> typed W n te m -> common n te m -> agree (write_msg n depth false te m) (gwrite_entry E G le fshow (gwrite k) te (view n te m))) /\
    (forall k depth st m, (n <= S k)%nat -> known_of st = KStruct -> w_entry (wty W st) = false -> typed W n st m -> common n st m ->
       exists num te d a es, m_fields (desc_of E st) = [Field num (EMsg te d) (CMap a)] /\ view n st m = VMsg [es] [] /\ agree (write_msg n depth false st m) (gwrite_map E G le fshow (gwrite k) te es)) /\
    (forall k depth st m, (n <= S k)%nat -> known_of st = KListValue -> w_entry (wty W st) = false -> typed W n st m -> common n st m ->
       exists num te d p jf std vs, m_fields (desc_of E st) = [Field num (EMsg te d) (CRep p)] /\ g_members (gty G st) = [GField jf std] /\ view n st m = VMsg [vs] [] /\ agree (write_msg n depth false st m) (gwrite_array le fshow (gwrite k) jf (EMsg te d) vs)).
  Proof.
    induction n as [|n (IM & IE & IS & IL)].
    { split; [|split; [|split]]; intros; contradiction. }
    assert (Scope : forall depth ty m (b : res (list tok)), agree (write_body W J le fshow (write_msg n (depth + 1)) false ty m) b -> agree (write_msg (S n) depth false ty m) b).
    { intros depth ty m b A. cbn [DynJson.write_msg]. destruct (scope_ok maxd depth); [exact A|right; reflexivity]. }
    assert (RM : forall k depth, (n <= k)%nat -> forall ty m, w_entry (wty W ty) = false -> typed W n ty m -> common n ty m -> agree (write_msg n depth false ty m) (gwrite k ty (view n ty m))) by auto.
    assert (RE : forall k depth, (n <= S k)%nat -> forall te m, w_entry (wty W te) = true -> typed W n te m -> common n te m -> agree (write_msg n depth false te m) (gwrite_entry E G le fshow (gwrite k) te (view n te m))) by auto.
    split; [|split; [|split]].
    - intros k depth ty m Hk He T C. destruct k as [|k]; [lia|]. apply Scope. cbn [GenJson.gwrite].
      apply (body_same W J E G le fshow HW HJ HM n); try assumption.
      + apply RM; lia.
      + apply RE; lia.
      + intros ty' m' x'. apply msg_nonempty.
      + intros. apply IS; try assumption; lia.
      + intros. apply IL; try assumption; lia.
      + intros. apply kind_view; assumption.
    - intros k depth te m Hk He T C. apply Scope. apply (entry_same W J E G le fshow HJ HM n); try assumption. apply RM; lia.
    - intros k depth st m Hk K He T C. destruct (struct_same W J E G le fshow HJ HM n (write_msg n (depth + 1)) (gwrite k)) with (ty := st) (m := m) as (num & te & d & a & x & Hm & Hv & _ & _ & _ & _ & A); try assumption.
      + apply RM; lia.
      + apply RE; lia.
      + intros ty' m' x'. apply msg_nonempty.
      + exists num, te, d, a, (map (view n te) x). split; [exact Hm|]. split; [exact Hv|]. apply Scope. exact A.
    - intros k depth st m Hk K He T C. destruct (list_value_same W J E G le fshow HJ HM n (write_msg n (depth + 1)) (gwrite k)) with (ty := st) (m := m) as (num & te & d & p & jf & std & x & Hm & Hg & Hv & A); try assumption.
      + apply RM; lia.
      + apply RE; lia.
      + intros ty' m' x'. apply msg_nonempty.
      + exists num, te, d, p, jf, std, (map (view n te) x). split; [exact Hm|]. split; [exact Hg|]. split; [exact Hv|]. apply Scope. exact A.
  Qed.

  Theorem json_same n ty m : w_entry (wty W ty) = false -> typed W n ty m -> common n ty m ->
    write_json W J le maxd fshow n ty m = gwrite n ty (view n ty m) \/ write_json W J le maxd fshow n ty m = Err TooLarge.
  Proof. intros He T C. unfold write_json. apply (proj1 (all_same n)); auto. Qed.
End Messages.
