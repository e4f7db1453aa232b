(** Laws of the record-level specification: fuel, concatenation, framing,
    commutation.  Used for the property theorems about decoding. *)
Require Import Verif.Bits Verif.Varint Verif.VarintSpec Verif.VarintProofs Verif.VarintFacts Verif.VarintMain.
Require Import Verif.Schema Verif.Archive Verif.Decode Verif.DecodeSafe Verif.Wire Verif.WireFacts.
Require Import Verif.DecodeSpec1 Verif.DecodeSpec2 Verif.DecodeSpec3 Verif.DecodeSpec4.

Lemma nth_set_nth_ne i j x l : i <> j -> nth j (set_nth i x l) [] = nth j l [].
Proof.
  revert j l. induction i as [|i IH]; intros j l H.
  - destruct l, j; cbn; try congruence; try reflexivity; destruct j; reflexivity.
  - destruct l, j; cbn; try reflexivity.
    + rewrite IH by congruence. destruct j; reflexivity.
    + apply IH. congruence.
Qed.

Lemma set_nth_comm i j x y l : i <> j -> set_nth i x (set_nth j y l) = set_nth j y (set_nth i x l).
Proof.
  revert j l. induction i as [|i IH]; intros j l H; destruct j as [|j]; try congruence.
  - destruct l; reflexivity.
  - destruct l; reflexivity.
  - destruct l; cbn; f_equal; apply IH; congruence.
Qed.

Section Laws.
  Context (E : env) (utf8_ok : bytes -> bool) (maxd : Z).
  Notation tokB := (tokB maxd).
  Notation apf := (ap_field E utf8_ok maxd).
  Notation apr := (ap_rec E utf8_ok maxd).
  Notation aprs := (ap_recs E utf8_ok maxd).
  Notation apb := (ap_body E utf8_ok maxd).

  (** ** Fuel *)
  Definition le_t {T} (a b : tres T) : Prop := a <> TFuel -> b = a.

  Lemma le_t_bind {A B} (a b : tres A) (k k' : A -> tres B) :
    le_t a b -> (forall x, le_t (k x) (k' x)) -> le_t (tbind a k) (tbind b k').
  Proof.
    intros H1 H2 H. destruct a; cbn [tbind] in *; try congruence; rewrite H1 by congruence; cbn [tbind]; auto. apply H2; auto.
  Qed.
  Lemma le_t_refl {T} (a : tres T) : le_t a a.
  Proof. intros _; reflexivity. Qed.

  Section Mono.
    Variables b b' : nat -> Z -> state -> list Wire.rec -> tres state.
    Hypothesis Hb : forall ty depth st rs, le_t (b ty depth st rs) (b' ty depth st rs).

    Lemma ap_message_mono ty delim cur depth r :
      le_t (ap_message E maxd b ty delim cur depth r) (ap_message E maxd b' ty delim cur depth r).
    Proof.
      unfold ap_message. cbv zeta. destruct delim.
      - apply le_t_bind; [apply Hb|]. intros [? ?]; apply le_t_refl.
      - destruct (m_entry _ && _); [apply le_t_refl|]. destruct (negb _); [apply le_t_refl|].
        apply le_t_bind; [apply le_t_refl|]. intros [rs rest].
        apply le_t_bind; [apply Hb|]. intros [? ?]; apply le_t_refl.
    Qed.
    Lemma ap_value_mono e cur depth r :
      le_t (ap_value E utf8_ok maxd b e cur depth r) (ap_value E utf8_ok maxd b' e cur depth r).
    Proof. unfold ap_value. destruct (negb _); [apply le_t_refl|]. destruct e; try apply le_t_refl. apply ap_message_mono. Qed.
    Lemma ap_field_mono k f depth cur unk r :
      le_t (apf b k f depth cur unk r) (apf b' k f depth cur unk r).
    Proof.
      unfold ap_field. destruct f as [num e [ex d| |pk|assoc]|alts].
      - apply le_t_bind; [apply ap_value_mono|]. intros; apply le_t_refl.
      - apply le_t_bind; [apply ap_value_mono|]. intros; apply le_t_refl.
      - destruct (packable e && _); [apply le_t_refl|]. apply le_t_bind; [apply ap_value_mono|]. intros; apply le_t_refl.
      - apply le_t_bind; [apply ap_value_mono|]. intros; apply le_t_refl.
      - destruct (find_alt _ _ _) as [[i e]|]; [|apply le_t_refl]. cbv zeta.
        apply le_t_bind; [apply ap_value_mono|]. intros; apply le_t_refl.
    Qed.
    Lemma ap_rec_mono ty depth st r : le_t (apr b ty depth st r) (apr b' ty depth st r).
    Proof.
      unfold ap_rec. destruct st as [fs unk]. cbv zeta. destruct (_ =? 0); [apply le_t_refl|].
      destruct (find_field _ _ _) as [[i f]|]; [|apply le_t_refl].
      apply le_t_bind; [apply ap_field_mono|]. intros [? ?]; apply le_t_refl.
    Qed.
    Lemma ap_recs_mono ty depth rs : forall st, le_t (aprs b ty depth st rs) (aprs b' ty depth st rs).
    Proof.
      induction rs as [|r t IH]; intros st; cbn [ap_recs]; [apply le_t_refl|].
      apply le_t_bind; [apply ap_rec_mono|]. intros; apply IH.
    Qed.
  End Mono.

  Lemma ap_body_S f : forall ty depth st rs, le_t (apb f ty depth st rs) (apb (S f) ty depth st rs).
  Proof.
    induction f as [|f IH]; intros; [intros H; cbn in H; congruence|].
    change (apb (S f) ty depth st rs) with (aprs (apb f) ty depth st rs).
    change (apb (S (S f)) ty depth st rs) with (aprs (apb (S f)) ty depth st rs).
    apply ap_recs_mono. apply IH.
  Qed.
  Lemma ap_body_mono f f' ty depth st rs : (f <= f')%nat -> le_t (apb f ty depth st rs) (apb f' ty depth st rs).
  Proof.
    induction 1 as [|f' H IH]; [apply le_t_refl|]. intros Hn. rewrite <- (IH Hn). apply ap_body_S. rewrite (IH Hn). exact Hn.
  Qed.

  (** ** Sequences of records *)
  Lemma ap_recs_app b ty depth rs1 : forall st rs2,
    aprs b ty depth st (rs1 ++ rs2) = (st1 <~ aprs b ty depth st rs1 ;; aprs b ty depth st1 rs2).
  Proof.
    induction rs1 as [|r t IH]; intros st rs2; cbn [app ap_recs]; [reflexivity|].
    destruct (apr b ty depth st r); cbn [tbind]; auto.
  Qed.

  (** ** Whole messages *)
  Hypothesis Hse : safe_env E.
  Notation spec := (spec_decode E utf8_ok maxd).
  Notation dec := (decode_bytes E utf8_ok maxd).

  Lemma spec_no_fuel ty cur bs : all_bytes bs -> m_entry (desc_of E ty) = false -> spec ty cur bs <> TFuel.
  Proof. intros Hb He H. pose proof (decode_bytes_spec E utf8_ok maxd Hse ty cur bs Hb He) as K. rewrite H in K. exact K. Qed.

  (** A successful reading, in terms of records and enough fuel. *)
  Lemma spec_ok_iff ty cur bs v : all_bytes bs -> m_entry (desc_of E ty) = false ->
    spec ty cur bs = TOk v <->
    scope_ok maxd 0 = true /\ exists f rs, tokB None 1 bs = TOk (rs, []) /\
      (st <~ apb f ty 1 (msg_fields cur, msg_unk cur) rs ;; TOk (VMsg (fst st) (snd st))) = TOk v.
  Proof.
    intros Hb He. pose proof (spec_no_fuel ty cur bs Hb He) as Hnf. unfold spec_decode in *.
    destruct (scope_ok maxd 0); cbn [negb] in *; [|split; [discriminate|intros [? _]; discriminate]].
    split.
    - intros H. split; [reflexivity|]. apply tbind_ok in H. destruct H as [[rs rest] [H1 H]].
      assert (rest = []) by (destruct (tok_raws maxd _ _ _ _ _ _ H1) as (e & _ & _ & ->); reflexivity). subst rest.
      exists (S (length bs)), rs. split; [exact H1|].
      destruct (apb (S (length bs)) ty 1 (msg_fields cur, msg_unk cur) rs) as [[? ?]| | |]; cbn [tbind fst snd] in *; congruence.
    - intros (_ & f & rs & H1 & H2). rewrite H1 in Hnf |- *. cbn [tbind] in *.
      destruct (apb f ty 1 (msg_fields cur, msg_unk cur) rs) as [[fs unk]| | |] eqn:Kf; cbn [tbind fst snd] in *; try discriminate.
      assert (K : apb (S (length bs)) ty 1 (msg_fields cur, msg_unk cur) rs = TOk (fs, unk)).
      { destruct (le_lt_dec f (S (length bs))) as [Hle|Hlt].
        - rewrite (ap_body_mono _ _ _ _ _ _ Hle); [exact Kf|]. rewrite Kf; discriminate.
        - rewrite <- (ap_body_mono (S (length bs)) f ty 1 (msg_fields cur, msg_unk cur) rs ltac:(lia)); [exact Kf|].
          intros K. rewrite K in Hnf. apply Hnf. reflexivity. }
      rewrite K. exact H2.
  Qed.

  Lemma spec_app ty cur bs1 bs2 v1 : all_bytes bs1 -> all_bytes bs2 -> m_entry (desc_of E ty) = false ->
    spec ty cur bs1 = TOk v1 -> spec ty cur (bs1 ++ bs2) = spec ty v1 bs2.
  Proof.
    intros Hb1 Hb2 He H. pose proof (spec_no_fuel ty v1 bs2 Hb2 He) as Hnf. unfold spec_decode in *.
    destruct (negb _); [discriminate|].
    apply tbind_ok in H. destruct H as [[rs rest] [H1 H]]. apply tbind_ok in H. destruct H as [[fs unk] [H2 H]]. injection H as <-.
    rewrite (tokB_app_none maxd (S (length bs1)) _ _ _ _ _ (Nat.lt_succ_diag_r _) H1). cbn [msg_fields msg_unk] in *.
    destruct (tokB None 1 bs2) as [[rs2 rest2]| | |]; cbn [tbind] in *; try reflexivity.
    set (F := S (length (bs1 ++ bs2))).
    change (apb F ty 1 (msg_fields cur, msg_unk cur) (rs ++ rs2)) with (aprs (apb (length (bs1 ++ bs2))) ty 1 (msg_fields cur, msg_unk cur) (rs ++ rs2)).
    rewrite ap_recs_app.
    assert (K1 : apb F ty 1 (msg_fields cur, msg_unk cur) rs = TOk (fs, unk)).
    { rewrite (ap_body_mono (S (length bs1)) F); [exact H2|unfold F; rewrite app_length; lia|rewrite H2; discriminate]. }
    change (apb F ty 1 (msg_fields cur, msg_unk cur) rs) with (aprs (apb (length (bs1 ++ bs2))) ty 1 (msg_fields cur, msg_unk cur) rs) in K1.
    rewrite K1. cbn [tbind].
    change (aprs (apb (length (bs1 ++ bs2))) ty 1 (fs, unk) rs2) with (apb F ty 1 (fs, unk) rs2).
    rewrite (ap_body_mono (S (length bs2)) F); [reflexivity|unfold F; rewrite app_length; lia|].
    intros K. rewrite K in Hnf. apply Hnf. reflexivity.
  Qed.
End Laws.
