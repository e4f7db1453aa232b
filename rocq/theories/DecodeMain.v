(** The decoding properties. *)
From Coq Require Import Sorted.
Require Import Verif.Bits Verif.Varint Verif.VarintSpec Verif.VarintProofs Verif.VarintFacts Verif.VarintMain.
Require Import Verif.Schema Verif.Archive Verif.Decode Verif.DecodeSafe Verif.Wire Verif.WireFacts.
Require Import Verif.DecodeSpec1 Verif.DecodeSpec2 Verif.DecodeSpec3 Verif.DecodeSpec4 Verif.DecodeLaws Verif.DecodeLaws2.
Require Import Verif.FieldSpec Verif.DecodeOcc Verif.WireGrammar Verif.GrammarFacts Verif.DecodeTerms Verif.WellTyped.

Lemma find_field_none n fds : forall i, Forall (fun f => has_num n f = false) fds -> find_field n fds i = None.
Proof. induction fds as [|f t IH]; intros i H; [reflexivity|]. inversion H as [|? ? H1 H2]; subst. cbn. rewrite H1. auto. Qed.
Lemma find_field_none_inv n fds : forall i, find_field n fds i = None -> Forall (fun f => has_num n f = false) fds.
Proof.
  induction fds as [|f t IH]; intros i; cbn; [constructor|]. destruct (has_num n f) eqn:K; [discriminate|]. intros H. constructor; eauto.
Qed.

(** ** Retention of unknown fields *)

Lemma b128_lower bs : is_varint bs -> (1 < length bs)%nat -> last bs 0 <> 0 -> 2 ^ (7 * (zlen bs - 1)) <= b128 bs.
Proof.
  induction bs as [|b t IH]; intros Hv Hl Hn; [cbn in Hl; lia|].
  destruct t as [|c t]; [cbn in Hl; lia|].
  cbn [is_varint] in Hv. destruct Hv as [Hb Hv].
  change (b128 (b :: c :: t)) with (b mod 128 + 128 * b128 (c :: t)).
  rewrite zlen_cons. destruct t as [|c2 t].
  - cbn in Hn. change (zlen [c]) with 1. cbn [b128]. cbn in Hv.
    replace (c mod 128) with c by (rewrite Z.mod_small; lia). pose proof (Z.mod_pos_bound b 128 ltac:(lia)). lia.
  - specialize (IH Hv ltac:(cbn; lia) ltac:(exact Hn)). rewrite zlen_cons in *. pose proof (zlen_nonneg (c2 :: t)).
    replace (7 * (1 + (1 + zlen (c2 :: t)) - 1)) with (7 + 7 * (1 + zlen (c2 :: t) - 1)) by lia.
    rewrite Z.pow_add_r by lia. change (2 ^ 7) with 128. pose proof (Z.mod_pos_bound b 128 ltac:(lia)). lia.
Qed.

Lemma size_bits v n : 0 <= n -> 2 ^ (7 * n) <= v < 2 ^ (7 * (n + 1)) -> varint_size_u v = n + 1.
Proof.
  intros Hn [H1 H2]. assert (0 < v) by (pose proof (Z.pow_pos_nonneg 2 (7 * n) ltac:(lia) ltac:(lia)); lia).
  unfold varint_size_u, bit_width.
  assert (Hl : Z.log2 (Z.lor v 1) = Z.log2 v).
  { rewrite Z.log2_lor by lia. change (Z.log2 1) with 0. pose proof (Z.log2_nonneg v). lia. }
  assert (Hp : 0 < Z.lor v 1) by (assert (0 <= Z.lor v 1) by (apply Z.lor_nonneg; lia);
    assert (Z.lor v 1 <> 0) by (rewrite Z.lor_eq_0_iff; lia); lia).
  destruct (Z.leb_spec (Z.lor v 1) 0); [lia|]. rewrite Hl.
  assert (7 * n <= Z.log2 v) by (apply Z.log2_le_pow2; lia).
  assert (Z.log2 v < 7 * (n + 1)) by (apply Z.log2_lt_pow2; lia). lia.
Qed.

Lemma shortest_size tb tag : tag_reads tb tag -> shortest tb -> zlen tb = varint_size_u tag.
Proof.
  intros (Hv & Hl & ->) Hs. destruct (Nat.leb_spec (length tb) 4) as [H4|H4].
  - rewrite tag_value_small by auto. destruct (Nat.eq_dec (length tb) 1) as [H1|H1].
    + destruct tb as [|b [|? ?]]; try discriminate. cbn in Hv. cbn [b128].
      change (zlen [b]) with 1. rewrite Z.mod_small by lia. rewrite Z.mul_0_r, Z.add_0_r.
      destruct (Z.eq_dec b 0) as [->|Hb]; [reflexivity|]. symmetry. apply (size_bits b 0); [lia|]. cbn. lia.
    + destruct Hs as [Hs|[Hs|Hs]]; try lia. assert (1 < length tb)%nat by (destruct tb as [|? [|? ?]]; cbn in *; try lia; destruct Hv).
      symmetry. replace (zlen tb) with (zlen tb - 1 + 1) by lia. apply size_bits; [unfold zlen; lia|].
      replace (zlen tb - 1 + 1) with (zlen tb) by lia. split; [apply b128_lower; auto|]. apply b128_bound.
  - assert (length tb = 5%nat) as H5 by lia. unfold tag_value. destruct (Nat.leb_spec (length tb) 4); [lia|].
    pose proof (b128_firstn_bound 4 tb) as Hb. unfold zlen. rewrite H5. symmetry. apply (size_bits _ 4); [lia|].
    change (2 ^ (7 * 4)) with (2 ^ 28). change (2 ^ (7 * (4 + 1))) with (2 ^ 35).
    change (7 * Z.of_nat 4) with 28 in Hb. lia.
Qed.

Lemma tbind_not_dev {A B} (a : tres A) (k : A -> tres B) : a <> TDev -> (forall x, k x <> TDev) -> tbind a k <> TDev.
Proof. intros H1 H2. destruct a; cbn; [apply H2|discriminate|congruence|discriminate]. Qed.

Section Main.
  Context (E : env) (utf8_ok : bytes -> bool) (limit : Z).
  Hypothesis Hse : safe_env E.
  Notation tokB := (tokB limit).
  Notation dec := (decode_bytes E utf8_ok limit).
  Notation spec := (spec_decode E utf8_ok limit).
  Notation exact := (exact_unknown E utf8_ok limit).
  Notation aprs := (ap_recs E utf8_ok limit).
  Notation apr := (ap_rec E utf8_ok limit).
  Notation apb := (ap_body E utf8_ok limit).

  (** ** Transfer *)
  Lemma dec_ok_iff ty cur bs v : all_bytes bs -> m_entry (desc_of E ty) = false -> exact ty cur bs ->
    dec ty cur bs = Ok v <-> spec ty cur bs = TOk v.
  Proof.
    intros Hb He Hx. pose proof (decode_bytes_spec E utf8_ok limit Hse ty cur bs Hb He) as K. unfold exact_unknown in Hx.
    destruct (spec ty cur bs) as [w| | |]; try tauto; try congruence.
    - rewrite K. split; congruence.
    - destruct K as [e ->]. split; discriminate.
  Qed.
  Lemma dec_of_spec ty cur bs v : all_bytes bs -> m_entry (desc_of E ty) = false -> spec ty cur bs = TOk v -> dec ty cur bs = Ok v.
  Proof. intros Hb He H. apply dec_ok_iff; auto. unfold exact_unknown. congruence. Qed.

  (** Whatever is accepted splits into records. *)
  Lemma dec_tok ty cur bs v : all_bytes bs -> m_entry (desc_of E ty) = false -> dec ty cur bs = Ok v ->
    exists rs, tokB None 1 bs = TOk (rs, []).
  Proof.
    intros Hb He H. pose proof (decode_bytes_spec E utf8_ok limit Hse ty cur bs Hb He) as K.
    unfold spec_decode in K. destruct (negb _).
    { destruct K as [e K]. congruence. }
    destruct (tokB None 1 bs) as [[rs rest]| | |] eqn:Kt; cbn [tbind] in K.
    - destruct (tok_raws _ _ _ _ _ _ _ Kt) as (e & _ & _ & ->). eauto.
    - destruct K as [e K]. congruence.
    - exfalso. exact (tokB_no_dev limit _ _ _ _ (Nat.lt_succ_diag_r _) Kt).
    - tauto.
  Qed.

  Lemma dec_outcome ty cur bs : (exists v, dec ty cur bs = Ok v) \/ (exists e, dec ty cur bs = Err e).
  Proof.
    pose proof (decode_safe E utf8_ok limit Hse ty cur bs) as H.
    destruct (dec ty cur bs); cbn in H; try contradiction; eauto.
  Qed.

  Lemma dec_concat ty cur a b v : all_bytes a -> all_bytes b -> m_entry (desc_of E ty) = false ->
    exact ty cur a -> exact ty v b -> dec ty cur a = Ok v -> same_result (dec ty cur (a ++ b)) (dec ty v b).
  Proof.
    intros Ha Hb He Hx1 Hx2 H w. apply dec_ok_iff in H; auto.
    pose proof (spec_app E utf8_ok limit Hse ty cur a b v Ha Hb He H) as Hs.
    rewrite !dec_ok_iff; auto.
    - rewrite Hs. reflexivity.
    - apply all_bytes_app; auto.
    - unfold exact_unknown. rewrite Hs. exact Hx2.
  Qed.

  (** ** Schemas that keep nothing *)
  Lemma lift_not_dev {T} (r : res T) : oe (fun _ => True) r -> lift r <> TDev.
  Proof. destruct r; cbn; intros H; try discriminate; contradiction. Qed.

  Section NoDev.
    Variable body : nat -> Z -> state -> list Wire.rec -> tres state.
    Hypothesis Hbody : forall ty d st rs, body ty d st rs <> TDev.
    Hypothesis Hk : keeps_nothing E.

    Lemma ap_value_not_dev e cur d r : ap_value E utf8_ok limit body e cur d r <> TDev.
    Proof.
      unfold ap_value. destruct (negb _); [discriminate|]. destruct e; try discriminate.
      - destruct (_ <=? _)%nat; discriminate.
      - destruct (_ && _); discriminate.
      - unfold ap_message. cbv zeta. destruct delim.
        + apply tbind_not_dev; [apply Hbody|]. intros [? ?]; discriminate.
        + destruct (_ && _); [discriminate|]. destruct (negb _); [discriminate|].
          apply tbind_not_dev; [exact (tokB_no_dev limit _ _ _ _ (Nat.lt_succ_diag_r _))|].
          intros [? ?]. apply tbind_not_dev; [apply Hbody|]. intros [? ?]; discriminate.
    Qed.

    Lemma unknown_enum_not_dev num v u : lift (unknown_enum UNone num v u) <> TDev.
    Proof. discriminate. Qed.

    Lemma filter_enum_not_dev num c vs : forall u, lift (filter_enum UNone num c vs u) <> TDev.
    Proof.
      intros u. rewrite filter_enum_eq by discriminate. discriminate.
    Qed.

    Lemma ap_field_not_dev f d cur u r : field_safe UNone f -> ap_field E utf8_ok limit body UNone f d cur u r <> TDev.
    Proof.
      intros Hs. unfold ap_field. destruct f as [num e [ex dv| |pk|assoc]|alts].
      - apply tbind_not_dev; [apply ap_value_not_dev|]. intros x. destruct e as [| | |[l|]| |]; try discriminate.
        destruct (ex && _); discriminate.
      - apply tbind_not_dev; [apply ap_value_not_dev|]. intros x. destruct e as [| | |[l|]| |]; try discriminate.
        destruct (enum_valid _ _); discriminate.
      - destruct (packable e && _).
        + unfold ap_packed. destruct e; try discriminate.
          * destruct (varints _ _ _); discriminate.
          * destruct (varints _ _ _); discriminate.
          * cbv zeta. destruct (_ =? 0); discriminate.
          * destruct (varints _ _ _); [|discriminate]. apply tbind_not_dev; [apply filter_enum_not_dev|].
            intros [? ?]; discriminate.
        + apply tbind_not_dev; [apply ap_value_not_dev|]. intros x. destruct e as [| | |[l|]| |]; try discriminate.
          cbv zeta. destruct (enum_valid _ _); discriminate.
      - apply tbind_not_dev; [apply ap_value_not_dev|]. discriminate.
      - destruct (find_alt _ _ _) as [[j e]|] eqn:Ka; [|discriminate]. cbv zeta.
        apply tbind_not_dev; [apply ap_value_not_dev|]. intros x.
        replace (is_closed e) with false; [discriminate|]. cbn [field_safe] in Hs. symmetry.
        clear -Hs Ka. revert Ka. generalize 0%nat. induction Hs as [|[n e'] t H1 H2 IH]; intros n0; cbn; [discriminate|].
        destruct (n =? _); [intros [= <- <-]; exact H1|]. apply IH.
    Qed.

    Lemma ap_recs_not_dev ty d rs : forall st, aprs body ty d st rs <> TDev.
    Proof.
      induction rs as [|r t IH]; intros st; [discriminate|]. cbn [ap_recs]. apply tbind_not_dev; [|auto].
      unfold ap_rec. destruct st as [fs u]. cbv zeta. destruct (_ =? 0); [discriminate|].
      destruct (find_field _ _ _) as [[i f]|] eqn:Kf.
      - apply tbind_not_dev; [|intros [? ?]; discriminate]. rewrite Hk. apply ap_field_not_dev.
        pose proof (find_field_safe E Hse _ _ _ _ Kf) as Hs. rewrite Hk in Hs. exact Hs.
      - rewrite Hk. discriminate.
    Qed.
  End NoDev.

  Lemma ap_body_not_dev f : keeps_nothing E -> forall ty d st rs, apb f ty d st rs <> TDev.
  Proof.
    intros Hk. induction f as [|f IH]; intros; [discriminate|]. cbn [ap_body]. apply ap_recs_not_dev; auto.
  Qed.

  Lemma exact_none ty cur bs : keeps_nothing E -> exact ty cur bs.
  Proof.
    intros Hk. unfold exact_unknown, spec_decode. destruct (negb _); [discriminate|].
    apply tbind_not_dev; [exact (tokB_no_dev limit _ _ _ _ (Nat.lt_succ_diag_r _))|].
    intros [rs ?]. apply tbind_not_dev; [apply ap_body_not_dev; auto|]. intros [? ?]; discriminate.
  Qed.

  (** ** Readings of field sequences *)
  Definition run (ty : nat) (cur : val) (rs : list Wire.rec) (v : val) : Prop :=
    exists f fs u, aprs (apb f) ty 1 (msg_fields cur, msg_unk cur) rs = TOk (fs, u) /\ v = VMsg fs u.

  Lemma spec_run ty cur bs rs : all_bytes bs -> m_entry (desc_of E ty) = false -> tokB None 1 bs = TOk (rs, []) ->
    forall v, spec ty cur bs = TOk v <-> scope_ok limit 0 = true /\ run ty cur rs v.
  Proof.
    intros Hb He Ht v. rewrite (spec_ok_iff E utf8_ok limit Hse) by auto. split.
    - intros (Hs & f & rs' & Ht' & H). split; [exact Hs|]. rewrite Ht in Ht'. injection Ht' as <-.
      apply tbind_ok in H. destruct H as [[fs u] [H1 H2]]. injection H2 as <-.
      destruct f as [|f]; [discriminate|]. exists f, fs, u. split; [exact H1|reflexivity].
    - intros (Hs & f & fs & u & H1 & ->). split; [exact Hs|]. exists (S f), rs. split; [exact Ht|].
      cbn [ap_body]. rewrite H1. reflexivity.
  Qed.

  Lemma run_app ty cur rs1 rs2 v : run ty cur (rs1 ++ rs2) v <-> exists w, run ty cur rs1 w /\ run ty w rs2 v.
  Proof.
    split.
    - intros (f & fs & u & H & ->). rewrite ap_recs_app in H. apply tbind_ok in H. destruct H as [[fs1 u1] [H1 H2]].
      exists (VMsg fs1 u1). split; [exists f, fs1, u1; auto|]. exists f, fs, u. auto.
    - intros (w & (f & fs1 & u1 & H1 & ->) & (f' & fs & u & H2 & ->)). cbn [msg_fields msg_unk] in H2.
      exists (Nat.max f f'), fs, u. split; [|reflexivity]. rewrite ap_recs_app.
      pose proof (ap_recs_mono E utf8_ok limit (apb f) (apb (Nat.max f f'))
        (fun a b c d => ap_body_mono E utf8_ok limit _ _ a b c d (Nat.le_max_l f f')) ty 1 rs1 (msg_fields cur, msg_unk cur)) as M1.
      pose proof (ap_recs_mono E utf8_ok limit (apb f') (apb (Nat.max f f'))
        (fun a b c d => ap_body_mono E utf8_ok limit _ _ a b c d (Nat.le_max_r f f')) ty 1 rs2 (fs1, u1)) as M2.
      rewrite M1 by congruence. rewrite H1. cbn [tbind]. rewrite M2 by congruence. exact H2.
  Qed.

  Lemma fields_bytes_app l1 l2 : bytes_of (l1 ++ l2) = bytes_of l1 ++ bytes_of l2.
  Proof. unfold bytes_of. rewrite map_app, concat_app. reflexivity. Qed.

  Definition dummy_rec : Wire.rec := Rec [] 0 [] [] [].
  (** The record of a field. *)
  Definition rec_of (x : Z * bytes) : Wire.rec :=
    match tokB None 1 (snd x) with TOk ([r], _) => r | _ => dummy_rec end.

  Lemma fields_recs l : fields limit l -> tokB None 1 (bytes_of l) = TOk (map rec_of l, []) /\
    Forall (fun x => tag_number (r_tag (rec_of x)) = fst x /\ r_raw (rec_of x) = snd x) l.
  Proof.
    induction 1 as [|[num f] l Hf Hl (IH1 & IH2)]; [rewrite tokB_eq; split; [reflexivity|constructor]|].
    cbn [fst snd] in Hf. destruct (one_field_tok limit _ _ _ Hf (bytes_of l)) as (r & Hr1 & Hr2 & Hr).
    destruct (one_field_tok limit _ _ _ Hf []) as (r' & Hr1' & Hr2' & Hr').
    rewrite (app_nil_r f) in Hr'. rewrite (tokB_eq limit None 1 []) in Hr'. cbn [tbind] in Hr'.
    assert (r' = r).
    { rewrite (tokB_app_none limit (S (length f)) _ _ _ _ (bytes_of l) (Nat.lt_succ_diag_r _) Hr'), IH1 in Hr. cbn in Hr. congruence. }
    subst r'. unfold bytes_of. cbn [map concat snd]. fold (bytes_of l). rewrite Hr, IH1. cbn [tbind].
    assert (Hro : rec_of (num, f) = r) by (unfold rec_of; cbn [snd]; rewrite Hr'; reflexivity).
    rewrite Hro. split; [reflexivity|]. constructor; [|exact IH2]. rewrite Hro. auto.
  Qed.

  (** Readings of [l], as a relation that composes. *)
  Definition reads (ty : nat) (cur : val) (l : list (Z * bytes)) (v : val) : Prop := run ty cur (map rec_of l) v.

  Lemma reads_spec ty cur l : fields limit l -> all_bytes (bytes_of l) -> m_entry (desc_of E ty) = false ->
    forall v, spec ty cur (bytes_of l) = TOk v <-> scope_ok limit 0 = true /\ reads ty cur l v.
  Proof. intros Hf Hb He. apply spec_run; auto. apply fields_recs; auto. Qed.

  Lemma reads_app ty cur l1 l2 v : reads ty cur (l1 ++ l2) v <-> exists w, reads ty cur l1 w /\ reads ty w l2 v.
  Proof. unfold reads. rewrite map_app. apply run_app. Qed.

  Lemma fields_app l1 l2 : fields limit (l1 ++ l2) <-> fields limit l1 /\ fields limit l2.
  Proof. unfold fields. rewrite Forall_app. reflexivity. Qed.

  Lemma unknown_rec_of l ty : fields limit l -> Forall (fun x => unknown_to E ty (fst x)) l -> Forall (unknown_rec E ty) (map rec_of l).
  Proof.
    intros Hf Hu. pose proof (proj2 (fields_recs l Hf)) as Hr. clear Hf. induction Hu as [|x t [H1 H2] Ht IH]; [constructor|].
    inversion Hr as [|? ? [Hn _] Hr']; subst. cbn. constructor; [|auto]. unfold unknown_rec. rewrite Hn. split; [exact H1|].
    apply find_field_none; auto.
  Qed.

  (** Unknown fields do not disturb the members. *)
  Lemma insert_unknown ty cur a u b v : fields limit (a ++ u ++ b) -> all_bytes (bytes_of (a ++ u ++ b)) ->
    m_entry (desc_of E ty) = false -> Forall (fun x => unknown_to E ty (fst x)) u ->
    exact ty cur (bytes_of (a ++ u ++ b)) -> dec ty cur (bytes_of (a ++ u ++ b)) = Ok v ->
    exists w, dec ty cur (bytes_of (a ++ b)) = Ok w /\ msg_fields w = msg_fields v.
  Proof.
    intros Hf Hb He Hu Hx H. apply dec_ok_iff in H; auto. apply reads_spec in H; auto. destruct H as [Hs H].
    assert (Hf' : fields limit (a ++ b)) by (rewrite !fields_app in *; tauto).
    assert (Hb' : all_bytes (bytes_of (a ++ b))) by (rewrite !fields_bytes_app, !all_bytes_app in *; tauto).
    rewrite !reads_app in H. destruct H as (w1 & H1 & H). rewrite reads_app in H. destruct H as (w2 & H2 & H3).
    destruct H2 as (f2 & fs2 & u2 & H2 & ->). destruct H3 as (f3 & fs3 & u3 & H3 & ->). cbn [msg_fields msg_unk] in *.
    apply aprs_unknown in H2. 2: { apply unknown_rec_of; auto. rewrite !fields_app in Hf; tauto. }
    subst fs2. destruct (aprs_any E utf8_ok limit Hse _ _ _ _ _ _ _ _ H3 (msg_unk w1)) as [u4 H4].
    exists (VMsg fs3 u4). split; [|reflexivity]. apply dec_of_spec; auto. apply reads_spec; auto. split; [exact Hs|].
    apply reads_app. exists w1. split; [exact H1|]. exists f3, fs3, u4. auto.
  Qed.

  Lemma ap_unknown_short ty b fs u l : m_unk (desc_of E ty) = UNone \/ Forall (fun x => short_field limit 1 (fst x) (snd x)) l ->
    fields limit l -> Forall (fun x => unknown_to E ty (fst x)) l ->
    exists u', aprs b ty 1 (fs, u) (map rec_of l) = TOk (fs, u').
  Proof.
    intros Hk Hf Hu. pose proof (proj2 (fields_recs l Hf)) as Hr.
    revert u. induction l as [|x t IH]; intros u; [cbn; eauto|]. cbn [map ap_recs].
    inversion Hf as [|? ? Hf1 Hf2]; inversion Hu as [|? ? [Hu0 Hu1] Hu2]; inversion Hr as [|? ? [Hr1 Hr1'] Hr2]; subst.
    assert (H1 : exists u', apr b ty 1 (fs, u) (rec_of x) = TOk (fs, u')).
    { unfold ap_rec. cbv zeta. rewrite Hr1. destruct (Z.eqb_spec (fst x) 0); [congruence|].
      rewrite find_field_none by auto. unfold ap_unknown.
      destruct (m_unk (desc_of E ty)) eqn:Kk; [cbn; eauto| | |].
      all: destruct Hk as [Hk|Hk]; [congruence|]; inversion Hk as [|? ? (tb & tag & p & Hx & Ht & Hn & Hp & Hsh) Hk2]; subst.
      all: pose proof (shortest_size _ _ Ht Hsh) as Hsz.
      all: assert (Hrec : r_tb (rec_of x) = tb /\ r_tag (rec_of x) = tag)
        by (destruct (proj1 (grammar_complete limit) _ _ _ Hp []) as (q & sub & K); rewrite app_nil_r in K;
            unfold rec_of; rewrite Hx, tokB_eq; pose proof (tok_tag_reads _ _ p Ht) as Kt;
            destruct (tb ++ p) eqn:Kb; [destruct Ht as (Hv & _); destruct tb; [destruct Hv|discriminate]|]; rewrite <- Kb in *;
            rewrite Kt; cbn [tbind]; rewrite K; cbn [tbind]; rewrite tokB_eq; cbn; auto).
      all: destruct Hrec as [-> ->]; rewrite Hsz, Z.eqb_refl; cbn [tbind]; eauto. }
    destruct H1 as [u' ->]. cbn [tbind]. apply IH; auto. destruct Hk as [Hk|Hk]; [auto|right; inversion Hk; auto].
  Qed.

  Lemma insert_unknown_conv ty cur a u b w : fields limit (a ++ u ++ b) -> all_bytes (bytes_of (a ++ u ++ b)) ->
    m_entry (desc_of E ty) = false -> Forall (fun x => unknown_to E ty (fst x)) u ->
    m_unk (desc_of E ty) = UNone \/ Forall (fun x => short_field limit 1 (fst x) (snd x)) u ->
    exact ty cur (bytes_of (a ++ b)) -> dec ty cur (bytes_of (a ++ b)) = Ok w ->
    exists v, dec ty cur (bytes_of (a ++ u ++ b)) = Ok v /\ msg_fields v = msg_fields w.
  Proof.
    intros Hf Hb He Hu Hk Hx H.
    assert (Hf' : fields limit (a ++ b)) by (rewrite !fields_app in *; tauto).
    assert (Hb' : all_bytes (bytes_of (a ++ b))) by (rewrite !fields_bytes_app, !all_bytes_app in *; tauto).
    apply dec_ok_iff in H; auto. apply reads_spec in H; auto. destruct H as [Hs H].
    rewrite reads_app in H. destruct H as (w1 & H1 & (f3 & fs3 & u3 & H3 & ->)).
    destruct (ap_unknown_short ty (apb 0) (msg_fields w1) (msg_unk w1) u Hk ltac:(rewrite !fields_app in Hf; tauto) Hu) as [u2 H2].
    destruct (aprs_any E utf8_ok limit Hse _ _ _ _ _ _ _ _ H3 u2) as [u4 H4].
    exists (VMsg fs3 u4). split; [|reflexivity]. apply dec_of_spec; auto. apply reads_spec; auto. split; [exact Hs|].
    apply reads_app. exists w1. split; [exact H1|]. apply reads_app. exists (VMsg (msg_fields w1) u2). split.
    - exists 0%nat, (msg_fields w1), u2. auto.
    - exists f3, fs3, u4. auto.
  Qed.

  (** Field boundaries. *)
  Lemma accepted_fields ty cur bs v : all_bytes bs -> m_entry (desc_of E ty) = false -> dec ty cur bs = Ok v ->
    exists l, fields limit l /\ bs = bytes_of l.
  Proof.
    intros Hb He H. destruct (dec_tok _ _ _ _ Hb He H) as [rs Hrs].
    eexists. eapply tok_fields; eauto.
  Qed.

  Lemma fields_unique l1 : forall l2, fields limit l1 -> fields limit l2 -> bytes_of l1 = bytes_of l2 -> l1 = l2.
  Proof.
    intros l2 H1 H2 He. destruct (fields_tok limit _ H1) as (r1 & T1 & M1). destruct (fields_tok limit _ H2) as (r2 & T2 & M2).
    rewrite He in T1. congruence.
  Qed.

  Lemma accepted_prefix ty cur l p q v : fields limit l -> all_bytes p -> p ++ q = bytes_of l -> m_entry (desc_of E ty) = false ->
    dec ty cur p = Ok v -> exists l1 l2, l = l1 ++ l2 /\ p = bytes_of l1 /\ q = bytes_of l2.
  Proof.
    intros Hf Hb Hpq He H. destruct (dec_tok _ _ _ _ Hb He H) as [rs Hrs].
    destruct (fields_tok limit _ Hf) as (rl & Tl & Ml). rewrite <- Hpq in Tl.
    pose proof (tokB_prefix limit 1 p q _ _ Tl) as K. rewrite Hrs in K. destruct K as (rs2 & -> & _).
    destruct (tok_fields limit _ _ _ (Nat.lt_succ_diag_r _) Hb Hrs) as [_ Hp].
    rewrite map_app in Ml. exists (map rec_num_raw rs), (map rec_num_raw rs2). split; [auto|]. split; [exact Hp|].
    rewrite <- Ml, fields_bytes_app, <- Hp in Hpq. apply app_inv_head in Hpq. exact Hpq.
  Qed.

  (** The last occurrence of a singular field wins. *)
  Lemma last_wins ty cur i num e c pre tb pb x post v : 0 < num -> m_entry (desc_of E ty) = false ->
    member E ty num i (Field num e c) -> singular (Field num e c) -> elem_closed e = false ->
    fields limit pre -> tag_bytes num (elem_wt e) tb -> scalar_payload utf8_ok e pb x -> fields limit post ->
    Forall (fun y => forall f, ~ member E ty (fst y) i f) post ->
    all_bytes (bytes_of pre) -> all_bytes (bytes_of post) ->
    exact ty cur (bytes_of pre ++ (tb ++ pb) ++ bytes_of post) ->
    dec ty cur (bytes_of pre ++ (tb ++ pb) ++ bytes_of post) = Ok v ->
    nth i (msg_fields v) [] = [x].
  Proof.
    intros Hn He Hm Hsg Hc Hpre Ht Hp Hpost Ho Hb1 Hb2 Hx H.
    assert (Hb3 : all_bytes (tb ++ pb)).
    { apply all_bytes_app. split; [apply is_varint_all_bytes; apply Ht|]. eapply scalar_payload_bytes; eauto. }
    assert (Hb : all_bytes (bytes_of pre ++ (tb ++ pb) ++ bytes_of post)) by (apply all_bytes_app; split; [auto|apply all_bytes_app; auto]).
    apply dec_ok_iff in H; auto.
    assert (H0 : scope_ok limit 0 = true).
    { unfold spec_decode in H. destruct (scope_ok limit 0); [reflexivity|discriminate]. }
    destruct (tok_pay_scalar E utf8_ok limit (grpB limit 1) num e pb x [] Hn Hp) as (p & Kp & _). rewrite app_nil_r in Kp.
    pose proof (tokB_one limit 1 num (elem_wt e) tb pb p [] Ht Kp) as T2.
    destruct (fields_recs _ Hpre) as [T1 _]. destruct (fields_recs _ Hpost) as [T3 N3].
    pose proof (tokB_app_none limit _ _ _ _ _ (bytes_of post) (Nat.lt_succ_diag_r _) T2) as T23. rewrite T3 in T23. cbn [tbind] in T23.
    pose proof (tokB_app_none limit _ _ _ _ _ ((tb ++ pb) ++ bytes_of post) (Nat.lt_succ_diag_r _) T1) as T. rewrite T23 in T. cbn [tbind] in T.
    apply (spec_run _ _ _ _ Hb He T) in H. destruct H as [_ H].
    apply run_app in H. destruct H as (w1 & H1 & H). apply run_app in H. destruct H as (w2 & H2 & (f & fs & u & H3 & ->)).
    assert (Hw2 : w2 = VMsg (set_nth i [x] (msg_fields w1)) (msg_unk w1)).
    { assert (S2 : spec ty w1 (tb ++ pb) = TOk w2) by (apply (spec_run _ _ _ _ Hb3 He T2); auto).
      rewrite (spec_scalar E utf8_ok limit ty w1 i num e c tb pb x H0 Hn Hm Hsg Hc Ht Hp) in S2. congruence. }
    subst w2. cbn [msg_fields msg_unk] in H3. cbn [msg_fields].
    apply (aprs_other E utf8_ok limit (apb f) ty 1 i (map rec_of post)) in H3.
    - cbn [fst] in H3. rewrite H3. apply nth_set_nth.
    - clear -Ho N3. induction N3 as [|y t [Hy _] Ht IH]; [constructor|]. inversion Ho as [|? ? Hy2 Ho2]; subst. cbn. constructor; [|auto].
      unfold other_rec. rewrite Hy. destruct (find_field (fst y) _ 0) as [[j g]|] eqn:K; [|exact I].
      intros ->. exact (Hy2 g K).
  Qed.

  (** Field order across members does not matter. *)
  Lemma reorder ty cur l l' v : fields limit l -> fields limit l' -> m_entry (desc_of E ty) = false ->
    all_bytes (bytes_of l) -> all_bytes (bytes_of l') ->
    (forall k, concerning E ty k l = concerning E ty k l') ->
    exact ty cur (bytes_of l) -> dec ty cur (bytes_of l) = Ok v -> dec ty cur (bytes_of l') = Ok v.
  Proof.
    intros Hf Hf' He Hb Hb' Hk Hx H. apply dec_ok_iff in H; auto. apply reads_spec in H; auto. destruct H as [Hs (f & fs & u & H & ->)].
    apply dec_of_spec; auto. apply reads_spec; auto. split; [exact Hs|]. exists f, fs, u. split; [|reflexivity].
    eapply aprs_reorder; [|exact H].
    assert (Hmap : forall k m, fields limit m -> with_key (rkey E ty) k (map rec_of m) = map rec_of (concerning E ty k m)).
    { intros k m Hm. pose proof (proj2 (fields_recs m Hm)) as Hr. clear Hm. induction Hr as [|y t [Hy _] Ht IH]; [reflexivity|].
      assert (Hkey : rkey E ty (rec_of y) = member_key E ty (fst y)) by (unfold rkey; rewrite Hy; reflexivity).
      unfold concerning, with_key in *. cbn [map filter].
      destruct (key_dec (rkey E ty (rec_of y)) k), (key_dec (member_key E ty (fst y)) k); try congruence; cbn [map]; rewrite IH; reflexivity. }
    intros k. rewrite !Hmap by auto. rewrite Hk. reflexivity.
  Qed.

  (** ** Retained unknown fields *)
  Lemma reads_unknown ty cur l v : fields limit l -> no_closed_enum E ty -> m_unk (desc_of E ty) <> UNone -> reads ty cur l v ->
    msg_unk v = fold_left (fun u x => unk_add (m_unk (desc_of E ty)) (fst x) (snd x) u) (unknowns E ty l) (msg_unk cur).
  Proof.
    intros Hf Hc Hk (f & fs & u & H & ->). cbn [msg_unk].
    pose proof (proj2 (fields_recs l Hf)) as Hr. clear Hf. revert H. generalize (msg_fields cur) (msg_unk cur).
    induction Hr as [|x t [Hx1 Hx2] Ht IH]; intros fs0 u0 H.
    - cbn in H. injection H as <- <-. reflexivity.
    - cbn [map ap_recs] in H. apply tbind_ok in H. destruct H as [[fs1 u1] [H1 H2]].
      specialize (IH _ _ H2). unfold unknowns in *. cbn [filter].
      unfold ap_rec in H1. cbv zeta in H1. rewrite Hx1 in H1. destruct (_ =? 0); [discriminate|].
      destruct (find_field (fst x) (m_fields (desc_of E ty)) 0) as [[i g]|] eqn:Kf.
      + apply tbind_ok in H1. destruct H1 as [[c w] [H1 H3]]. injection H3 as <- <-.
        destruct (find_field_spec _ _ _ _ _ Kf) as [Hin Hnum].
        rewrite apf_unk in H1 by exact (proj1 (Forall_forall _ _) Hc g Hin).
        apply tbind_ok in H1. destruct H1 as [[c' w'] [_ H1]]. injection H1 as <- <-.
        replace (forallb _ _) with false; [exact IH|]. symmetry. apply not_true_iff_false. intros Hall.
        rewrite forallb_forall in Hall. specialize (Hall g Hin). rewrite Hnum in Hall. discriminate.
      + apply tbind_ok in H1. destruct H1 as [w [H1 H3]]. injection H3 as <- <-.
        replace (forallb _ _) with true.
        2: { symmetry. apply forallb_forall. intros g Hg. apply find_field_none_inv in Kf.
             rewrite (proj1 (Forall_forall _ _) Kf g Hg). reflexivity. }
        cbn [fold_left]. rewrite IH. f_equal.
        unfold ap_unknown in H1. rewrite Hx1, Hx2 in H1.
        destruct (m_unk (desc_of E ty)); [congruence| | |]; destruct (_ =? varint_size_u _); congruence.
  Qed.
End Main.

(** ** The unknown field stores *)
Lemma kept_for_other n l : ~ In n (map fst l) -> kept_for n l = [].
Proof.
  unfold kept_for. induction l as [|[m c] t IH]; [reflexivity|]. cbn. intros H. destruct (Z.eqb_spec m n); [tauto|]. apply IH. tauto.
Qed.
Lemma kept_for_cons n m c t : kept_for n ((m, c) :: t) = (if m =? n then c else []) ++ kept_for n t.
Proof. unfold kept_for. cbn. destruct (m =? n); reflexivity. Qed.

Lemma upairs_add_for num b l n : NoDup (map fst l) ->
  kept_for n (upairs_add num b l) = kept_for n l ++ (if num =? n then b else []).
Proof.
  induction l as [|[m c] t IH]; intros Hd.
  - cbn [upairs_add]. rewrite kept_for_cons. unfold kept_for. cbn. rewrite app_nil_r. reflexivity.
  - inversion Hd as [|? ? H1 H2]; subst. cbn [upairs_add]. destruct (Z.eqb_spec m num) as [->|Hm].
    + rewrite !kept_for_cons. destruct (Z.eqb_spec num n) as [->|].
      * rewrite kept_for_other by auto. rewrite !app_nil_r. reflexivity.
      * rewrite app_nil_r. reflexivity.
    + rewrite !kept_for_cons, IH by auto. apply app_assoc.
Qed.
Lemma upairs_add_keys num b l : forall x, In x (map fst (upairs_add num b l)) <-> x = num \/ In x (map fst l).
Proof.
  induction l as [|[m c] t IH]; intros x; cbn [upairs_add].
  - cbn. intuition.
  - destruct (Z.eqb_spec m num) as [->|]; cbn; [intuition|]. rewrite IH. intuition.
Qed.
Lemma upairs_add_nodup num b l : NoDup (map fst l) -> NoDup (map fst (upairs_add num b l)).
Proof.
  induction l as [|[m c] t IH]; intros H; cbn [upairs_add]; [repeat constructor; auto|].
  inversion H as [|? ? H1 H2]; subst. destruct (Z.eqb_spec m num) as [->|]; [exact H|].
  cbn. constructor; [|auto]. rewrite upairs_add_keys. intros [->|]; congruence.
Qed.

Lemma umap_add_keys num b l : forall x, In x (map fst (umap_add num b l)) <-> x = num \/ In x (map fst l).
Proof.
  induction l as [|[m c] t IH]; intros x; cbn [umap_add].
  - cbn. intuition.
  - destruct (Z.eqb_spec m num) as [->|]; [cbn; intuition|]. destruct (num <? m); [cbn; intuition|]. cbn. rewrite IH. intuition.
Qed.
Lemma umap_add_sorted num b l : StronglySorted Z.lt (map fst l) -> StronglySorted Z.lt (map fst (umap_add num b l)).
Proof.
  induction l as [|[m c] t IH]; intros H; cbn [umap_add]; [repeat constructor|].
  cbn [map fst] in H. inversion H as [|? ? H1 H2]; subst. destruct (Z.eqb_spec m num) as [->|]; [exact H|].
  destruct (Z.ltb_spec num m).
  - cbn [map fst]. constructor; [exact H|]. constructor; [lia|]. eapply Forall_impl; [|exact H2]. cbn; lia.
  - cbn [map fst]. constructor; [auto|]. apply Forall_forall. intros x Hx. apply umap_add_keys in Hx.
    destruct Hx as [->|Hx]; [lia|]. exact (proj1 (Forall_forall _ _) H2 x Hx).
Qed.
Lemma umap_add_for num b l n : StronglySorted Z.lt (map fst l) ->
  kept_for n (umap_add num b l) = kept_for n l ++ (if num =? n then b else []).
Proof.
  induction l as [|[m c] t IH]; intros H.
  - cbn [umap_add]. rewrite kept_for_cons. unfold kept_for. cbn. rewrite app_nil_r. reflexivity.
  - cbn [map fst] in H. inversion H as [|? ? H1 H2]; subst. rewrite Forall_forall in H2.
    cbn [umap_add]. destruct (Z.eqb_spec m num) as [->|Hm].
    + rewrite !kept_for_cons. destruct (Z.eqb_spec num n) as [->|].
      * rewrite kept_for_other by (intros Hi; specialize (H2 _ Hi); lia). rewrite !app_nil_r. reflexivity.
      * rewrite app_nil_r. reflexivity.
    + destruct (Z.ltb_spec num m).
      * rewrite !kept_for_cons. destruct (Z.eqb_spec num n) as [->|].
        -- destruct (Z.eqb_spec m n); [lia|]. rewrite kept_for_other by (intros Hi; specialize (H2 _ Hi); lia).
           rewrite !app_nil_r. reflexivity.
        -- rewrite app_nil_r. reflexivity.
      * rewrite !kept_for_cons, IH by auto. apply app_assoc.
Qed.

Lemma unk_add_ok k num b u : store_ok k u -> store_ok k (unk_add k num b u).
Proof.
  destruct k; cbn [store_ok unk_add]; auto.
  - intros [H1 H2]. destruct u as [|[n c] t]; cbn in *; [split; [lia|repeat constructor]|]. split; [exact H1|]. inversion H2; constructor; auto.
  - apply umap_add_sorted.
  - apply upairs_add_nodup.
Qed.

Lemma unk_adds k l : forall u, store_ok k u ->
  let u' := fold_left (fun u x => unk_add k (fst x) (snd x) u) l u in
  store_ok k u' /\
  (k = UBytes -> kept_bytes u' = kept_bytes u ++ bytes_of l) /\
  (k = UMap \/ k = UPairs -> forall n, kept_for n u' = kept_for n u ++ bytes_of (filter (fun x => fst x =? n) l)).
Proof.
  induction l as [|[m c] t IH]; intros u Hu; cbn [fold_left].
  - cbn. split; [exact Hu|]. split; intros; rewrite app_nil_r; reflexivity.
  - cbn [fst snd]. specialize (IH _ (unk_add_ok k m c u Hu)). cbv zeta in *. destruct IH as (H1 & H2 & H3).
    split; [exact H1|]. split.
    + intros Hk. rewrite (H2 Hk). subst k. cbn [unk_add]. cbn [store_ok] in Hu. unfold kept_bytes, bytes_of.
      destruct u as [|[n d] [|? ?]]; cbn in *; [rewrite app_nil_r; reflexivity| |lia].
      rewrite !app_nil_r, <- app_assoc. reflexivity.
    + intros Hk n. rewrite (H3 Hk n).
      assert (Ha : kept_for n (unk_add k m c u) = kept_for n u ++ (if m =? n then c else [])).
      { destruct Hk as [->| ->]; cbn [store_ok unk_add] in *; [apply umap_add_for|apply upairs_add_for]; exact Hu. }
      rewrite Ha, <- app_assoc. f_equal. unfold bytes_of. cbn [filter fst]. destruct (m =? n); reflexivity.
Qed.

Theorem retained E utf8_ok limit (Hse : safe_env E) ty cur l v : fields limit l -> all_bytes (bytes_of l) ->
  m_entry (desc_of E ty) = false -> no_closed_enum E ty -> m_unk (desc_of E ty) <> UNone ->
  store_ok (m_unk (desc_of E ty)) (msg_unk cur) ->
  exact_unknown E utf8_ok limit ty cur (bytes_of l) -> decode_bytes E utf8_ok limit ty cur (bytes_of l) = Ok v ->
  store_ok (m_unk (desc_of E ty)) (msg_unk v) /\
  (m_unk (desc_of E ty) = UBytes -> kept_bytes (msg_unk v) = kept_bytes (msg_unk cur) ++ bytes_of (unknowns E ty l)) /\
  (m_unk (desc_of E ty) = UMap \/ m_unk (desc_of E ty) = UPairs -> forall n,
     kept_for n (msg_unk v) = kept_for n (msg_unk cur) ++ bytes_of (filter (fun x => fst x =? n) (unknowns E ty l))).
Proof.
  intros Hf Hb He Hc Hk Hs Hx H. apply dec_ok_iff in H; auto. apply reads_spec in H; auto. destruct H as [_ H].
  rewrite (reads_unknown E utf8_ok limit ty cur l v Hf Hc Hk H). apply unk_adds. exact Hs.
Qed.
