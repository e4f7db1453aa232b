(** The encoding properties. *)
From Coq Require Import Sorted.
Require Import Verif.Bits Verif.Varint Verif.VarintSpec Verif.VarintProofs Verif.VarintFacts Verif.VarintMain.
Require Import Verif.Schema Verif.Archive Verif.Decode Verif.DecodeSafe Verif.Wire Verif.WireFacts Verif.WireGrammar Verif.GrammarFacts Verif.DecodeSpec1 Verif.DecodeSpec4.
Require Import Verif.DecodeLaws Verif.DecodeLaws2 Verif.FieldSpec Verif.DecodeOcc Verif.WellTyped Verif.DecodeTerms Verif.DecodeMain Verif.Encode Verif.EncodeSpec Verif.EncodeProofs Verif.EncodeProofs2 Verif.RoundTrip Verif.RoundTrip2.

Lemma vint_bytes n : 0 <= n -> all_bytes (vint n).
Proof. intros H. apply is_varint_all_bytes. apply vint_spec. exact H. Qed.

Lemma all_bytes_concat l : Forall all_bytes l -> all_bytes (concat l).
Proof. induction 1; cbn; [constructor|]. apply all_bytes_app. auto. Qed.

Section Main.
  Context (E : env) (utf8_ok : bytes -> bool).
  Notation wt := (wt E utf8_ok).

  Lemma elem_bytes num e v : 0 <= num -> wt e v -> (forall ty delim, e = EMsg ty delim -> all_bytes (enc_msg E ty v)) ->
    all_bytes (enc_elem (enc_msg E) num e v).
  Proof.
    intros Hn Hw Hm. pose proof (wt_range e). destruct (scalar e) eqn:Hs.
    - pose proof (scalar_bytes E utf8_ok e v Hw Hs).
      destruct e as [| | | | |]; try discriminate; cbn [enc_elem]; (apply all_bytes_app; split; [apply vint_bytes; lia|assumption]).
    - destruct e as [| | | | |ty [|]]; try discriminate; specialize (Hm _ _ eq_refl); cbn [enc_elem]; rewrite !all_bytes_app;
        repeat split; auto; apply vint_bytes; try apply zlen_nonneg; unfold WT_SGROUP, WT_EGROUP, WT_LEN; lia.
  Qed.

  Lemma loosen_elem ex e v : wt (loosen ex e) v -> enc_scalar (loosen ex e) v = enc_scalar e v /\ scalar (loosen ex e) = scalar e /\ elem_wt (loosen ex e) = elem_wt e /\
    (forall num, enc_elem (enc_msg E) num (loosen ex e) v = enc_elem (enc_msg E) num e v).
  Proof. intros _. destruct e as [| | |[l|]| |]; try (repeat split; reflexivity). destruct ex; repeat split; reflexivity. Qed.

  Lemma field_bytes f c : Forall (fun n => 0 <= n) (nums f) -> cell E utf8_ok f c ->
    (forall ty v, sub_msg f c ty v -> all_bytes (enc_msg E ty v)) -> all_bytes (enc_field (enc_msg E) f c).
  Proof.
    intros Hn Hc Hs. inversion Hc; subst; cbn [enc_field nums] in *.
    - apply Forall_inv in Hn. cbn [map concat]. rewrite app_nil_r. destruct (loosen_elem ex e v H) as (_ & _ & _ & K). rewrite <- K.
      apply elem_bytes; auto. intros ty delim He. apply Hs. destruct e as [| | |[l|]| |]; try discriminate; [destruct ex; discriminate|].
      injection He as -> ->. constructor. left; reflexivity.
    - constructor.
    - apply Forall_inv in Hn. cbn [map concat]. rewrite app_nil_r. apply elem_bytes; auto. intros ty delim ->. apply Hs. constructor. left; reflexivity.
    - apply Forall_inv in Hn. apply elems_forall in H. rewrite Forall_forall in H.
      assert (K : all_bytes (concat (map (enc_elem (enc_msg E) num e) c))).
      { apply all_bytes_concat. apply Forall_forall. intros b Hb. apply in_map_iff in Hb. destruct Hb as (v & <- & Hv). apply elem_bytes; auto.
        intros ty delim ->. apply Hs. constructor. exact Hv. }
      destruct pk; [|exact K]. destruct (packable e) eqn:Hp; [|exact K]. unfold enc_packed. rewrite !all_bytes_app.
      split; [apply vint_bytes; unfold WT_LEN; lia|]. split; [apply vint_bytes; apply zlen_nonneg|].
      apply all_bytes_concat. apply Forall_forall. intros b Hb. apply in_map_iff in Hb. destruct Hb as (v & <- & Hv).
      apply (scalar_bytes E utf8_ok); auto. destruct e; try discriminate; reflexivity.
    - apply Forall_inv in Hn. apply elems_forall in H. rewrite Forall_forall in H.
      apply all_bytes_concat. apply Forall_forall. intros b Hb. apply in_map_iff in Hb. destruct Hb as (v & <- & Hv). apply elem_bytes; auto.
      intros ty delim ->. apply Hs. constructor. exact Hv.
    - constructor.
    - rewrite H. apply elem_bytes; auto.
      + rewrite Forall_forall in Hn. apply Hn. apply in_map_iff. exists (num, e). split; [reflexivity|]. eapply nth_error_In; eauto.
      + intros ty delim ->. apply Hs. econstructor. exact H.
  Qed.

  Lemma enc_bytes : legal_numbers E -> forall ty v, wt (EMsg ty false) v -> all_bytes (enc_msg E ty v).
  Proof.
    intros Hnum. apply (nested_ind_msg E (fun ty v => wt (EMsg ty false) v -> all_bytes (enc_msg E ty v))). intros ty v IH Hw.
    inversion Hw as [| | | | |? ? fs u Hc Hst Hu]; subst. cbn [enc_msg]. apply all_bytes_app. split.
    - assert (K : forall fds fs, cells E utf8_ok fds fs -> (forall f, In f fds -> In f (m_fields (desc_of E ty))) ->
        (forall f c, In (f, c) (combine fds fs) -> holds E ty (VMsg fs u) f c \/ True) ->
        (forall f c ty' v', In (f, c) (combine fds fs) -> sub_msg f c ty' v' -> all_bytes (enc_msg E ty' v')) -> all_bytes (enc_fields (enc_msg E) fds fs)).
      { induction fds as [|f fds IHf]; intros gs Hcs Hin _ Hsub; inversion Hcs; subst; [constructor|]. cbn [enc_fields]. apply all_bytes_app. split.
        - destruct (omit f c); [constructor|]. apply field_bytes; auto.
          + apply Forall_forall. intros n Hn. pose proof (Hnum ty f n (Hin f (or_introl eq_refl)) Hn). lia.
          + intros ty' v'. apply Hsub. left; reflexivity.
        - apply IHf; auto.
          + intros g Hg. apply Hin. right; exact Hg.
          + intros g c' ty' v' Hg. apply Hsub. right; exact Hg. }
      apply K; auto. intros f c ty' v' Hin Hsub. apply (IH f c ty' v' Hin Hsub). eapply cell_sub; eauto. eapply cells_in; eauto.
    - unfold enc_unknown. destruct (m_unk _); [constructor|..]; apply all_bytes_concat; apply Forall_map; exact Hu.
  Qed.

  (** Every message that is not too deep and not too large is written. *)
  Theorem encodes maxd ty v : legal_numbers E -> wt_msg E utf8_ok ty v -> (forall n, nested E ty v n -> scope_ok maxd (Z.of_nat n - 1) = true) ->
    zlen (enc_msg E ty v) < max_message_size -> encode_bytes E utf8_ok maxd ty v = Ok (enc_msg E ty v).
  Proof.
    intros Hn Hw Hd Hl. pose proof (plan_eq E utf8_ok utf8_ok maxd Hn ty v Hw) as K. destruct (cnt_msg E maxd 0 ty v) as [n|] eqn:Hc.
    - destruct (Z.leb_spec max_message_size (zlen (enc_msg E ty v))); [lia|]. destruct K as [(ws & K & Kf)|(_ & b & K1 & K2)]; [|congruence].
      unfold encode_bytes. rewrite K. cbn [bind]. rewrite Kf. reflexivity.
    - apply count_depth in Hc. destruct Hc as (n & Hn' & Hs). rewrite Z.add_0_l, (Hd n Hn') in Hs. discriminate.
  Qed.

  (** What a successful write means. *)
  Theorem encoded maxd ty v bs : legal_numbers E -> wt_msg E utf8_ok ty v -> encode_bytes E utf8_ok maxd ty v = Ok bs ->
    bs = enc_msg E ty v /\ zlen bs < max_message_size /\ (forall n, nested E ty v n -> scope_ok maxd (Z.of_nat n - 1) = true).
  Proof.
    intros Hn Hw H. pose proof (plan_eq E utf8_ok utf8_ok maxd Hn ty v Hw) as K. unfold encode_bytes in H.
    destruct (cnt_msg E maxd 0 ty v) as [m|] eqn:Hc; [|rewrite K in H; discriminate].
    destruct (Z.leb_spec max_message_size (zlen (enc_msg E ty v))); [rewrite K in H; discriminate|].
    destruct K as [(ws & K & Kf)|(K & _)]; rewrite K in H; cbn [bind] in H; [|discriminate]. injection H as <-. rewrite Kf. split; [reflexivity|]. split; [lia|].
    intros n Hne. destruct (scope_ok maxd (Z.of_nat n - 1)) eqn:Hs; [reflexivity|]. exfalso.
    assert (cnt_msg E maxd 0 ty v = None); [|congruence]. apply count_depth. exists n. rewrite Z.add_0_l. auto.
  Qed.

  Lemma scope_mono a b d : a <= b -> scope_ok a d = true -> scope_ok b d = true.
  Proof. unfold scope_ok. intros Hab H. unfold scope_ok in *. apply andb_true_iff in H. apply andb_true_iff. destruct H as [H1 H2]. split; [|exact H2]. apply Z.leb_le in H1. apply Z.leb_le. lia. Qed.

  (** ** The round trip *)
  Theorem round_trip maxd limit ty v bs : generated E -> m_entry (desc_of E ty) = false -> maxd <= limit ->
    wt_msg E utf8_ok ty v -> canonical E limit 1 ty v ->
    encode_bytes E utf8_ok maxd ty v = Ok bs -> decode_bytes E utf8_ok limit ty (default_msg E ty) bs = Ok v.
  Proof.
    intros G He Hml Hw Hc H. pose proof (generated_legal E G) as Hleg. destruct (encoded maxd ty v bs Hleg Hw H) as (-> & Hl & Hd).
    apply dec_of_spec; [apply (gen_safe E G)|apply enc_bytes; auto|exact He|].
    assert (Hd' : forall n, nested E ty v n -> scope_ok limit (0 + Z.of_nat n - 1) = true) by (intros n Hn; rewrite Z.add_0_l; apply (scope_mono maxd); auto).
    destruct (message_run E utf8_ok limit G ty v 0 Hw Hc Hd' ltac:(unfold max_message_size in Hl; lia)) as (f & rs & Ht & Ha).
    change (0 + 1) with 1 in *. apply spec_ok_iff; [apply (gen_safe E G)|apply enc_bytes; auto|exact He|].
    inversion Hw as [| | | | |? ? fs u Hcs Hst Hu]; subst. split.
    - apply (Hd' 1%nat). constructor.
    - exists (S f), rs. split; [exact Ht|]. cbn [ap_body]. change (msg_unk (default_msg E ty)) with (@nil (Z * bytes)). rewrite Ha. reflexivity.
  Qed.
End Main.
