(** Decoding produces well-formed messages. *)
From Coq Require Import Sorted.
Require Import Verif.Bits Verif.Varint Verif.VarintSpec Verif.VarintProofs Verif.VarintFacts Verif.VarintMain.
Require Import Verif.Schema Verif.Archive Verif.Decode Verif.DecodeSafe Verif.Wire Verif.WireFacts.
Require Import Verif.DecodeSpec1 Verif.DecodeSpec2 Verif.DecodeSpec3 Verif.DecodeSpec4 Verif.DecodeLaws Verif.DecodeLaws2.
Require Import Verif.WellTyped Verif.FieldSpec Verif.DecodeOcc Verif.DecodeTerms Verif.DecodeMain.

(** ** What a record holds *)
Inductive rec_ok : Wire.rec -> Prop :=
| RecOk tb tag pb p sub : all_bytes (tb ++ pb) -> all_bytes p ->
    (tag_type tag = WT_I64 -> length p = 8%nat) -> (tag_type tag = WT_I32 -> length p = 4%nat) ->
    Forall rec_ok sub -> rec_ok (Rec tb tag pb p sub).

Lemma tok_pay_rec g tag bs p sub rest : all_bytes bs ->
  (forall num rs r, g num bs = TOk (rs, r) -> Forall rec_ok rs) ->
  tok_pay g tag bs = TOk (p, sub, rest) ->
  (exists c, bs = c ++ rest) ->
  all_bytes p /\ (tag_type tag = WT_I64 -> length p = 8%nat) /\ (tag_type tag = WT_I32 -> length p = 4%nat) /\ Forall rec_ok sub.
Proof.
  intros Hb Hg H _. unfold tok_pay in H. destruct (tag =? 0); [discriminate|].
  destruct (Z.eqb_spec (tag_type tag) WT_VARINT) as [K|K1].
  { destruct (scan 10 bs) eqn:Ks; try discriminate. injection H as <- <- <-.
    split; [apply all_bytes_firstn; auto|]. rewrite K. repeat split; try discriminate. constructor. }
  destruct (Z.eqb_spec (tag_type tag) WT_LEN) as [K|K2].
  { destruct (scan 6 bs) eqn:Ks; try discriminate. apply tbind_ok in H. destruct H as [[q r] [H1 H]]. injection H as <- <- <-.
    apply tok_take_ok in H1. destruct H1 as [H1 _].
    split. { assert (all_bytes (skipn n bs)) by (apply all_bytes_skipn; auto). rewrite H1, all_bytes_app in H. tauto. }
    rewrite K. repeat split; try discriminate. constructor. }
  destruct (Z.eqb_spec (tag_type tag) WT_I64) as [K|K3].
  { apply tbind_ok in H. destruct H as [[q r] [H1 H]]. injection H as <- <- <-. apply tok_take_ok in H1. destruct H1 as [H1 H2].
    subst bs. rewrite all_bytes_app in Hb. split; [tauto|]. split; [auto|]. rewrite K. split; [discriminate|constructor]. }
  destruct (Z.eqb_spec (tag_type tag) WT_SGROUP) as [K|K4].
  { apply tbind_ok in H. destruct H as [[q r] [H1 H]]. injection H as <- <- <-.
    split; [constructor|]. rewrite K. repeat split; try discriminate. eapply Hg; eauto. }
  destruct (Z.eqb_spec (tag_type tag) WT_I32) as [K|K5]; [|discriminate].
  apply tbind_ok in H. destruct H as [[q r] [H1 H]]. injection H as <- <- <-. apply tok_take_ok in H1. destruct H1 as [H1 H2].
  subst bs. rewrite all_bytes_app in Hb. split; [tauto|]. split; [contradiction|]. split; [auto|constructor].
Qed.

Lemma tok_rec_ok maxd : forall f mode depth bs rs rest, all_bytes bs -> tok maxd f mode depth bs = TOk (rs, rest) -> Forall rec_ok rs.
Proof.
  induction f as [|f IH]; intros mode depth bs rs rest Hb H; [discriminate|]. rewrite tok_S in H. destruct bs as [|b t].
  { destruct mode; [discriminate|]. injection H as <- <-. constructor. }
  apply tbind_ok in H. destruct H as [[[tb tag] bs1] [H1 H]]. destruct (tok_tag_ok _ _ _ _ H1) as (n & _ & _ & _ & _ & _ & _ & Happ).
  assert (Hb1 : all_bytes tb /\ all_bytes bs1) by (rewrite Happ, all_bytes_app in Hb; tauto).
  destruct (match mode with Some num => _ | None => _ end); [injection H as <- <-; constructor|].
  apply tbind_ok in H. destruct H as [[[p sub] bs2] [H2 H]]. apply tbind_ok in H. destruct H as [[rs' r'] [H3 H]]. injection H as <- <-.
  destruct (tok_pay_ok _ _ _ _ _ _ (fun num rs r => grp_consumes' _ _ _ num _ rs r) H2) as (c & Hc & _).
  destruct Hb1 as [Hb0 Hb1]. constructor.
  - assert (Hg : forall num rs r, grp maxd f depth num bs1 = TOk (rs, r) -> Forall rec_ok rs).
    { intros num rs r. unfold grp. destruct (scope_ok maxd depth); [|discriminate]. apply IH. exact Hb1. }
    destruct (tok_pay_rec _ _ _ _ _ _ Hb1 Hg H2 (ex_intro _ c Hc)) as (A & B & C & D).
    constructor; auto. apply all_bytes_app. split; [exact Hb0|]. unfold used. apply all_bytes_firstn. exact Hb1.
  - eapply IH; [|exact H3]. rewrite Hc, all_bytes_app in Hb1. tauto.
Qed.

Lemma le_val_range p : all_bytes p -> 0 <= le_val p < 2 ^ (8 * zlen p).
Proof.
  induction 1 as [|b p Hb Hp IH]; [cbn; lia|]. cbn [le_val]. rewrite zlen_cons.
  replace (8 * (1 + zlen p)) with (8 + 8 * zlen p) by lia. rewrite Z.pow_add_r by (pose proof (zlen_nonneg p); lia).
  change (2 ^ 8) with 256. unfold is_byte in Hb. lia.
Qed.

Lemma meaning_range t u : in_vtype t (meaning t u).
Proof.
  destruct t; cbn [meaning in_vtype]; try (apply wrapS_range; lia); try (apply Z.mod_pos_bound; reflexivity).
  pose proof (Z.mod_pos_bound u (2 ^ 64) ltac:(reflexivity)) as H. unfold fits_s, unzz. set (x := u mod 2 ^ 64) in *.
  change (2 ^ (64 - 1)) with 9223372036854775808. change (2 ^ 64) with 18446744073709551616 in H. destruct (Z.even x); lia.
Qed.

Lemma chunks_range n sz : forall b, all_bytes b -> Forall (fun z => 0 <= z < 2 ^ (8 * Z.of_nat sz)) (chunks n sz b).
Proof.
  induction n as [|n IH]; intros b Hb; cbn [chunks]; constructor; [|apply IH, all_bytes_skipn; auto].
  pose proof (le_val_range (firstn sz b) (all_bytes_firstn sz b Hb)) as [H1 H2]. split; [exact H1|].
  eapply Z.lt_le_trans; [exact H2|]. apply Z.pow_le_mono_r; [lia|]. unfold zlen. rewrite firstn_length. lia.
Qed.

Section Wt.
  Context (E : env) (utf8_ok : bytes -> bool) (maxd : Z).
  Hypothesis Hse : safe_env E.
  Hypothesis Hms : map_shape E.
  Hypothesis Hdef : wt_defaults E utf8_ok.
  Notation wt := (wt E utf8_ok).
  Notation cell := (cell E utf8_ok).
  Notation cells := (cells E utf8_ok).

  Definition state_ok (ty : nat) (st : state) : Prop :=
    cells (m_fields (desc_of E ty)) (fst st) /\ store_ok (m_unk (desc_of E ty)) (snd st) /\ Forall (fun p => all_bytes (snd p)) (snd st).

  Lemma unk_add_bytes k num b u : all_bytes b -> Forall (fun p => all_bytes (snd p)) u -> Forall (fun p => all_bytes (snd p)) (unk_add k num b u).
  Proof.
    intros Hb Hu. destruct k; cbn [unk_add]; [exact Hu| | |].
    - destruct u as [|[n c] t]; cbn; [repeat constructor; auto|]. inversion Hu; subst. constructor; auto. cbn in *. apply all_bytes_app; auto.
    - induction Hu as [|[n c] t Hc Ht IH]; cbn; [repeat constructor; auto|]. destruct (n =? num); [constructor; auto; cbn in *; apply all_bytes_app; auto|].
      destruct (num <? n); constructor; auto.
    - induction Hu as [|[n c] t Hc Ht IH]; cbn; [repeat constructor; auto|]. destruct (n =? num); [constructor; auto; cbn in *; apply all_bytes_app; auto|].
      constructor; auto.
  Qed.

  Definition ustore (k : ukind) (u : list (Z * bytes)) : Prop := store_ok k u /\ Forall (fun p => all_bytes (snd p)) u.
  Lemma ustore_add k num b u : all_bytes b -> ustore k u -> ustore k (unk_add k num b u).
  Proof. intros Hb [H1 H2]. split; [apply unk_add_ok; auto|apply unk_add_bytes; auto]. Qed.

  Lemma pack_bytes t v : all_bytes (pack_varint t v).
  Proof. apply is_varint_all_bytes. apply pack_varint_spec. Qed.

  Lemma unknown_enum_ok k num v u u' : ustore k u -> lift (unknown_enum k num v u) = TOk u' -> ustore k u'.
  Proof.
    intros Hu. unfold unknown_enum. cbv zeta. set (b := pack_varint VU32 _ ++ pack_varint VI64 v).
    assert (Hb : all_bytes b) by (apply all_bytes_app; split; apply pack_bytes).
    destruct k; [| | |destruct (existsb (fun p => fst p =? num) u); cbn [lift]; [|discriminate]]; intros H; injection H as <-; [exact Hu|apply (ustore_add UBytes num)|apply (ustore_add UMap num)|apply (ustore_add UPairs num)]; auto.
  Qed.

  Lemma filter_enum_ok k num c vs : Forall (in_vtype VI32) vs -> forall u r u', ustore k u ->
    lift (filter_enum k num c vs u) = TOk (r, u') -> Forall (wt (EEnum c)) r /\ ustore k u'.
  Proof.
    induction 1 as [|v vs Hv Hvs IH]; intros u r u' Hu H; cbn [filter_enum] in H.
    - injection H as <- <-. split; [constructor|exact Hu].
    - destruct (enum_valid c v) eqn:Kv.
      + destruct (filter_enum k num c vs u) as [[r1 u1]| | | |] eqn:Kf; cbn in H; try discriminate. injection H as <- <-.
        destruct (IH u r1 u1 Hu) as [A B]; [rewrite Kf; reflexivity|]. split; [|exact B]. constructor; [|exact A]. constructor; auto.
      + destruct (unknown_enum k num v u) as [u1| | | |] eqn:Ku; cbn in H; try discriminate.
        eapply (IH u1); [|exact H]. eapply unknown_enum_ok; [exact Hu|]. rewrite Ku. reflexivity.
  Qed.

  Section Body.
    Context (body : nat -> Z -> state -> list Wire.rec -> tres state).
    Hypothesis Hbody : forall ty d st rs st', state_ok ty st -> Forall rec_ok rs -> body ty d st rs = TOk st' -> state_ok ty st'.

    (** What one record gives: the value itself, or any integer for an enum. *)
    Definition value_ok (e : elem) (v : val) : Prop :=
      match e with EEnum _ => exists z, v = VInt z | _ => wt e v end.

    Lemma wt_state ty delim v : wt (EMsg ty delim) v -> state_ok ty (msg_fields v, msg_unk v).
    Proof. intros H. inversion H; subst. cbn. split; [|split]; auto. Qed.

    Lemma ap_value_wt e cur d r v : rec_ok r -> (forall ty delim, e = EMsg ty delim -> wt e cur) ->
      ap_value E utf8_ok maxd body e cur d r = TOk v -> value_ok e v.
    Proof.
      intros Hr Hc. destruct Hr as [tb tag pb p sub Hraw Hp H64 H32 Hsub]. unfold ap_value. cbn [r_tag r_pay].
      destruct (Z.eqb_spec (tag_type tag) (elem_wt e)) as [Kt|]; cbn [negb]; [|discriminate].
      destruct e as [t| |is64 fl|c|utf8 view|ty delim]; cbn [value_ok].
      - destruct (_ <=? _)%nat; [|discriminate]. intros [= <-]. constructor. apply meaning_range.
      - intros [= <-]. constructor. unfold bool_of. destruct (_ =? 0); auto.
      - intros [= <-]. constructor. pose proof (le_val_range p Hp) as Hl. replace (8 * Z.of_nat (fix_size is64)) with (8 * zlen p); [exact Hl|].
        unfold zlen. destruct is64; cbn [elem_wt fix_size] in *; [rewrite H64|rewrite H32]; auto.
      - intros [= <-]. eauto.
      - destruct utf8; cbn [andb].
        + destruct (utf8_ok p) eqn:Ku; cbn [negb]; [|discriminate]. intros [= <-]. constructor; auto.
        + intros [= <-]. constructor; auto. discriminate.
      - intros H. specialize (Hc ty delim eq_refl). apply wt_state in Hc. unfold ap_message in H. cbv zeta in H. cbn [r_pay r_sub] in H. destruct delim.
        + apply tbind_ok in H. destruct H as [[fs u] [H1 H]]. injection H as <-. apply Hbody in H1; auto.
          destruct H1 as (A & B & C). constructor; auto.
        + destruct (_ && _); [discriminate|]. destruct (negb _); [discriminate|]. apply tbind_ok in H. destruct H as [[rs rest] [H1 H]].
          apply tbind_ok in H. destruct H as [[fs u] [H2 H]]. injection H as <-.
          apply (tok_rec_ok maxd _ _ _ _ _ _ Hp) in H1. apply Hbody in H2; auto. destruct H2 as (A & B & C). constructor; auto.
    Qed.

    Lemma default_wt ty delim : wt (EMsg ty delim) (default_msg E ty).
    Proof. eapply wt_delim. apply (Hdef ty). Qed.

    Lemma to_enum_range z : in_vtype VI32 (to_enum z).
    Proof. apply wrapS_range. lia. Qed.

    Lemma ap_field_wt ty f d cur u r c u' : In f (m_fields (desc_of E ty)) -> rec_ok r -> cell f cur -> ustore (m_unk (desc_of E ty)) u ->
      ap_field E utf8_ok maxd body (m_unk (desc_of E ty)) f d cur u r = TOk (c, u') -> cell f c /\ ustore (m_unk (desc_of E ty)) u'.
    Proof.
      intros Hin Hr Hcell Hu H. set (k := m_unk (desc_of E ty)) in *. destruct f as [num e [ex dv| |pk|assoc]|alts]; cbn [ap_field] in H.
      - apply tbind_ok in H. destruct H as [v [Hv H]].
        apply ap_value_wt in Hv; auto.
        2: { intros ty' delim ->. inversion Hcell; subst. cbn [start_val]. assumption. }
        destruct e as [t| |is64 fl|[l|]|utf8 view|ty' delim]; cbn [value_ok enum_val] in *;
          try (injection H as <- <-; split; [constructor; exact Hv|exact Hu]).
        + destruct Hv as [z ->]. cbn [int_of enum_val] in H. destruct ex; cbn [andb] in H.
          * destruct (enum_valid (Some l) (to_enum z)) eqn:Kv; cbn [negb] in H; [|discriminate]. injection H as <- <-.
            split; [|exact Hu]. constructor. cbn [loosen]. constructor; [apply to_enum_range|exact Kv].
          * injection H as <- <-. split; [|exact Hu]. constructor. cbn [loosen]. constructor; [apply to_enum_range|reflexivity].
        + destruct Hv as [z ->]. cbn [enum_val] in H. injection H as <- <-. split; [|exact Hu]. constructor. cbn [loosen]. constructor; [apply to_enum_range|reflexivity].
      - apply tbind_ok in H. destruct H as [v [Hv H]].
        apply ap_value_wt in Hv; auto.
        2: { intros ty' delim ->. inversion Hcell; subst; cbn [start_val elem_default]; [apply default_wt|assumption]. }
        destruct e as [t| |is64 fl|[l|]|utf8 view|ty' delim]; cbn [value_ok enum_val] in *;
          try (injection H as <- <-; split; [constructor; exact Hv|exact Hu]).
        + destruct Hv as [z ->]. cbn [int_of enum_val] in H.
          destruct (enum_valid (Some l) (to_enum z)) eqn:Kv.
          * injection H as <- <-. split; [|exact Hu]. constructor. constructor; [apply to_enum_range|exact Kv].
          * apply tbind_ok in H. destruct H as [u1 [H1 H]]. injection H as <- <-. split; [exact Hcell|]. eapply unknown_enum_ok; eauto.
        + destruct Hv as [z ->]. cbn [enum_val] in H. injection H as <- <-. split; [|exact Hu]. constructor. constructor; [apply to_enum_range|reflexivity].
      - assert (Hel : Forall (wt e) cur) by (inversion Hcell; subst; apply elems_forall; assumption).
        assert (Hout : forall c1 u1, Forall (wt e) c1 -> ustore k u1 -> TOk (cur ++ c1, u1) = TOk (c, u') -> cell (Field num e (CRep pk)) c /\ ustore k u').
        { intros c1 u1 H1 H2 [= <- <-]. split; [|exact H2]. constructor. apply elems_forall. apply Forall_app; auto. }
        destruct (packable e && _) eqn:Kp.
        + destruct Hr as [tb tag pb p sub Hraw Hp H64 H32 Hsub]. cbn [r_pay] in H. unfold ap_packed in H.
          destruct e as [t| |is64 fl|cl|utf8 view|ty' delim]; try discriminate.
          * destruct (varints _ _ p) as [l|]; [|discriminate]. eapply Hout; [|exact Hu|exact H].
            apply Forall_forall. intros x Hx. apply in_map_iff in Hx. destruct Hx as (b & <- & _). constructor. apply meaning_range.
          * destruct (varints _ _ p) as [l|]; [|discriminate]. eapply Hout; [|exact Hu|exact H].
            apply Forall_forall. intros x Hx. apply in_map_iff in Hx. destruct Hx as (b & <- & _). constructor. unfold bool_of. destruct (_ =? 0); auto.
          * cbv zeta in H. destruct (_ =? 0); [|discriminate]. eapply Hout; [|exact Hu|exact H].
            apply Forall_forall. intros x Hx. apply in_map_iff in Hx. destruct Hx as (b & <- & Hb). constructor.
            pose proof (chunks_range (length p / fix_size is64) (fix_size is64) p Hp) as Hc. rewrite Forall_forall in Hc. auto.
          * destruct (varints _ _ p) as [l|]; [|discriminate]. apply tbind_ok in H. destruct H as [[r1 u1] [H1 H]].
            apply filter_enum_ok in H1; auto.
            -- destruct H1 as [A B]. eapply Hout; [exact A|exact B|exact H].
            -- apply Forall_forall. intros x Hx. apply in_map_iff in Hx. destruct Hx as (b & <- & _). apply to_enum_range.
        + apply tbind_ok in H. destruct H as [v [Hv H]].
          apply ap_value_wt in Hv; auto. 2: { intros ty' delim ->. cbn [elem_default]. apply default_wt. }
          destruct e as [t| |is64 fl|[l|]|utf8 view|ty' delim]; cbn [value_ok enum_val] in *;
            try (eapply Hout; [constructor; [exact Hv|constructor]|exact Hu|exact H]).
          * destruct Hv as [z ->]. cbn [int_of] in H. cbv zeta in H. destruct (enum_valid (Some l) (to_enum z)) eqn:Kv.
            -- eapply Hout; [|exact Hu|exact H]. constructor; [|constructor]. constructor; [apply to_enum_range|exact Kv].
            -- apply tbind_ok in H. destruct H as [u1 [H1 H]]. injection H as <- <-. split; [exact Hcell|]. eapply unknown_enum_ok; eauto.
          * destruct Hv as [z ->]. cbn [enum_val] in H. eapply Hout; [|exact Hu|exact H]. constructor; [|constructor].
            constructor; [apply to_enum_range|reflexivity].
      - apply tbind_ok in H. destruct H as [v [Hv H]]. injection H as <- <-. split; [|exact Hu].
        destruct (Hms _ _ _ _ Hin) as (ty' & n & ek & dk & rest & -> & Hf & Hs).
        apply ap_value_wt in Hv; auto. 2: { intros ty2 delim [= <- <-]. cbn [elem_default]. apply default_wt. }
        cbn [value_ok] in Hv. inversion Hcell as [| | | |? ? ? ? Hel Hsort| |]; subst. constructor.
        + apply elems_forall. apply elems_forall in Hel. destruct assoc; [|apply Forall_app; auto].
          apply Forall_forall. intros x Hx. apply map_put_in in Hx. destruct Hx as [->|Hx]; [exact Hv|]. rewrite Forall_forall in Hel. auto.
        + intros ->. apply map_put_sorted; auto.
          * eapply map_keys; eauto.
          * apply elems_forall in Hel. eapply Forall_impl; [|exact Hel]. intros x Hx. eapply map_keys; eauto.
      - destruct (find_alt _ alts 0) as [[j e]|] eqn:Ka; [|discriminate]. cbv zeta in H. apply tbind_ok in H. destruct H as [v [Hv H]].
        apply find_alt_nth in Ka. rewrite Nat.sub_0_r in Ka. destruct Ka as [_ Ka].
        apply ap_value_wt in Hv; auto.
        2: { intros ty' delim ->. inversion Hcell as [| | | | | |? j' num' e' v' Hn' Hw']; subst; [apply default_wt|].
             destruct (Nat.eqb_spec j j') as [<-|]; [|apply default_wt]. cbn [start_val]. rewrite Ka in Hn'. injection Hn' as <- <-. exact Hw'. }
        destruct (is_closed e) eqn:Kc; [discriminate|].
        injection H as <- <-. split; [|exact Hu]. econstructor; [exact Ka|].
        destruct e as [t| |is64 fl|[l|]|utf8 view|ty' delim]; cbn [value_ok enum_val] in *; try exact Hv; try discriminate.
        destruct Hv as [z ->]. cbn [enum_val]. constructor; [apply to_enum_range|reflexivity].
    Qed.

    Lemma ap_recs_wt ty d rs : Forall rec_ok rs -> forall st st', state_ok ty st -> ap_recs E utf8_ok maxd body ty d st rs = TOk st' -> state_ok ty st'.
    Proof.
      induction 1 as [|r rs Hr Hrs IH]; intros st st' Hst H; cbn [ap_recs] in H; [injection H as <-; exact Hst|].
      apply tbind_ok in H. destruct H as [st1 [H1 H]]. apply (IH st1); [|exact H]. clear IH H Hrs rs st'.
      destruct st as [fs u]. unfold ap_rec in H1. cbv zeta in H1. destruct Hst as (A & B & C). cbn [fst snd] in *.
      destruct (_ =? 0); [discriminate|].
      destruct (find_field _ _ 0) as [[i f]|] eqn:Kf.
      - apply find_field_nth0 in Kf. destruct Kf as [Kf _].
        apply tbind_ok in H1. destruct H1 as [[c u1] [H1 H2]]. injection H2 as <-.
        apply ap_field_wt in H1; auto.
        + destruct H1 as [H1 [H2 H3]]. split; [|split]; cbn [fst snd]; auto. eapply cells_set; eauto.
        + eapply nth_error_In; eauto.
        + eapply cells_nth; eauto.
        + split; auto.
      - apply tbind_ok in H1. destruct H1 as [u1 [H1 H2]]. injection H2 as <-.
        assert (Hu : ustore (m_unk (desc_of E ty)) u1).
        { unfold ap_unknown in H1. destruct Hr as [tb tag pb p sub Hraw _ _ _ _]. cbn [r_tag r_tb] in H1.
          assert (Ha : forall k, m_unk (desc_of E ty) = k -> ustore k (unk_add k (tag_number tag) (r_raw (Rec tb tag pb p sub)) u)).
          { intros k <-. apply ustore_add; [exact Hraw|]. split; auto. }
          destruct (m_unk (desc_of E ty)) eqn:Kk.
          - injection H1 as <-. split; auto.
          - destruct (_ =? _); [|discriminate]. injection H1 as <-. apply Ha; auto.
          - destruct (_ =? _); [|discriminate]. injection H1 as <-. apply Ha; auto.
          - destruct (_ =? _); [|discriminate]. injection H1 as <-. apply Ha; auto. }
        destruct Hu. split; [|split]; auto.
    Qed.
  End Body.

  Lemma ap_body_wt f : forall ty d st rs st', state_ok ty st -> Forall rec_ok rs -> ap_body E utf8_ok maxd f ty d st rs = TOk st' -> state_ok ty st'.
  Proof.
    induction f as [|f IH]; intros ty d st rs st' Hst Hrs H; [discriminate|]. cbn [ap_body] in H.
    eapply (ap_recs_wt (ap_body E utf8_ok maxd f)); eauto.
  Qed.

  Theorem decode_wt ty cur bs v : all_bytes bs -> m_entry (desc_of E ty) = false -> exact_unknown E utf8_ok maxd ty cur bs ->
    wt_msg E utf8_ok ty cur -> decode_bytes E utf8_ok maxd ty cur bs = Ok v -> wt_msg E utf8_ok ty v.
  Proof.
    intros Hb He Hx Hc H. apply dec_ok_iff in H; auto. unfold spec_decode in H. destruct (negb _); [discriminate|].
    apply tbind_ok in H. destruct H as [[rs rest] [H1 H]]. apply tbind_ok in H. destruct H as [[fs u] [H2 H]]. injection H as <-.
    apply tok_rec_ok in H1; auto. apply ap_body_wt in H2; auto.
    - destruct H2 as (A & B & C). constructor; auto.
    - apply wt_state in Hc. exact Hc.
  Qed.
End Wt.
