(** Reading what the encoder specification writes gives the message back. *)
From Coq Require Import Sorted.
Require Import Verif.Bits Verif.Varint Verif.VarintSpec Verif.VarintProofs Verif.VarintFacts Verif.VarintMain.
Require Import Verif.Schema Verif.Archive Verif.Decode Verif.DecodeSafe Verif.Wire Verif.WireFacts Verif.WireGrammar Verif.GrammarFacts Verif.DecodeSpec1 Verif.DecodeSpec4.
Require Import Verif.DecodeLaws Verif.DecodeLaws2 Verif.FieldSpec Verif.DecodeOcc Verif.WellTyped Verif.DecodeTerms Verif.DecodeMain Verif.Encode Verif.EncodeSpec Verif.EncodeProofs Verif.EncodeProofs2.

(** ** Schemas the library generates *)
Record generated (E : env) : Prop := {
  gen_safe : safe_env E;
  gen_numbers : forall ty f n, In f (m_fields (desc_of E ty)) -> In n (nums f) -> 1 <= n < 2 ^ 25;
  gen_distinct : forall ty, NoDup (concat (map nums (m_fields (desc_of E ty))));
  gen_maps : forall ty num e assoc, In (Field num e (CMap assoc)) (m_fields (desc_of E ty)) ->
    exists ty' ek dk ev dv, e = EMsg ty' false /\ scalar ek = true /\
      desc_of E ty' = MDesc [Field 1 ek (CPlain true dk); Field 2 ev (CPlain true dv)] UNone true;
  gen_messages : forall ty f, In f (m_fields (desc_of E ty)) ->
    match f with
    | Field _ _ (CMap _) => True
    | Field _ (EMsg ty' _) c => m_entry (desc_of E ty') = false /\
        match c with CPlain _ d => d = default_msg E ty' | _ => True end
    | Field _ _ _ => True
    | Oneof alts => forall num ty' delim, In (num, EMsg ty' delim) alts -> m_entry (desc_of E ty') = false
    end
}.

(** ** Message values that have one representation on the wire *)
(** [b] is one field kept by a message of type [ty] at depth [d]: a field the type
    does not know, its tag in shortest form, or a value of a closed enum member
    that is not one of the enum's values. *)
Definition stored_field (E : env) (limit d : Z) (ty : nat) (num : Z) (b : bytes) : Prop :=
  (short_field limit d num b /\ unknown_to E ty num) \/
  (exists i l c z, member E ty num i (Field num (EEnum (Some l)) c) /\ in_vtype VI64 z /\ enum_valid (Some l) (to_enum z) = false /\
     match c with COpt => True | CRep _ => in_vtype VI32 z | _ => False end /\
     b = tagb num WT_VARINT ++ pack_varint VI64 z).

(** The kept fields of a message: every entry of the store is a nonempty
    sequence of fields, all with the number of the entry unless the store is one
    flat byte string. *)
Definition stored_ok (E : env) (limit d : Z) (ty : nat) (u : list (Z * bytes)) : Prop :=
  Forall (fun p => exists l, snd p = bytes_of l /\ l <> [] /\
    Forall (fun x => stored_field E limit d ty (fst x) (snd x) /\ (m_unk (desc_of E ty) = UBytes \/ fst x = fst p)) l) u.

(** [P] holds of message [v] at depth [d] and of all messages inside it. *)
Inductive everywhere (E : env) (P : Z -> nat -> val -> Prop) : Z -> nat -> val -> Prop :=
| Everywhere d ty v : P d ty v ->
    (forall f c ty' v', holds E ty v f c -> sub_msg f c ty' v' -> everywhere E P (d + 1) ty' v') ->
    everywhere E P d ty v.

(** A member that is omitted when written has its default value.  (Only the
    floating point value -0.0 is omitted without being the default.) *)
Definition omitted_default (E : env) (ty : nat) (v : val) : Prop :=
  forall f c, holds E ty v f c -> omit f c = true -> c = field_default f.

Definition canonical (E : env) (limit : Z) : Z -> nat -> val -> Prop :=
  everywhere E (fun d ty v => omitted_default E ty v /\ stored_ok E limit d ty (msg_unk v)).

Lemma generated_legal E : generated E -> legal_numbers E.
Proof. intros G ty f n Hf Hn. pose proof (gen_numbers E G ty f n Hf Hn). lia. Qed.

(** ** Encoded scalars, tags and lengths *)
Lemma tagb_ok num wt : 1 <= num < 2 ^ 25 -> 0 <= wt < 8 -> tag_bytes num wt (tagb num wt).
Proof.
  intros Hn Hw. destruct (vint_spec (8 * num + wt) ltac:(lia)) as (A & B & C). split; [exact A|]. split; [|exact B].
  pose proof (varint_size_u_bounds 4 (8 * num + wt) ltac:(change (2 ^ (7 * 4)) with (8 * 2 ^ 25); lia) ltac:(lia)) as H. unfold tagb. unfold zlen in C. lia.
Qed.

Lemma vint_len n : 0 <= n < 2 ^ 32 -> len_bytes n (vint n).
Proof.
  intros Hn. destruct (vint_spec n ltac:(lia)) as (A & B & C). split; [exact A|]. split; [|split; [exact B|lia]].
  pose proof (varint_size_u_bounds 5 n ltac:(change (2 ^ (7 * 5)) with (8 * 2 ^ 32); lia) ltac:(lia)) as H. unfold zlen in C. lia.
Qed.

Lemma le_val_bytes n : forall z, 0 <= z < 256 ^ Z.of_nat n -> le_val (le_bytes n z) = z.
Proof.
  induction n as [|n IH]; intros z Hz; cbn [le_bytes le_val]; [cbn in Hz; lia|].
  rewrite Nat2Z.inj_succ, Z.pow_succ_r in Hz by lia. rewrite IH by lia. lia.
Qed.
Lemma le_bytes_all n : forall z, all_bytes (le_bytes n z).
Proof.
  induction n as [|n IH]; intros z; cbn [le_bytes]; [constructor|]. constructor; [|apply IH].
  unfold is_byte. pose proof (Z.mod_pos_bound z 256 ltac:(lia)). lia.
Qed.

Section Scalars.
  Context (E : env) (utf8_ok : bytes -> bool).
  Notation wt := (wt E utf8_ok).

  Lemma scalar_encoded e v : wt e v -> scalar e = true -> zlen (enc_scalar e v) < 2 ^ 31 -> scalar_payload utf8_ok e (enc_scalar e v) v.
  Proof.
    intros Hw Hs Hl. inversion Hw; subst; cbn [scalar] in Hs; try discriminate; cbn [enc_scalar] in *.
    - destruct (pack_varint_spec t z) as (A & B & _).
      replace (VInt z) with (VInt (meaning t (b128 (pack_varint t z)))); [|rewrite B, meaning_pack; auto].
      constructor; [exact A|]. rewrite <- max_len_sm. apply pack_varint_sm_max. assumption.
    - replace (VInt z) with (VInt (bool_of [z])); [|destruct H as [->| ->]; reflexivity].
      constructor; cbn; lia.
    - replace (VInt z) with (VInt (le_val (le_bytes (fix_size is64) z))).
      + constructor; [apply le_bytes_all|apply le_bytes_len].
      + rewrite le_val_bytes; [reflexivity|]. rewrite Z.pow_mul_r in H by lia. exact H.
    - destruct (pack_varint_spec VI64 z) as (A & B & _). pose proof (pack_varint_len VI64 z) as L.
      replace (VInt z) with (VInt (wrapS 32 (b128 (pack_varint VI64 z)))).
      + constructor; [exact A|]. unfold zlen in L. lia.
      + rewrite B. rewrite <- wrapS_weak. change (wrapS 64 (pack_value VI64 z)) with (meaning VI64 (pack_value VI64 z)).
        rewrite meaning_pack by (apply i32_i64; assumption). rewrite wrapS_id; [reflexivity|lia|assumption].
    - rewrite zlen_app in Hl. pose proof (zlen_nonneg (vint (zlen b))). pose proof (zlen_nonneg b).
      constructor; auto. apply vint_len. lia.
  Qed.

  Lemma scalar_bytes e v : wt e v -> scalar e = true -> all_bytes (enc_scalar e v).
  Proof.
    intros Hw Hs. inversion Hw; subst; cbn [scalar] in Hs; try discriminate; cbn [enc_scalar].
    - apply is_varint_all_bytes. apply pack_varint_spec.
    - constructor; [|constructor]. unfold is_byte. destruct H; lia.
    - apply le_bytes_all.
    - apply is_varint_all_bytes. apply pack_varint_spec.
    - apply all_bytes_app. split; [|assumption]. apply is_varint_all_bytes. apply vint_spec. apply zlen_nonneg.
  Qed.
End Scalars.

(** A group body ends at its end-group tag. *)
Lemma tokB_group limit d num eb : tag_bytes num WT_EGROUP eb -> 0 < num -> forall n bs rs rest, (length bs < n)%nat ->
  tokB limit None d bs = TOk (rs, []) -> tokB limit (Some num) d (bs ++ eb ++ rest) = TOk (rs, rest).
Proof.
  intros He Hn. induction n as [|n IH]; intros bs rs rest Hl H; [lia|].
  destruct (tag_parts num WT_EGROUP ltac:(lia) ltac:(unfold WT_EGROUP; lia)) as [T1 T2].
  rewrite tokB_eq in H. destruct bs as [|b bs].
  - injection H as <-. cbn [app]. rewrite tokB_eq. pose proof (tok_tag_bytes num WT_EGROUP eb rest He) as K.
    destruct (eb ++ rest) eqn:Kb; [destruct He as (Hv & _); destruct eb; [destruct Hv|discriminate]|]. rewrite <- Kb in *. rewrite K. cbn [tbind].
    rewrite T1, T2, !Z.eqb_refl. reflexivity.
  - apply tbind_ok in H. destruct H as [[[tb tag] bs1] [H1 H]].
    apply tbind_ok in H. destruct H as [[[p sub] bs2] [H2 H]]. apply tbind_ok in H. destruct H as [[rs' r'] [H3 H]]. injection H as <- ->.
    rewrite tokB_eq. cbn [app]. change (b :: bs ++ eb ++ rest) with ((b :: bs) ++ eb ++ rest). rewrite (tok_tag_app _ _ _ _ (eb ++ rest) H1). cbn [tbind].
    assert (Hne : (tag_type tag =? WT_EGROUP) = false).
    { unfold tok_pay in H2. destruct (Z.eqb_spec (tag_type tag) WT_EGROUP) as [Ke|]; [|reflexivity]. exfalso. rewrite Ke in H2.
      destruct (tag =? 0); [discriminate|]. cbn in H2. discriminate. }
    rewrite Hne. cbn [andb]. rewrite (tok_pay_app _ (grpB limit d) _ _ _ _ _ (eb ++ rest)) with (2 := H2) by (intros; apply grpB_app; auto).
    cbn [tbind]. destruct (tok_tag_ok _ _ _ _ H1) as (m & _ & Hm & Hlm & _ & _ & Hbs & _).
    destruct (tok_pay_ok _ _ _ _ _ _ (fun num rs r => grpB_consumes' limit d num _ rs r) H2) as (c & Hc & _).
    assert (Hl2 : (length bs2 < n)%nat).
    { assert (length bs1 = length (skipn m (b :: bs))) by (rewrite Hbs; reflexivity). rewrite skipn_length in *.
      assert (length bs1 = length c + length bs2)%nat by (rewrite Hc; apply app_length). cbn [length] in *. lia. }
    rewrite (IH bs2 rs' rest Hl2 H3). cbn [tbind]. subst bs1. rewrite Hc, <- app_assoc, !used_app. reflexivity.
Qed.

Section RoundTrip.
  Context (E : env) (utf8_ok : bytes -> bool) (limit : Z).
  Hypothesis G : generated E.
  Notation wt := (wt E utf8_ok).
  Notation cell := (cell E utf8_ok).
  Notation tokB := (tokB limit).
  Notation apv := (ap_value E utf8_ok limit).
  Notation apf := (ap_field E utf8_ok limit).
  Notation apr := (ap_rec E utf8_ok limit).
  Notation aprs := (ap_recs E utf8_ok limit).
  Notation apb := (ap_body E utf8_ok limit).

  (** Reading [bs] at depth [d] takes state [st] to [st']. *)
  Definition runs (d : Z) (ty : nat) (st : state) (bs : bytes) (st' : state) : Prop :=
    exists f rs, tokB None d bs = TOk (rs, []) /\ aprs (apb f) ty d st rs = TOk st'.

  Lemma runs_nil d ty st : runs d ty st [] st.
  Proof. exists 0%nat, []. split; reflexivity. Qed.

  Lemma aprs_fuel f f' ty d st rs st' : (f <= f')%nat -> aprs (apb f) ty d st rs = TOk st' -> aprs (apb f') ty d st rs = TOk st'.
  Proof.
    intros Hf H. rewrite <- H. apply (ap_recs_mono E utf8_ok limit (apb f) (apb f')); [|congruence].
    intros. apply ap_body_mono. exact Hf.
  Qed.

  Lemma runs_app d ty st a st1 b st2 : runs d ty st a st1 -> runs d ty st1 b st2 -> runs d ty st (a ++ b) st2.
  Proof.
    intros (f1 & rs1 & T1 & H1) (f2 & rs2 & T2 & H2). exists (Nat.max f1 f2), (rs1 ++ rs2). split.
    - rewrite (tokB_app_none limit (S (length a)) _ _ _ _ b (Nat.lt_succ_diag_r _) T1), T2. reflexivity.
    - rewrite ap_recs_app. rewrite (aprs_fuel f1 _ ty d st rs1 st1 (Nat.le_max_l _ _) H1). cbn [tbind].
      apply (aprs_fuel f2); [apply Nat.le_max_r|exact H2].
  Qed.

  (** One record. *)
  Lemma runs_rec d ty fs u num wtp pb p sub i f k c u' : 1 <= num < 2 ^ 25 -> 0 <= wtp < 8 ->
    member E ty num i f -> tok_pay (grpB limit d) (8 * num + wtp) pb = TOk (p, sub, []) ->
    apf (apb k) (m_unk (desc_of E ty)) f d (nth i fs []) u (Rec (tagb num wtp) (8 * num + wtp) pb p sub) = TOk (c, u') ->
    runs d ty (fs, u) (tagb num wtp ++ pb) (set_nth i c fs, u').
  Proof.
    intros Hn Hw Hm Hp Ha. exists k. eexists. split; [apply (tokB_one limit); [apply tagb_ok; auto|exact Hp]|].
    cbn [ap_recs]. rewrite (apr_field E utf8_ok limit _ _ _ _ _ num wtp _ _ _ _ i f) by (auto; lia). rewrite Ha. reflexivity.
  Qed.

  (** ** Values *)
  (** The nested message [v] can be read back at depth [d]. *)
  Definition sub_ok (d : Z) (ty : nat) (v : val) : Prop :=
    scope_ok limit d = true /\ (m_entry (desc_of E ty) = true -> tag_number (hd 0 (enc_msg E ty v)) = 1) /\
    v = VMsg (msg_fields v) (msg_unk v) /\
    runs (d + 1) ty (msg_fields (default_msg E ty), []) (enc_msg E ty v) (msg_fields v, msg_unk v).

  Definition payload_of (num : Z) (e : elem) (v : val) : bytes :=
    match e with
    | EMsg ty false => vint (zlen (enc_msg E ty v)) ++ enc_msg E ty v
    | EMsg ty true => enc_msg E ty v ++ tagb num WT_EGROUP
    | _ => enc_scalar e v
    end.
  Lemma enc_elem_split num e v : enc_elem (enc_msg E) num e v = tagb num (elem_wt e) ++ payload_of num e v.
  Proof. destruct e as [| | | | |ty [|]]; reflexivity. Qed.

  (** Reading the payload of one element into a fresh value. *)
  Lemma value_run d num e v : 1 <= num < 2 ^ 25 -> wt e v -> zlen (payload_of num e v) < 2 ^ 31 ->
    (forall ty delim, e = EMsg ty delim -> sub_ok d ty v) ->
    exists p sub k x, tok_pay (grpB limit d) (8 * num + elem_wt e) (payload_of num e v) = TOk (p, sub, []) /\
      enum_val e x = v /\
      forall tb cur, (scalar e = false -> cur = elem_default E e) ->
        apv (apb k) e cur d (Rec tb (8 * num + elem_wt e) (payload_of num e v) p sub) = TOk x.
  Proof.
    intros Hn Hw Hl Hsub. destruct (scalar e) eqn:Hs.
    - assert (Hp : payload_of num e v = enc_scalar e v) by (destruct e; try discriminate; reflexivity). rewrite Hp in *.
      pose proof (scalar_encoded E utf8_ok e v Hw Hs Hl) as Hsp.
      destruct (tok_pay_scalar E utf8_ok limit (grpB limit d) num e (enc_scalar e v) v [] ltac:(lia) Hsp) as (p & H1 & H2).
      rewrite app_nil_r in H1. destruct (H2 [] (apb 0) (VInt 0) d) as (x & Hx1 & Hx2).
      exists p, [], 0%nat, x. split; [exact H1|]. split; [exact Hx2|]. intros tb cur _.
      revert Hx1. unfold ap_value. cbn [r_tag r_pay]. destruct (negb _); [auto|]. destruct e; try discriminate; auto.
    - destruct e as [| | | | |ty delim]; try discriminate. specialize (Hsub _ _ eq_refl). destruct Hsub as (Hsc & Hent & Hv & k & rs & Ht & Ha).
      set (bs := enc_msg E ty v) in *. cbn [payload_of elem_wt] in *. fold bs in Hl |- *.
      destruct delim.
      + destruct (tag_parts num WT_SGROUP ltac:(lia) ltac:(unfold WT_SGROUP; lia)) as [T1 T2].
        exists [], rs, (S k), v. split; [|split; [reflexivity|]].
        * rewrite tok_pay_wt by (unfold WT_SGROUP; lia). rewrite T1, T2.
          change (WT_SGROUP =? WT_VARINT) with false. change (WT_SGROUP =? WT_LEN) with false. change (WT_SGROUP =? WT_I64) with false.
          change (WT_SGROUP =? WT_SGROUP) with true. cbv iota. unfold grpB. rewrite Hsc.
          replace (bs ++ tagb num WT_EGROUP) with (bs ++ tagb num WT_EGROUP ++ []) by (rewrite app_nil_r; reflexivity).
          rewrite (tokB_group limit (d + 1) num (tagb num WT_EGROUP)) with (n := S (length bs)) (rs := rs); auto; [|lia].
          apply tagb_ok; [lia|unfold WT_EGROUP; lia].
        * intros tb cur Hc. rewrite (Hc eq_refl). unfold ap_value. cbn [r_tag elem_wt]. rewrite T1. change (WT_SGROUP =? WT_SGROUP) with true. cbn [negb].
          unfold ap_message. cbn [r_sub elem_default]. change (msg_unk (default_msg E ty)) with (@nil (Z * bytes)).
          cbn [ap_body]. rewrite Ha. cbn [tbind]. rewrite <- Hv. reflexivity.
      + destruct (tag_parts num WT_LEN ltac:(lia) ltac:(unfold WT_LEN; lia)) as [T1 T2].
        exists bs, [], (S k), v. split; [|split; [reflexivity|]].
        * rewrite zlen_app in Hl. pose proof (zlen_nonneg (vint (zlen bs))). pose proof (zlen_nonneg bs).
          pose proof (tok_pay_lenb utf8_ok (grpB limit d) num (vint (zlen bs)) bs [] ltac:(lia) ltac:(apply vint_len; lia)) as K.
          rewrite app_nil_r in K. exact K.
        * intros tb cur Hc. rewrite (Hc eq_refl). unfold ap_value. cbn [r_tag elem_wt]. rewrite T1. change (WT_LEN =? WT_LEN) with true. cbn [negb].
          unfold ap_message. cbn [r_pay elem_default].
          replace (m_entry (desc_of E ty) && negb (tag_number (hd 0 bs) =? 1)) with false
            by (destruct (m_entry (desc_of E ty)); [rewrite Hent by reflexivity|]; reflexivity).
          rewrite Hsc. cbn [negb]. rewrite Ht. cbn [tbind]. change (msg_unk (default_msg E ty)) with (@nil (Z * bytes)).
          cbn [ap_body]. rewrite Ha. cbn [tbind]. rewrite <- Hv. reflexivity.
  Qed.

  Lemma enum_int e x z c : e = EEnum c -> (exists y, x = VInt y) -> enum_val e x = VInt z -> to_enum (int_of x) = z.
  Proof. intros -> [y ->]. cbn. congruence. Qed.

  Lemma apv_int b c cur d r x : apv b (EEnum c) cur d r = TOk x -> exists y, x = VInt y.
  Proof. unfold ap_value. destruct (negb _); [discriminate|]. intros [= <-]. eauto. Qed.

  (** One element appended or stored. *)
  Lemma elem_run d ty num i e c v fs u : (d <= limit -> True) -> 1 <= num < 2 ^ 25 -> member E ty num i (Field num e c) ->
    zlen (payload_of num e v) < 2 ^ 31 -> (forall ty' delim, e = EMsg ty' delim -> sub_ok d ty' v) ->
    (i < length fs)%nat ->
    match c with
    | CPlain ex dv => wt (loosen ex e) v /\ (scalar e = false -> nth i fs [] = [elem_default E e]) ->
        runs d ty (fs, u) (enc_elem (enc_msg E) num e v) (set_nth i [v] fs, u)
    | COpt => wt e v /\ nth i fs [] = [] -> runs d ty (fs, u) (enc_elem (enc_msg E) num e v) (set_nth i [v] fs, u)
    | CRep pk => wt e v -> runs d ty (fs, u) (enc_elem (enc_msg E) num e v) (set_nth i (nth i fs [] ++ [v]) fs, u)
    | CMap assoc => wt e v /\ scalar e = false -> runs d ty (fs, u) (enc_elem (enc_msg E) num e v)
        (set_nth i (if assoc then map_put v (nth i fs []) else nth i fs [] ++ [v]) fs, u)
    end.
  Proof.
    intros _ Hn Hm Hl Hsub Hi. rewrite enc_elem_split. destruct c as [ex dv| |pk|assoc].
    - intros [Hw Hd].
      assert (K : payload_of num (loosen ex e) v = payload_of num e v /\ elem_wt (loosen ex e) = elem_wt e).
      { destruct e as [| | |[l|]| |]; try (split; reflexivity). destruct ex; split; reflexivity. }
      destruct K as [K1 K2].
      destruct (value_run d num (loosen ex e) v) as (p & sub & k & x & H1 & H2 & H3); auto.
      { rewrite K1. exact Hl. }
      { intros ty' delim He. apply (Hsub ty' delim). destruct e as [| | |[l|]| |]; try discriminate; [destruct ex; discriminate|exact He]. }
      rewrite K1, K2 in *. eapply (runs_rec _ _ _ _ _ _ _ _ _ _ _ k); eauto using wt_range. cbn [ap_field].
      assert (Ha : apv (apb k) e (start_val E e (nth i fs [])) d (Rec (tagb num (elem_wt e)) (8 * num + elem_wt e) (payload_of num e v) p sub) = TOk x).
      { rewrite <- (H3 (tagb num (elem_wt e)) (start_val E e (nth i fs []))).
        - unfold ap_value. rewrite K2. destruct (negb _); [reflexivity|]. destruct e as [| | |[l|]| |]; try reflexivity. destruct ex; reflexivity.
        - intros Hs. assert (scalar e = false) by (destruct e as [| | |[l|]| |]; try discriminate; [destruct ex; discriminate|reflexivity]).
          rewrite (Hd H). destruct e as [| | |[l|]| |]; try discriminate. reflexivity. }
      rewrite Ha. cbn [tbind].
      assert (Hev : enum_val e x = v) by (rewrite <- H2; destruct e as [| | |[l|]| |]; try reflexivity; destruct ex; reflexivity).
      destruct e as [| | |[l|]| |]; rewrite ?Hev; try reflexivity.
      destruct ex; cbn [andb]; [|reflexivity]. cbn [loosen] in Hw. inversion Hw; subst.
      rewrite (enum_int (EEnum (Some l)) x z (Some l) eq_refl (apv_int _ _ _ _ _ _ Ha)) by congruence.
      match goal with H : enum_valid _ _ = true |- _ => rewrite H end. reflexivity.
    - intros [Hw Hd]. destruct (value_run d num e v Hn Hw Hl Hsub) as (p & sub & k & x & H1 & H2 & H3).
      eapply (runs_rec _ _ _ _ _ _ _ _ _ _ _ k); eauto using wt_range. cbn [ap_field].
      assert (Ha : apv (apb k) e (start_val E e (nth i fs [])) d (Rec (tagb num (elem_wt e)) (8 * num + elem_wt e) (payload_of num e v) p sub) = TOk x).
      { apply H3. intros _. rewrite Hd. reflexivity. }
      rewrite Ha. cbn [tbind]. destruct e as [| | |[l|]| |]; rewrite ?H2; try reflexivity.
      inversion Hw; subst. rewrite (enum_int (EEnum (Some l)) x z (Some l) eq_refl (apv_int _ _ _ _ _ _ Ha)) by congruence.
      match goal with H : enum_valid _ _ = true |- _ => rewrite H end. reflexivity.
    - intros Hw. destruct (value_run d num e v Hn Hw Hl Hsub) as (p & sub & k & x & H1 & H2 & H3).
      eapply (runs_rec _ _ _ _ _ _ _ _ _ _ _ k); eauto using wt_range. cbn [ap_field].
      assert (Hnp : packable e && (tag_type (r_tag (Rec (tagb num (elem_wt e)) (8 * num + elem_wt e) (payload_of num e v) p sub)) =? WT_LEN) = false).
      { cbn [r_tag]. destruct (tag_parts num (elem_wt e) ltac:(lia) (wt_range e)) as [-> _]. destruct e as [| |[|]| | |]; reflexivity. }
      rewrite Hnp.
      assert (Ha : apv (apb k) e (elem_default E e) d (Rec (tagb num (elem_wt e)) (8 * num + elem_wt e) (payload_of num e v) p sub) = TOk x) by (apply H3; auto).
      rewrite Ha. cbn [tbind]. destruct e as [| | |[l|]| |]; rewrite ?H2; try reflexivity.
      inversion Hw; subst. rewrite (enum_int (EEnum (Some l)) x z (Some l) eq_refl (apv_int _ _ _ _ _ _ Ha)) by congruence.
      match goal with H : enum_valid _ _ = true |- _ => rewrite H end. reflexivity.
    - intros [Hw Hs]. destruct (value_run d num e v Hn Hw Hl Hsub) as (p & sub & k & x & H1 & H2 & H3).
      eapply (runs_rec _ _ _ _ _ _ _ _ _ _ _ k); eauto using wt_range. cbn [ap_field].
      rewrite H3 by auto. cbn [tbind]. destruct e; try discriminate. cbn [enum_val] in H2. subst x. reflexivity.
  Qed.
End RoundTrip.
