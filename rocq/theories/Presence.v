(** Which fields a written message contains. *)
From Coq Require Import Sorted.
Require Import Verif.Bits Verif.Varint Verif.VarintSpec Verif.VarintProofs Verif.VarintFacts Verif.VarintMain.
Require Import Verif.Schema Verif.Archive Verif.Decode Verif.DecodeSafe Verif.Wire Verif.WireFacts Verif.WireGrammar Verif.GrammarFacts Verif.DecodeSpec1 Verif.DecodeSpec4.
Require Import Verif.DecodeLaws Verif.DecodeLaws2 Verif.FieldSpec Verif.DecodeOcc Verif.WellTyped Verif.DecodeTerms Verif.DecodeMain Verif.Encode Verif.EncodeSpec Verif.EncodeProofs Verif.EncodeProofs2 Verif.RoundTrip Verif.RoundTrip2 Verif.EncodeMain.

(** ** Specification *)
(** Equality of IEEE values given by their bit patterns: neither is a NaN, and
    they are the same or both are zeros. *)
Definition nan_bits (is64 : bool) (b : Z) : Prop :=
  if is64 then 0x7FF0000000000000 < b mod 2 ^ 63 else 0x7F800000 < b mod 2 ^ 31.
Definition zero_bits (is64 : bool) (b : Z) : Prop := b = 0 \/ b = if is64 then 2 ^ 63 else 2 ^ 31.
Definition ieee_equal (is64 : bool) (a b : Z) : Prop :=
  ~ nan_bits is64 a /\ ~ nan_bits is64 b /\ (a = b \/ zero_bits is64 a /\ zero_bits is64 b).

Definition equals_default (e : elem) (d v : val) : Prop :=
  match e, d, v with
  | EMsg _ _, _, _ => False
  | EFix is64 true, VInt x, VInt y => ieee_equal is64 x y
  | _, _, _ => d = v
  end.

(** Field [num] of member [f] holding [c] is present. *)
Definition present (f : field) (c : list val) (num : Z) : Prop :=
  match f with
  | Field _ _ (CPlain true _) => True
  | Field _ e (CPlain false d) => exists v, c = [v] /\ ~ equals_default e d v
  | Field _ _ _ => c <> []
  | Oneof alts => exists j e v, c = [VAlt j v] /\ nth_error alts j = Some (num, e)
  end.

(** ** Omission is equality with the default *)
Lemma nan_iff (is64 : bool) b : 0 <= b < (if is64 then 2 ^ 64 else 2 ^ 32) ->
  is_nan (if is64 then 64 else 32) (if is64 then 52 else 23) b = true <-> nan_bits is64 b.
Proof.
  intros Hb. unfold is_nan, nan_bits. destruct is64.
  - change (2 ^ (64 - 1 - 52) - 1) with (Z.ones 11). change (2 ^ 52 - 1) with (Z.ones 52).
    rewrite !Z.land_ones, Z.shiftr_div_pow2 by lia. change (Z.ones 11) with 2047.
    rewrite andb_true_iff, negb_true_iff, Z.eqb_eq, Z.eqb_neq.
    change (2 ^ 11) with 2048. change (2 ^ 52) with 4503599627370496. change (2 ^ 63) with 9223372036854775808. change (2 ^ 64) with 18446744073709551616 in Hb. lia.
  - change (2 ^ (32 - 1 - 23) - 1) with (Z.ones 8). change (2 ^ 23 - 1) with (Z.ones 23).
    rewrite !Z.land_ones, Z.shiftr_div_pow2 by lia. change (Z.ones 8) with 255.
    rewrite andb_true_iff, negb_true_iff, Z.eqb_eq, Z.eqb_neq.
    change (2 ^ 8) with 256. change (2 ^ 23) with 8388608. change (2 ^ 31) with 2147483648. change (2 ^ 32) with 4294967296 in Hb. lia.
Qed.

Lemma float_eq_iff (is64 : bool) a b : 0 <= a < (if is64 then 2 ^ 64 else 2 ^ 32) -> 0 <= b < (if is64 then 2 ^ 64 else 2 ^ 32) ->
  float_eq is64 a b = true <-> ieee_equal is64 a b.
Proof.
  intros Ha Hb. unfold float_eq, ieee_equal. rewrite !andb_true_iff, !negb_true_iff, orb_true_iff, andb_true_iff.
  rewrite <- !not_true_iff_false, (nan_iff is64 a Ha), (nan_iff is64 b Hb), !Z.eqb_eq.
  assert (K : forall x, 0 <= x < (if is64 then 2 ^ 64 else 2 ^ 32) -> x mod 2 ^ ((if is64 then 64 else 32) - 1) = 0 <-> zero_bits is64 x).
  { intros x Hx. unfold zero_bits. destruct is64.
    - change (2 ^ (64 - 1)) with 9223372036854775808. change (2 ^ 63) with 9223372036854775808. change (2 ^ 64) with 18446744073709551616 in Hx. lia.
    - change (2 ^ (32 - 1)) with 2147483648. change (2 ^ 31) with 2147483648. change (2 ^ 32) with 4294967296 in Hx. lia. }
  rewrite (K a Ha), (K b Hb). tauto.
Qed.

Lemma bytes_eqb_iff a : forall b, bytes_eqb a b = true <-> a = b.
Proof.
  induction a as [|x a IH]; intros [|y b]; cbn; try (split; congruence). rewrite andb_true_iff, Z.eqb_eq, IH. split; [intros [-> ->]; reflexivity|intros [= -> ->]; auto].
Qed.

Section Presence.
  Context (E : env) (utf8_ok : bytes -> bool).
  Notation wt := (wt E utf8_ok).

  Lemma is_default_iff e d v : (exists ex, wt (loosen ex e) d) -> (exists ex, wt (loosen ex e) v) -> is_default e d v = true <-> equals_default e d v.
  Proof.
    intros [x1 H1] [x2 H2]. destruct e as [t| |is64 fl|c|u vw|ty dl]; unfold is_default, equals_default.
    - inversion H1; inversion H2; subst. rewrite Z.eqb_eq. split; congruence.
    - inversion H1; inversion H2; subst. rewrite Z.eqb_eq. split; congruence.
    - inversion H1; inversion H2; subst. destruct fl; [|rewrite Z.eqb_eq; split; congruence].
      apply float_eq_iff; destruct is64; assumption.
    - assert (exists x, d = VInt x) as [x ->] by (destruct c; cbn in H1; [destruct x1|]; inversion H1; eauto).
      assert (exists x, v = VInt x) as [y ->] by (destruct c; cbn in H2; [destruct x2|]; inversion H2; eauto). rewrite Z.eqb_eq. split; congruence.
    - inversion H1; inversion H2; subst. rewrite bytes_eqb_iff. split; congruence.
    - split; [discriminate|tauto].
  Qed.

  Lemma omit_present f c num : (forall n e ex d, f = Field n e (CPlain ex d) -> exists ex', wt (loosen ex' e) d) -> cell E utf8_ok f c -> In num (nums f) ->
    (match f with Oneof alts => NoDup (map fst alts) | _ => True end) ->
    (forall alts, f <> Oneof alts) -> omit f c = false <-> present f c num.
  Proof.
    intros Hd Hc Hn _ Hno. inversion Hc; subst; cbn [omit present]; try (exfalso; eapply Hno; reflexivity).
    - destruct ex; [tauto|]. rewrite <- not_true_iff_false, (is_default_iff e d v); [|eapply Hd; reflexivity|eauto].
      split; [intros K; exists v; auto|intros (w & [= <-] & K); exact K].
    - split; congruence.
    - split; congruence.
    - destruct c; split; congruence.
    - destruct c; split; congruence.
  Qed.

  (** ** The fields of a written message *)
  Context (limit : Z).
  Hypothesis G : generated E.

  Lemma tagb_reads num w : 1 <= num < 2 ^ 25 -> 0 <= w < 8 -> tag_reads (tagb num w) (8 * num + w).
  Proof.
    intros Hn Hw. destruct (tagb_ok num w Hn Hw) as (A & B & C). split; [exact A|]. split; [lia|]. rewrite tag_value_small by lia. auto.
  Qed.

  Lemma scalar_payload_grammar d num e pb x : 1 <= num -> scalar_payload utf8_ok e pb x -> payload limit d (8 * num + elem_wt e) pb.
  Proof.
    intros Hn H. destruct (tag_parts num (elem_wt e) ltac:(lia) (wt_range e)) as [T1 T2]. pose proof (wt_range e).
    inversion H; subst; cbn [elem_wt] in *.
    - apply PVarint; auto; [lia|]. destruct t; cbn in *; lia.
    - apply PVarint; auto; lia.
    - destruct is64; [apply PI64|apply PI32]; auto.
    - apply PVarint; auto; lia.
    - match goal with K : len_bytes _ _ |- _ => destruct K as (A & B & C & D) end. apply PLen; auto. rewrite C. apply Z.mod_small. pose proof (zlen_nonneg p). lia.
  Qed.

  Lemma group_fields d num l : 1 <= num < 2 ^ 25 -> fields_at limit d l -> group limit d num (bytes_of l ++ tagb num WT_EGROUP).
  Proof.
    intros Hn Hl. destruct (tag_parts num WT_EGROUP ltac:(lia) ltac:(unfold WT_EGROUP; lia)) as [T1 T2].
    induction Hl as [|[n f] l (tb & tag & p & K & Ht & _ & Hp) Hl IH].
    - eapply GEnd; eauto. apply tagb_reads; [lia|unfold WT_EGROUP; lia].
    - cbn [snd] in K. subst f. unfold bytes_of. cbn [map concat snd]. rewrite <- !app_assoc. eapply GField; eauto.
  Qed.

  Lemma elem_field d num e v : 1 <= num < 2 ^ 25 -> (exists ex, wt (loosen ex e) v) -> zlen (enc_elem (enc_msg E) num e v) < 2 ^ 31 ->
    (forall ty delim, e = EMsg ty delim -> scope_ok limit d = true /\ exists l, enc_msg E ty v = bytes_of l /\ fields_at limit (d + 1) l) ->
    one_field limit d num (enc_elem (enc_msg E) num e v).
  Proof.
    intros Hn [ex Hw] Hl Hm. rewrite enc_elem_split in *. rewrite zlen_app in Hl. pose proof (zlen_nonneg (tagb num (elem_wt e))).
    destruct (tag_parts num (elem_wt e) ltac:(lia) (wt_range e)) as [T1 T2].
    exists (tagb num (elem_wt e)), (8 * num + elem_wt e), (payload_of E num e v). split; [reflexivity|].
    split; [apply tagb_reads; [lia|apply wt_range]|]. split; [exact T2|].
    destruct (loosen_elem E utf8_ok ex e v Hw) as (K1 & K2 & K3 & _).
    destruct (scalar e) eqn:Hs.
    - assert (Hp : payload_of E num e v = enc_scalar e v) by (destruct e; try discriminate; reflexivity). rewrite Hp in *. rewrite <- K3, <- K1 in *.
      eapply scalar_payload_grammar; [lia|]. eapply (scalar_encoded E); eauto. lia.
    - destruct e as [| | | | |ty delim]; try discriminate. destruct (Hm _ _ eq_refl) as (Hsc & l & Hb & Hf). cbn [payload_of elem_wt] in *. destruct delim.
      + apply PGroup; auto; [apply may_nest_ok; exact Hsc|]. rewrite Hb, T2. apply group_fields; auto.
      + rewrite zlen_app in Hl. pose proof (zlen_nonneg (vint (zlen (enc_msg E ty v)))). pose proof (zlen_nonneg (enc_msg E ty v)).
        destruct (vint_len (zlen (enc_msg E ty v)) ltac:(lia)) as (A & B & C & D). apply PLen; auto. rewrite C. apply Z.mod_small. lia.
  Qed.

  (** The occurrences written for one member. *)
  Definition occ_field (f : field) (vs : list val) : list (Z * bytes) :=
    match f with
    | Field num e (CRep true) => if packable e then [(num, enc_packed num e vs)] else map (fun v => (num, enc_elem (enc_msg E) num e v)) vs
    | Field num e _ => map (fun v => (num, enc_elem (enc_msg E) num e v)) vs
    | Oneof alts =>
        match vs with
        | VAlt i v :: _ => match nth_error alts i with Some (num, e) => [(num, enc_elem (enc_msg E) num e v)] | None => [] end
        | _ => []
        end
    end.
  Fixpoint occ_fields (fds : list field) (fs : list (list val)) {struct fs} : list (Z * bytes) :=
    match fs, fds with
    | vs :: fs', f :: fds' => (if omit f vs then [] else occ_field f vs) ++ occ_fields fds' fs'
    | _, _ => []
    end.

  Lemma bytes_map num e vs : bytes_of (map (fun v => (num, enc_elem (enc_msg E) num e v)) vs) = concat (map (enc_elem (enc_msg E) num e) vs).
  Proof. unfold bytes_of. rewrite map_map. reflexivity. Qed.

  Lemma occ_field_bytes f vs : bytes_of (occ_field f vs) = enc_field (enc_msg E) f vs.
  Proof.
    destruct f as [num e [ex d| |[|]|assoc]|alts]; cbn [occ_field enc_field]; try apply bytes_map.
    - destruct (packable e); [|apply bytes_map]. unfold bytes_of. cbn. apply app_nil_r.
    - destruct vs as [|[| | |i v] vs]; try reflexivity. destruct (nth_error alts i) as [[num e]|]; [|reflexivity]. unfold bytes_of. cbn. apply app_nil_r.
  Qed.
  Lemma occ_fields_bytes : forall fs fds, bytes_of (occ_fields fds fs) = enc_fields (enc_msg E) fds fs.
  Proof.
    induction fs as [|vs fs IH]; intros [|f fds]; cbn [occ_fields enc_fields]; try reflexivity.
    rewrite fields_bytes_app, IH. destruct (omit f vs); [reflexivity|]. rewrite occ_field_bytes. reflexivity.
  Qed.

  Lemma occ_field_fields d f c : (forall n, In n (nums f) -> 1 <= n < 2 ^ 25) -> cell E utf8_ok f c -> zlen (enc_field (enc_msg E) f c) < 2 ^ 31 ->
    (forall ty v, sub_msg f c ty v -> scope_ok limit d = true /\ exists l, enc_msg E ty v = bytes_of l /\ fields_at limit (d + 1) l) ->
    fields_at limit d (occ_field f c).
  Proof.
    intros Hn Hc Hl Hs.
    assert (Hmap : forall num e vs, In num (nums f) -> (forall v, In v vs -> exists ex, wt (loosen ex e) v) -> zlen (concat (map (enc_elem (enc_msg E) num e) vs)) < 2 ^ 31 ->
      (forall ty delim v, e = EMsg ty delim -> In v vs -> scope_ok limit d = true /\ exists l, enc_msg E ty v = bytes_of l /\ fields_at limit (d + 1) l) ->
      fields_at limit d (map (fun v => (num, enc_elem (enc_msg E) num e v)) vs)).
    { intros num e vs Hi Hw Hz Hsub. apply Forall_forall. intros x Hx. apply in_map_iff in Hx. destruct Hx as (v & <- & Hv). cbn [fst snd].
      apply elem_field; auto. - pose proof (zlen_concat_in (enc_elem (enc_msg E) num e) vs v Hv). lia. - intros ty delim He. eapply Hsub; eauto. }
    inversion Hc; subst; cbn [occ_field enc_field nums] in *.
    - apply Hmap; auto; [left; reflexivity| |].
      + intros w [<-|[]]. eauto.
      + intros ty delim w -> Hw. apply Hs. constructor. exact Hw.
    - constructor.
    - apply Hmap; auto; [left; reflexivity| |].
      + intros w [<-|[]]. exists true. destruct e as [| | |[|]| |]; assumption.
      + intros ty delim w -> Hw. apply Hs. constructor. exact Hw.
    - apply elems_forall in H. rewrite Forall_forall in H.
      assert (Hrep : zlen (concat (map (enc_elem (enc_msg E) num e) c)) < 2 ^ 31 -> fields_at limit d (map (fun v => (num, enc_elem (enc_msg E) num e v)) c)).
      { intros Hz. apply Hmap; auto; [left; reflexivity| |].
        - intros w Hw. exists true. specialize (H w Hw). destruct e as [| | |[|]| |]; assumption.
        - intros ty delim w -> Hw. apply Hs. constructor. exact Hw. }
      destruct pk; [|apply Hrep; exact Hl]. destruct (packable e); [|apply Hrep; exact Hl]. constructor; [|constructor]. cbn [fst snd].
      specialize (Hn num (or_introl eq_refl)). unfold enc_packed in *. set (p := concat (map (enc_scalar e) c)) in *. rewrite !zlen_app in Hl.
      pose proof (zlen_nonneg (tagb num WT_LEN)). pose proof (zlen_nonneg (vint (zlen p))). pose proof (zlen_nonneg p).
      destruct (tag_parts num WT_LEN ltac:(lia) ltac:(unfold WT_LEN; lia)) as [T1 T2].
      exists (tagb num WT_LEN), (8 * num + WT_LEN), (vint (zlen p) ++ p). split; [reflexivity|]. split; [apply tagb_reads; [lia|unfold WT_LEN; lia]|].
      split; [exact T2|]. destruct (vint_len (zlen p) ltac:(lia)) as (A & B & C & D). apply PLen; auto. rewrite C. apply Z.mod_small. lia.
    - apply elems_forall in H. rewrite Forall_forall in H. apply Hmap; auto; [left; reflexivity| |].
      + intros w Hw. exists true. specialize (H w Hw). destruct e as [| | |[|]| |]; assumption.
      + intros ty delim w -> Hw. apply Hs. constructor. exact Hw.
    - constructor.
    - rewrite H in *. constructor; [|constructor]. cbn [fst snd]. apply elem_field; auto.
      + apply Hn. apply in_map_iff. exists (num, e). split; [reflexivity|]. eapply nth_error_In; eauto.
      + exists true. destruct e as [| | |[|]| |]; assumption.
      + intros ty delim ->. apply Hs. econstructor. exact H.
  Qed.

  Lemma occ_fields_ok d : forall fds fs, (forall f n, In f fds -> In n (nums f) -> 1 <= n < 2 ^ 25) -> cells E utf8_ok fds fs ->
    zlen (enc_fields (enc_msg E) fds fs) < 2 ^ 31 ->
    (forall f c ty v, In (f, c) (combine fds fs) -> sub_msg f c ty v -> scope_ok limit d = true /\ exists l, enc_msg E ty v = bytes_of l /\ fields_at limit (d + 1) l) ->
    fields_at limit d (occ_fields fds fs).
  Proof.
    induction fds as [|f fds IH]; intros fs Hn Hc Hl Hs; inversion Hc; subst; [constructor|]. cbn [occ_fields enc_fields combine] in *. rewrite zlen_app in Hl.
    match goal with K : _ + zlen ?a < _ |- _ => pose proof (zlen_nonneg a) end. match goal with K : zlen ?a + _ < _ |- _ => pose proof (zlen_nonneg a) end.
    apply Forall_app. split.
    - destruct (omit f c); [constructor|]. apply occ_field_fields; auto; [|lia|].
      + intros n. apply Hn. left; reflexivity.
      + intros ty v Hsub. eapply Hs; [left; reflexivity|exact Hsub].
    - apply IH; auto; [|lia|].
      + intros g n Hg. apply Hn. right; exact Hg.
      + intros g c' ty v Hg. apply Hs. right; exact Hg.
  Qed.

  (** Kept unknown fields are fields. *)
  Lemma stored_fields_ok d ty u : stored_ok E limit d ty u -> exists l, concat (map snd u) = bytes_of l /\ fields_at limit d l.
  Proof.
    induction 1 as [|[n b] u (l & H1 & _ & H3) Hu (l2 & IH1 & IH2)]; [exists []; split; [reflexivity|constructor]|]. cbn [snd fst] in *. subst b.
    exists (l ++ l2). split; [cbn [map concat snd]; rewrite fields_bytes_app, IH1; reflexivity|]. apply Forall_app. split; [|exact IH2].
    eapply Forall_impl; [|exact H3]. intros [m f] [[[Hs _]|(i & el & c & z & Hm & Hz & _ & _ & Hf)] _]; cbn [fst snd] in *.
    - destruct Hs as (tb & tag & p & A & B & C & D & _). exists tb, tag, p. auto.
    - subst f. destruct (find_field_spec _ _ _ _ _ Hm) as [Hin _]. assert (Hn : 1 <= m < 2 ^ 25) by (eapply gen_numbers; eauto; left; reflexivity).
      destruct (tag_parts m WT_VARINT ltac:(lia) ltac:(unfold WT_VARINT; lia)) as [T1 T2]. destruct (pack_varint_spec VI64 z) as (A & B & _). pose proof (pack_varint_len VI64 z) as L.
      exists (tagb m WT_VARINT), (8 * m + WT_VARINT), (pack_varint VI64 z). split; [reflexivity|]. split; [apply tagb_reads; [lia|unfold WT_VARINT; lia]|].
      split; [exact T2|]. apply PVarint; auto; unfold WT_VARINT, zlen in *; lia.
  Qed.

  Lemma message_fields : forall ty v d, wt (EMsg ty false) v -> everywhere E (fun d ty v => stored_ok E limit d ty (msg_unk v)) (d + 1) ty v ->
    (forall n, nested E ty v n -> scope_ok limit (d + Z.of_nat n - 1) = true) -> zlen (enc_msg E ty v) < 2 ^ 31 ->
    fields_at limit (d + 1) (occ_fields (m_fields (desc_of E ty)) (msg_fields v)) /\
    exists l, enc_msg E ty v = bytes_of l /\ fields_at limit (d + 1) l.
  Proof.
    refine (nested_ind_msg E _ _). intros ty v IH d Hw Hev Hd Hl. inversion Hw as [| | | | |? ? fs u Hcs Hst Hu]; subst. inversion Hev as [? ? ? Hso Hsub]; subst.
    cbn [enc_msg msg_fields msg_unk] in *. rewrite zlen_app in Hl.
    pose proof (zlen_nonneg (enc_fields (enc_msg E) (m_fields (desc_of E ty)) fs)). pose proof (zlen_nonneg (enc_unknown (m_unk (desc_of E ty)) u)).
    assert (Hocc : fields_at limit (d + 1) (occ_fields (m_fields (desc_of E ty)) fs)).
    { apply occ_fields_ok; auto; [intros f n; apply (gen_numbers E G ty)|lia|]. intros f c ty' v' Hin Hs.
      assert (Hh : holds E ty (VMsg fs u) f c) by exact Hin.
      assert (Hdep : forall n, nested E ty' v' n -> scope_ok limit (d + 1 + Z.of_nat n - 1) = true).
      { intros n Hn. specialize (Hd (S n)). rewrite Nat2Z.inj_succ in Hd. replace (d + 1 + Z.of_nat n - 1) with (d + Z.succ (Z.of_nat n) - 1) by lia.
        apply Hd. eapply NStep; eauto. }
      assert (Hw' : wt (EMsg ty' false) v') by (eapply cell_sub; eauto; eapply cells_in; eauto).
      split.
      - inversion Hw'; subst. match goal with |- scope_ok limit _ = _ => pose proof (Hdep 1%nat (NOne E _ _ _)) as K end.
        replace (d + 1 + Z.of_nat 1 - 1) with (d + 1) in K by lia. exact K.
      - apply (IH f c ty' v' Hh Hs (d + 1)); auto.
        + eapply Hsub; eauto.
        + pose proof (sub_len E _ _ _ _ Hs). pose proof (fields_len E f c (sub_not_omitted _ _ _ _ Hs) _ _ Hin). lia. }
    split; [exact Hocc|].
    destruct (stored_fields_ok (d + 1) ty u Hso) as (l2 & Hl2 & Hf2).
    exists (occ_fields (m_fields (desc_of E ty)) fs ++ match m_unk (desc_of E ty) with UNone => [] | _ => l2 end). split.
    - rewrite fields_bytes_app, occ_fields_bytes. f_equal. unfold enc_unknown. destruct (m_unk (desc_of E ty)); auto.
    - apply Forall_app. split; [exact Hocc|]. destruct (m_unk (desc_of E ty)); auto; constructor.
  Qed.

  (** A field number occurs exactly when its member is present. *)
  Lemma occ_field_nums f c num : cell E utf8_ok f c -> In num (nums f) ->
    (forall n e ex d, f = Field n e (CPlain ex d) -> exists ex', wt (loosen ex' e) d) -> 
    In num (map fst (if omit f c then [] else occ_field f c)) <-> present f c num.
  Proof.
    intros Hc Hn Hd. destruct f as [n e cd|alts].
    - pose proof (omit_present (Field n e cd) c num Hd Hc Hn I ltac:(discriminate)) as K. cbn [nums In] in Hn. destruct Hn as [<-|[]].
      destruct (omit (Field n e cd) c) eqn:Ho.
      + split; [intros []|]. intros P. apply K in P. discriminate.
      + split; [intros _; apply K; reflexivity|]. intros _.
        assert (Hne : c <> []). { destruct c; [|discriminate]. inversion Hc; subst; cbn in Ho; try discriminate. }
        destruct c as [|v c]; [congruence|].
        assert (Hm : In n (map fst (map (fun v => (n, enc_elem (enc_msg E) n e v)) (v :: c)))) by (left; reflexivity).
        destruct cd as [| |[|]|]; cbn [occ_field]; try exact Hm. destruct (packable e); [left; reflexivity|exact Hm].
    - inversion Hc; subst; cbn [omit occ_field present].
      + split; [intros []|intros (j & e & v & K & _); discriminate].
      + match goal with K : nth_error _ _ = _ |- _ => rename K into Hj end. rewrite Hj. split.
        * intros [<-|[]]. exists j, e, v. auto.
        * intros (j' & e' & v' & [= <- <-] & K). rewrite Hj in K. injection K as <- <-. left; reflexivity.
  Qed.

  Lemma occ_field_range f c n : cell E utf8_ok f c -> In n (map fst (occ_field f c)) -> In n (nums f).
  Proof.
    intros Hc. assert (Hm : forall num e vs, In n (map fst (map (fun v => (num, enc_elem (enc_msg E) num e v)) vs)) -> n = num).
    { intros num e vs H. rewrite map_map in H. apply in_map_iff in H. destruct H as (v & <- & _). reflexivity. }
    destruct f as [num e [ex d| |[|]|assoc]|alts]; cbn [occ_field nums]; try (intros H; apply Hm in H; left; congruence).
    - destruct (packable e); [intros [<-|[]]; left; reflexivity|intros H; apply Hm in H; left; congruence].
    - destruct c as [|[| | |i v] vs]; try (intros []). destruct (nth_error alts i) as [[num e]|] eqn:K; [|intros []].
      intros [<-|[]]. apply in_map_iff. exists (num, e). split; [reflexivity|]. eapply nth_error_In; eauto.
  Qed.

  Lemma occ_fields_nums num : forall fds fs i f, NoDup (concat (map nums fds)) -> cells E utf8_ok fds fs -> nth_error fds i = Some f -> In num (nums f) ->
    (forall n e ex d, In (Field n e (CPlain ex d)) fds -> exists ex', wt (loosen ex' e) d) ->
    In num (map fst (occ_fields fds fs)) <-> present f (nth i fs []) num.
  Proof.
    induction fds as [|g fds IH]; intros fs i f Hnd Hc Hi Hn Hd; [destruct i; discriminate|].
    inversion Hc as [|? ? c ? Hc1 Hc2]; subst. cbn [occ_fields]. rewrite map_app, in_app_iff. cbn [map concat] in Hnd.
    assert (Hnd2 : NoDup (concat (map nums fds))) by (clear - Hnd; induction (nums g) as [|a l IHl]; [exact Hnd|inversion Hnd; auto]).
    assert (Hdisj : forall n, In n (nums g) -> ~ In n (concat (map nums fds))).
    { clear - Hnd. induction (nums g) as [|a l IHl]; intros n; [intros []|]. cbn in Hnd. inversion Hnd as [|? ? H1 H2]; subst.
      intros [->|H] K; [apply H1; apply in_or_app; auto|]. eapply IHl; eauto. }
    assert (Hrest : forall n, In n (map fst (occ_fields fds fs0)) -> In n (concat (map nums fds))).
    { clear - Hc2. intros n. revert fs0 Hc2. induction fds as [|g fds IHf]; intros fs Hc; inversion Hc; subst; [intros []|]. cbn [occ_fields map concat].
      rewrite map_app, !in_app_iff. intros [K|K]; [left|right; eauto]. destruct (omit g c); [destruct K|]. eapply occ_field_range; eauto. }
    destruct i as [|i]; cbn [nth_error nth] in *.
    - injection Hi as ->. rewrite <- (occ_field_nums f c num Hc1 Hn).
      + split; [|auto]. intros [K|K]; [exact K|]. exfalso. eapply Hdisj; eauto.
      + intros n e ex d ->. eapply Hd. left; reflexivity.
    - rewrite <- (IH fs0 i f Hnd2 Hc2 Hi Hn).
      + split; [|auto]. intros [K|K]; [|exact K]. exfalso. destruct (omit g c); [destruct K|]. apply (occ_field_range _ _ _ Hc1) in K.
        apply (Hdisj num K). apply in_concat. exists (nums f). split; [|exact Hn]. apply in_map. eapply nth_error_In; eauto.
      + intros n e ex d H. eapply Hd. right; exact H.
  Qed.

  Theorem written_fields maxd ty v bs : maxd <= limit -> wt_defaults E utf8_ok -> wt_msg E utf8_ok ty v ->
    everywhere E (fun d ty v => stored_ok E limit d ty (msg_unk v)) 1 ty v -> encode_bytes E utf8_ok maxd ty v = Ok bs ->
    exists l, fields limit l /\ bs = bytes_of l ++ enc_unknown (m_unk (desc_of E ty)) (msg_unk v) /\
      forall num i f, member E ty num i f -> (In num (map fst l) <-> present f (nth i (msg_fields v) []) num).
  Proof.
    intros Hml Hdef Hw Hev H. destruct (encoded E utf8_ok maxd ty v bs (generated_legal E G) Hw H) as (-> & Hl & Hd).
    destruct (message_fields ty v 0 Hw Hev) as [Hocc _].
    { intros n Hn. rewrite Z.add_0_l. apply (scope_mono maxd); auto. }
    { unfold max_message_size in Hl. lia. }
    inversion Hw as [| | | | |? ? fs u Hcs Hst Hu]; subst. cbn [msg_fields msg_unk enc_msg] in *.
    exists (occ_fields (m_fields (desc_of E ty)) fs). split; [exact Hocc|]. split; [rewrite occ_fields_bytes; reflexivity|].
    intros num i f Hm. pose proof (find_field_nth0 _ _ _ _ Hm) as [Hi Hhas]. apply has_num_nums in Hhas.
    apply occ_fields_nums; auto; [apply (gen_distinct E G)|].
    intros n e ex d Hin. apply In_nth_error in Hin. destruct Hin as [j Hj].
    pose proof (Hdef ty) as Hdw. unfold wt_msg, default_msg in Hdw. inversion Hdw as [| | | | |? ? ? ? Hdc _ _]; subst.
    pose proof (cells_nth E utf8_ok _ _ Hdc j _ Hj) as K. rewrite (nth_error_nth (map field_default _) j (x := field_default (Field n e (CPlain ex d))) []) in K by (rewrite nth_error_map, Hj; reflexivity).
    inversion K; subst. eauto.
  Qed.
End Presence.
