(** Proofs about generated members and metadata. *)
Require Import Verif.Bits Verif.Varint Verif.Schema Verif.Pool Verif.PoolSpec Verif.GenMeta Verif.GenMetaSpec.
Local Open Scope Z_scope.

Lemma Forall2_len {A B} (R : A -> B -> Prop) l m : Forall2 R l m -> length l = length m.
Proof. induction 1; cbn; congruence. Qed.

(** ** Types *)
Lemma types_cases t : 1 <= t <= 18 -> t = 1 \/ t = 2 \/ t = 3 \/ t = 4 \/ t = 5 \/ t = 6 \/ t = 7 \/ t = 8 \/ t = 9 \/ t = 10 \/ t = 11 \/ t = 12 \/ t = 13 \/ t = 14 \/ t = 15 \/ t = 16 \/ t = 17 \/ t = 18.
Proof. lia. Qed.
Lemma cpp_type_range t : 1 <= t <= 18 -> cpp_range (fst (cpp_type t)) = proto_range t.
Proof. intros H. apply types_cases in H. repeat (destruct H as [->|H]; [reflexivity|]). subst. reflexivity. Qed.

(** ** Options *)
Section Options.
  Variables (o : goptions) (g : gfield).
  Definition tracks : bool :=
    is_cpp_optional o g || fa_required (g_attrs g) || is_some (fp_oneof (g_proto g)) || (g_closed g && g_ext g && g_label g LABEL_OPTIONAL).
  Local Ltac bits := unfold meta_options; fold tracks;
    destruct tracks, (fa_packed (g_attrs g)), (fa_delimited (g_attrs g)), (fa_utf8 (g_attrs g)), (emit_closed o g); reflexivity.
  Lemma has_explicit : has_option (joined (meta_options o g)) OExplicit = tracks.
  Proof. bits. Qed.
  Lemma has_packed : has_option (joined (meta_options o g)) OPacked = negb tracks && fa_packed (g_attrs g).
  Proof. bits. Qed.
  Lemma has_group : has_option (joined (meta_options o g)) OGroup = fa_delimited (g_attrs g).
  Proof. bits. Qed.
  Lemma has_utf8 : has_option (joined (meta_options o g)) OUtf8 = negb (fa_delimited (g_attrs g)) && fa_utf8 (g_attrs g).
  Proof. bits. Qed.
  Lemma has_closed : has_option (joined (meta_options o g)) OClosed = negb (fa_delimited (g_attrs g)) && negb (fa_utf8 (g_attrs g)) && emit_closed o g.
  Proof. bits. Qed.
End Options.

Lemma starts_with_prefix s p : starts_with s p = true <-> exists r, s = p ++ r.
Proof.
  revert s. induction p as [|a p IH]; intros s; [split; [exists s; reflexivity|destruct s; reflexivity]|]. destruct s as [|b s].
  - split; [discriminate|]. intros (r & K). discriminate K.
  - cbn [starts_with]. rewrite andb_true_iff, Z.eqb_eq, IH. split.
    + intros (-> & r & ->). exists r. reflexivity.
    + intros (r & K). injection K as -> ->. split; [reflexivity|exists r; reflexivity].
Qed.

Section Field.
  Variables (o : goptions) (scopes escopes : list features) (g : gfield) (view : bool) (msg0 : nat -> val).
  Hypothesis F : faithful scopes escopes g.
  Hypothesis C : coherent o scopes g.
  (** A field of a message that is written as a struct. *)
  Hypothesis Hext : g_ext g = false.
  Hypothesis Hentry : g_in_entry g = false.
  Hypothesis Hparent : g_parent g <> [].
  (** Scopes of the option end at the end of a name (C73_scope_prefix_refuted). *)
  Hypothesis Hscopes : o_presences o <> [] /\ forall s, In s (o_presences o) -> (exists r, full_name g = tl s ++ r) -> covers s (full_name g).
  (** No [packed = false] (C57_packed_false_ignored_refuted). *)
  Hypothesis Hpacked : fp_packed (g_proto g) <> Some false.

  Local Notation p := (g_proto g).
  Local Notation a := (g_attrs g).
  Let A := fh_attrs scopes escopes g F.
  Lemma is_message_b : is_message g <-> g_type g TYPE_MESSAGE || g_type g TYPE_GROUP = true.
  Proof. unfold is_message, g_type. rewrite orb_true_iff, !Z.eqb_eq. reflexivity. Qed.
  Lemma covered_b : existsb (fun s => starts_with (qualified_name g) (tl s)) (o_presences o) = true <-> covered o g.
  Proof.
    rewrite existsb_exists. unfold covered. destruct Hscopes as (_ & Hs). split; intros (s & Hin & K); exists s; split; try assumption.
    - apply Hs; [assumption|]. apply starts_with_prefix. exact K.
    - apply starts_with_prefix. destruct K as (t & -> & [-> | [K | (r & K)]]); cbn [tl].
      + exists (qualified_name g). reflexivity.
      + exists []. rewrite app_nil_r. exact K.
      + exists (46 :: r). exact K.
  Qed.
  Lemma oneof_b : fp_oneof p <> None <-> is_some (fp_oneof p) = true.
  Proof. destruct (fp_oneof p); cbn; split; congruence. Qed.
  Lemma label_b l : g_label g l = true <-> fp_label p = l.
  Proof. apply Z.eqb_eq. Qed.
  Lemma required_b : fa_required a = true <-> required scopes g.
  Proof. exact (at_required _ _ _ _ A). Qed.

  (** An optional field outside of oneofs has a C++ optional exactly if its presence is tracked. *)
  Lemma optional_b : is_cpp_optional o g || is_some (fp_oneof p) = true <-> fp_label p = LABEL_OPTIONAL /\ tracked o scopes g.
  Proof.
    unfold is_cpp_optional, presence_rule. rewrite Hext, Hentry. cbn [negb andb]. destruct Hscopes as (Hne & _). pose proof (at_explicit _ _ _ _ A) as E.
    assert (Hem : is_empty (o_presences o) = false) by (destruct (o_presences o); [congruence|reflexivity]). rewrite Hem, orb_false_r.
    rewrite orb_true_iff, <- oneof_b. destruct (o_proto2 o) eqn:P2; cbn [negb].
    - rewrite !andb_true_iff, !orb_true_iff, covered_b, label_b. unfold g_type. rewrite !Z.eqb_eq. unfold tracked, is_message. rewrite P2.
      pose proof (co_proto2 _ _ _ C P2). pose proof (co_opt3 _ _ _ C). pose proof (co_oneof _ _ _ C). intuition congruence.
    - rewrite E, Hentry. unfold tracked, is_message. rewrite P2. pose proof (co_oneof _ _ _ C). intuition congruence.
  Qed.
  Lemma oneof_tracks : tracks o g = true <-> required scopes g \/ (fp_label p = LABEL_OPTIONAL /\ tracked o scopes g).
  Proof. unfold tracks. rewrite Hext, andb_false_r. cbn [andb]. rewrite orb_false_r, <- optional_b, <- required_b, !orb_true_iff. tauto. Qed.
  Lemma repeated_untracked : fp_label p = LABEL_REPEATED -> tracks o g = false.
  Proof.
    intros L. apply not_true_is_false. rewrite oneof_tracks. unfold required. intros [[K | K] | (K & _)]; [rewrite L in K; discriminate| |rewrite L in K; discriminate].
    apply (co_legacy _ _ _ C) in K. destruct K as (K & _). rewrite L in K. discriminate.
  Qed.

  (** ** Element types *)
  Lemma flattened_b : g_closed g = true -> ~ (feature ft_presence scopes = LEGACY_REQUIRED) -> emit_closed o g = true <-> ~ flattened o scopes g.
  Proof.
    intros Hc Hl. unfold emit_closed, flattened. rewrite Hc, Hext, Hentry. cbn [negb andb].
    assert (Hp : is_empty (g_parent g) = false) by (destruct (g_parent g); [congruence|reflexivity]). rewrite Hp. cbn [negb andb].
    destruct (g_label g LABEL_OPTIONAL) eqn:L; [apply label_b in L|].
    - cbn [andb]. pose proof optional_b as B. pose proof oneof_b as Ho. unfold required.
      destruct (is_some (fp_oneof p)) eqn:H1; cbn [negb andb orb] in *.
      + split; [intros _ (_ & K & _); destruct Ho as [_ Ho]; apply (Ho eq_refl K)|reflexivity].
      + assert (Hn : fp_oneof p = None) by (destruct (fp_oneof p); [discriminate H1|reflexivity]). rewrite orb_false_r in B.
        destruct (is_cpp_optional o g); cbn [negb].
        * split; [|reflexivity]. intros _ (_ & _ & K & _). destruct B as [B _]. apply K, B, eq_refl.
        * split; [discriminate|]. intros K. exfalso. apply K. split; [exact L|]. split; [exact Hn|]. split.
          -- intros T. destruct B as [_ B]. discriminate (B (conj L T)).
          -- intros [R | R]; [rewrite L in R; discriminate R|exact (Hl R)].
    - cbn [andb negb]. split; [|reflexivity]. intros _ (K & _). apply label_b in K. congruence.
  Qed.

  Lemma elem_meets : (g_closed g = true -> feature ft_presence scopes <> LEGACY_REQUIRED) -> exists e, source_elem view (emit o g) = Some e /\ proto_type o scopes escopes g view e.
  Proof.
    intros Hl. pose proof (fh_legal _ _ _ F) as (Ht & _). pose proof (at_utf8 _ _ _ _ A) as U. pose proof (at_delimited _ _ _ _ A) as D. pose proof (fh_closed _ _ _ F) as K.
    assert (Hu : exists utf8, utf8 = true <-> feature ft_utf8 scopes = UTF8_VERIFY) by (exists (feature ft_utf8 scopes =? UTF8_VERIFY); apply Z.eqb_eq).
    assert (Hd : exists delim, delim = true <-> feature ft_encoding scopes = DELIMITED) by (exists (feature ft_encoding scopes =? DELIMITED); apply Z.eqb_eq).
    assert (He : exists enum, (feature ft_enum escopes = ENUM_CLOSED /\ ~ flattened o scopes g /\ enum = Some (g_enum g)) \/ ((feature ft_enum escopes <> ENUM_CLOSED \/ flattened o scopes g) /\ enum = None)).
    { destruct (Z.eq_dec (feature ft_enum escopes) ENUM_CLOSED) as [E | E]; [|exists None; right; tauto].
      assert (Dec : flattened o scopes g \/ ~ flattened o scopes g).
      { unfold flattened. pose proof optional_b as B. pose proof required_b as R. destruct (Z.eq_dec (fp_label p) LABEL_OPTIONAL); [|tauto].
        destruct (fp_oneof p) as [x|] eqn:Ho; [right; intros (_ & Q & _); discriminate Q|]. cbn [is_some] in B. rewrite orb_false_r in B.
        destruct (is_cpp_optional o g), (fa_required a); intuition congruence. }
      destruct Dec; [exists None; right; tauto|exists (Some (g_enum g)); left; tauto]. }
    destruct Hu as (utf8 & Hu), Hd as (delim & Hd), He as (enum & He).
    assert (Q : exists e, source_elem view (emit o g) = Some e /\ proto_elem (fp_type p) utf8 delim view enum (g_ty g) = Some e); [|destruct Q as (e & Q1 & Q2); exists e; split; [exact Q1|]; exists utf8, delim, enum; tauto].
    unfold emit, source_elem. pose proof (types_cases _ Ht) as T.
    destruct T as [T|T]; [rewrite T; eexists; split; reflexivity|]. destruct T as [T|T]; [rewrite T; eexists; split; reflexivity|].
    destruct T as [T|T]; [rewrite T; eexists; split; reflexivity|]. destruct T as [T|T]; [rewrite T; eexists; split; reflexivity|].
    destruct T as [T|T]; [rewrite T; eexists; split; reflexivity|]. destruct T as [T|T]; [rewrite T; eexists; split; reflexivity|].
    destruct T as [T|T]; [rewrite T; eexists; split; reflexivity|]. destruct T as [T|T]; [rewrite T; eexists; split; reflexivity|].
    destruct T as [T|T]; [|destruct T as [T|T]; [|destruct T as [T|T]; [|destruct T as [T|T]; [|destruct T as [T|T]; [rewrite T; eexists; split; reflexivity|destruct T as [T|T];
      [|repeat (destruct T as [T|T]; [rewrite T; eexists; split; reflexivity|]); rewrite T; eexists; split; reflexivity]]]]]].
    - (* string *) rewrite T. cbn [cpp_type Z.eqb Pos.eqb s_mtype s_ctype s_options]. change (cpp_type 9) with (TyString, MtVoid). cbv iota beta. cbn [s_mtype s_ctype s_options].
      rewrite has_utf8. assert (Hdl : fa_delimited a = false) by (apply not_true_is_false; rewrite D, T; unfold TYPE_GROUP, TYPE_MESSAGE; intros [Q | (Q & _)]; discriminate Q).
      rewrite Hdl. cbn [negb andb]. assert (Hf : fa_utf8 a = utf8) by (apply eq_true_iff_eq; rewrite U, Hu, T; unfold TYPE_STRING; tauto). rewrite Hf. eexists. split; reflexivity.
    - (* group *) rewrite T. change (cpp_type 10) with (TyNamed, MtVoid). cbv iota beta. cbn [s_mtype s_ctype s_options s_named]. unfold named_type, g_type. rewrite T. cbn [Z.eqb Pos.eqb TYPE_ENUM].
      rewrite has_group. assert (Hdl : fa_delimited a = true) by (apply D; left; exact T). rewrite Hdl. eexists. split; reflexivity.
    - (* message *) rewrite T. change (cpp_type 11) with (TyNamed, MtVoid). cbv iota beta. cbn [s_mtype s_ctype s_options s_named]. unfold named_type, g_type. rewrite T. cbn [Z.eqb Pos.eqb TYPE_ENUM].
      rewrite has_group. assert (Hdl : fa_delimited a = delim) by (apply eq_true_iff_eq; rewrite D, Hd, T; unfold TYPE_GROUP, TYPE_MESSAGE; intuition discriminate). rewrite Hdl. eexists. split; reflexivity.
    - (* bytes *) rewrite T. change (cpp_type 12) with (TyBytes, MtVoid). cbv iota beta. cbn [s_mtype s_ctype s_options].
      rewrite has_utf8. assert (Hf : fa_utf8 a = false) by (apply not_true_is_false; rewrite U, T; unfold TYPE_STRING; intros (Q & _); discriminate Q). rewrite Hf, andb_false_r. eexists. split; reflexivity.
    - (* enum *) rewrite T. change (cpp_type 14) with (TyNamed, MtVoid). cbv iota beta. cbn [s_mtype s_ctype s_options s_named]. unfold named_type, g_type. rewrite T. cbn [Z.eqb Pos.eqb TYPE_ENUM].
      rewrite has_closed. assert (Hdl : fa_delimited a = false) by (apply not_true_is_false; rewrite D, T; unfold TYPE_GROUP, TYPE_MESSAGE; intros [Q | (Q & _)]; discriminate Q).
      assert (Hf : fa_utf8 a = false) by (apply not_true_is_false; rewrite U, T; unfold TYPE_STRING; intros (Q & _); discriminate Q). rewrite Hf, Hdl. cbn [negb andb].
      eexists. split; [reflexivity|]. match goal with |- _ = Some ?r => change (Some (EEnum enum) = Some r) end. f_equal. f_equal. unfold TYPE_ENUM in K. destruct (g_closed g) eqn:Hc.
      + pose proof (flattened_b Hc (Hl eq_refl)) as FB. destruct K as [K _]. specialize (K eq_refl). destruct K as (_ & K). destruct (emit_closed o g); intuition congruence.
      + unfold emit_closed. rewrite Hc. cbn [andb]. intuition congruence.
  Qed.

  (** ** Storage *)
  Hypothesis Hsingle : ~ is_message g \/ g_text g = None.
  (** Text and bytes held by value have no default value (C73_string_default_refuted). *)
  Hypothesis Hstring : fp_type p = TYPE_STRING \/ fp_type p = TYPE_BYTES -> fp_label p <> LABEL_REPEATED -> g_text g <> None -> ~ required scopes g /\ tracked o scopes g.
  (** A field declared required of enum type has a default value, or its enum starts with 0 (C73_required_enum_refuted). *)
  Hypothesis Hfirst : fp_type p = TYPE_ENUM -> fp_label p = LABEL_REQUIRED -> g_text g <> None \/ hd 0 (g_enum g) = 0.

  Lemma wrapper_of : fp_oneof p = None -> member_wrapper o g =
    if g_map g then WMap else if g_label g LABEL_REPEATED then WRepeated
    else if (g_type g TYPE_GROUP || g_type g TYPE_MESSAGE) && g_rec g then WIndirect else if is_cpp_optional o g then WOptional else WNone.
  Proof. intros H. unfold member_wrapper. rewrite H. cbn [is_some]. destruct (g_map g), (g_label g LABEL_REPEATED), (g_type g TYPE_GROUP), (g_type g TYPE_MESSAGE), (g_rec g), (is_cpp_optional o g); reflexivity. Qed.

  Lemma card_repeated e : fp_oneof p = None -> fp_label p = LABEL_REPEATED -> exists c, card_of view msg0 e (emit o g) c /\ proto_card o scopes g view msg0 c.
  Proof.
    intros Ho L. pose proof (repeated_untracked L) as T. unfold emit. destruct (cpp_type (fp_type p)) as [ct mt]. destruct (g_map g) eqn:M.
    - eexists. split; [apply AsMap|apply PMap; assumption]; cbn [s_wrap s_options]; [rewrite (wrapper_of Ho), M; reflexivity|rewrite has_explicit; exact T].
    - eexists. split; [apply AsRepeated|]; cbn [s_wrap s_options].
      + rewrite (wrapper_of Ho), M. apply label_b in L. rewrite L. reflexivity.
      + rewrite has_explicit; exact T.
      + rewrite has_packed, T. cbn [negb andb]. apply PRepeated; [exact L|exact M|]. rewrite (at_packed _ _ _ _ A). unfold packed_rule.
        destruct (fp_packed p) as [[]|]; [| congruence |]; intuition congruence.
  Qed.

  Lemma default_initial e : source_elem view (emit o g) = Some e -> member_wrapper o g = WNone -> (fp_type p = TYPE_STRING \/ fp_type p = TYPE_BYTES -> g_text g = None) -> (fp_type p = TYPE_ENUM -> fp_label p <> LABEL_OPTIONAL -> g_text g <> None \/ hd 0 (g_enum g) = 0) ->
    initial msg0 e (emit o g) = proto_default g msg0.
  Proof.
    intros He W Hs Hr. unfold initial, proto_default. unfold emit in *. destruct (cpp_type (fp_type p)) as [ct mt] eqn:CT. cbn [s_init]. unfold initializer. rewrite W. cbn [is_wrapped orb]. unfold g_type.
    destruct (Z.eqb_spec (fp_type p) TYPE_STRING) as [Es | Es]; [|destruct (Z.eqb_spec (fp_type p) TYPE_BYTES) as [Eb | Eb]].
    - cbn [orb or_zero]. rewrite (Hs (or_introl Es)). rewrite Es in *. cbn [Z.eqb Pos.eqb TYPE_ENUM TYPE_STRING orb]. cbn in CT. injection CT as <- <-. cbn [source_elem s_mtype s_ctype] in He. injection He as <-. reflexivity.
    - cbn [orb or_zero]. rewrite (Hs (or_intror Eb)). rewrite Eb in *. cbn [Z.eqb Pos.eqb TYPE_ENUM TYPE_BYTES TYPE_STRING orb]. cbn in CT. injection CT as <- <-. cbn [source_elem s_mtype s_ctype] in He. injection He as <-. reflexivity.
    - cbn [orb]. unfold default_value, g_type. destruct (g_text g) as [v|]; [reflexivity|]. destruct (Z.eqb_spec (fp_type p) TYPE_ENUM) as [Ee | Ee].
      + cbn [andb]. assert (Hz : zero_value msg0 e = VInt 0).
        { rewrite Ee in CT. cbn in CT. injection CT as <- <-. cbn [source_elem s_mtype s_ctype s_named] in He. unfold named_type, g_type in He. rewrite Ee in He. cbn in He. injection He as <-. reflexivity. }
        destruct (g_label g LABEL_OPTIONAL) eqn:L.
        * pose proof (co_enum _ _ _ C Ee). destruct (g_enum g); [congruence|reflexivity].
        * cbn [or_zero]. rewrite Hz. destruct (Hr Ee) as [K | K]; [intros K; apply label_b in K; congruence|congruence|rewrite K; reflexivity].
      + cbn [andb or_zero]. pose proof (fh_legal _ _ _ F) as (Ht & _). pose proof (types_cases _ Ht) as T. clear Hs Hr W.
        unfold TYPE_STRING, TYPE_BYTES, TYPE_ENUM, TYPE_MESSAGE, TYPE_GROUP in *.
        repeat (destruct T as [T|T]; [try congruence; rewrite T in CT; rewrite ?T; cbn in CT; injection CT as <- <-; cbn [source_elem s_mtype s_ctype s_named] in He;
          first [injection He as <-; reflexivity|unfold named_type, g_type in He; rewrite T in He; cbn [Z.eqb Pos.eqb TYPE_ENUM] in He; injection He as <-; reflexivity]|]).
        rewrite T in CT; rewrite ?T; cbn in CT; injection CT as <- <-; cbn [source_elem s_mtype s_ctype s_named] in He. injection He as <-; reflexivity.
  Qed.

  Lemma default_omitted e : fp_oneof p = None -> member_wrapper o g = WNone -> tracks o g = false -> fp_label p = LABEL_OPTIONAL -> (fp_type p = TYPE_STRING \/ fp_type p = TYPE_BYTES -> g_text g = None) ->
    omitted msg0 e (emit o g) = initial msg0 e (emit o g).
  Proof.
    intros Ho W T L Hs. unfold omitted, initial, emit. destruct (cpp_type (fp_type p)) as [ct mt]. cbn [s_default s_init]. f_equal.
    assert (NT : ~ tracked o scopes g) by (intros K; assert (Q : tracks o g = true) by (apply oneof_tracks; right; split; assumption); congruence).
    assert (NM : ~ is_message g) by (intros K; apply NT; left; exact K).
    assert (Hdl : fa_delimited a = false) by (apply not_true_is_false; rewrite (at_delimited _ _ _ _ A); intros [K | (K & _)]; apply NM; [right|left]; exact K).
    assert (Hp : fa_packed a = false) by (apply not_true_is_false; rewrite (at_packed _ _ _ _ A); intros (K & _); rewrite L in K; discriminate K).
    unfold meta_default, initializer, meta_options. fold (tracks o g). rewrite T, Hp, Hdl, W. cbn [is_wrapped orb app is_empty].
    assert (Hec : emit_closed o g = false).
    { unfold emit_closed. destruct (g_closed g); [|reflexivity]. rewrite Hext, Hentry, Ho. assert (Hq : is_empty (g_parent g) = false) by (destruct (g_parent g); [congruence|reflexivity]). rewrite Hq.
      apply label_b in L. rewrite L. cbn. unfold tracks in T. destruct (is_cpp_optional o g); [discriminate T|reflexivity]. }
    rewrite Hec. unfold g_type. destruct (fa_utf8 a) eqn:U.
    - apply (at_utf8 _ _ _ _ A) in U. destruct U as (U & _). assert (Hc : g_closed g = false) by (apply not_true_is_false; intros K; apply (fh_closed _ _ _ F) in K; destruct K as (K & _); rewrite U in K; discriminate K).
      rewrite Hc, U. reflexivity.
    - cbn [app]. destruct (Z.eqb_spec (fp_type p) TYPE_STRING) as [Es | Es]; [|destruct (Z.eqb_spec (fp_type p) TYPE_BYTES) as [Eb | Eb]; [|reflexivity]]; cbn [orb]; unfold default_value, g_type; rewrite Hs by tauto; [rewrite Es|rewrite Eb]; reflexivity.
  Qed.

  Lemma card_single e : source_elem view (emit o g) = Some e -> fp_oneof p = None -> fp_label p <> LABEL_REPEATED -> exists c, card_of view msg0 e (emit o g) c /\ proto_card o scopes g view msg0 c.
  Proof.
    intros He Ho L. pose proof (fh_legal _ _ _ F) as (_ & Hl & _). pose proof optional_b as B. rewrite Ho in B. cbn [is_some] in B. rewrite orb_false_r in B. pose proof oneof_tracks as T.
    assert (W : member_wrapper o g = if (g_type g TYPE_GROUP || g_type g TYPE_MESSAGE) && g_rec g then WIndirect else if is_cpp_optional o g then WOptional else WNone).
    { rewrite (wrapper_of Ho). destruct (g_map g) eqn:M; [apply (co_map _ _ _ C) in M; tauto|]. destruct (g_label g LABEL_REPEATED) eqn:Lr; [apply label_b in Lr; congruence|reflexivity]. }
    assert (Wo : forall w, member_wrapper o g = w -> s_wrap (emit o g) = w) by (intros w <-; unfold emit; destruct (cpp_type (fp_type p)); reflexivity).
    assert (Op : s_options (emit o g) = meta_options o g) by (unfold emit; destruct (cpp_type (fp_type p)); reflexivity).
    pose proof is_message_b as MB. rewrite orb_comm in MB.
    assert (Lab : fp_label p = LABEL_OPTIONAL \/ fp_label p = LABEL_REQUIRED) by (unfold LABEL_OPTIONAL, LABEL_REQUIRED, LABEL_REPEATED in *; lia).
    assert (Txt : fp_type p = TYPE_STRING \/ fp_type p = TYPE_BYTES -> ~ (~ required scopes g /\ tracked o scopes g) -> g_text g = None) by (intros H1 H2; destruct (g_text g); [exfalso; apply H2, Hstring; auto; discriminate|reflexivity]).
    destruct ((g_type g TYPE_GROUP || g_type g TYPE_MESSAGE) && g_rec g) eqn:R.
    - apply andb_true_iff in R. destruct R as (R1 & R2). assert (M : is_message g) by (apply MB; exact R1). exists COpt. split.
      + apply AsOptional; [right; apply Wo; exact W|]. rewrite Op, has_explicit. apply T. destruct Lab as [Lab | Lab]; [right; split; [exact Lab|left; exact M]|left; left; exact Lab].
      + destruct (fa_required a) eqn:Rq.
        * apply PHeld; [exact L|apply required_b; exact Rq|tauto].
        * assert (NR : ~ required scopes g) by (rewrite <- required_b, Rq; discriminate). apply PTracked; [destruct Lab as [Lab | Lab]; [exact Lab|exfalso; apply NR; left; exact Lab]|exact NR|left; exact M].
    - destruct (is_cpp_optional o g) eqn:CO.
      + destruct B as [B _]. destruct (B eq_refl) as (B1 & B2). exists COpt. split.
        * apply AsOptional; [left; apply Wo; exact W|]. rewrite Op, has_explicit. apply T. right. split; assumption.
        * destruct (fa_required a) eqn:Rq.
          -- apply PHeld; [exact L|apply required_b; exact Rq|]. apply required_b in Rq. destruct Rq as [Rq | Rq]; [rewrite B1 in Rq; discriminate|].
             split; [|right; exact B1]. destruct B2 as [B2 | [B2 | [B2 | (B2 & _)]]]; [exact B2| | |].
             ++ apply (co_opt3 _ _ _ C) in B2. tauto.
             ++ congruence.
             ++ rewrite Rq in B2. discriminate B2.
          -- apply PTracked; [exact B1|rewrite <- required_b, Rq; discriminate|exact B2].
      + assert (NT : fp_label p = LABEL_OPTIONAL -> ~ tracked o scopes g) by (intros K1 K2; destruct B as [_ B]; discriminate (B (conj K1 K2))).
        assert (NM : fp_label p = LABEL_OPTIONAL -> ~ is_message g) by (intros K1 K2; apply (NT K1); left; exact K2).
        assert (Hrq : fp_type p = TYPE_ENUM -> fp_label p <> LABEL_OPTIONAL -> g_text g <> None \/ hd 0 (g_enum g) = 0) by (intros K1 K2; apply Hfirst; [exact K1|]; destruct Lab; congruence).
        assert (Hst : fp_type p = TYPE_STRING \/ fp_type p = TYPE_BYTES -> g_text g = None).
        { intros K. apply Txt; [exact K|]. intros (K1 & K2). destruct Lab as [Lab | Lab]; [exact (NT Lab K2)|apply K1; left; exact Lab]. }
        pose proof (default_initial e He W Hst Hrq) as Hi. destruct (fa_required a) eqn:Rq.
        * eexists. split; [apply AsPlain; [apply Wo; exact W|]|rewrite Hi; apply PRequired; [exact L|apply required_b; exact Rq|]].
          -- rewrite Op, has_explicit. apply T. left. apply required_b. exact Rq.
          -- intros (K1 & [K2 | K2]); [|exact (NM K2 K1)]. apply MB in K1. rewrite K1, K2 in R. discriminate R.
        * assert (NR : ~ required scopes g) by (rewrite <- required_b, Rq; discriminate).
          assert (L1 : fp_label p = LABEL_OPTIONAL) by (destruct Lab as [Lab | Lab]; [exact Lab|exfalso; apply NR; left; exact Lab]).
          assert (NTr : tracks o g = false) by (apply not_true_is_false; rewrite T; intros [K | (K1 & K2)]; [exact (NR K)|exact (NT K1 K2)]).
          eexists. split; [apply AsImplicit; [apply Wo; exact W|rewrite Op, has_explicit; exact NTr|apply default_omitted; assumption]|rewrite Hi; apply PUntracked; [exact L1|exact NR|exact (NT L1)]].
  Qed.

  Hypothesis Hlegacy : g_closed g = true -> feature ft_presence scopes <> LEGACY_REQUIRED.
  (** A field outside of oneofs. *)
  Theorem field_meets : fp_oneof p = None ->
    exists e c, behaves view msg0 (SOne (emit o g)) (Field (fp_number p) e c) /\ proto_type o scopes escopes g view e /\ proto_card o scopes g view msg0 c.
  Proof.
    intros Ho. destruct (elem_meets Hlegacy) as (e & He & Hp). destruct (Z.eq_dec (fp_label p) LABEL_REPEATED) as [L | L].
    - destruct (card_repeated e Ho L) as (c & Hc & Hk). exists e, c. split; [|tauto]. replace (fp_number p) with (s_number (emit o g)) by (unfold emit; destruct (cpp_type (fp_type p)); reflexivity). constructor; assumption.
    - destruct (card_single e He Ho L) as (c & Hc & Hk). exists e, c. split; [|tauto]. replace (fp_number p) with (s_number (emit o g)) by (unfold emit; destruct (cpp_type (fp_type p)); reflexivity). constructor; assumption.
  Qed.
  (** The only field of its oneof. *)
  Theorem alone_meets : fp_oneof p <> None ->
    exists e, behaves view msg0 (SOne (emit o g)) (Field (fp_number p) e COpt) /\ proto_type o scopes escopes g view e.
  Proof.
    intros Ho. destruct (elem_meets Hlegacy) as (e & He & Hp). exists e. split; [|exact Hp].
    replace (fp_number p) with (s_number (emit o g)) by (unfold emit; destruct (cpp_type (fp_type p)); reflexivity). constructor; [exact He|].
    apply AsOptional; unfold emit; destruct (cpp_type (fp_type p)); cbn [s_wrap s_options].
    - left. unfold member_wrapper. apply oneof_b in Ho. rewrite Ho. reflexivity.
    - rewrite has_explicit. apply oneof_tracks. right. split; [exact (co_oneof _ _ _ C Ho)|]. right; right; left; exact Ho.
  Qed.
End Field.

(** ** Messages *)
  Lemma alternatives_of fs i : oneof_fields fs i = alternatives fs i.
  Proof.
    apply filter_ext. intros g. destruct (option_eq_dec Z.eq_dec (fp_oneof (g_proto g)) (Some i)) as [E | E].
    - rewrite E. apply Z.eqb_refl.
    - destruct (fp_oneof (g_proto g)) as [j|]; [|reflexivity]. apply Z.eqb_neq. congruence.
  Qed.
  Lemma alternatives_In fs i g : In g (alternatives fs i) <-> In g fs /\ fp_oneof (g_proto g) = Some i.
  Proof. unfold alternatives. rewrite filter_In. destruct (option_eq_dec _ _ _); intuition congruence. Qed.
  Lemma alternatives_app a b i : alternatives (a ++ b) i = alternatives a i ++ alternatives b i.
  Proof. apply filter_app. Qed.
  Lemma leaders_In fs : forall seen g, In g (leaders seen fs) -> In g fs.
  Proof.
    induction fs as [|x t IH]; intros seen g H; [destruct H|]. cbn [leaders] in H. destruct (fp_oneof (g_proto x)) as [i|]; [destruct (in_dec Z.eq_dec i seen)|].
    - right. eauto.
    - destruct H as [-> | H]; [left; reflexivity|right; eauto].
    - destruct H as [-> | H]; [left; reflexivity|right; eauto].
  Qed.
  Lemma leaders_first fs : forall done rest seen g i, fs = done ++ rest -> (forall j, In j seen <-> exists x, In x done /\ fp_oneof (g_proto x) = Some j) ->
    In g (leaders seen rest) -> fp_oneof (g_proto g) = Some i -> exists r, alternatives fs i = g :: r.
  Proof.
    intros done rest. revert done. induction rest as [|x t IH]; intros done seen g i E S H Ho; [destruct H|]. cbn [leaders] in H.
    assert (E' : fs = (done ++ [x]) ++ t) by (rewrite <- app_assoc; exact E). destruct (fp_oneof (g_proto x)) as [k|] eqn:Hx; [destruct (in_dec Z.eq_dec k seen) as [Hi | Hi]|].
    - apply (IH (done ++ [x]) seen g i E'); [|exact H|exact Ho]. intros j. rewrite S. split; intros (z & Hz & Hzo); [exists z; rewrite in_app_iff; tauto|].
      rewrite in_app_iff in Hz. destruct Hz as [Hz | [<- | []]]; [exists z; tauto|]. apply S in Hi. destruct Hi as (y & Hy & Hyo). exists y. split; [exact Hy|congruence].
    - destruct H as [-> | H].
      + assert (k = i) by congruence. subst k. exists (alternatives t i). rewrite E, alternatives_app.
        assert (Ed : alternatives done i = []).
        { destruct (alternatives done i) as [|y r] eqn:Ed; [reflexivity|]. exfalso. apply Hi, S. exists y. apply alternatives_In. rewrite Ed. left. reflexivity. }
        rewrite Ed. cbn [app]. unfold alternatives. cbn [filter]. destruct (option_eq_dec _ _ _); [reflexivity|congruence].
      + apply (IH (done ++ [x]) (k :: seen) g i E'); [|exact H|exact Ho]. intros j. cbn [In]. rewrite S. split.
        * intros [<- | (z & Hz & Hzo)]; [exists x; rewrite in_app_iff; cbn; tauto|exists z; rewrite in_app_iff; tauto].
        * intros (z & Hz & Hzo). rewrite in_app_iff in Hz. destruct Hz as [Hz | [<- | []]]; [right; exists z; tauto|left; congruence].
    - destruct H as [-> | H]; [congruence|]. apply (IH (done ++ [x]) seen g i E'); [|exact H|exact Ho]. intros j. rewrite S. split; intros (z & Hz & Hzo); [exists z; rewrite in_app_iff; tauto|].
      rewrite in_app_iff in Hz. destruct Hz as [Hz | [<- | []]]; [exists z; tauto|congruence].
  Qed.
  Lemma leads fs g i : In g (leaders [] fs) -> fp_oneof (g_proto g) = Some i -> exists r, alternatives fs i = g :: r.
  Proof. intros H. apply (leaders_first fs [] fs [] g i eq_refl); [|exact H]. intros j. split; [intros []|intros (x & [] & _)]. Qed.
Section Message.
  Variables (o : goptions) (sc esc : gfield -> list features) (view : bool) (msg0 : nat -> val).


  (** The member written at a leader. *)
  Definition member_at (fs : list gfield) (g : gfield) : smember :=
    match fp_oneof (g_proto g) with
    | None => SOne (emit o g)
    | Some i => match alternatives fs i with [x] => SOne (emit o x) | l => SVariant (map (emit o) l) end
    end.
  Lemma emitted_leaders_gen fs : NoDup (map num fs) -> forall done rest seen, fs = done ++ rest -> (forall i, In i seen <-> exists g, In g done /\ fp_oneof (g_proto g) = Some i) ->
    flat_map (emit_field o fs) rest = map (member_at fs) (leaders seen rest).
  Proof.
    intros N done rest. revert done. induction rest as [|g t IH]; intros done seen E S; [reflexivity|]. cbn [flat_map leaders].
    assert (E' : fs = (done ++ [g]) ++ t) by (rewrite <- app_assoc; exact E). unfold emit_field at 1. destruct (fp_oneof (g_proto g)) as [i|] eqn:Ho.
    - rewrite alternatives_of. assert (Ea : alternatives fs i = alternatives done i ++ g :: alternatives t i).
      { rewrite E, alternatives_app. f_equal. unfold alternatives. cbn [filter]. destruct (option_eq_dec _ _ _); [reflexivity|congruence]. }
      destruct (in_dec Z.eq_dec i seen) as [Hi | Hi].
      + apply S in Hi. destruct Hi as (x & Hx & Hxo). assert (Hin : In x (alternatives done i)) by (apply alternatives_In; tauto). rewrite Ea.
        destruct (alternatives done i) as [|y r] eqn:Ed; [destruct Hin|]. cbn [app]. assert (Hy : In y done) by (apply (alternatives_In done i); rewrite Ed; left; reflexivity).
        destruct (Z.eqb_spec (fp_number (g_proto y)) (fp_number (g_proto g))) as [Q | Q].
        * exfalso. rewrite E, map_app in N. cbn [map] in N. apply NoDup_remove_2 in N. apply N. rewrite in_app_iff. left. fold (num g) in Q. rewrite <- Q. apply in_map_iff. exists y. split; [reflexivity|exact Hy].
        * apply (IH (done ++ [g]) seen E'). intros j. rewrite S. split; intros (z & Hz & Hzo).
          -- exists z. rewrite in_app_iff. tauto.
          -- rewrite in_app_iff in Hz. destruct Hz as [Hz | [<- | []]]; [exists z; tauto|]. exists x. split; [exact Hx|congruence].
      + assert (Ed : alternatives done i = []).
        { destruct (alternatives done i) as [|y r] eqn:Ed; [reflexivity|]. exfalso. apply Hi, S. exists y. apply alternatives_In. rewrite Ed. left. reflexivity. }
        rewrite Ed in Ea. cbn [app] in Ea. rewrite Ea, Z.eqb_refl. cbn [map].
        assert (Hm : member_at fs g = match alternatives t i with [] => SOne (emit o g) | _ => SVariant (map (emit o) (g :: alternatives t i)) end).
        { unfold member_at. rewrite Ho, Ea. destruct (alternatives t i); reflexivity. }
        rewrite Hm. assert (Hr : flat_map (emit_field o fs) t = map (member_at fs) (leaders (i :: seen) t)).
        { apply (IH (done ++ [g]) (i :: seen) E'). intros j. cbn [In]. rewrite S. split.
          - intros [<- | (z & Hz & Hzo)]; [exists g; rewrite in_app_iff; cbn; tauto|exists z; rewrite in_app_iff; tauto].
          - intros (z & Hz & Hzo). rewrite in_app_iff in Hz. destruct Hz as [Hz | [<- | []]]; [right; exists z; tauto|left; congruence]. }
        rewrite <- Hr. destruct (alternatives t i); reflexivity.
    - cbn [map app]. unfold member_at at 1. rewrite Ho. f_equal. apply (IH (done ++ [g]) seen E'). intros j. rewrite S. split; intros (z & Hz & Hzo).
      + exists z. rewrite in_app_iff. tauto.
      + rewrite in_app_iff in Hz. destruct Hz as [Hz | [<- | []]]; [exists z; tauto|congruence].
  Qed.
  Lemma emitted_leaders fs : NoDup (map num fs) -> emit_message o fs = map (member_at fs) (leaders [] fs).
  Proof. intros N. apply (emitted_leaders_gen fs N [] fs []); [reflexivity|]. intros i. split; [intros []|intros (g & [] & _)]. Qed.

  Lemma emit_number g : s_number (emit o g) = num g.
  Proof. unfold emit. destruct (cpp_type (fp_type (g_proto g))). reflexivity. Qed.
  Lemma member_meets fs g : Forall (fun x => regular o (sc x) (esc x) x) fs -> In g (leaders [] fs) -> exists f, behaves view msg0 (member_at fs g) f /\ described o sc esc view msg0 fs g f.
  Proof.
    intros R Hg. pose proof (leaders_In _ _ _ Hg) as Hin. rewrite Forall_forall in R. pose proof (R g Hin) as Rg. unfold member_at. destruct (fp_oneof (g_proto g)) as [i|] eqn:Ho.
    - destruct (leads fs g i Hg Ho) as (r & Ea). rewrite Ea. destruct r as [|y r].
      + destruct Rg as [F C X1 X2 X3 X4 X5 X6 X7 X8 X9]. destruct (alone_meets o (sc g) (esc g) g view msg0 F C X1 X2 X3 X4) as (e & He & Hp).
        * intros K. apply X9. apply (fh_closed _ _ _ F). exact K.
        * congruence.
        * exists (Field (num g) e COpt). split; [exact He|]. eapply DAlone; eauto.
      + assert (Q : exists es, Forall2 (fun s e => source_elem view s = Some e) (map (emit o) (alternatives fs i)) es /\ Forall2 (fun x e => proto_type o (sc x) (esc x) x view e) (alternatives fs i) es).
        { assert (Ha : Forall (fun x => regular o (sc x) (esc x) x) (alternatives fs i)) by (rewrite Forall_forall; intros x Hx; apply alternatives_In in Hx; apply R; tauto).
          clear -Ha. revert Ha. generalize (alternatives fs i). intros al Ha. induction Ha as [|x l [F C X1 X2 X3 X4 X5 X6 X7 X8 X9] Hl IH]; [exists []; split; constructor|]. destruct IH as (es & I1 & I2).
          destruct (elem_meets o (sc x) (esc x) x view F C X1 X2 X3 X4) as (e & He & Hp).
          - intros K. apply X9. apply (fh_closed _ _ _ F). exact K.
          - exists (e :: es). split; constructor; assumption. }
        destruct Q as (es & Q1 & Q2). rewrite <- Ea. exists (Oneof (combine (map num (alternatives fs i)) es)). split.
        * replace (map num (alternatives fs i)) with (map s_number (map (emit o) (alternatives fs i))) by (rewrite map_map; apply map_ext; exact emit_number). constructor. exact Q1.
        * apply (DOneof o sc esc view msg0 fs g i es Ho); [rewrite Ea; cbn [length]; lia|exact Q2].
    - destruct Rg as [F C X1 X2 X3 X4 X5 X6 X7 X8 X9]. destruct (field_meets o (sc g) (esc g) g view msg0 F C X1 X2 X3 X4 X5 X6 X7 X8) as (e & c & He & Hp & Hc).
      + intros K. apply X9. apply (fh_closed _ _ _ F). exact K.
      + exact Ho.
      + exists (Field (num g) e c). split; [exact He|]. apply DField; assumption.
  Qed.
  Theorem message_meets fs : NoDup (map num fs) -> Forall (fun x => regular o (sc x) (esc x) x) fs ->
    exists ms, Forall2 (behaves view msg0) (emit_message o fs) ms /\ Forall2 (described o sc esc view msg0 fs) (leaders [] fs) ms.
  Proof.
    intros N R. rewrite (emitted_leaders fs N). assert (K : forall l, (forall g, In g l -> In g (leaders [] fs)) -> exists ms, Forall2 (behaves view msg0) (map (member_at fs) l) ms /\ Forall2 (described o sc esc view msg0 fs) l ms).
    { induction l as [|g t IH]; intros H; [exists []; split; constructor|]. destruct IH as (ms & I1 & I2); [intros x Hx; apply H; right; exact Hx|].
      destruct (member_meets fs g R) as (f & F1 & F2); [apply H; left; reflexivity|]. exists (f :: ms). split; cbn [map]; constructor; assumption. }
    apply K. auto.
  Qed.
End Message.

(** Every field belongs to one member. *)
Lemma described_numbers o sc esc view msg0 fs g f : described o sc esc view msg0 fs g f ->
  numbers f = match fp_oneof (g_proto g) with None => [num g] | Some i => map num (alternatives fs i) end.
Proof.
  intros [e c Ho _ _ | i e Ho Ha _ | i es Ho _ H]; rewrite Ho; cbn [numbers]; [reflexivity|rewrite Ha; reflexivity|].
  apply Forall2_len in H. revert es H. generalize (alternatives fs i). induction l as [|x l IH]; intros [|e es] H; try discriminate H; [reflexivity|]. cbn. f_equal. apply IH. cbn in H. congruence.
Qed.
Lemma leader_of fs : forall seen g, In g fs -> match fp_oneof (g_proto g) with None => In g (leaders seen fs) | Some i => In i seen \/ exists x, In x (leaders seen fs) /\ fp_oneof (g_proto x) = Some i end.
Proof.
  induction fs as [|y t IH]; intros seen g H; [destruct H|]. cbn [leaders]. destruct H as [-> | H].
  - destruct (fp_oneof (g_proto g)) as [i|] eqn:Ho; [|left; reflexivity]. destruct (in_dec Z.eq_dec i seen); [left; assumption|]. right. exists g. split; [left; reflexivity|exact Ho].
  - destruct (fp_oneof (g_proto y)) as [k|] eqn:Hy; [destruct (in_dec Z.eq_dec k seen)|]; specialize (IH seen g H) as I1.
    + exact I1.
    + specialize (IH (k :: seen) g H) as I2. destruct (fp_oneof (g_proto g)) as [i|]; [|right; exact I2]. destruct I2 as [[-> | I2] | (x & X1 & X2)].
      * right. exists y. split; [left; reflexivity|exact Hy].
      * left. exact I2.
      * right. exists x. split; [right; exact X1|exact X2].
    + destruct (fp_oneof (g_proto g)) as [i|]; [|right; exact I1]. destruct I1 as [I1 | (x & X1 & X2)]; [left; exact I1|]. right. exists x. split; [right; exact X1|exact X2].
Qed.
Lemma leaders_seen fs : forall seen g i, In g (leaders seen fs) -> fp_oneof (g_proto g) = Some i -> ~ In i seen.
Proof.
  induction fs as [|y t IH]; intros seen g i H Ho; [destruct H|]. cbn [leaders] in H. destruct (fp_oneof (g_proto y)) as [k|] eqn:Hy; [destruct (in_dec Z.eq_dec k seen)|].
  - eauto.
  - destruct H as [-> | H]; [congruence|]. intros K. apply (IH _ _ _ H Ho). right. exact K.
  - destruct H as [-> | H]; [congruence|]. eauto.
Qed.
Lemma numbers_once_gen fs : NoDup (map num fs) -> forall seen rest, (exists done, fs = done ++ rest) ->
  NoDup (concat (map (fun g => match fp_oneof (g_proto g) with None => [num g] | Some i => map num (alternatives fs i) end) (leaders seen rest))).
Proof.
  intros N seen rest. revert seen.
  assert (Inj : forall a b, In a fs -> In b fs -> num a = num b -> a = b).
  { intros a b Ha Hb E. revert Ha Hb. clear -N E. induction fs as [|x t IH]; [intros []|]. cbn [map] in N. inversion N as [|? ? N1 N2]; subst.
    intros [<- | Ha] [<- | Hb]; [reflexivity|exfalso; apply N1; rewrite E; apply in_map; assumption|exfalso; apply N1; rewrite <- E; apply in_map; assumption|exact (IH N2 Ha Hb)]. }
  assert (Sub : forall i, NoDup (map num (alternatives fs i))).
  { intros i. clear Inj. unfold alternatives. induction fs as [|x t IH]; [constructor|]. cbn [map] in N. inversion N as [|? ? N1 N2]; subst. cbn [filter]. destruct (option_eq_dec _ _ _); [|exact (IH N2)].
    cbn [map]. constructor; [|exact (IH N2)]. intros K. apply N1. apply in_map_iff in K. destruct K as (y & <- & K). apply filter_In in K. apply in_map. tauto. }
  assert (App : forall a b : list Z, NoDup a -> NoDup b -> (forall x, In x a -> ~ In x b) -> NoDup (a ++ b)).
  { induction a as [|x a IHa]; intros b Ha Hb D; [exact Hb|]. inversion Ha as [|? ? H1 H2]; subst. cbn. constructor.
    - rewrite in_app_iff. intros [K | K]; [exact (H1 K)|exact (D x (or_introl eq_refl) K)].
    - apply IHa; [exact H2|exact Hb|]. intros y Hy. apply D. right. exact Hy. }
  induction rest as [|g t IH]; intros seen (done & E); [constructor|]. assert (E' : exists d, fs = d ++ t) by (exists (done ++ [g]); rewrite <- app_assoc; exact E).
  assert (Hg : In g fs) by (rewrite E, in_app_iff; right; left; reflexivity).
  assert (Nt : forall x, In x t -> num x <> num g).
  { intros x Hx K. rewrite E, map_app in N. cbn [map] in N. apply NoDup_remove_2 in N. apply N. rewrite in_app_iff. right. rewrite <- K. apply in_map. exact Hx. }
  assert (Tin : forall x, In x t -> In x fs) by (intros x Hx; rewrite E, in_app_iff; right; right; exact Hx).
  assert (Rest : forall s n, In n (concat (map (fun g => match fp_oneof (g_proto g) with None => [num g] | Some i => map num (alternatives fs i) end) (leaders s t))) ->
    exists x, In x (leaders s t) /\ match fp_oneof (g_proto x) with None => n = num x | Some i => exists y, In y fs /\ fp_oneof (g_proto y) = Some i /\ n = num y end).
  { intros s n K. apply in_concat in K. destruct K as (l & Hl & Hn). apply in_map_iff in Hl. destruct Hl as (x & <- & Hx). exists x. split; [exact Hx|].
    destruct (fp_oneof (g_proto x)) as [i|]; [|destruct Hn as [<- | []]; reflexivity]. apply in_map_iff in Hn. destruct Hn as (y & <- & Hy). apply alternatives_In in Hy. exists y. split; [tauto|]. split; [tauto|reflexivity]. }
  cbn [leaders]. destruct (fp_oneof (g_proto g)) as [i|] eqn:Ho; [destruct (in_dec Z.eq_dec i seen) as [Hi | Hi]|].
  - apply IH; exact E'.
  - cbn [map concat]. rewrite Ho. apply App; [apply Sub|apply IH; exact E'|]. intros n Hn K. apply in_map_iff in Hn. destruct Hn as (y & <- & Hy). apply alternatives_In in Hy.
    apply Rest in K. destruct K as (x & Hx & K). pose proof (leaders_In t _ _ Hx) as Hxt. destruct (fp_oneof (g_proto x)) as [j|] eqn:Hxo.
    + destruct K as (z & Hz & Hzo & Q). apply Inj in Q; [|tauto|exact Hz]. subst z. assert (j = i) by (destruct Hy; congruence). subst j.
      apply (leaders_seen t _ _ _ Hx Hxo). left. reflexivity.
    + apply Inj in K; [|tauto|apply Tin; exact Hxt]. subst y. destruct Hy; congruence.
  - cbn [map concat]. rewrite Ho. apply App; [constructor; [intros []|constructor]|apply IH; exact E'|]. intros n [<- | []] K.
    apply Rest in K. destruct K as (x & Hx & K). pose proof (leaders_In t _ _ Hx) as Hxt. destruct (fp_oneof (g_proto x)) as [j|] eqn:Hxo.
    + destruct K as (z & Hz & Hzo & Q). apply Inj in Q; [|exact Hg|exact Hz]. subst z. congruence.
    + symmetry in K. exact (Nt x Hxt K).
Qed.
Theorem message_numbers o sc esc view msg0 fs ms : NoDup (map num fs) -> Forall2 (described o sc esc view msg0 fs) (leaders [] fs) ms ->
  NoDup (concat (map numbers ms)) /\ forall n, In n (concat (map numbers ms)) <-> In n (map num fs).
Proof.
  intros N H. assert (E : map numbers ms = map (fun g => match fp_oneof (g_proto g) with None => [num g] | Some i => map num (alternatives fs i) end) (leaders [] fs)).
  { induction H as [|g f l ms Hd _ IH]; [reflexivity|]. cbn [map]. rewrite (described_numbers _ _ _ _ _ _ _ _ Hd), IH. reflexivity. }
  rewrite E. split; [apply (numbers_once_gen fs N [] fs); exists []; reflexivity|]. intros n. rewrite in_concat, in_map_iff. split.
  - intros (l & Hl & Hn). apply in_map_iff in Hl. destruct Hl as (g & <- & Hg). destruct (fp_oneof (g_proto g)) as [i|].
    + apply in_map_iff in Hn. destruct Hn as (y & <- & Hy). apply alternatives_In in Hy. exists y. split; [reflexivity|tauto].
    + destruct Hn as [<- | []]. exists g. split; [reflexivity|]. exact (leaders_In _ _ _ Hg).
  - intros (g & <- & Hg). pose proof (leader_of fs [] g Hg) as L. destruct (fp_oneof (g_proto g)) as [i|] eqn:Ho.
    + destruct L as [[] | (x & Hx & Hxo)]. exists (map num (alternatives fs i)). split; [apply in_map_iff; exists x; rewrite Hxo; split; [reflexivity|exact Hx]|]. apply in_map, alternatives_In. tauto.
    + exists [num g]. split; [apply in_map_iff; exists g; rewrite Ho; split; [reflexivity|exact L]|left; reflexivity].
Qed.
