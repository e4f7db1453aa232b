(** Unary calls and streams over gRPC: proofs. *)
Require Import Verif.Bits Verif.Varint Verif.Schema Verif.Archive Verif.Decode Verif.Encode Verif.RoundTrip Verif.DecodeSafe Verif.WellTyped Verif.EncodeProofs Verif.EncodeMain Verif.Output Verif.OutputProofs Verif.SimMain Verif.Region Verif.RegionMain Verif.RegionProps.
Require Import Verif.Grpc Verif.GrpcSpec.
Local Open Scope Z_scope.

  Lemma same_content a b : same_bytes a b -> content a = content b /\ (a = Unreadable <-> b = Unreadable).
  Proof. destruct a, b; cbn; intros H; try discriminate H; split; try congruence; try tauto; split; discriminate. Qed.

Section Messages.
  Context (E : env) (utf8_ok : bytes -> bool) (maxd limit : Z) (m : mode) (chunk : nat) (old : nat -> Z) (big : bool) (path : copy_path).
  Notation wr := (write_message E utf8_ok maxd m chunk old).
  Notation rd := (read_message E utf8_ok limit big path).

  Lemma write_ok ty v b bs : legal_numbers E -> (0 < chunk)%nat -> wt_msg E utf8_ok ty v -> encode_bytes E utf8_ok maxd ty v = Ok bs ->
    exists l, wr ty v b = Ok (s_ok, Slices l) /\ concat l = bs.
  Proof.
    intros HN HC Hw He. destruct (byte_buffer E utf8_ok maxd HN m chunk old ty v bs HC Hw He) as (l & Hl & Hb). exists l. split; [|exact Hb]. unfold write_message. rewrite Hl. reflexivity.
  Qed.
  Lemma write_err ty v b e : encode_bytes E utf8_ok maxd ty v = Err e -> wr ty v b = Ok (s_unwritten, b).
  Proof.
    unfold encode_bytes, write_message, write_byte_buffer. destruct (plan E utf8_ok maxd ty v) as [[s ws]|e'| | |] eqn:P; try discriminate. cbn [bind]. reflexivity.
  Qed.

  Lemma read_is ty cur b : safe_env E -> m_entry (desc_of E ty) = false -> usable b -> b <> Unreadable ->
    rd ty cur b = match decode_bytes E utf8_ok limit ty (default_msg E ty) (content b) with Ok v => Ok (s_ok, Some v) | _ => Ok (s_unread, None) end.
  Proof.
    intros HS HE [Hb Hl] Hn. unfold read_message.
    assert (K : concat (match b with Slices l => l | _ => [] end) = content b) by (destruct b; reflexivity).
    destruct b as [|l|]; [..|congruence].
    1: pose proof (read_segments_rel big path E utf8_ok limit HS ty (default_msg E ty) [] HE Hb Hl) as R.
    2: pose proof (read_segments_rel big path E utf8_ok limit HS ty (default_msg E ty) l HE Hb Hl) as R.
    all: cbv beta iota in K |- *; rewrite K in R.
    all: destruct (read_segments _ _ _ _ _ _ _ _); [rewrite R; reflexivity| |contradiction..]; destruct R as (e' & R); rewrite R; reflexivity.
  Qed.
  Lemma encode_usable ty v bs b : legal_numbers E -> wt_msg E utf8_ok ty v -> encode_bytes E utf8_ok maxd ty v = Ok bs -> content b = bs -> usable b.
  Proof.
    intros HN Hw He Hb. destruct (encoded E utf8_ok maxd ty v bs HN Hw He) as (K & Hl & _). unfold usable. rewrite Hb. split; [rewrite K; apply (enc_bytes E utf8_ok HN ty v Hw)|]. unfold max_message_size in Hl. lia.
  Qed.
End Messages.

(** What was written is read, however it is cut. *)
Lemma carried E utf8_ok maxd limit m chunk old big path ty v cur b b' bs : generated E -> m_entry (desc_of E ty) = false -> maxd <= limit -> (0 < chunk)%nat ->
  wt_msg E utf8_ok ty v -> canonical E limit 1 ty v -> encode_bytes E utf8_ok maxd ty v = Ok bs ->
  exists l, write_message E utf8_ok maxd m chunk old ty v b = Ok (s_ok, Slices l) /\
    (same_bytes (Slices l) b' -> read_message E utf8_ok limit big path ty cur b' = Ok (s_ok, Some v)).
Proof.
  intros G He Hd Hc Hw Hk Hb. destruct (write_ok E utf8_ok maxd m chunk old ty v b bs (generated_legal E G) Hc Hw Hb) as (l & Hl & Hx). exists l. split; [exact Hl|].
  intros Hs. destruct (same_content _ _ Hs) as [Hcn Hu]. assert (Hcb : content b' = bs) by (rewrite <- Hcn; exact Hx).
  rewrite read_is; [|apply gen_safe; exact G|exact He| |intros X; apply Hu in X; discriminate X].
  - rewrite Hcb. rewrite (round_trip E utf8_ok maxd limit ty v bs G He Hd Hw Hk Hb). reflexivity.
  - eapply encode_usable; eauto. apply generated_legal; exact G.
Qed.

Section Unary.
  Context (E : env) (utf8_ok : bytes -> bool) (maxd limit : Z) (m : mode) (chunk : nat) (old : nat -> Z) (big : bool) (path : copy_path) (qt rt : nat).
  Notation call := (async_call E utf8_ok maxd limit m chunk old big path qt rt).

  Lemma unary_outcome answer cur v bs : generated E -> m_entry (desc_of E rt) = false -> (0 < chunk)%nat -> wt_msg E utf8_ok qt v -> encode_bytes E utf8_ok maxd qt v = Ok bs ->
    (forall b, usable (snd (answer b))) ->
    exists l c, concat l = bs /\ call answer cur v = Ok [c] /\
      let '(s, response) := answer (Slices l) in
      if is_ok s then
        match response with
        | Unreadable => c = (s_compressed, Some cur)
        | _ => match decode_bytes E utf8_ok limit rt (default_msg E rt) (content response) with Ok w => c = (s, Some w) | _ => c = (s_unread, None) end
        end
      else c = (s, Some cur).
  Proof.
    intros G He Hc Hw Hb Hu. destruct (write_ok E utf8_ok maxd m chunk old qt v NoBuffer bs (generated_legal E G) Hc Hw Hb) as (l & Hl & Hx). exists l.
    unfold async_call, prepare. cbn [r_alive r_request]. rewrite Hl. cbn [bind is_ok s_ok fst Z.eqb r_alive r_bound r_request start_call andb]. specialize (Hu (Slices l)). destruct (answer (Slices l)) as [s response] eqn:Ha. cbn [snd] in Hu.
    unfold on_done. cbn [r_alive]. destruct (is_ok s) eqn:Hs.
    - destruct response as [|y|].
      + rewrite (read_is E utf8_ok limit big path rt cur NoBuffer (gen_safe E G) He Hu ltac:(discriminate)). destruct (decode_bytes E utf8_ok limit rt (default_msg E rt) (content NoBuffer)); cbn [bind]; eexists; (split; [exact Hx|]; split; reflexivity).
      + rewrite (read_is E utf8_ok limit big path rt cur (Slices y) (gen_safe E G) He Hu ltac:(discriminate)). destruct (decode_bytes E utf8_ok limit rt (default_msg E rt) (content (Slices y))); cbn [bind]; eexists; (split; [exact Hx|]; split; reflexivity).
      + cbn [read_message bind]. eexists. split; [exact Hx|]. split; reflexivity.
    - cbn [bind]. eexists. split; [exact Hx|]. split; reflexivity.
  Qed.

  Lemma unary_unwritable answer cur v e : encode_bytes E utf8_ok maxd qt v = Err e -> call answer cur v = UB.
  Proof.
    intros He. unfold async_call, prepare. cbn [r_alive r_request]. rewrite (write_err E utf8_ok maxd m chunk old qt v NoBuffer e He). reflexivity.
  Qed.
End Unary.

(** From the client to the handler and back *)
Lemma unary_round E utf8_ok maxd limit m chunk old big path maxd' limit' m' chunk' old' big' path' qt rt h answer cur cur' v w bs bs' :
  generated E -> m_entry (desc_of E qt) = false -> m_entry (desc_of E rt) = false -> maxd <= limit' -> maxd' <= limit -> (0 < chunk)%nat -> (0 < chunk')%nat ->
  wt_msg E utf8_ok qt v -> canonical E limit' 1 qt v -> encode_bytes E utf8_ok maxd qt v = Ok bs ->
  wt_msg E utf8_ok rt w -> canonical E limit 1 rt w -> encode_bytes E utf8_ok maxd' rt w = Ok bs' ->
  h (s_ok, Some v) = RMessage w s_ok ->
  (forall b, carries E utf8_ok maxd qt v b -> exists request s response, same_bytes b request /\ serve E utf8_ok maxd' limit' m' chunk' old' big' path' qt rt h cur' request = Ok (s, response) /\
     fst (answer b) = s /\ same_bytes response (snd (answer b))) ->
  async_call E utf8_ok maxd limit m chunk old big path qt rt answer cur v = Ok [(s_ok, Some w)].
Proof.
  intros G Hq Hr Hd Hd' Hc Hc' Hw Hk Hb Hw' Hk' Hb' Hh Ha.
  destruct (write_ok E utf8_ok maxd m chunk old qt v NoBuffer bs (generated_legal E G) Hc Hw Hb) as (l & Hl & Hx).
  destruct (Ha (Slices l) ltac:(exists l, bs; auto)) as (request & s & response & S1 & S2 & S3 & S4).
  destruct (carried E utf8_ok maxd limit' m chunk old big' path' qt v cur' NoBuffer request bs G Hq Hd Hc Hw Hk Hb) as (l0 & Hl0 & R).
  rewrite Hl in Hl0. injection Hl0 as <-. unfold serve in S2. rewrite (R S1) in S2. cbn [bind] in S2. rewrite Hh in S2.
  destruct (answer (Slices l)) as [s1 response'] eqn:Hans. cbn [fst snd] in S3, S4. subst s1.
  destruct (carried E utf8_ok maxd' limit m' chunk' old' big path rt w cur NoBuffer response' bs' G Hr Hd' Hc' Hw' Hk' Hb') as (l' & Hl' & R').
  rewrite Hl' in S2. cbn [bind is_ok s_ok fst Z.eqb] in S2. injection S2 as <- <-. specialize (R' S4).
  unfold async_call, prepare. cbn [r_alive r_request]. rewrite Hl. cbn [bind is_ok s_ok fst Z.eqb start_call r_alive r_bound andb r_request]. rewrite Hans. unfold on_done. cbn [r_alive is_ok s_ok fst Z.eqb]. rewrite R'. reflexivity.
Qed.

(** ** Streams *)
Lemma judge_app lib a : forall x b, judge lib (a ++ b) x = match judge lib a x with Fine y => judge lib b y | v => v end.
Proof. induction a as [|i a IH]; intros x b; cbn [judge app]; [reflexivity|]. destruct (judged lib i x); auto. Qed.
Lemma calm_app a : forall x b, stays_calm (a ++ b) x = stays_calm a x && match judge false a x with Fine y => stays_calm b y | _ => true end.
Proof.
  induction a as [|i a IH]; intros x b; cbn [stays_calm judge app]; [reflexivity|]. destruct (judged false i x); rewrite ?IH, <- ?andb_assoc; auto; rewrite ?andb_true_r; reflexivity.
Qed.
Lemma some_app {X Y} (f : X -> option Y) a : forall b, some_of f (a ++ b) = some_of f a ++ some_of f b.
Proof. induction a as [|x a IH]; intros b; cbn; [reflexivity|]. rewrite IH. destruct (f x); reflexivity. Qed.

Section Stream.
  Context (E : env) (utf8_ok : bytes -> bool) (maxd limit : Z) (m : mode) (chunk : nat) (old : nat -> Z) (big : bool) (path : copy_path) (qt rt : nat).
  Hypothesis HN : legal_numbers E.
  Hypothesis HC : (0 < chunk)%nat.
  Notation perf := (perform E utf8_ok maxd m chunk old rt).
  Notation perfs := (performs E utf8_ok maxd m chunk old rt).

  Notation writable := (writable E utf8_ok maxd rt).
  Notation carries := (carries E utf8_ok maxd rt).
  Notation all_writable l := (Forall writable (some_of written l)).

  Lemma perf_ok b a l b' : perf b a = Ok (l, b') -> all_writable l ->
    exists o, l = [Act a; Call o] /\ asked o = acted a /\ Forall2 carries (some_of written l) (some_of sent l).
  Proof.
    assert (W : forall v b x, write_message E utf8_ok maxd m chunk old rt v b = Ok x -> writable v -> fst x = s_ok /\ carries v (snd x)).
    { intros v b0 x Hx [Hw (bs & Hb)]. destruct (write_ok E utf8_ok maxd m chunk old rt v b0 bs HN HC Hw Hb) as (l0 & Hl & Hc). rewrite Hl in Hx. injection Hx as <-. split; [reflexivity|]. exists l0, bs. cbn [snd]. auto. }
    destruct a; cbn [perform]; intros H Hw.
    - injection H as <- <-. exists ORead. split; [reflexivity|]. split; [reflexivity|]. constructor.
    - destruct (write_message E utf8_ok maxd m chunk old rt v b) as [[s b1]| | | |] eqn:Hx; try discriminate. cbn [bind] in H. injection H as <- <-. cbn [some_of written sent] in Hw |- *. apply Forall_inv in Hw. destruct (W _ _ _ Hx Hw) as [Hs Hc]. cbn [fst snd] in Hs, Hc. subst s.
      cbn [is_ok s_ok fst Z.eqb]. eexists. split; [reflexivity|]. split; [reflexivity|]. constructor; [exact Hc|constructor].
    - injection H as <- <-. exists (OFinish s). split; [reflexivity|]. split; [reflexivity|]. constructor.
    - destruct (write_message E utf8_ok maxd m chunk old rt v b) as [[s1 b1]| | | |] eqn:Hx; try discriminate. cbn [bind] in H. injection H as <- <-. cbn [some_of written sent] in Hw |- *. apply Forall_inv in Hw. destruct (W _ _ _ Hx Hw) as [Hs Hc]. cbn [fst snd] in Hs, Hc. subst s1.
      cbn [is_ok s_ok fst Z.eqb]. eexists. split; [reflexivity|]. split; [reflexivity|]. constructor; [exact Hc|constructor].
    - destruct (write_message E utf8_ok maxd m chunk old rt v b) as [[s1 b1]| | | |] eqn:Hx; try discriminate. cbn [bind] in H. injection H as <- <-. cbn [some_of written sent] in Hw |- *. apply Forall_inv in Hw. destruct (W _ _ _ Hx Hw) as [Hs Hc]. cbn [fst snd] in Hs, Hc. subst s1.
      cbn [is_ok s_ok fst Z.eqb]. eexists. split; [reflexivity|]. split; [reflexivity|]. constructor; [exact Hc|constructor].
  Qed.

  (** Rules kept by a calm handler *)
  Definition at_rest (x : outstanding) : Prop := reading x && writing x = false /\ (finished x = true -> reading x = false /\ writing x = false).
  Lemma acted_calm a x y : at_rest x -> calm (Act a) x = true -> acted a x = Fine y -> at_rest y.
  Proof.
    destruct x as [r w f]. unfold at_rest. destruct a; cbn; unfold begin_read, begin_write, end_rpc, end_with; cbn; intros [H1 H2] H3 H4; destruct r, w, f; cbn in *; try discriminate; injection H4 as <-; cbn; split; auto; try discriminate; try reflexivity; intros; split; try reflexivity; discriminate.
  Qed.

  Lemma perfs_ok acts : forall b l b', perfs b acts = Ok (l, b') -> all_writable l ->
    (forall x, judge true l x = judge false l x) /\ (forall x y, at_rest x -> stays_calm l x = true -> judge false l x = Fine y -> at_rest y) /\
    Forall2 carries (some_of written l) (some_of sent l).
  Proof.
    induction acts as [|a acts IH]; intros b l b' H Hw; cbn [performs] in H.
    - injection H as <- <-. split; [reflexivity|]. split; [|constructor]. cbn [judge]. intros x y Hx _ K. injection K as <-. exact Hx.
    - destruct (perf b a) as [[x1 b1]| | | |] eqn:H1; try discriminate. cbn [bind] in H. destruct (perfs b1 acts) as [[x2 b2]| | | |] eqn:H2; try discriminate. cbn [bind] in H. injection H as <- <-.
      rewrite some_app in Hw. apply Forall_app in Hw. destruct Hw as [Hw1 Hw2]. destruct (perf_ok _ _ _ _ H1 Hw1) as (o & -> & Ho & Hf). destruct (IH _ _ _ H2 Hw2) as (J1 & J2 & J3).
      split; [|split].
      + intros x. rewrite !judge_app. cbn [judge judged]. rewrite Ho. destruct (acted a x) eqn:Ha; auto.
      + intros x y Hx Hc Hj. rewrite calm_app in Hc. rewrite judge_app in Hj. cbn [stays_calm judge judged calm] in Hc, Hj. destruct (acted a x) as [y1| |] eqn:Ha; try discriminate Hj.
        rewrite !andb_true_iff in Hc. destruct Hc as [[Hc1 _] Hc2]. eapply J2; [|exact Hc2|exact Hj]. eapply acted_calm; eauto.
      + rewrite !some_app. apply Forall2_app; assumption.
  Qed.

  Section Handler.
    Context (H : handler).
    Notation rea := (react E utf8_ok maxd limit m chunk old big path qt rt H).
    Notation reas := (reacts E utf8_ok maxd limit m chunk old big path qt rt H).
    Notation str := (stream E utf8_ok maxd limit m chunk old big path qt rt H).

    (** What a reaction consists of *)
    Notation failure_of := (failure_of H).
    Lemma rea_shape e x l x' : rea e x = Ok (l, x') ->
      exists acts l0 b0, perfs (snd x) acts = Ok (l0, b0) /\
        match failure_of e with
        | None => l = l0 /\ (e = ECancel -> acts = snd (h_cancel H (fst x)))
        | Some (f, s) => exists handled, match f with Some g => snd (g (fst x)) = handled /\ snd (fst (g (fst x))) = acts | None => handled = false /\ acts = [] end /\
            l = l0 ++ (if handled then [] else [Left; Call (OFinish s)])
        end.
    Proof.
      assert (O : forall f s l x', offered E utf8_ok maxd m chunk old rt H f s x = Ok (l, x') -> exists acts l0 b0, perfs (snd x) acts = Ok (l0, b0) /\
        exists handled, match f with Some g => snd (g (fst x)) = handled /\ snd (fst (g (fst x))) = acts | None => handled = false /\ acts = [] end /\ l = l0 ++ (if handled then [] else [Left; Call (OFinish s)])).
      { intros f s l1 x1 Hx. unfold offered in Hx. destruct f as [g|].
        - destruct (g (fst x)) as [[h acts] handled] eqn:Hg. destruct (perfs (snd x) acts) as [[l0 b0]| | | |] eqn:Hp; try discriminate. cbn [bind] in Hx. injection Hx as <- <-. exists acts, l0, b0. split; [exact Hp|]. exists handled. cbn. auto.
        - cbn [performs bind] in Hx. injection Hx as <- <-. exists [], [], (snd x). split; [reflexivity|]. exists false. auto. }
      destruct e as [[|] q c1 c2|[|] c|]; cbn [react failure_of]; intros Hx.
      - destruct (read_message E utf8_ok limit big path qt (default_msg E qt) q) as [g| | | |]; try discriminate. cbn [bind] in Hx. destruct (h_read_ok H (fst x) g) as [h acts]. destruct (perfs (snd x) acts) as [[l0 b0]| | | |] eqn:Hp; try discriminate. cbn [bind] in Hx. injection Hx as <- <-. exists acts, l0, b0. split; [exact Hp|]. split; [reflexivity|discriminate].
      - apply O in Hx. exact Hx.
      - destruct (h_write_ok H (fst x)) as [h acts]. destruct (perfs (snd x) acts) as [[l0 b0]| | | |] eqn:Hp; try discriminate. cbn [bind] in Hx. injection Hx as <- <-. exists acts, l0, b0. split; [exact Hp|]. split; [reflexivity|discriminate].
      - apply O in Hx. exact Hx.
      - destruct (h_cancel H (fst x)) as [h acts] eqn:Hc. destruct (perfs (snd x) acts) as [[l0 b0]| | | |] eqn:Hp; try discriminate. cbn [bind] in Hx. injection Hx as <- <-. exists acts, l0, b0. split; [exact Hp|]. split; [reflexivity|]. intros _. reflexivity.
    Qed.

    (** Every failure is handled. *)
    Lemma reas_handled es : handles (h_write_error H) -> handles (h_read_cancel H) -> handles (h_read_eof H) ->
      forall x l x', reas es x = Ok (l, x') -> all_writable l -> forall o, judge true l o = judge false l o.
    Proof.
      intros HW HR HEo. induction es as [|e es IH]; intros x l x' Hx Hw o; cbn [reacts] in Hx.
      - injection Hx as <- <-. reflexivity.
      - destruct (rea e x) as [[l1 x1]| | | |] eqn:H1; try discriminate. cbn [bind] in Hx. destruct (reas es x1) as [[l2 x2]| | | |] eqn:H2; try discriminate. cbn [bind] in Hx. injection Hx as <- <-.
        cbn [some_of written] in Hw. rewrite some_app in Hw. apply Forall_app in Hw. destruct Hw as [Hw1 Hw2]. cbn [judge judged]. destruct (report e o) as [o1| |]; try reflexivity. rewrite !judge_app.
        assert (K : judge true l1 o1 = judge false l1 o1).
        { destruct (rea_shape _ _ _ _ H1) as (acts & l0 & b0 & Hp & Hs). destruct (failure_of e) as [[f s]|] eqn:Hf.
          - destruct Hs as (handled & Hg & ->). assert (Hh : handles f) by (destruct e as [[|] q c1 c2|[|] c|]; cbn in Hf; try discriminate; injection Hf as <- <-; auto; destruct c1; auto).
            destruct Hh as (g & -> & Ht). destruct Hg as [Hg _]. rewrite Ht in Hg. subst handled. rewrite app_nil_r in *. destruct (perfs_ok _ _ _ _ Hp Hw1) as (J & _). apply J.
          - destruct Hs as [-> _]. destruct (perfs_ok _ _ _ _ Hp Hw1) as (J & _). apply J. }
        rewrite K. destruct (judge false l1 o1); auto. eapply IH; eauto.
    Qed.
    Lemma stream_handled es l : handles (h_write_error H) -> handles (h_read_cancel H) -> handles (h_read_eof H) -> str es = Ok l -> all_writable l -> seen_by_library l = seen_by_handler l.
    Proof.
      intros HW HR HEo Hs Hw. unfold stream in Hs. destruct (perfs NoBuffer (snd (h_start H))) as [[l1 b]| | | |] eqn:H1; try discriminate. cbn [bind] in Hs.
      destruct (reas es (fst (h_start H), b)) as [[l2 x2]| | | |] eqn:H2; try discriminate. cbn [bind] in Hs. injection Hs as <-. rewrite some_app in Hw. apply Forall_app in Hw. destruct Hw as [Hw1 Hw2].
      rewrite !judge_app. destruct (perfs_ok _ _ _ _ H1 Hw1) as (J & _). rewrite J. destruct (judge false l1 idle); auto. eapply reas_handled; eauto.
    Qed.

    (** One thing at a time *)
    Definition same_or_over (o o' : outstanding) : Prop :=
      (o = o' /\ at_rest o) \/ (o = Out false false true /\ reading o' = false /\ writing o' = false).
    Lemma reas_calm es : quiet (h_write_error H) -> quiet (h_read_cancel H) -> quiet (h_read_eof H) -> (forall h, snd (h_cancel H h) = []) ->
      forall x l x', reas es x = Ok (l, x') -> all_writable l -> forall o o', same_or_over o o' -> stays_calm l o' = true -> judge true l o <> Odd -> judge false l o' <> Broken -> exists z, judge true l o = Fine z.
    Proof.
      intros HW HR HEo HQ. induction es as [|e es IH]; intros x l x' Hx Hw o o' Ho Hc Hodd Hbr; cbn [reacts] in Hx.
      - injection Hx as <- <-. exists o. reflexivity.
      - destruct (rea e x) as [[l1 x1]| | | |] eqn:H1; try discriminate. cbn [bind] in Hx. destruct (reas es x1) as [[l2 x2]| | | |] eqn:H2; try discriminate. cbn [bind] in Hx. injection Hx as <- <-.
        cbn [some_of written] in Hw. rewrite some_app in Hw. apply Forall_app in Hw. destruct Hw as [Hw1 Hw2].
        destruct (rea_shape _ _ _ _ H1) as (acts & l0 & b0 & Hp & Hs).
        destruct Ho as [[<- Hr]|(-> & Ho1 & Ho2)].
        + cbn [judge judged stays_calm calm] in *. destruct (report e o) as [o1| |] eqn:He; [|exists o; destruct e; cbn in He; try discriminate; destruct (reading o), (writing o); discriminate|congruence].
          assert (Hr1 : at_rest o1).
          { destruct o as [[|] [|] [|]], Hr as [A B]; destruct e; cbn in *; try discriminate; try (destruct (B eq_refl); discriminate); injection He as <-; unfold at_rest; cbn; split; auto; discriminate. }
          rewrite judge_app in Hodd, Hbr |- *. rewrite calm_app in Hc.
          destruct (failure_of e) as [[f s]|] eqn:Hf.
          * destruct Hs as (handled & Hg & ->). destruct handled.
            -- rewrite app_nil_r in *. destruct (perfs_ok _ _ _ _ Hp Hw1) as (J1 & J2 & _). rewrite J1 in Hodd |- *. destruct (judge false l0 o1) as [y| |] eqn:Hj; try congruence. cbn [andb] in Hc. rewrite andb_true_iff in Hc. destruct Hc as [Hc1 Hc2].
               eapply (IH _ _ _ H2 Hw2 y y); auto. left. split; [reflexivity|]. eapply J2; eauto.
            -- assert (Hq : quiet f) by (destruct e as [[|] q c1 c2|[|] c|]; cbn in Hf; try discriminate; injection Hf as <- <-; auto; destruct c1; auto).
               assert (acts = []) as -> by (destruct f as [g|]; [destruct Hg as [Hg1 <-]; apply Hq; exact Hg1|apply Hg]). cbn [performs] in Hp. injection Hp as <- <-. cbn [app judge judged asked stays_calm calm andb] in *. unfold end_rpc in *.
               assert (Hlast : o1 = Out false false false).
               { destruct o as [r w fi], Hr as [A B]. cbn in A, B. destruct e as [ok q c1 c2|ok c|]; cbn in Hf, He; [| |discriminate].
                 - destruct r; [|discriminate]. injection He as <-. cbn in A. destruct fi; [destruct (B eq_refl); discriminate|]. destruct w; [discriminate|reflexivity].
                 - destruct w; [|discriminate]. injection He as <-. destruct fi; [destruct (B eq_refl); discriminate|]. destruct r; [discriminate|reflexivity]. }
               subst o1. cbn [finished reading writing] in *. eapply (IH _ _ _ H2 Hw2 (Out false false true) (Out false false false)); auto. right. auto.
          * destruct Hs as [-> _]. destruct (perfs_ok _ _ _ _ Hp Hw1) as (J1 & J2 & _). rewrite J1 in Hodd |- *. destruct (judge false l0 o1) as [y| |] eqn:Hj; try congruence. cbn [andb] in Hc. rewrite andb_true_iff in Hc. destruct Hc as [Hc1 Hc2].
            eapply (IH _ _ _ H2 Hw2 y y); auto. left. split; [reflexivity|]. eapply J2; eauto.
        + destruct e as [ok q c1 c2|ok c|]; cbn [judge judged report reading writing] in Hodd; try congruence. cbn [failure_of] in Hs. destruct Hs as [-> Ha]. specialize (Ha eq_refl). rewrite HQ in Ha. subst acts. cbn [performs] in Hp. injection Hp as <- <-.
          cbn [judge judged report app stays_calm calm andb] in *. eapply (IH _ _ _ H2 Hw2 (Out false false true) o'); auto. right. auto.
    Qed.
    Lemma stream_calm es l : quiet (h_write_error H) -> quiet (h_read_cancel H) -> quiet (h_read_eof H) -> (forall h, snd (h_cancel H h) = []) ->
      str es = Ok l -> all_writable l -> stays_calm l idle = true -> seen_by_library l <> Odd -> seen_by_handler l <> Broken -> exists x, seen_by_library l = Fine x.
    Proof.
      intros HW HR HEo HQ Hs Hw Hc Hodd Hbr. unfold stream in Hs. destruct (perfs NoBuffer (snd (h_start H))) as [[l1 b]| | | |] eqn:H1; try discriminate. cbn [bind] in Hs.
      destruct (reas es (fst (h_start H), b)) as [[l2 x2]| | | |] eqn:H2; try discriminate. cbn [bind] in Hs. injection Hs as <-. rewrite some_app in Hw. apply Forall_app in Hw. destruct Hw as [Hw1 Hw2].
      rewrite judge_app in *. rewrite calm_app in Hc. destruct (perfs_ok _ _ _ _ H1 Hw1) as (J1 & J2 & _). rewrite J1 in *. destruct (judge false l1 idle) as [y| |] eqn:Hj; try congruence. rewrite andb_true_iff in Hc. destruct Hc as [Hc1 Hc2].
      eapply (reas_calm es HW HR HEo HQ _ _ _ H2 Hw2 y y); auto. left. split; [reflexivity|]. eapply J2; eauto. split; [reflexivity|discriminate].
    Qed.

    (** Failures nobody handles finish the RPC. *)
    Lemma reas_split e es2 : forall es1 x l x', reas (es1 ++ e :: es2) x = Ok (l, x') ->
      exists l1 x1 le x2 l2, reas es1 x = Ok (l1, x1) /\ rea e x1 = Ok (le, x2) /\ reas es2 x2 = Ok (l2, x') /\ l = l1 ++ Ev e :: le ++ l2.
    Proof.
      induction es1 as [|a es1 IH]; intros x l x' Hx; cbn [reacts app] in Hx.
      - destruct (rea e x) as [[le x1]| | | |] eqn:H1; try discriminate. cbn [bind] in Hx. destruct (reas es2 x1) as [[l2 x2]| | | |] eqn:H2; try discriminate. cbn [bind] in Hx. injection Hx as <- <-. exists [], x, le, x1, l2. auto.
      - destruct (rea a x) as [[la xa]| | | |] eqn:H1; try discriminate. cbn [bind] in Hx. destruct (reas (es1 ++ e :: es2) xa) as [[l2 x2]| | | |] eqn:H2; try discriminate. cbn [bind] in Hx. injection Hx as <- <-.
        destruct (IH _ _ _ H2) as (l1 & x1 & le & xe & l3 & A & B & C & ->). exists (Ev a :: la ++ l1), x1, le, xe, l3. cbn [reacts]. rewrite H1. cbn [bind]. rewrite A. cbn [bind]. split; [reflexivity|]. split; [exact B|]. split; [exact C|]. cbn [app]. rewrite <- app_assoc. reflexivity.
    Qed.
    Lemma stream_left es1 e es2 l f s : str (es1 ++ e :: es2) = Ok l -> failure_of e = Some (f, s) -> leaves f ->
      exists l1 acts l2, l = l1 ++ Ev e :: acts ++ Left :: Call (OFinish s) :: l2 /\ Forall (fun i => match i with Act _ | Call _ => True | _ => False end) acts.
    Proof.
      intros Hs Hf Hl. unfold stream in Hs. destruct (perfs NoBuffer (snd (h_start H))) as [[l0 b]| | | |] eqn:H1; try discriminate. cbn [bind] in Hs.
      destruct (reas (es1 ++ e :: es2) (fst (h_start H), b)) as [[lr xr]| | | |] eqn:H2; try discriminate. cbn [bind] in Hs. injection Hs as <-.
      destruct (reas_split _ _ _ _ _ _ H2) as (l1 & x1 & le & x2 & l2 & _ & B & _ & ->). destruct (rea_shape _ _ _ _ B) as (acts & la & b0 & Hp & Hsh). rewrite Hf in Hsh. destruct Hsh as (handled & Hg & ->).
      assert (handled = false) as -> by (destruct f as [g|]; [destruct Hg as [<- _]; apply Hl|apply Hg]). exists (l0 ++ l1), la, l2. split; [rewrite <- !app_assoc; reflexivity|].
      clear - Hp. revert Hp. generalize (snd x1) as bb. revert la b0. induction acts as [|a acts IH]; intros la b0 bb Hp; cbn [performs] in Hp; [injection Hp as <- <-; constructor|].
      destruct (perf bb a) as [[y1 b1]| | | |] eqn:P1; try discriminate. cbn [bind] in Hp. destruct (perfs b1 acts) as [[y2 b2]| | | |] eqn:P2; try discriminate. cbn [bind] in Hp. injection Hp as <- <-. apply Forall_app. split; [|eapply IH; eauto].
      destruct a; cbn [perform] in P1; try (injection P1 as <- <-; repeat constructor); destruct (write_message E utf8_ok maxd m chunk old rt v bb) as [[? ?]| | | |]; try discriminate; injection P1 as <- <-; repeat constructor.
    Qed.

    (** Messages are sent in order. *)
    Lemma rea_carries e x l x' : rea e x = Ok (l, x') -> all_writable l -> Forall2 carries (some_of written l) (some_of sent l).
    Proof.
      intros H1 Hw. destruct (rea_shape _ _ _ _ H1) as (acts & l0 & b0 & Hp & Hs). destruct (failure_of e) as [[f s]|].
      - destruct Hs as (handled & _ & ->). rewrite some_app in Hw |- *. apply Forall_app in Hw. rewrite (some_app sent). destruct (perfs_ok _ _ _ _ Hp (proj1 Hw)) as (_ & _ & J). apply Forall2_app; [exact J|]. destruct handled; constructor.
      - destruct Hs as [-> _]. apply (perfs_ok _ _ _ _ Hp Hw).
    Qed.
    Lemma stream_carries es l : str es = Ok l -> all_writable l -> Forall2 carries (some_of written l) (some_of sent l).
    Proof.
      intros Hs Hw. unfold stream in Hs. destruct (perfs NoBuffer (snd (h_start H))) as [[l0 b]| | | |] eqn:H1; try discriminate. cbn [bind] in Hs.
      destruct (reas es (fst (h_start H), b)) as [[lr xr]| | | |] eqn:H2; try discriminate. cbn [bind] in Hs. injection Hs as <-. rewrite some_app in Hw |- *. rewrite (some_app sent). apply Forall_app in Hw. destruct Hw as [Hw1 Hw2]. apply Forall2_app; [apply (perfs_ok _ _ _ _ H1 Hw1)|].
      clear H1 Hw1. revert H2 Hw2. generalize (fst (h_start H), b) as x. revert lr xr. induction es as [|e es IH]; intros lr xr x Hx Hw; cbn [reacts] in Hx; [injection Hx as <- <-; constructor|].
      destruct (rea e x) as [[l1 x1]| | | |] eqn:Ha; try discriminate. cbn [bind] in Hx. destruct (reas es x1) as [[l2 x2]| | | |] eqn:Hb; try discriminate. cbn [bind] in Hx. injection Hx as <- <-. cbn [some_of written sent] in Hw |- *. rewrite some_app in Hw |- *. rewrite (some_app sent). apply Forall_app in Hw. destruct Hw as [A B].
      apply Forall2_app; [eapply rea_carries; eauto|eapply IH; eauto].
    Qed.
  End Handler.
End Stream.
