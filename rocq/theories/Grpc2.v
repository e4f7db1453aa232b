(** Streams over gRPC: what is defined, what is read, and replies that cannot be written. *)
Require Import Verif.Bits Verif.Varint Verif.Schema Verif.Archive Verif.Decode Verif.Encode Verif.RoundTrip Verif.DecodeSafe Verif.WellTyped Verif.EncodeProofs Verif.EncodeSpec Verif.EncodeProofs2 Verif.EncodeMain Verif.Output Verif.OutputProofs Verif.SimMain Verif.Region Verif.RegionMain Verif.RegionProps.
Require Import Verif.Grpc Verif.GrpcSpec Verif.Grpc1.
Local Open Scope Z_scope.

Section Stream.
  Context (E : env) (utf8_ok : bytes -> bool) (maxd limit : Z) (m : mode) (chunk : nat) (old : nat -> Z) (big : bool) (path : copy_path) (qt rt : nat).
  Hypothesis HN : legal_numbers E.
  Hypothesis HC : (0 < chunk)%nat.
  Notation perf := (perform E utf8_ok maxd m chunk old rt).
  Notation perfs := (performs E utf8_ok maxd m chunk old rt).

  Lemma encode_total ty v : wt_msg E utf8_ok ty v -> (exists bs, encode_bytes E utf8_ok maxd ty v = Ok bs) \/ exists e, encode_bytes E utf8_ok maxd ty v = Err e.
  Proof.
    intros Hw. pose proof (plan_eq E utf8_ok utf8_ok maxd HN ty v Hw) as K. unfold encode_bytes. destruct (cnt_msg E maxd 0 ty v); [|rewrite K; right; eexists; reflexivity].
    destruct (Z.leb max_message_size (zlen (enc_msg E ty v))); [rewrite K; right; eexists; reflexivity|]. destruct K as [(ws & K & _)|[K _]]; rewrite K; [left|right]; eexists; reflexivity.
  Qed.
  Lemma write_total ty v b : wt_msg E utf8_ok ty v -> exists x, write_message E utf8_ok maxd m chunk old ty v b = Ok x.
  Proof.
    intros Hw. destruct (encode_total ty v Hw) as [(bs & Hb)|(e & He)].
    - destruct (write_ok E utf8_ok maxd m chunk old ty v b bs HN HC Hw Hb) as (l & Hl & _). eauto.
    - eexists. eapply write_err; eauto.
  Qed.
  Lemma perfs_total acts : Forall (well_formed (wt_msg E utf8_ok rt)) acts -> forall b, exists x, perfs b acts = Ok x.
  Proof.
    induction 1 as [|a acts Ha Hr IH]; intros b; cbn [performs]; [eauto|].
    assert (K : exists x, perf b a = Ok x).
    { destruct a; cbn [perform well_formed] in *; eauto; destruct (write_total rt v b Ha) as ([s9 b9] & Hx); rewrite Hx; cbn [bind]; eauto. }
    destruct K as ([x b1] & Hx). rewrite Hx. cbn [bind]. destruct (IH b1) as ([y b2] & Hy). rewrite Hy. cbn [bind]. eauto.
  Qed.
  Lemma read_total ty cur b : safe_env E -> m_entry (desc_of E ty) = false -> usable b -> exists x, read_message E utf8_ok limit big path ty cur b = Ok x.
  Proof.
    intros HS He Hu. destruct b as [|l|]; [..|cbn; eauto]; rewrite (read_is E utf8_ok limit big path ty cur _ HS He Hu ltac:(discriminate)); destruct (decode_bytes _ _ _ _ _ _); eauto.
  Qed.

  Lemma stream_total H es : safe_env E -> m_entry (desc_of E qt) = false -> tidy (wt_msg E utf8_ok rt) H -> Forall usable_event es ->
    exists l, stream E utf8_ok maxd limit m chunk old big path qt rt H es = Ok l.
  Proof.
    intros HS He (T1 & T2 & T3 & T4 & T5 & T6 & T7) Hu. unfold stream. destruct (perfs_total _ T1 NoBuffer) as ([l0 b0] & H0). rewrite H0. cbn [bind].
    assert (K : forall x, exists y, reacts E utf8_ok maxd limit m chunk old big path qt rt H es x = Ok y).
    { clear H0. induction Hu as [|e es Hue Hues IH]; intros x; cbn [reacts]; [eauto|].
      assert (O : forall f s, match f with Some g => forall x, Forall (well_formed (wt_msg E utf8_ok rt)) (snd (fst (g x))) | None => True end -> exists y, offered E utf8_ok maxd m chunk old rt H f s x = Ok y).
      { intros f s Hf. unfold offered. destruct f as [g|].
        - specialize (Hf (fst x)). destruct (g (fst x)) as [[h acts] handled]. destruct (perfs_total acts Hf (snd x)) as ([l b] & Hl). rewrite Hl. cbn [bind]. eauto.
        - cbn [performs bind]. eauto. }
      assert (R : exists y, react E utf8_ok maxd limit m chunk old big path qt rt H e x = Ok y).
      { destruct e as [[|] q c1 c2|[|] c|]; cbn [react usable_event] in *.
        - destruct (read_total qt (default_msg E qt) q HS He Hue) as (g & Hg). rewrite Hg. cbn [bind]. specialize (T2 (fst x) g). destruct (h_read_ok H (fst x) g) as [h acts]. destruct (perfs_total acts T2 (snd x)) as ([l b] & Hl). rewrite Hl. cbn [bind]. eauto.
        - apply O. destruct c1; assumption.
        - specialize (T3 (fst x)). destruct (h_write_ok H (fst x)) as [h acts]. destruct (perfs_total acts T3 (snd x)) as ([l b] & Hl). rewrite Hl. cbn [bind]. eauto.
        - apply O. assumption.
        - specialize (T4 (fst x)). destruct (h_cancel H (fst x)) as [h acts]. destruct (perfs_total acts T4 (snd x)) as ([l b] & Hl). rewrite Hl. cbn [bind]. eauto. }
      destruct R as ([l1 x1] & R). rewrite R. cbn [bind]. destruct (IH x1) as ([l2 x2] & R2). rewrite R2. cbn [bind]. eauto. }
    destruct (K (fst (h_start H), b0)) as ([l1 x1] & K1). rewrite K1. cbn [bind]. eauto.
  Qed.

  (** A reply that cannot be written finishes the RPC. *)
  Definition ends_rpc (l : list item) : Prop :=
    forall l1 a l2, l = l1 ++ Act a :: l2 -> forall v e, written (Act a) = Some v -> encode_bytes E utf8_ok maxd rt v = Err e -> exists l3, l2 = Call (OFinish s_unwritten) :: l3.
  Lemma ends_app x y : ends_rpc x -> (forall l1 a, x <> l1 ++ [Act a]) -> ends_rpc y -> ends_rpc (x ++ y).
  Proof.
    intros Hx Hl Hy l1 a l2 Heq v e Hv He. revert l1 Heq. induction x as [|i x IH]; intros l1 Heq; [eapply Hy; eauto|].
    destruct l1 as [|j l1]; cbn [app] in Heq.
    - injection Heq as -> <-. destruct x as [|k x]; [exfalso; apply (Hl [] a); reflexivity|]. destruct (Hx [] a (k :: x) eq_refl v e Hv He) as (l3 & E3). injection E3 as -> ->. cbn [app]. eauto.
    - injection Heq as -> Heq. eapply IH; [| |exact Heq].
      + intros m1 b m2 Hm w e' Hw He'. apply (Hx (j :: m1) b m2 ltac:(cbn; rewrite Hm; reflexivity) w e' Hw He').
      + intros m1 b Hm. apply (Hl (j :: m1) b). cbn. rewrite Hm. reflexivity.
  Qed.
  Definition closed (l : list item) : Prop := ends_rpc l /\ forall l1 a, l <> l1 ++ [Act a].
  Lemma closed_nil : closed [].
  Proof. split; [intros l1 a l2 Heq; destruct l1; discriminate|]. intros l1 a Heq. destruct l1; discriminate. Qed.
  Lemma closed_app x y : closed x -> closed y -> closed (x ++ y).
  Proof.
    intros [X1 X2] [Y1 Y2]. split; [apply ends_app; assumption|]. intros l1 a Heq. destruct y as [|i y] using rev_ind; [rewrite app_nil_r in Heq; eapply X2; eauto|].
    rewrite app_assoc in Heq. apply app_inj_tail in Heq. destruct Heq as [_ ->]. eapply Y2. reflexivity.
  Qed.
  Lemma closed_other i : match i with Act _ => False | _ => True end -> closed [i].
  Proof.
    intros Hi. split.
    - intros l1 a l2 Heq. destruct l1 as [|j l1]; cbn in Heq; [injection Heq as -> _; contradiction|]. injection Heq as _ Heq. destruct l1; discriminate.
    - intros l1 a Heq. destruct l1 as [|j l1]; cbn in Heq; [injection Heq as ->; contradiction|]. injection Heq as _ Heq. destruct l1; discriminate.
  Qed.
  Lemma closed_perf b a l b' : perf b a = Ok (l, b') -> closed l.
  Proof.
    intros Hp. assert (K : exists o, l = [Act a; Call o] /\ forall v e, written (Act a) = Some v -> encode_bytes E utf8_ok maxd rt v = Err e -> o = OFinish s_unwritten).
    { destruct a; cbn [perform] in Hp; try (injection Hp as <- <-; eexists; split; [reflexivity|]; intros v e Hv; discriminate Hv).
      all: destruct (write_message E utf8_ok maxd m chunk old rt v b) as [[s1 b1]| | | |] eqn:Hx; try discriminate; cbn [bind] in Hp; injection Hp as <- <-; eexists; split; [reflexivity|]; intros w e Hv He; injection Hv as <-; rewrite (write_err E utf8_ok maxd m chunk old rt v b e He) in Hx; injection Hx as <- <-; reflexivity. }
    destruct K as (o & -> & Ho). split.
    - intros l1 c l2 Heq v e Hv He. destruct l1 as [|j [|j' l1]]; cbn in Heq.
      + injection Heq as -> <-. rewrite (Ho v e Hv He). eauto.
      + injection Heq as _ Heq. discriminate.
      + injection Heq as _ _ Heq. destruct l1; discriminate.
    - intros l1 c Heq. destruct l1 as [|j [|j' l1]]; cbn in Heq; try discriminate. injection Heq as _ _ Heq. destruct l1; discriminate.
  Qed.
  Lemma closed_perfs acts : forall b l b', perfs b acts = Ok (l, b') -> closed l.
  Proof.
    induction acts as [|a acts IH]; intros b l b' Hp; cbn [performs] in Hp; [injection Hp as <- <-; apply closed_nil|].
    destruct (perf b a) as [[x1 b1]| | | |] eqn:H1; try discriminate. cbn [bind] in Hp. destruct (perfs b1 acts) as [[x2 b2]| | | |] eqn:H2; try discriminate. cbn [bind] in Hp. injection Hp as <- <-. apply closed_app; [eapply closed_perf|eapply IH]; eauto.
  Qed.
  Lemma stream_closed H es l : stream E utf8_ok maxd limit m chunk old big path qt rt H es = Ok l -> ends_rpc l.
  Proof.
    intros Hs. unfold stream in Hs. destruct (perfs NoBuffer (snd (h_start H))) as [[l0 b]| | | |] eqn:H1; try discriminate. cbn [bind] in Hs.
    destruct (reacts E utf8_ok maxd limit m chunk old big path qt rt H es (fst (h_start H), b)) as [[lr xr]| | | |] eqn:H2; try discriminate. cbn [bind] in Hs. injection Hs as <-. apply closed_app; [eapply closed_perfs; eauto|].
    clear H1. revert H2. generalize (fst (h_start H), b) as x. revert lr xr. induction es as [|e es IH]; intros lr xr x Hx; cbn [reacts] in Hx; [injection Hx as <- <-; apply closed_nil|].
    destruct (react E utf8_ok maxd limit m chunk old big path qt rt H e x) as [[l1 x1]| | | |] eqn:Ha; try discriminate. cbn [bind] in Hx. destruct (reacts E utf8_ok maxd limit m chunk old big path qt rt H es x1) as [[l2 x2]| | | |] eqn:Hb; try discriminate. cbn [bind] in Hx. injection Hx as <- <-.
    change (Ev e :: l1 ++ l2) with ([Ev e] ++ l1 ++ l2). apply closed_app; [apply closed_other; exact Logic.I|]. apply closed_app; [|eapply IH; eauto].
    destruct (rea_shape E utf8_ok maxd limit m chunk old big path qt rt H e x l1 x1 Ha) as (acts & la & ba & Hp & Hsh). destruct (failure_of H e) as [[f s]|].
    - destruct Hsh as (handled & _ & ->). apply closed_app; [eapply closed_perfs; eauto|]. destruct handled; [apply closed_nil|]. change ([Left; Call (OFinish s)]) with ([Left] ++ [Call (OFinish s)]). apply closed_app; apply closed_other; exact Logic.I.
    - destruct Hsh as [-> _]. eapply closed_perfs; eauto.
  Qed.
End Stream.

(** What carries a message is read as that message. *)
Lemma carries_read E utf8_ok maxd limit big path ty v cur b b' : generated E -> m_entry (desc_of E ty) = false -> maxd <= limit ->
  wt_msg E utf8_ok ty v -> canonical E limit 1 ty v -> carries E utf8_ok maxd ty v b -> same_bytes b b' -> read_message E utf8_ok limit big path ty cur b' = Ok (s_ok, Some v).
Proof.
  intros G He Hd Hw Hk (l & bs & -> & Hb & Hl) Hs. destruct (same_content _ _ Hs) as [Hcn Hu]. assert (Hcb : content b' = bs) by (rewrite <- Hcn; exact Hl).
  rewrite read_is; [|apply gen_safe; exact G|exact He| |intros X; apply Hu in X; discriminate X].
  - rewrite Hcb. rewrite (round_trip E utf8_ok maxd limit ty v bs G He Hd Hw Hk Hb). reflexivity.
  - eapply encode_usable; eauto. apply generated_legal; exact G.
Qed.

Lemma seen_is E utf8_ok limit big path ty cur b : safe_env E -> m_entry (desc_of E ty) = false -> usable b -> read_message E utf8_ok limit big path ty cur b = Ok (seen E utf8_ok limit ty cur b).
Proof.
  intros HS He Hu. destruct b as [|l|]; [..|reflexivity]; rewrite (read_is E utf8_ok limit big path ty cur _ HS He Hu ltac:(discriminate)); unfold seen; destruct (decode_bytes _ _ _ _ _ _); reflexivity.
Qed.
Lemma served E utf8_ok maxd limit m chunk old big path qt rt h cur request : generated E -> m_entry (desc_of E qt) = false -> (0 < chunk)%nat -> usable request ->
  match h (seen E utf8_ok limit qt cur request) with
  | RStatus s => serve E utf8_ok maxd limit m chunk old big path qt rt h cur request = Ok (s, NoBuffer)
  | RBuffer b s => serve E utf8_ok maxd limit m chunk old big path qt rt h cur request = Ok (s, b)
  | RMessage w s => wt_msg E utf8_ok rt w ->
      (exists b, carries E utf8_ok maxd rt w b /\ serve E utf8_ok maxd limit m chunk old big path qt rt h cur request = Ok (s, b)) \/
      (exists e, encode_bytes E utf8_ok maxd rt w = Err e) /\ serve E utf8_ok maxd limit m chunk old big path qt rt h cur request = Ok (s_unwritten, NoBuffer)
  end.
Proof.
  intros G He Hc Hu. unfold serve. rewrite (seen_is E utf8_ok limit big path qt cur request (gen_safe E G) He Hu). cbn [bind]. destruct (h (seen E utf8_ok limit qt cur request)) as [s|w s|b s]; [reflexivity| |reflexivity].
  intros Hw. destruct (encode_total E utf8_ok maxd (generated_legal E G) rt w Hw) as [(bs & Hb)|(e & Hb)].
  - left. destruct (write_ok E utf8_ok maxd m chunk old rt w NoBuffer bs (generated_legal E G) Hc Hw Hb) as (l & Hl & Hx). exists (Slices l). split; [exists l, bs; auto|]. rewrite Hl. reflexivity.
  - right. split; [eauto|]. rewrite (write_err E utf8_ok maxd m chunk old rt w NoBuffer e Hb). reflexivity.
Qed.
Lemma unary_seen E utf8_ok maxd limit m chunk old big path qt rt answer cur v bs : generated E -> m_entry (desc_of E rt) = false -> (0 < chunk)%nat -> wt_msg E utf8_ok qt v -> encode_bytes E utf8_ok maxd qt v = Ok bs ->
  (forall b, usable (snd (answer b))) ->
  exists b, carries E utf8_ok maxd qt v b /\ async_call E utf8_ok maxd limit m chunk old big path qt rt answer cur v =
    Ok [let '(s, response) := answer b in
        if is_ok s then let '(s', w) := seen E utf8_ok limit rt cur response in (if is_ok s' then s else s', w) else (s, Some cur)].
Proof.
  intros G He Hc Hw Hb Hu. destruct (unary_outcome E utf8_ok maxd limit m chunk old big path qt rt answer cur v bs G He Hc Hw Hb Hu) as (l & c & Hl & Hx & K). exists (Slices l). split; [exists l, bs; auto|]. rewrite Hx. f_equal. f_equal.
  destruct (answer (Slices l)) as [s response]. destruct (is_ok s); [|exact K]. unfold seen. destruct response as [|y|]; [destruct (decode_bytes _ _ _ _ _ _)..|]; exact K.
Qed.

(** The log is what the handler does, and what that asks for. *)
Section Script.
  Context (E : env) (utf8_ok : bytes -> bool) (maxd limit : Z) (m : mode) (chunk : nat) (old : nat -> Z) (big : bool) (path : copy_path) (qt rt : nat).
  Context (HN : legal_numbers E) (HC : (0 < chunk)%nat).
  Notation perf := (perform E utf8_ok maxd m chunk old rt).
  Notation perfs := (performs E utf8_ok maxd m chunk old rt).
  Notation rea := (react E utf8_ok maxd limit m chunk old big path qt rt).
  Notation reas := (reacts E utf8_ok maxd limit m chunk old big path qt rt).
  Notation does := (asks_for E utf8_ok maxd rt).
  Lemma step_app x y : in_step does x -> in_step does y -> in_step does (x ++ y).
  Proof.
    enough (K : forall n x, (length x <= n)%nat -> in_step does x -> in_step does y -> in_step does (x ++ y)) by (apply (K (length x)); constructor).
    clear x. induction n as [|n IH]; intros x Hl Hx Hy; [destruct x; [exact Hy|cbn in Hl; lia]|].
    destruct x as [|[e|a| |o] x]; [exact Hy|..]; cbn [in_step app length] in *.
    - apply IH; auto; lia.
    - destruct x as [|[e|a'| |o] x]; try contradiction. cbn [app length] in *. destruct Hx as [H1 H2]. split; [exact H1|]. apply IH; auto; lia.
    - destruct x as [|[e|a'| |[|b|s|b s|b s]] x]; try contradiction. cbn [app length] in *. apply IH; auto; lia.
    - contradiction.
  Qed.
  Lemma perf_step b a l b' : perf b a = Ok (l, b') -> exists o, l = [Act a; Call o] /\ does a o.
  Proof.
    intros Hp. destruct a as [|v|s|v s|v]; cbn [perform] in Hp; try (injection Hp as <- <-; eexists; split; reflexivity).
    all: destruct (write_message E utf8_ok maxd m chunk old rt v b) as [[s1 b1]| | | |] eqn:Hx; try discriminate; cbn [bind] in Hp; injection Hp as <- <-; eexists; split; [reflexivity|]; cbn [asks_for]; intros Hw;
      destruct (encode_total E utf8_ok maxd HN rt v Hw) as [(bs & Hb)|(e & He)];
      [destruct (write_ok E utf8_ok maxd m chunk old rt v b bs HN HC Hw Hb) as (l & Hl & Hcl); rewrite Hl in Hx; injection Hx as <- <-; left; exists (Slices l); split; [exists l, bs; auto|reflexivity]
      |rewrite (write_err E utf8_ok maxd m chunk old rt v b e He) in Hx; injection Hx as <- <-; right; split; [exists e; exact He|reflexivity]].
  Qed.
  Lemma perfs_step acts : forall b l b', perfs b acts = Ok (l, b') -> in_step does l /\ filter (fun i => negb (is_call i)) l = map Act acts.
  Proof.
    induction acts as [|a acts IH]; intros b l b' Hp; cbn [performs] in Hp; [injection Hp as <- <-; split; [exact Logic.I|reflexivity]|].
    destruct (perf b a) as [[x1 b1]| | | |] eqn:H1; try discriminate. cbn [bind] in Hp. destruct (perfs b1 acts) as [[x2 b2]| | | |] eqn:H2; try discriminate. cbn [bind] in Hp. injection Hp as <- <-.
    destruct (perf_step _ _ _ _ H1) as (o & -> & Ho). destruct (IH _ _ _ H2) as [I1 I2]. split; [split; [exact Ho|exact I1]|]. cbn. rewrite I2. reflexivity.
  Qed.
  Context (HS : safe_env E) (He : m_entry (desc_of E qt) = false).
  Lemma rea_told H e x l x' : usable_event e -> rea H e x = Ok (l, x') ->
    let '((h', acts), lv) := told E utf8_ok limit qt H e (fst x) in
    fst x' = h' /\ in_step does l /\ filter (fun i => negb (is_call i)) l = map Act acts ++ (if lv then [Left] else []).
  Proof.
    intros Hu.
    assert (O : forall f s, offered E utf8_ok maxd m chunk old rt H f s x = Ok (l, x') ->
      let '((h', acts), lv) := match f with Some f => let '(r, handled) := f (fst x) in (r, negb handled) | None => ((fst x, []), true) end in
      fst x' = h' /\ in_step does l /\ filter (fun i => negb (is_call i)) l = map Act acts ++ (if lv then [Left] else [])).
    { intros f s Hx. unfold offered in Hx. destruct f as [g|].
      - destruct (g (fst x)) as [[h acts] handled]. destruct (perfs (snd x) acts) as [[l0 b0]| | | |] eqn:Hp; try discriminate. cbn [bind] in Hx. injection Hx as <- <-. destruct (perfs_step _ _ _ _ Hp) as [P1 P2]. split; [reflexivity|]. split.
        + apply step_app; [exact P1|]. destruct handled; exact Logic.I.
        + rewrite filter_app, P2. f_equal. destruct handled; reflexivity.
      - cbn [performs bind] in Hx. injection Hx as <- <-. split; [reflexivity|]. split; [exact Logic.I|reflexivity]. }
    assert (P : forall r, ('(h, acts) <- Ok r ;; '(l, b) <- perfs (snd x) acts ;; Ok (l, (h, b))) = Ok (l, x') ->
      fst x' = fst r /\ in_step does l /\ filter (fun i => negb (is_call i)) l = map Act (snd r) ++ []).
    { intros [h acts] Hx. cbn [bind] in Hx. destruct (perfs (snd x) acts) as [[l0 b0]| | | |] eqn:Hp; try discriminate. cbn [bind] in Hx. injection Hx as <- <-. destruct (perfs_step _ _ _ _ Hp) as [P1 P2]. split; [reflexivity|]. split; [exact P1|]. rewrite app_nil_r. exact P2. }
    unfold told. destruct e as [[|] q c1 c2|[|] c|]; cbn [react failure_of]; intros Hx.
    - rewrite (seen_is E utf8_ok limit big path qt (default_msg E qt) q HS He Hu) in Hx. cbn [bind] in Hx. pose proof (P (h_read_ok H (fst x) (seen E utf8_ok limit qt (default_msg E qt) q)) Hx) as K. destruct (h_read_ok H _ _); exact K.
    - pose proof (O _ _ Hx) as K. destruct c1; destruct (h_read_cancel H), (h_read_eof H); exact K.
    - pose proof (P _ Hx) as K. destruct (h_write_ok H _); exact K.
    - pose proof (O _ _ Hx) as K. destruct (h_write_error H); exact K.
    - pose proof (P _ Hx) as K. destruct (h_cancel H _); exact K.
  Qed.
  Lemma stream_script H es l : Forall usable_event es -> stream E utf8_ok maxd limit m chunk old big path qt rt H es = Ok l ->
    filter (fun i => negb (is_call i)) l = map Act (snd (h_start H)) ++ script E utf8_ok limit qt H (fst (h_start H)) es /\ in_step does l.
  Proof.
    intros Hu Hs. unfold stream in Hs. destruct (perfs NoBuffer (snd (h_start H))) as [[l0 b]| | | |] eqn:H1; try discriminate. cbn [bind] in Hs.
    destruct (reas H es (fst (h_start H), b)) as [[lr xr]| | | |] eqn:H2; try discriminate. cbn [bind] in Hs. injection Hs as <-. destruct (perfs_step _ _ _ _ H1) as [P1 P2].
    assert (K : forall es, Forall usable_event es -> forall x lr xr, reas H es x = Ok (lr, xr) -> filter (fun i => negb (is_call i)) lr = script E utf8_ok limit qt H (fst x) es /\ in_step does lr).
    { clear H1 H2 P1 P2 Hu es l0 b lr xr. intros es Hu. induction Hu as [|e es Hu1 Hu IH]; intros x lr xr Hx; cbn [reacts] in Hx; [injection Hx as <- <-; split; [reflexivity|exact Logic.I]|].
      destruct (rea H e x) as [[l1 x1]| | | |] eqn:Ha; try discriminate. cbn [bind] in Hx. destruct (reas H es x1) as [[l2 x2]| | | |] eqn:Hb; try discriminate. cbn [bind] in Hx. injection Hx as <- <-.
      pose proof (rea_told H e x l1 x1 Hu1 Ha) as R. cbn [script]. destruct (told E utf8_ok limit qt H e (fst x)) as [[h' acts] lv]. destruct R as (R1 & R2 & R3). destruct (IH _ _ _ Hb) as [I1 I2]. split.
      - cbn [filter is_call negb]. rewrite filter_app, R3, I1, R1, <- app_assoc. reflexivity.
      - cbn [in_step]. apply step_app; assumption. }
    destruct (K es Hu _ _ _ H2) as [K1 K2]. split; [rewrite filter_app, P2, K1; reflexivity|apply step_app; assumption].
  Qed.
End Script.
