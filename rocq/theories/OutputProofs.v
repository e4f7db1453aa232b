(** Proofs about the output archives. *)
Require Import Verif.Bits Verif.Varint Verif.VarintFacts Verif.Schema Verif.Archive Verif.Decode Verif.Encode Verif.EncodeProofs Verif.EncodeMain2 Verif.WellTyped Verif.Output Verif.OutputSpec.
Local Open Scope nat_scope.

(** ** Contiguous *)
Lemma store_length buf pos b : pos + length b <= length buf -> length (store buf pos b) = length buf.
Proof. intros H. unfold store. rewrite !app_length, firstn_length, skipn_length. lia. Qed.
Lemma skipn_add {A} a b (l : list A) : skipn (a + b) l = skipn b (skipn a l).
Proof. revert l. induction a as [|a IH]; intros l; [reflexivity|]. destruct l; [cbn; destruct b; reflexivity|]. cbn. apply IH. Qed.
Lemma store_first buf pos b : pos + length b <= length buf -> firstn (pos + length b) (store buf pos b) = firstn pos buf ++ b.
Proof.
  intros H. unfold store. rewrite app_assoc, firstn_app, app_length, firstn_length, Nat.min_l by lia. rewrite Nat.sub_diag. cbn [firstn]. rewrite app_nil_r.
  rewrite firstn_all2; [reflexivity|]. rewrite app_length, firstn_length. lia.
Qed.
Lemma store_skip buf pos b : pos + length b <= length buf -> skipn (pos + length b) (store buf pos b) = skipn (pos + length b) buf.
Proof.
  intros H. unfold store. rewrite app_assoc, skipn_app, app_length, firstn_length, Nat.min_l by lia. rewrite Nat.sub_diag. cbn [skipn].
  rewrite skipn_all2; [reflexivity|]. rewrite app_length, firstn_length. lia.
Qed.
Lemma flat_cons w t : flat (w :: t) = wop_bytes w ++ flat t. Proof. reflexivity. Qed.
Lemma contiguous_spec ws : forall buf pos, contiguous_run buf pos ws =
  if (length ws =? 0) || (pos + length (flat ws) <=? length buf) then Ok (store buf pos (flat ws)) else UB.
Proof.
  induction ws as [|w t IH]; intros buf pos; cbn [contiguous_run].
  - cbn. unfold store. cbn [app length]. rewrite Nat.add_0_r, firstn_skipn. reflexivity.
  - rewrite flat_cons, app_length. cbn [length Nat.eqb orb]. destruct (Nat.leb_spec (pos + length (wop_bytes w)) (length buf)) as [H|H].
    + rewrite IH, store_length by lia. assert (X : store (store buf pos (wop_bytes w)) (pos + length (wop_bytes w)) (flat t) = store buf pos (wop_bytes w ++ flat t)).
      { unfold store at 1. rewrite store_first by lia. rewrite skipn_add, store_skip, <- skipn_add by lia. unfold store. rewrite app_length, <- !app_assoc, Nat.add_assoc. reflexivity. }
      rewrite X. destruct t as [|w' t]; cbn [length Nat.eqb orb].
      * cbn [flat map concat length]. rewrite !Nat.add_0_r. apply Nat.leb_le in H. rewrite H. reflexivity.
      * rewrite Nat.add_assoc. reflexivity.
    + destruct (Nat.leb_spec (pos + (length (wop_bytes w) + length (flat t))) (length buf)); [lia|reflexivity].
Qed.
Lemma contiguous_fits ws buf : length (flat ws) <= length buf -> contiguous_run buf 0 ws = Ok (flat ws ++ skipn (length (flat ws)) buf).
Proof. intros H. rewrite contiguous_spec. apply Nat.leb_le in H. cbn [Nat.add]. rewrite H, orb_true_r. reflexivity. Qed.
Lemma contiguous_overflow ws buf : length buf < length (flat ws) -> contiguous_run buf 0 ws = UB.
Proof.
  intros H. rewrite contiguous_spec. destruct ws; [cbn in H; lia|]. cbn [length Nat.eqb orb Nat.add]. destruct (Nat.leb_spec (length (flat (w :: ws))) (length buf)); [lia|reflexivity].
Qed.
Lemma resize_length fresh buf n : length (resize fresh buf n) = n.
Proof. unfold resize. rewrite app_length, firstn_length, map_length, seq_length. lia. Qed.

Section Buffers.
  Context (E : env) (utf8_ok : bytes -> bool) (maxd : Z) (HE : legal_numbers E).

  Lemma write_buffer_ok overwrite resizable fresh ty v bs buf : wt_msg E utf8_ok ty v -> encode_bytes E utf8_ok maxd ty v = Ok bs ->
    write_buffer E utf8_ok maxd overwrite resizable fresh ty v buf =
      let n := (if overwrite then 0 else length buf) + length bs in
      if negb resizable && (length buf <? n) then Ok None
      else Ok (Some (bs ++ skipn (length bs) (if resizable then resize fresh buf n else buf))).
  Proof.
    intros Hwt He. unfold encode_bytes in He. destruct (plan E utf8_ok maxd ty v) as [[s ws]| | | |] eqn:P; try discriminate. cbn [bind] in He. injection He as <-.
    pose proof (e_plan_size E utf8_ok maxd HE ty v s ws Hwt P) as Hs. unfold plan in P. unfold write_buffer.
    destruct (cnt_msg E maxd 0 ty v) as [n|]; [|discriminate]. destruct (sz_msg E ty v) as [s' c]. destruct (n <? length c); [discriminate|]. destruct (max_message_size <=? s')%Z; [discriminate|].
    destruct (ser_msg E utf8_ok maxd 0 ty v (c ++ repeat 0%Z (n - length c))) as [[ws' c']| | | |]; try discriminate. cbn [bind] in P. injection P as -> ->.
    assert (Hz : Z.to_nat s = length (flat ws)) by (rewrite Hs; apply Nat2Z.id). rewrite Hz. cbv zeta.
    set (n' := (if overwrite then 0 else length buf) + length (flat ws)). destruct resizable; cbn [negb andb].
    - cbn [bind]. rewrite contiguous_fits; [reflexivity|]. rewrite resize_length. unfold n'. destruct overwrite; lia.
    - destruct (Nat.ltb_spec (length buf) n') as [H|H]; [reflexivity|]. cbn [bind]. rewrite contiguous_fits; [reflexivity|]. unfold n' in H. lia.
  Qed.
  Lemma write_resizable fresh ty v bs buf : wt_msg E utf8_ok ty v -> encode_bytes E utf8_ok maxd ty v = Ok bs ->
    write_binpb E utf8_ok maxd true fresh ty v buf = Ok (Some bs).
  Proof.
    intros Hwt He. unfold write_binpb. rewrite (write_buffer_ok _ _ _ _ _ _ _ Hwt He). cbv zeta. cbn [negb andb Nat.add]. rewrite skipn_all2, app_nil_r; [reflexivity|]. rewrite resize_length. lia.
  Qed.
  Lemma write_fixed fresh ty v bs buf : wt_msg E utf8_ok ty v -> encode_bytes E utf8_ok maxd ty v = Ok bs ->
    write_binpb E utf8_ok maxd false fresh ty v buf = Ok (if length buf <? length bs then None else Some (bs ++ skipn (length bs) buf)).
  Proof.
    intros Hwt He. unfold write_binpb. rewrite (write_buffer_ok _ _ _ _ _ _ _ Hwt He). cbv zeta. cbn [negb andb Nat.add]. destruct (length buf <? length bs); reflexivity.
  Qed.
  Lemma append_does fresh ty v bs old : wt_msg E utf8_ok ty v -> encode_bytes E utf8_ok maxd ty v = Ok bs ->
    append_binpb E utf8_ok maxd fresh ty v old = Ok (Some (bs ++ skipn (length bs) (old ++ map fresh (seq (length old) (length bs))))).
  Proof.
    intros Hwt He. unfold append_binpb. rewrite (write_buffer_ok _ _ _ _ _ _ _ Hwt He). cbv zeta. cbn [negb andb]. unfold resize. rewrite firstn_all2 by lia.
    replace (length old + length bs - length old) with (length bs) by lia. reflexivity.
  Qed.
  Lemma write_buffer_error overwrite resizable fresh ty v buf e : encode_bytes E utf8_ok maxd ty v = Err e ->
    write_buffer E utf8_ok maxd overwrite resizable fresh ty v buf = Err e \/
    write_buffer E utf8_ok maxd overwrite resizable fresh ty v buf = Ok None.
  Proof.
    intros He. unfold encode_bytes in He. destruct (plan E utf8_ok maxd ty v) as [[s ws]| | | |] eqn:P; try discriminate. cbn [bind] in He. injection He as ->.
    unfold plan in P. unfold write_buffer.
    destruct (cnt_msg E maxd 0 ty v) as [n|]; [|injection P as ->; auto]. destruct (sz_msg E ty v) as [s' c]. destruct (n <? length c); [discriminate|]. destruct (max_message_size <=? s')%Z; [injection P as ->; auto|].
    cbv zeta. destruct (negb resizable && _); [auto|].
    destruct (ser_msg E utf8_ok maxd 0 ty v (c ++ repeat 0%Z (n - length c))) as [[ws' c']| | | |]; try discriminate. cbn [bind] in *. injection P as ->. auto.
  Qed.
End Buffers.

(** ** Chunked *)
Lemma space_S k n : space k (S n) = space k n + k n.
Proof. unfold space. rewrite seq_S, map_app, list_sum_app. cbn. lia. Qed.
Lemma space_mono k n m : n <= m -> space k n <= space k m.
Proof. intros H. induction H; [lia|]. rewrite space_S. lia. Qed.
Lemma space_stuck k n : stays_empty k -> k n = 0 -> forall m, space k m <= space k n.
Proof.
  intros Hk H0 m. destruct (Nat.le_gt_cases m n) as [H|H]; [apply space_mono; exact H|].
  assert (Z0 : forall i, n <= i -> k i = 0) by (intros i Hi; induction Hi; [exact H0|apply Hk; assumption]).
  assert (K : forall m, n <= m -> space k m = space k n) by (clear m H; intros m Hm; induction Hm; [reflexivity|]; rewrite space_S, IHHm, Z0 by lia; lia).
  rewrite K; lia.
Qed.

(** The chunks handed out: [d] is what has been written. *)
Fixpoint shaped (k : sink) (rem : nat) (out : list bytes) : Prop :=
  match out with
  | [] => rem = 0
  | cur :: older => length cur + rem = k (length older) /\ shaped k 0 older
  end.
Record inv (k : sink) (d : bytes) (s : cstate) : Prop := {
  iv_calls : c_calls s = length (c_out s);
  iv_data : concat (rev (c_out s)) = d;
  iv_shape : shaped k (c_rem s) (c_out s) }.

Lemma shaped_space k rem out : shaped k rem out -> space k (length out) = length (concat (rev out)) + rem.
Proof.
  revert rem. induction out as [|cur older IH]; intros rem H; cbn [shaped length rev] in *; [subst; reflexivity|]. destruct H as [H1 H2]. specialize (IH _ H2).
  rewrite space_S, concat_app, app_length. cbn [concat]. rewrite app_nil_r. lia.
Qed.
Lemma inv_space k d s : inv k d s -> space k (c_calls s) = length d + c_rem s.
Proof. intros [H1 H2 H3]. rewrite H1, <- H2. apply shaped_space. exact H3. Qed.
Lemma inv_fetch k d s : inv k d s -> inv k d (fetch k s) /\ (c_rem (fetch k s) = 0 -> exists i, c_calls (fetch k s) = S i /\ k i = 0) /\ c_out (fetch k s) <> [] /\
  (c_rem s <> 0 -> fetch k s = s) /\ (c_rem s = 0 -> c_calls (fetch k s) = S (c_calls s)).
Proof.
  intros [H1 H2 H3]. unfold fetch. destruct (Nat.eqb_spec (c_rem s) 0) as [E|E].
  - split; [constructor; cbn [c_calls c_out c_rem length]|].
    + rewrite H1. reflexivity.
    + cbn [rev]. rewrite concat_app. cbn. rewrite app_nil_r. exact H2.
    + cbn [shaped length]. rewrite E in H3. split; [rewrite H1; reflexivity|exact H3].
    + cbn [c_calls c_out c_rem]. split; [eauto|]. split; [discriminate|]. split; [contradiction|reflexivity].
  - split; [constructor; assumption|]. split; [contradiction|]. split; [|split; [reflexivity|contradiction]]. intros K. rewrite K in H3. cbn in H3. contradiction.
Qed.
Lemma inv_put k d s b : inv k d s -> c_out s <> [] -> length b <= c_rem s ->
  exists s', put b s = Ok s' /\ inv k (d ++ b) s' /\ c_rem s' = c_rem s - length b /\ c_calls s' = c_calls s.
Proof.
  intros [H1 H2 H3] Hne Hb. unfold put. destruct (Nat.leb_spec (length b) (c_rem s)); [|lia]. destruct (c_out s) as [|cur older] eqn:Eo; [contradiction|].
  eexists. split; [reflexivity|]. split; [|cbn; auto]. constructor; cbn [c_calls c_out c_rem length rev] in *.
  - exact H1.
  - rewrite concat_app in *. cbn [concat] in *. rewrite app_nil_r in *. rewrite <- H2. rewrite app_assoc. reflexivity.
  - cbn [shaped] in *. rewrite app_length. destruct H3 as [H3 H4]. split; [lia|exact H4].
Qed.

(** One write: all of it, or a prefix and the sink has run out of space. *)
Definition outcome (k : sink) (d b : bytes) (ok : bool) (s' : cstate) : Prop :=
  (ok = true -> inv k (d ++ b) s') /\
  (ok = false -> exists b1 b2, b = b1 ++ b2 /\ b2 <> [] /\ inv k (d ++ b1) s' /\ c_rem s' = 0 /\ exists i, c_calls s' = S i /\ k i = 0).

Lemma write_all_spec k fuel : forall data d s, length data < fuel -> inv k d s -> exists ok s', write_all k fuel data s = Ok (ok, s') /\ outcome k d data ok s'.
Proof.
  induction fuel as [|fuel IH]; intros data d s Hf Hi; [lia|]. cbn [write_all]. destruct data as [|x data'] eqn:Ed.
  - exists true, s. split; [reflexivity|]. split; [|discriminate]. rewrite app_nil_r. auto.
  - rewrite <- Ed in *. destruct (inv_fetch k d s Hi) as (Hi1 & Hz & Hne & _ & _). set (s1 := fetch k s) in *.
    destruct (Nat.leb_spec (length data) (c_rem s1)) as [H|H].
    + destruct (inv_put k d s1 data Hi1 Hne H) as (s2 & Hp & Hi2 & _). rewrite Hp. exists true, s2. split; [reflexivity|]. split; [auto|discriminate].
    + destruct (Nat.eqb_spec (c_rem s1) 0) as [E0|E0].
      * exists false, s1. split; [reflexivity|]. split; [discriminate|]. intros _. exists [], data. rewrite app_nil_r. split; [reflexivity|]. split; [rewrite Ed; discriminate|]. split; [exact Hi1|]. auto.
      * set (n := c_rem s1) in *. assert (Hn : length (firstn n data) = n) by (rewrite firstn_length; lia).
        destruct (inv_put k d s1 (firstn n data) Hi1 Hne ltac:(lia)) as (s2 & Hp & Hi2 & _). rewrite Hp. cbn [bind].
        destruct (IH (skipn n data) _ s2 ltac:(rewrite skipn_length; lia) Hi2) as (ok & s3 & E3 & O1 & O2). exists ok, s3. split; [exact E3|]. split.
        -- intros ->. specialize (O1 eq_refl). rewrite <- app_assoc, firstn_skipn in O1. exact O1.
        -- intros ->. destruct (O2 eq_refl) as (b1 & b2 & Eb & Hb & Hi3 & Hr & Hk). exists (firstn n data ++ b1), b2. rewrite <- app_assoc, <- Eb, firstn_skipn. split; [reflexivity|]. split; [exact Hb|].
           rewrite <- app_assoc in Hi3. auto.
Qed.
Lemma chunked_write_spec k w d s : inv k d s -> exists ok s', chunked_write k w s = Ok (ok, s') /\ outcome k d (wop_bytes w) ok s'.
Proof.
  intros Hi. destruct w as [t z|b]; cbn [chunked_write wop_bytes].
  - destruct (inv_fetch k d s Hi) as (Hi1 & _ & Hne & _ & _). set (s1 := fetch k s) in *. pose proof (pack_varint_len t z) as Hl. destruct (Nat.leb_spec 10 (c_rem s1)) as [H|H].
    + destruct (inv_put k d s1 (pack_varint t z) Hi1 Hne ltac:(unfold zlen in Hl; lia)) as (s2 & Hp & Hi2 & _). rewrite Hp. exists true, s2. split; [reflexivity|]. split; [auto|discriminate].
    + apply write_all_spec; [lia|exact Hi1].
  - apply write_all_spec; [lia|exact Hi].
Qed.
Lemma chunked_run_spec k ws : forall d s, inv k d s -> exists ok s', chunked_run k ws s = Ok (ok, s') /\ outcome k d (flat ws) ok s'.
Proof.
  induction ws as [|w t IH]; intros d s Hi; cbn [chunked_run].
  - exists true, s. split; [reflexivity|]. split; [|discriminate]. cbn. rewrite app_nil_r. auto.
  - destruct (chunked_write_spec k w d s Hi) as (ok & s1 & E1 & O1 & O2). rewrite E1. cbn [bind]. rewrite flat_cons. destruct ok.
    + destruct (IH _ s1 (O1 eq_refl)) as (ok & s2 & E2 & P1 & P2). exists ok, s2. split; [exact E2|]. split.
      * intros ->. rewrite app_assoc. auto.
      * intros ->. destruct (P2 eq_refl) as (b1 & b2 & Eb & Hb & Hi3 & Hr). exists (wop_bytes w ++ b1), b2. rewrite Eb, <- !app_assoc. split; [reflexivity|]. split; [exact Hb|]. rewrite <- app_assoc in Hi3. auto.
    + exists false, s1. split; [reflexivity|]. split; [discriminate|]. intros _. destruct (O2 eq_refl) as (b1 & b2 & Eb & Hb & Hi3 & Hr). exists b1, (b2 ++ flat t). rewrite Eb, <- app_assoc. split; [reflexivity|].
      split; [|auto]. destruct b2; [contradiction|discriminate].
Qed.
Lemma inv_init k : inv k [] c_init.
Proof. constructor; reflexivity. Qed.

Lemma shaped_nth k rem out : shaped k rem out -> forall i c, nth_error (rev out) i = Some c ->
  length c <= k i /\ (S i < length (rev out) -> length c = k i) /\ (rem = 0 -> length c = k i).
Proof.
  revert rem. induction out as [|cur older IH]; intros rem H i c Hc; cbn [rev shaped] in *; [destruct i; discriminate|]. destruct H as [H1 H2].
  destruct (Nat.lt_ge_cases i (length (rev older))) as [Hi|Hi].
  - rewrite nth_error_app1 in Hc by exact Hi. destruct (IH 0 H2 i c Hc) as (A & B & C). split; [exact A|]. split; [intros _; apply C; reflexivity|intros _; apply C; reflexivity].
  - rewrite nth_error_app2 in Hc by exact Hi. destruct (i - length (rev older)) as [|j] eqn:Ej; [|destruct j; discriminate]. injection Hc as <-.
    rewrite rev_length in *. assert (i = length older) by lia. subst i. split; [lia|]. rewrite app_length, rev_length. cbn [length]. split; [lia|lia].
Qed.
Lemma inv_filled k d s : inv k d s -> filled k d (rev (c_out s)).
Proof.
  intros [H1 H2 H3]. constructor; [exact H2| |].
  - intros i c Hc. apply (shaped_nth _ _ _ H3 i c Hc).
  - intros i c Hc. apply (shaped_nth _ _ _ H3 i c Hc).
Qed.

Lemma chunked_sink_spec k ws : exists r, chunked_sink k ws = Ok r /\
  match r with
  | Some chunks => filled k (flat ws) chunks /\ length (flat ws) <= space k (length chunks)
  | None => exists n, k n = 0 /\ space k n < length (flat ws)
  end.
Proof.
  unfold chunked_sink. destruct (chunked_run_spec k ws [] c_init (inv_init k)) as (ok & s & E & O1 & O2). rewrite E. cbn [bind]. eexists. split; [reflexivity|]. destruct ok.
  - specialize (O1 eq_refl). cbn [app] in O1. split; [apply inv_filled; exact O1|]. rewrite rev_length, <- (iv_calls _ _ _ O1), (inv_space _ _ _ O1). lia.
  - destruct (O2 eq_refl) as (b1 & b2 & Eb & Hb & Hi & Hr & i & Hc & Hk). exists i. split; [exact Hk|]. pose proof (inv_space _ _ _ Hi) as Hs. rewrite Hc, Hr, space_S, Hk in Hs. cbn [app] in Hs.
    rewrite Eb, app_length. destruct b2; [contradiction|]. cbn [length]. lia.
Qed.
Lemma chunked_sink_fails k ws : stays_empty k -> chunked_sink k ws = Ok None <-> exists n, k n = 0 /\ space k n < length (flat ws).
Proof.
  intros Hk. destruct (chunked_sink_spec k ws) as (r & -> & H). split.
  - intros Heq. injection Heq as ->. exact H.
  - intros (n & H0 & Hs). destruct r as [chunks|]; [|reflexivity]. destruct H as [_ H]. pose proof (space_stuck k n Hk H0 (length chunks)). lia.
Qed.

Lemma slice_space c size n : 0 < c -> space (slice_sizes c size) n = Nat.min (n * c) size.
Proof. intros Hc. induction n as [|n IH]; [cbn; lia|]. rewrite space_S, IH. unfold slice_sizes. cbn [Nat.mul]. lia. Qed.
Lemma slices_sink c ws : 0 < c -> exists chunks, chunked_sink (slice_sizes c (length (flat ws))) ws = Ok (Some chunks) /\ concat chunks = flat ws /\
  forall i s, nth_error chunks i = Some s -> length s = slice_sizes c (length (flat ws)) i.
Proof.
  intros Hc. set (k := slice_sizes c (length (flat ws))). unfold chunked_sink. destruct (chunked_run_spec k ws [] c_init (inv_init k)) as (ok & s & E & O1 & O2). rewrite E. cbn [bind]. destruct ok.
  - specialize (O1 eq_refl). cbn [app] in O1. eexists. split; [reflexivity|]. split; [apply (iv_data _ _ _ O1)|]. pose proof (inv_space _ _ _ O1) as Hs. unfold k in Hs. rewrite slice_space in Hs by exact Hc.
    intros i ch Hch. apply (shaped_nth _ _ _ (iv_shape _ _ _ O1) i ch Hch). lia.
  - exfalso. destruct (O2 eq_refl) as (b1 & b2 & Eb & Hb & Hi & Hr & i & Hcl & Hk). pose proof (inv_space _ _ _ Hi) as Hs. rewrite Hcl, Hr, space_S, Hk in Hs. unfold k in Hs, Hk. rewrite slice_space in Hs by exact Hc. cbn [app] in Hs.
    unfold slice_sizes in Hk. rewrite Eb, app_length in *. destruct b2; [contradiction|]. cbn [length] in *. lia.
Qed.

Section Sinks.
  Context (E : env) (utf8_ok : bytes -> bool) (maxd : Z) (HE : legal_numbers E).
  Lemma plan_of ty v bs : wt_msg E utf8_ok ty v -> encode_bytes E utf8_ok maxd ty v = Ok bs -> exists ws, plan E utf8_ok maxd ty v = Ok (zlen bs, ws) /\ flat ws = bs.
  Proof.
    intros Hwt He. unfold encode_bytes in He. destruct (plan E utf8_ok maxd ty v) as [[s ws]| | | |] eqn:P; try discriminate. cbn [bind] in He. injection He as <-.
    rewrite (e_plan_size E utf8_ok maxd HE ty v s ws Hwt P). eauto.
  Qed.
  Lemma zlen_nat {A} (l : list A) : Z.to_nat (zlen l) = length l. Proof. apply Nat2Z.id. Qed.
  Lemma sink_chunked ty v bs cs k old : wt_msg E utf8_ok ty v -> encode_bytes E utf8_ok maxd ty v = Ok bs ->
    exists r, write_sink E utf8_ok maxd Chunked cs k old ty v = Ok r /\
    match r with
    | Some chunks => filled (k (length bs)) bs chunks
    | None => exists n, k (length bs) n = 0 /\ space (k (length bs)) n < length bs
    end.
  Proof.
    intros Hwt He. destruct (plan_of _ _ _ Hwt He) as (ws & P & <-). unfold write_sink. rewrite P. cbn [bind]. rewrite zlen_nat. destruct (chunked_sink_spec (k (length (flat ws))) ws) as (r & -> & H).
    exists r. split; [reflexivity|]. destruct r; [apply H|exact H].
  Qed.
  Lemma sink_chunked_fails ty v bs cs k old : wt_msg E utf8_ok ty v -> encode_bytes E utf8_ok maxd ty v = Ok bs -> stays_empty (k (length bs)) ->
    write_sink E utf8_ok maxd Chunked cs k old ty v = Ok None <-> exists n, k (length bs) n = 0 /\ space (k (length bs)) n < length bs.
  Proof.
    intros Hwt He Hk. destruct (plan_of _ _ _ Hwt He) as (ws & P & <-). unfold write_sink. rewrite P. cbn [bind]. rewrite zlen_nat. apply chunked_sink_fails. exact Hk.
  Qed.
  Lemma contiguous_sink_ok k old ws : length (flat ws) <= k 0 -> contiguous_sink k old ws = Ok (Some [flat ws ++ map old (seq (length (flat ws)) (k 0 - length (flat ws)))]).
  Proof.
    intros H. unfold contiguous_sink. rewrite contiguous_fits by (rewrite map_length, seq_length; exact H). cbn [bind]. do 4 f_equal.
    rewrite skipn_map. f_equal. replace (k 0) with (length (flat ws) + (k 0 - length (flat ws))) at 1 by lia. rewrite seq_app, skipn_app, seq_length, Nat.sub_diag.
    rewrite skipn_all2 by (rewrite seq_length; lia). reflexivity.
  Qed.
  Lemma sink_contiguous ty v bs cs k old : wt_msg E utf8_ok ty v -> encode_bytes E utf8_ok maxd ty v = Ok bs ->
    write_sink E utf8_ok maxd Contiguous cs k old ty v =
      if length bs <=? k (length bs) 0 then Ok (Some [bs ++ map old (seq (length bs) (k (length bs) 0 - length bs))]) else UB.
  Proof.
    intros Hwt He. destruct (plan_of _ _ _ Hwt He) as (ws & P & <-). unfold write_sink. rewrite P. cbn [bind]. rewrite zlen_nat. destruct (Nat.leb_spec (length (flat ws)) (k (length (flat ws)) 0)) as [H|H].
    - apply contiguous_sink_ok. exact H.
    - unfold contiguous_sink. rewrite contiguous_overflow; [reflexivity|]. rewrite map_length, seq_length. exact H.
  Qed.
  Lemma sink_adaptive ty v cs k old : write_sink E utf8_ok maxd Adaptive cs k old ty v =
    match plan E utf8_ok maxd ty v with
    | Ok (s, _) => write_sink E utf8_ok maxd (if (s <=? Z.of_nat cs)%Z then Contiguous else Chunked) cs k old ty v
    | _ => write_sink E utf8_ok maxd Chunked cs k old ty v
    end.
  Proof. unfold write_sink. destruct (plan E utf8_ok maxd ty v) as [[s ws]| | | |]; try reflexivity. cbn [bind]. destruct (s <=? Z.of_nat cs)%Z; reflexivity. Qed.
  Lemma sink_adaptive_size ty v bs cs k old : wt_msg E utf8_ok ty v -> encode_bytes E utf8_ok maxd ty v = Ok bs ->
    write_sink E utf8_ok maxd Adaptive cs k old ty v = write_sink E utf8_ok maxd (if length bs <=? cs then Contiguous else Chunked) cs k old ty v.
  Proof.
    intros Hwt He. rewrite sink_adaptive. destruct (plan_of _ _ _ Hwt He) as (ws & P & <-). rewrite P. unfold zlen.
    destruct (Nat.leb_spec (length (flat ws)) cs), (Z.leb_spec (Z.of_nat (length (flat ws))) (Z.of_nat cs)); try lia; reflexivity.
  Qed.
  Lemma byte_buffer m c old ty v bs : 0 < c -> wt_msg E utf8_ok ty v -> encode_bytes E utf8_ok maxd ty v = Ok bs ->
    exists slices, write_byte_buffer E utf8_ok maxd m c old ty v = Ok (Some slices) /\ concat slices = bs.
  Proof.
    intros Hc Hwt He. destruct (plan_of _ _ _ Hwt He) as (ws & P & <-). unfold write_byte_buffer. rewrite P. cbn [bind].
    assert (Hch : exists slices, chunked_sink (slice_sizes c (length (flat ws))) ws = Ok (Some slices) /\ concat slices = flat ws) by (destruct (slices_sink c ws Hc) as (x & A & B & _); eauto).
    destruct m.
    - rewrite contiguous_sink_ok; cbn [Nat.eqb]; rewrite zlen_nat; [|lia]. eexists. split; [reflexivity|]. rewrite Nat.sub_diag. cbn. rewrite !app_nil_r. reflexivity.
    - rewrite (sink_adaptive_size _ _ _ _ _ _ Hwt He). destruct (Nat.leb_spec (length (flat ws)) c) as [H|H].
      + rewrite (sink_contiguous _ _ _ _ _ _ Hwt He). unfold slice_sizes. cbn [Nat.mul]. rewrite Nat.sub_0_r, Nat.min_r by lia. rewrite Nat.leb_refl. eexists. split; [reflexivity|]. rewrite Nat.sub_diag. cbn. rewrite !app_nil_r. reflexivity.
      + unfold write_sink. rewrite P. cbn [bind]. rewrite zlen_nat. exact Hch.
    - unfold write_sink. rewrite P. cbn [bind]. rewrite zlen_nat. exact Hch.
  Qed.
End Sinks.
