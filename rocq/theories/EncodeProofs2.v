(** The three passes of the encoder agree: the counter counts the entries the size
    pass stores, and the writing pass consumes exactly these. *)
Require Import Verif.Bits Verif.Varint Verif.VarintSpec Verif.VarintFacts.
Require Import Verif.Schema Verif.Archive Verif.Decode Verif.DecodeSafe Verif.Encode Verif.WellTyped Verif.EncodeSpec Verif.EncodeProofs.

Lemma sub_not_omitted f c ty v : sub_msg f c ty v -> omit f c = false.
Proof.
  intros H. inversion H; subst.
  - destruct c0 as [[|] d| | |]; destruct c; try match goal with H : In _ [] |- _ => destruct H end; reflexivity.
  - reflexivity.
Qed.

Section Passes.
  Context (E : env) (u8 utf8_ok : bytes -> bool) (maxd : Z).

  (** ** Counting *)
  Section Cnt.
    Variables (crec : nat -> val -> option nat) (srec : nat -> val -> szr).

    Lemma cnt_elem_eq num e v n : (forall ty d m, e = EMsg ty d -> crec ty v = Some m -> length (snd (srec ty v)) = m) ->
      cnt_elem crec e v = Some n -> length (snd (sz_elem srec num e v)) = n.
    Proof.
      intros Hr. destruct e; cbn [cnt_elem sz_elem]; try (intros [= <-]; reflexivity).
      specialize (Hr ty delim). destruct (srec ty v) as [s c]. destruct (crec ty v) as [m|]; [|discriminate].
      specialize (Hr m eq_refl eq_refl). cbn [add_opt snd] in *. intros [= <-]. destruct delim; cbn [snd length]; lia.
    Qed.

    Lemma add_opt_some a b n : add_opt a b = Some n -> exists x y, a = Some x /\ b = Some y /\ n = (x + y)%nat.
    Proof. destruct a, b; cbn; try discriminate. intros [= <-]. eauto. Qed.

    Lemma cnt_list_eq num e vs : forall n, (forall ty d v m, e = EMsg ty d -> In v vs -> crec ty v = Some m -> length (snd (srec ty v)) = m) ->
      cnt_list crec e vs = Some n -> length (snd (sz_list srec num e vs)) = n.
    Proof.
      induction vs as [|v vs IH]; intros n Hr; cbn [cnt_list sz_list]; [intros [= <-]; reflexivity|].
      intros H. apply add_opt_some in H. destruct H as (x & y & H1 & H2 & ->). unfold add_sz. cbn [snd]. rewrite app_length.
      rewrite (cnt_elem_eq num e v x) by (auto; intros; eapply Hr; eauto; left; reflexivity).
      rewrite (IH y); auto. intros; eapply Hr; eauto. right; auto.
    Qed.

    Lemma cnt_field_eq f vs n : (forall ty v m, sub_msg f vs ty v -> crec ty v = Some m -> length (snd (srec ty v)) = m) ->
      cnt_field crec f vs = Some n -> length (snd (sz_field srec f vs)) = n.
    Proof.
      intros Hr. destruct f as [num e c|alts].
      - assert (Hl : cnt_list crec e vs = Some n -> length (snd (sz_list srec num e vs)) = n).
        { apply cnt_list_eq. intros ty d v m -> Hi. apply Hr. constructor. exact Hi. }
        destruct c; cbn [cnt_field sz_field]; auto. destruct (packed && packable e) eqn:Kp; auto.
        destruct e; cbn; intros [= <-]; reflexivity.
      - destruct vs as [|[| | |i v] vs]; cbn [cnt_field sz_field]; try (intros [= <-]; reflexivity).
        destruct (nth_error alts i) as [[num e]|] eqn:Kn; [|intros [= <-]; reflexivity].
        apply cnt_elem_eq. intros ty d m -> Hm. eapply Hr; eauto. econstructor; eauto.
    Qed.

    Lemma cnt_fields_eq fds : forall fs n,
      (forall f c ty v m, In (f, c) (combine fds fs) -> sub_msg f c ty v -> crec ty v = Some m -> length (snd (srec ty v)) = m) ->
      cnt_fields crec fds fs = Some n -> length (snd (sz_fields srec fds fs)) = n.
    Proof.
      induction fds as [|f fds IH]; intros [|c fs] n Hr; cbn [cnt_fields sz_fields]; try (intros [= <-]; reflexivity).
      intros H. apply add_opt_some in H. destruct H as (x & y & H1 & H2 & ->). unfold add_sz. cbn [snd]. rewrite app_length.
      rewrite (IH fs y); auto.
      - f_equal. destruct (omit f c); [injection H1 as <-; reflexivity|]. apply cnt_field_eq; [|exact H1].
        intros ty v m. apply Hr. left; reflexivity.
      - intros g c' ty v m Hg. apply Hr. right; exact Hg.
    Qed.

  End Cnt.

  (** *** When counting fails *)
  Section CntNone.
    Variable crec : nat -> val -> option nat.
    Lemma add_opt_none a b : add_opt a b = None <-> a = None \/ b = None.
    Proof. destruct a, b; cbn; intuition congruence. Qed.

    Lemma cnt_elem_none e v : cnt_elem crec e v = None <-> exists ty d, e = EMsg ty d /\ crec ty v = None.
    Proof.
      destruct e; cbn [cnt_elem]; try (split; [discriminate|intros (? & ? & ? & _); discriminate]).
      rewrite add_opt_none. split; [intros [H|H]; [eauto|destruct delim; discriminate]|]. intros (ty' & d & [= -> ->] & H). auto.
    Qed.

    Lemma cnt_list_none e vs : cnt_list crec e vs = None <-> exists ty d v, e = EMsg ty d /\ In v vs /\ crec ty v = None.
    Proof.
      induction vs as [|w vs IH]; cbn [cnt_list]; [split; [discriminate|intros (? & ? & ? & _ & [] & _)]|].
      rewrite add_opt_none, cnt_elem_none, IH. split.
      - intros [(ty & d & -> & H)|(ty & d & v & -> & Hi & H)]; do 3 eexists; (split; [reflexivity|]; split; [|exact H]); cbn; auto.
      - intros (ty & d & v & -> & [->|Hi] & H); [left; eauto|right; do 3 eexists; eauto].
    Qed.

    Lemma cnt_field_none f vs : cnt_field crec f vs = None <-> exists ty v, sub_msg f vs ty v /\ crec ty v = None.
    Proof.
      destruct f as [num e c|alts].
      - assert (G : cnt_list crec e vs = None <-> exists ty v, sub_msg (Field num e c) vs ty v /\ crec ty v = None).
        { rewrite cnt_list_none. split.
          - intros (ty & d & v & -> & Hi & H). exists ty, v. split; [constructor; exact Hi|exact H].
          - intros (ty & v & Hs & H). inversion Hs; subst. eauto 6. }
        destruct c; cbn [cnt_field]; auto. destruct (packed && packable e) eqn:Kp; auto.
        split; [discriminate|]. intros (ty & v & Hs & _). inversion Hs; subst. rewrite andb_false_r in Kp. discriminate.
      - split.
        + destruct vs as [|[| | |i v] vs]; cbn [cnt_field]; try discriminate. destruct (nth_error alts i) as [[num e]|] eqn:Kn; [|discriminate].
          rewrite cnt_elem_none. intros (ty & d & -> & H). exists ty, v. split; [econstructor; eauto|exact H].
        + intros (ty & v & Hs & H). inversion Hs; subst. cbn [cnt_field]. match goal with H : nth_error _ _ = _ |- _ => rewrite H end.
          apply cnt_elem_none. eauto.
    Qed.

    Lemma cnt_fields_none fds : forall fs, cnt_fields crec fds fs = None <->
      exists f c ty v, In (f, c) (combine fds fs) /\ sub_msg f c ty v /\ crec ty v = None.
    Proof.
      induction fds as [|f fds IH]; intros [|c fs]; cbn [cnt_fields combine];
        try (split; [discriminate|intros (? & ? & ? & ? & [] & _)]).
      rewrite add_opt_none, IH. split.
      - intros [H|(g & c' & ty & v & Hi & H)].
        + destruct (omit f c); [discriminate|]. apply cnt_field_none in H. destruct H as (ty & v & Hs & H).
          exists f, c, ty, v. cbn. auto.
        + exists g, c', ty, v. cbn. intuition auto.
      - intros (g & c' & ty & v & [Heq|Hi] & Hs & H); [injection Heq as <- <-|].
        + left. rewrite (sub_not_omitted _ _ _ _ Hs). apply cnt_field_none. eauto.
        + right. eauto 8.
    Qed.
  End CntNone.

  (** As many entries are counted as stored. *)
  Theorem count_eq ty v : forall d n, cnt_msg E maxd d ty v = Some n -> length (snd (sz_msg E ty v)) = n.
  Proof.
    revert ty v. apply (nested_ind_msg E (fun ty v => forall d n, cnt_msg E maxd d ty v = Some n -> length (snd (sz_msg E ty v)) = n)).
    intros ty v IH d n. destruct v as [| |fs u|]; cbn [cnt_msg sz_msg]; try (intros [= <-]; reflexivity).
    destruct (scope_ok maxd d); [|discriminate]. intros H. unfold holds in IH. cbn [msg_fields] in IH.
    pose proof (cnt_fields_eq (fun ty' v' => cnt_msg E maxd (d + 1) ty' v') (fun ty' v' => sz_msg E ty' v') (m_fields (desc_of E ty)) fs n) as K.
    destruct (sz_fields _ _ _) as [s c] eqn:Es. cbn [snd] in *. apply K; [|exact H].
    intros f c' ty' v' m Hi Hs. eapply IH; eauto.
  Qed.

  (** Counting fails exactly when the nesting is too deep. *)
  Theorem count_depth ty v : forall d, cnt_msg E maxd d ty v = None <->
    exists n, nested E ty v n /\ scope_ok maxd (d + Z.of_nat n - 1) = false.
  Proof.
    revert ty v. apply (nested_ind_msg E (fun ty v => forall d, cnt_msg E maxd d ty v = None <-> _)).
    intros ty v IH d. destruct v as [| |fs u|]; cbn [cnt_msg].
    1,2,4: split; [discriminate|]; intros (n & Hn & _); inversion Hn; subst; unfold holds in *; cbn [msg_fields] in *;
      destruct (m_fields (desc_of E ty)); match goal with H : In _ _ |- _ => destruct H end.
    unfold holds in IH. cbn [msg_fields] in IH.
    split.
    - destruct (scope_ok maxd d) eqn:Kd.
      + intros H. apply cnt_fields_none in H. destruct H as (f & c & ty' & v' & Hi & Hs & H).
        apply (IH f c ty' v' Hi Hs) in H. destruct H as (n & Hn & Hk). exists (S n). split; [eapply NStep with (f := f) (c := c); [exact Hi|exact Hs|exact Hn]|].
        rewrite <- Hk. f_equal. lia.
      + intros _. exists 1%nat. split; [constructor|]. rewrite <- Kd. f_equal. lia.
    - intros (n & Hn & Hk). destruct (scope_ok maxd d) eqn:Kd; [|reflexivity].
      inversion Hn; subst.
      + exfalso. replace (d + Z.of_nat 1 - 1) with d in Hk by lia. congruence.
      + apply cnt_fields_none. exists f, c, ty', v'. split; [assumption|]. split; [assumption|].
        eapply IH; eauto. eexists. split; [eassumption|]. rewrite <- Hk. f_equal. lia.
  Qed.

  (** ** Writing *)
  (** [r] writes exactly [bs] and leaves the cache entries [c], or reports a byte
      string that is not UTF-8 although the type demands it. *)
  Definition writes {T} (r : res (list wop * T)) (bs : bytes) (c : T) : Prop :=
    (exists ws, r = Ok (ws, c) /\ flat ws = bs) \/
    (r = Err BadMessage /\ exists b, u8 b = true /\ utf8_ok b = false).

  Notation wt := (wt E u8).
  Notation cell := (cell E u8).
  Notation cells := (cells E u8).

  Lemma writes_bind {T U} (r : res (list wop * T)) (k : list wop * T -> res (list wop * U)) bs c bs' c' : writes r bs c ->
    (forall ws, flat ws = bs -> writes (k (ws, c)) bs' c') -> writes (bind r k) bs' c'.
  Proof.
    intros [(ws & -> & H)|[-> H]] Hk; cbn [bind]; [auto|]. right. auto.
  Qed.

  Lemma writes_seq r k a c b c' : writes r a c -> writes (k c) b c' -> writes (seq_s r k) (a ++ b) c'.
  Proof.
    intros H1 H2. unfold seq_s. eapply writes_bind; [exact H1|]. intros ws <-. eapply writes_bind; [exact H2|].
    intros ws' <-. left. eexists. split; [reflexivity|]. apply flat_app.
  Qed.

  Lemma scalar_ops_eq {T} e v (c : T) : wt e v -> scalar e = true -> zlen (enc_scalar e v) < max_message_size ->
    writes (ws <- scalar_ops utf8_ok e v ;; Ok (ws, c)) (enc_scalar e v) c.
  Proof.
    intros Hw Hs. inversion Hw; subst; cbn [scalar] in Hs; try discriminate; cbn [scalar_ops enc_scalar bind].
    1-4: intros _; left; eexists; split; [reflexivity|]; unfold flat; cbn; rewrite ?app_nil_r; reflexivity.
    intros Hl. rewrite zlen_app in Hl. destruct (utf8 && negb (utf8_ok b)) eqn:K; cbn [bind].
    - right. split; [reflexivity|]. exists b. apply andb_prop in K. destruct K as [-> K]. split; [auto|]. destruct (utf8_ok b); auto; discriminate.
    - left. eexists. split; [reflexivity|]. unfold flat. cbn [map concat wop_bytes]. rewrite app_nil_r. f_equal. apply pack_small; [reflexivity|].
      unfold max_message_size in Hl. pose proof (zlen_nonneg b). pose proof (zlen_nonneg (vint (zlen b))). cbn [enc_bits vbits]. lia.
  Qed.

  Lemma packed_ops_eq {T} e vs (c : T) : Forall (wt e) vs -> scalar e = true -> zlen (concat (map (enc_scalar e) vs)) < max_message_size ->
    writes (ws <- packed_ops utf8_ok e vs ;; Ok (ws, c)) (concat (map (enc_scalar e) vs)) c.
  Proof.
    intros Hw Hs. induction Hw as [|v vs Hv Hvs IH]; intros Hl; cbn [packed_ops map concat bind].
    - left. exists []. split; reflexivity.
    - cbn [map concat] in Hl. rewrite zlen_app in Hl.
      pose proof (zlen_nonneg (enc_scalar e v)). pose proof (zlen_nonneg (concat (map (enc_scalar e) vs))).
      specialize (IH ltac:(lia)). pose proof (scalar_ops_eq e v c Hv Hs ltac:(lia)) as K.
      destruct (scalar_ops utf8_ok e v) as [w| | | |]; cbn [bind] in *; destruct K as [(ws & K & <-)|[K Hb]]; try discriminate.
      + injection K as <-. destruct (packed_ops utf8_ok e vs) as [w'| | | |]; cbn [bind] in *; destruct IH as [(ws' & K & <-)|[K Hb]]; try discriminate.
        * injection K as <-. left. eexists. split; [reflexivity|]. apply flat_app.
        * injection K as ->. right. auto.
      + injection K as ->. right. auto.
  Qed.

  Section Ser.
    Variables (wrec : nat -> val -> list Z -> serr) (srec : nat -> val -> szr) (body : nat -> val -> bytes).

    (** Writing nested messages follows the cache. *)
    Definition good_sub (ty : nat) (v : val) : Prop :=
      fst (srec ty v) = zlen (body ty v) /\
      (zlen (body ty v) < max_message_size -> forall c, writes (wrec ty v (snd (srec ty v) ++ c)) (body ty v) c).

    Lemma saturate_id s : s < max_message_size -> saturate s = s.
    Proof. intros H. unfold saturate. destruct (Z.leb_spec max_message_size s); [lia|reflexivity]. Qed.

    Lemma ser_elem_eq num e v c : 1 <= num < 2 ^ 29 -> wt e v ->
      (forall ty d, e = EMsg ty d -> good_sub ty v) -> zlen (enc_elem body num e v) < max_message_size ->
      writes (ser_elem utf8_ok wrec num e v (snd (sz_elem srec num e v) ++ c)) (enc_elem body num e v) c.
    Proof.
      intros Hn Hw Hr Hl. destruct (scalar e) eqn:Hs.
      { assert (sz_elem srec num e v = (tag_size num + scalar_size e v, []) /\ enc_elem body num e v = tagb num (elem_wt e) ++ enc_scalar e v /\
          ser_elem utf8_ok wrec num e v c = (ws <- scalar_ops utf8_ok e v ;; Ok (wtag num (elem_wt e) :: ws, c))) as (-> & Ke & Kr)
          by (destruct e; try discriminate; auto).
        cbn [snd app]. rewrite Ke in *. rewrite Kr. rewrite zlen_app in Hl. pose proof (zlen_nonneg (tagb num (elem_wt e))).
        pose proof (scalar_ops_eq e v c Hw Hs ltac:(lia)) as K.
        destruct (scalar_ops utf8_ok e v) as [w| | | |]; cbn [bind] in *; destruct K as [(ws & K & <-)|[K Hb]]; try discriminate.
        - injection K as <-. left. eexists. split; [reflexivity|]. rewrite flat_cons, wtag_bytes; [reflexivity|lia|apply wt_range].
        - injection K as ->. right. auto. }
      destruct e; try discriminate. destruct (Hr _ _ eq_refl) as [R1 R2]. cbn [sz_elem enc_elem ser_elem] in *.
      destruct (srec ty v) as [s cc]. cbn [fst snd] in *. destruct delim; cbn [snd app].
      - rewrite !zlen_app in Hl. pose proof (zlen_nonneg (tagb num WT_SGROUP)). pose proof (zlen_nonneg (tagb num WT_EGROUP)).
        eapply writes_bind; [apply R2; lia|]. intros ws <-. left. eexists. split; [reflexivity|].
        rewrite flat_cons, flat_app, flat_cons, !wtag_bytes by (try lia; unfold WT_SGROUP, WT_EGROUP; lia). unfold flat at 2. cbn. rewrite app_nil_r. reflexivity.
      - rewrite !zlen_app in Hl. pose proof (zlen_nonneg (tagb num WT_LEN)). pose proof (zlen_nonneg (vint (zlen (body ty v)))). pose proof (zlen_nonneg (body ty v)).
        eapply writes_bind; [apply R2; lia|]. intros ws Hws. left. eexists. split; [reflexivity|].
        rewrite !flat_cons, wtag_bytes by (try lia; unfold WT_LEN; lia). rewrite Hws, saturate_id by lia. cbn [wop_bytes]. subst s.
        rewrite pack_small; [reflexivity|reflexivity|]. unfold max_message_size in *. cbn [enc_bits vbits]. lia.
    Qed.

    Lemma ser_list_eq num e vs : forall c, 1 <= num < 2 ^ 29 -> Forall (wt e) vs ->
      (forall ty d v, e = EMsg ty d -> In v vs -> good_sub ty v) -> zlen (concat (map (enc_elem body num e) vs)) < max_message_size ->
      writes (ser_list utf8_ok wrec num e vs (snd (sz_list srec num e vs) ++ c)) (concat (map (enc_elem body num e) vs)) c.
    Proof.
      induction vs as [|v vs IH]; intros c Hn Hw Hr Hl; cbn [ser_list sz_list map concat] in *.
      - left. exists []. split; reflexivity.
      - inversion Hw; subst. rewrite zlen_app in Hl. pose proof (zlen_nonneg (enc_elem body num e v)). pose proof (zlen_nonneg (concat (map (enc_elem body num e) vs))).
        unfold add_sz. cbn [snd]. rewrite <- app_assoc. eapply writes_seq.
        + apply ser_elem_eq; auto; [|lia]. intros. eapply Hr; eauto. left; reflexivity.
        + apply IH; auto; [|lia]. intros. eapply Hr; eauto. right; auto.
    Qed.

    Lemma ser_field_eq f vs c : (forall n, In n (nums f) -> 1 <= n < 2 ^ 29) -> cell f vs ->
      (forall ty v, sub_msg f vs ty v -> good_sub ty v) -> zlen (enc_field body f vs) < max_message_size ->
      writes (ser_field utf8_ok wrec f vs (snd (sz_field srec f vs) ++ c)) (enc_field body f vs) c.
    Proof.
      intros Hn Hc Hr Hl. inversion Hc; subst; cbn [nums] in Hn; try specialize (Hn num (or_introl eq_refl)).
      - cbn [ser_field sz_field enc_field map concat] in *.
        assert (K : (forall c, ser_list utf8_ok wrec num (loosen ex e) [v] c = ser_list utf8_ok wrec num e [v] c) /\
          sz_list srec num (loosen ex e) [v] = sz_list srec num e [v] /\ enc_elem body num (loosen ex e) v = enc_elem body num e v).
        { destruct e as [| | |[|]| |]; try (repeat split; reflexivity). destruct ex; repeat split; reflexivity. }
        destruct K as (K1 & K2 & K3). rewrite <- K1, <- K2, <- K3 in *. apply (ser_list_eq num (loosen ex e) [v]); auto.
        intros ty d0 w He [->|[]]. apply Hr. destruct e as [| | |[|]| |]; cbn in He; try discriminate; [destruct ex; discriminate|].
        injection He as -> ->. constructor. left; reflexivity.
      - left. exists []. split; reflexivity.
      - cbn [ser_field sz_field enc_field] in *. apply ser_list_eq; auto. intros ty d w -> Hi. apply Hr. constructor. auto.
      - match goal with H : elems _ _ _ _ |- _ => apply elems_forall in H; rename H into Hvs end.
        assert (Hll : zlen (concat (map (enc_elem body num e) vs)) < max_message_size ->
          writes (ser_list utf8_ok wrec num e vs (snd (sz_list srec num e vs) ++ c)) (concat (map (enc_elem body num e) vs)) c).
        { apply ser_list_eq; auto. intros ty d w -> Hi. apply Hr. constructor. auto. }
        cbn [ser_field sz_field enc_field] in *. destruct pk; cbn [andb]; [|auto]. destruct (packable e) eqn:Hp; [|auto].
        clear Hll. unfold enc_packed in *. rewrite !zlen_app in Hl. pose proof (packed_scalar e Hp) as Hs.
        set (p := concat (map (enc_scalar e) vs)) in *.
        pose proof (zlen_nonneg (tagb num WT_LEN)). pose proof (zlen_nonneg (vint (zlen p))). pose proof (zlen_nonneg p).
        pose proof (packed_ops_eq e vs c Hvs Hs ltac:(fold p; lia)) as K. fold p in K.
        assert (Hpk : pack_varint VU32 (zlen p) = vint (zlen p) /\ pack_varint VU64 (zlen p) = vint (zlen p)).
        { split; (apply pack_small; [reflexivity|]; unfold max_message_size in *; cbn [enc_bits vbits]; lia). }
        destruct e; try discriminate; cbn [snd app].
        + rewrite sum_sizes_eq with (u8 := u8) (E := E) by auto. fold p. rewrite saturate_id by lia.
          destruct (packed_ops utf8_ok (EVar t) vs) as [w| | | |]; cbn [bind] in *; destruct K as [(ws & K & K')|[K Hb]]; try discriminate.
          * injection K as <-. left. eexists. split; [reflexivity|]. rewrite !flat_cons, wtag_bytes by (try lia; unfold WT_LEN; lia). cbn [wop_bytes].
            rewrite (proj1 Hpk), K'. reflexivity.
          * injection K as ->. right. auto.
        + pose proof (sum_const E u8 EBool vs 1 (bool_len E u8) Hvs) as Kc. fold p in Kc.
          destruct (packed_ops utf8_ok EBool vs) as [w| | | |]; cbn [bind] in *; destruct K as [(ws & K & K')|[K Hb]]; try discriminate.
          * injection K as <-. left. eexists. split; [reflexivity|]. rewrite !flat_cons, wtag_bytes by (try lia; unfold WT_LEN; lia). cbn [wop_bytes].
            replace (zlen vs) with (zlen p) by lia. rewrite (proj2 Hpk), K'. unfold flat. cbn. rewrite app_nil_r. reflexivity.
          * injection K as ->. right. auto.
        + pose proof (sum_const E u8 _ vs _ (fix_len E u8 is64 fl) Hvs) as Kc. fold p in Kc.
          destruct (packed_ops utf8_ok (EFix is64 fl) vs) as [w| | | |]; cbn [bind] in *; destruct K as [(ws & K & K')|[K Hb]]; try discriminate.
          * injection K as <-. left. eexists. split; [reflexivity|]. rewrite !flat_cons, wtag_bytes by (try lia; unfold WT_LEN; lia). cbn [wop_bytes].
            rewrite <- Kc. rewrite (proj2 Hpk), K'. unfold flat. cbn. rewrite app_nil_r. reflexivity.
          * injection K as ->. right. auto.
        + rewrite sum_sizes_eq with (u8 := u8) (E := E) by auto. fold p. rewrite saturate_id by lia.
          destruct (packed_ops utf8_ok (EEnum closed) vs) as [w| | | |]; cbn [bind] in *; destruct K as [(ws & K & K')|[K Hb]]; try discriminate.
          * injection K as <-. left. eexists. split; [reflexivity|]. rewrite !flat_cons, wtag_bytes by (try lia; unfold WT_LEN; lia). cbn [wop_bytes].
            rewrite (proj1 Hpk), K'. reflexivity.
          * injection K as ->. right. auto.
      - match goal with H : elems _ _ _ _ |- _ => apply elems_forall in H; rename H into Hvs end.
        cbn [ser_field sz_field enc_field] in *. apply ser_list_eq; auto. intros ty d w -> Hi. apply Hr. constructor. auto.
      - left. exists []. split; reflexivity.
      - cbn [ser_field sz_field enc_field] in *. match goal with H : nth_error _ _ = _ |- _ => rename H into Hj end. rewrite Hj in *.
        apply ser_elem_eq; auto.
        + apply Hn. apply nth_error_In in Hj. apply (in_map fst) in Hj. exact Hj.
        + intros ty d ->. apply Hr. econstructor; eauto.
    Qed.

    Lemma ser_fields_eq fds : forall fs c, (forall f n, In f fds -> In n (nums f) -> 1 <= n < 2 ^ 29) -> cells fds fs ->
      (forall f c ty v, In (f, c) (combine fds fs) -> sub_msg f c ty v -> good_sub ty v) ->
      zlen (enc_fields body fds fs) < max_message_size ->
      writes (ser_fields utf8_ok wrec fds fs (snd (sz_fields srec fds fs) ++ c)) (enc_fields body fds fs) c.
    Proof.
      induction fds as [|f fds IH]; intros fs c Hn Hc Hr Hl; inversion Hc; subst; cbn [ser_fields sz_fields enc_fields] in *.
      - left. exists []. split; reflexivity.
      - unfold add_sz. cbn [snd]. rewrite <- app_assoc. rewrite zlen_app in Hl.
        match goal with |- context [omit f ?x] => rename x into cl end.
        pose proof (zlen_nonneg (if omit f cl then [] else enc_field body f cl)). pose proof (zlen_nonneg (enc_fields body fds fs0)).
        eapply writes_seq.
        + destruct (omit f cl); [left; exists []; split; reflexivity|]. apply ser_field_eq; auto; [| |lia].
          * intros n. apply Hn. left; reflexivity.
          * intros ty v. apply Hr. left; reflexivity.
        + apply IH; auto; [| |lia].
          * intros g n Hg. apply Hn. right; auto.
          * intros g c' ty v Hg. apply Hr. right; auto.
    Qed.
  End Ser.

  Hypothesis Hlegal : legal_numbers E.

  Lemma unk_ops_flat k u : flat (unk_ops k u) = enc_unknown k u.
  Proof.
    assert (H : flat (map (fun p => WRaw (snd p)) u) = concat (map snd u)).
    { unfold flat. rewrite map_map. reflexivity. }
    destruct k; cbn; auto.
  Qed.

  (** The writing pass consumes the entries stored by the size pass and produces
      the bytes of the specification. *)
  Theorem ser_eq ty v : wt (EMsg ty false) v -> forall d, cnt_msg E maxd d ty v <> None ->
    zlen (enc_msg E ty v) < max_message_size -> forall c,
    writes (ser_msg E utf8_ok maxd d ty v (snd (sz_msg E ty v) ++ c)) (enc_msg E ty v) c.
  Proof.
    revert ty v. apply (nested_ind_msg E (fun ty v => wt (EMsg ty false) v -> forall d, cnt_msg E maxd d ty v <> None ->
      zlen (enc_msg E ty v) < max_message_size -> forall c, writes (ser_msg E utf8_ok maxd d ty v (snd (sz_msg E ty v) ++ c)) (enc_msg E ty v) c)).
    intros ty v IH Hw d Hd Hl c. inversion Hw; subst. cbn [cnt_msg ser_msg sz_msg enc_msg] in *. unfold holds in IH. cbn [msg_fields] in IH.
    destruct (scope_ok maxd d); [|congruence]. rewrite zlen_app in Hl.
    pose proof (zlen_nonneg (enc_unknown (m_unk (desc_of E ty)) u)).
    pose proof (ser_fields_eq (fun ty' v' c' => ser_msg E utf8_ok maxd (d + 1) ty' v' c') (fun ty' v' => sz_msg E ty' v') (fun ty' v' => enc_msg E ty' v')
      (m_fields (desc_of E ty)) fs c) as K.
    destruct (sz_fields (fun ty' v' => sz_msg E ty' v') (m_fields (desc_of E ty)) fs) as [s cc] eqn:Es. cbn [snd] in *.
    eapply writes_bind; [apply K|].
    - intros f n. apply Hlegal.
    - assumption.
    - intros f c' ty' v' Hi Hs.
      assert (Hw' : wt (EMsg ty' false) v') by (eapply cell_sub; [|exact Hs]; eapply cells_in; eauto).
      split; [eapply size_eq; eauto|].
      intros Hl' c0. eapply IH; eauto. intros Hc. apply Hd. apply cnt_fields_none. eauto 8.
    - change (fun ty' v' => enc_msg E ty' v') with (enc_msg E). lia.
    - intros ws Hws. left. eexists. split; [reflexivity|]. rewrite flat_app, unk_ops_flat, Hws. reflexivity.
  Qed.

  (** write_binpb: the whole procedure. *)
  Theorem plan_eq ty v : wt (EMsg ty false) v ->
    match cnt_msg E maxd 0 ty v with
    | None => plan E utf8_ok maxd ty v = Err BadMessage
    | Some _ =>
        if max_message_size <=? zlen (enc_msg E ty v) then plan E utf8_ok maxd ty v = Err TooLarge
        else (exists ws, plan E utf8_ok maxd ty v = Ok (zlen (enc_msg E ty v), ws) /\ flat ws = enc_msg E ty v) \/
          (plan E utf8_ok maxd ty v = Err BadMessage /\ exists b, u8 b = true /\ utf8_ok b = false)
    end.
  Proof.
    intros Hw. unfold plan. destruct (cnt_msg E maxd 0 ty v) as [n|] eqn:Kc; [|reflexivity].
    pose proof (count_eq ty v 0 n Kc) as Hn. assert (Hs : fst (sz_msg E ty v) = zlen (enc_msg E ty v)) by (eapply size_eq; eauto).
    pose proof (ser_eq ty v Hw 0 ltac:(congruence)) as K.
    destruct (sz_msg E ty v) as [s c] eqn:Es. cbn [fst snd] in *. subst n s.
    destruct (Nat.ltb_spec (length c) (length c)); [lia|].
    destruct (Z.leb_spec max_message_size (zlen (enc_msg E ty v))) as [Hb|Hb]; [reflexivity|].
    rewrite Nat.sub_diag. cbn [repeat]. specialize (K Hb []).
    destruct K as [(ws & -> & H1)|[-> Hu]]; cbn [bind]; [left; eauto|right; auto].
  Qed.
End Passes.
