(** The decoder over the reference archive computes the record specification:
    retained unknown fields, the message loop, whole messages. *)
Require Import Verif.Bits Verif.Varint Verif.VarintSpec Verif.VarintProofs Verif.VarintFacts Verif.VarintMain.
Require Import Verif.Schema Verif.Archive Verif.Decode Verif.DecodeSafe Verif.Wire Verif.WireFacts.
Require Import Verif.DecodeSpec1 Verif.DecodeSpec2 Verif.DecodeSpec3.

Lemma tb_app_raws tb pb rs : tb ++ pb ++ raws rs = (tb ++ pb) ++ raws rs.
Proof. apply app_assoc. Qed.

Section Spec.
  Context (E : env) (utf8_ok : bytes -> bool) (maxd : Z).
  Hypothesis Hse : safe_env E.
  Notation tokB := (tokB maxd).
  Notation grpB := (grpB maxd).
  Notation dl := (dec_loop zops E utf8_ok maxd).

  (** A run of records of an unknown field, found by comparing tags. *)
  Lemma match_run tag mode depth f : tag_type tag <> WT_EGROUP -> 0 < tag ->
    forall n z, all_bytes (za z) -> (length (za z) < n)%nat -> (length (za z) < f)%nat ->
    match tokB mode depth (za z) with
    | TOk (rs, rest) => exists run rs' bs',
        rs = run ++ rs' /\ za z = raws run ++ bs' /\ tokB mode depth bs' = TOk (rs', rest) /\
        Forall (fun r => r_tag r = tag) run /\ skip_match_loop zops maxd n f depth tag z = Ok (pos z bs')
    | TErr => is_err (skip_match_loop zops maxd n f depth tag z) \/
        exists c bs', za z = c ++ bs' /\ tokB mode depth bs' = TErr /\ skip_match_loop zops maxd n f depth tag z = Ok (pos z bs')
    | _ => True
    end.
  Proof.
    intros Heg Hnz. induction n as [|n IH]; intros z Hb Hn Hf; [lia|]. cbn [skip_match_loop].
    pose proof (z_match_spec tag z Hb ltac:(lia)) as Hm. rewrite tokB_eq. cbn [a_match zops].
    destruct (za z) as [|b0 t0] eqn:Hz.
    { cbn in Hm. rewrite Hm. cbn [bind]. destruct mode.
      - right. exists [], []. split; [reflexivity|]. split; [rewrite tokB_eq; reflexivity|]. rewrite <- Hz, pos_self. reflexivity.
      - exists [], [], []. split; [reflexivity|]. split; [reflexivity|]. split; [rewrite tokB_eq; reflexivity|].
        split; [constructor|]. rewrite <- Hz, pos_self. reflexivity. }
    rewrite <- Hz in *. 
    destruct (tok_tag (za z)) as [[[tb tag'] bs1]| | |] eqn:Kt; cbn [tbind]; auto.
    2: { rewrite Hm. cbn [bind]. right. exists [], (za z). rewrite pos_self. repeat split; auto.
         rewrite tokB_eq. rewrite Hz at 1. rewrite Kt. reflexivity. }
    assert (Hunf : tokB mode depth (za z) =
      (if match mode with Some num => (tag_type tag' =? WT_EGROUP) && (tag_number tag' =? num) | None => false end
       then TOk ([], bs1)
       else '(p, sub, bs2) <~ tok_pay (grpB depth) tag' bs1 ;;
            '(rs, rest) <~ tokB mode depth bs2 ;; TOk (Rec tb tag' (used bs1 bs2) p sub :: rs, rest))).
    { rewrite tokB_eq. rewrite Hz at 1. rewrite Kt. reflexivity. }
    rewrite <- Hunf.
    rewrite Hm. destruct ((tag' =? tag) && (length tb <=? 4)%nat) eqn:Heq; cbn [bind].
    2: { destruct (tokB mode depth (za z)) as [[rs rest]| | |] eqn:Kz; auto.
         - exists [], rs, (za z). rewrite pos_self. repeat split; auto.
         - right. exists [], (za z). rewrite pos_self. repeat split; auto. }
    apply andb_true_iff in Heq. destruct Heq as [Heq _]. apply Z.eqb_eq in Heq. subst tag'.
    replace (match mode with Some num => (tag_type tag =? WT_EGROUP) && (tag_number tag =? num) | None => false end) with false in Hunf
      by (destruct mode; [|reflexivity]; destruct (Z.eqb_spec (tag_type tag) WT_EGROUP); [congruence|reflexivity]).
    rewrite Hunf. clear b0 t0 Hz Hunf.
    destruct (tok_tag_ok _ _ _ _ Kt) as (m & _ & Hm1 & Hm2 & _ & _ & Hbs & Happ).
    pose proof (pos_za _ _ _ Happ) as Hz1. pose proof (all_bytes_pos _ _ _ Happ Hb) as Hb1.
    assert (Hl1 : (length bs1 < length (za z))%nat) by (rewrite Hbs, skipn_length; lia).
    set (z1 := pos z bs1) in *.
    pose proof (skip_one_spec maxd f depth tag z1 Hb1 ltac:(rewrite Hz1; lia)) as Hsk. unfold skips in Hsk. rewrite Hz1 in Hsk.
    destruct (tok_pay (grpB depth) tag bs1) as [[[p sub] bs2]| | |] eqn:Kp; cbn [tbind]; auto.
    rewrite Hsk. cbn [bind]. rewrite <- Hz1 in Kp.
    destruct (pay_cut maxd depth _ _ _ _ _ Hb1 Kp) as (c & Hc & Hz2 & Hb2 & Hl2 & Hpp). rewrite Hz1 in Hl2.
    specialize (IH (pos z1 bs2) Hb2 ltac:(rewrite Hz2; lia) ltac:(rewrite Hz2; lia)). rewrite Hz2 in IH.
    assert (Hpp' : forall x y, bs2 = x ++ y -> pos (pos z1 bs2) y = pos z y).
    { intros x y Hxy. rewrite Hxy. rewrite (pos_pos z1 c) by congruence.
      unfold z1. assert (Hx : bs1 = (c ++ x) ++ y) by (rewrite <- app_assoc, <- Hxy; congruence).
      rewrite Hx. apply (pos_pos z tb). congruence. }
    destruct (tokB mode depth bs2) as [[rs rest]| | |] eqn:K2; cbn [tbind]; auto.
    - destruct IH as (run & rs' & bs' & -> & H1 & H2 & H3 & ->).
      exists (Rec tb tag (used bs1 bs2) p sub :: run), rs', bs'. repeat split; auto.
      + unfold raws. cbn [map concat]. unfold r_raw at 1. cbn [r_tb r_pb].
        rewrite <- !app_assoc. fold (raws run). rewrite <- H1, Happ. f_equal.
        rewrite <- Hz1, Hc, used_app. reflexivity.
      + f_equal. eapply Hpp'; eauto.
    - destruct IH as [IH|(d & bs' & H1 & H2 & ->)]; [left; auto|].
      right. exists (tb ++ c ++ d), bs'. repeat split; auto.
      + rewrite Happ, <- !app_assoc, <- H1, <- Hc, Hz1. reflexivity.
      + f_equal. eapply Hpp'; eauto.
  Qed.

  Section Loop.
    Variables (f : nat) (body : nat -> Z -> state -> list Wire.rec -> tres state) (mode : option Z) (ty : nat) (depth : Z).
    Hypothesis Hnext : forall fs unk z, all_bytes (za z) -> (length (za z) < f)%nat ->
      match tokB mode depth (za z) with
      | TOk (rs, rest) =>
          agree (st1 <~ ap_recs E utf8_ok maxd body ty depth (fs, unk) rs ;; TOk (VMsg (fst st1) (snd st1)))
            (dl f mode ty fs unk depth z) (pos z rest)
      | TErr => is_err (dl f mode ty fs unk depth z)
      | TDev => True
      | TFuel => False
      end.

    (** Records of an unknown field that is retained. *)
    Lemma ap_unknown_run tag fs rs' : m_unk (desc_of E ty) <> UNone -> tag_number tag <> 0 ->
      find_field (tag_number tag) (m_fields (desc_of E ty)) 0 = None ->
      forall run unk, Forall (fun r => r_tag r = tag) run ->
      ap_recs E utf8_ok maxd body ty depth (fs, unk) (run ++ rs') =
      if forallb (fun r => zlen (r_tb r) =? varint_size_u tag) run
      then ap_recs E utf8_ok maxd body ty depth
             (fs, match run with [] => unk | _ => unk_add (m_unk (desc_of E ty)) (tag_number tag) (raws run) unk end) rs'
      else TDev.
    Proof.
      intros Hk Hnz Hff. induction run as [|r run IH]; intros unk Hall; [reflexivity|].
      inversion Hall as [|? ? Ht Hall']; subst. cbn [app ap_recs forallb].
      assert (Hone : ap_rec E utf8_ok maxd body ty depth (fs, unk) r =
        if zlen (r_tb r) =? varint_size_u (r_tag r)
        then TOk (fs, unk_add (m_unk (desc_of E ty)) (tag_number (r_tag r)) (r_raw r) unk) else TDev).
      { unfold ap_rec. destruct (Z.eqb_spec (tag_number (r_tag r)) 0); [congruence|]. rewrite Hff. unfold ap_unknown.
        destruct (m_unk (desc_of E ty)); [congruence| | |]; destruct (_ =? varint_size_u _); reflexivity. }
      rewrite Hone. destruct (zlen (r_tb r) =? varint_size_u (r_tag r)); [|reflexivity]. cbn [tbind andb].
      rewrite IH by auto. destruct (forallb _ run); [|reflexivity]. f_equal. f_equal.
      destruct run as [|r2 run].
      - unfold raws. cbn. rewrite app_nil_r. reflexivity.
      - rewrite <- unk_add_app. reflexivity.
    Qed.

    Lemma varint_size_u_nonneg v : 0 <= varint_size_u v.
    Proof.
      unfold varint_size_u, bit_width. destruct (_ <=? 0); [lia|].
      pose proof (Z.log2_nonneg (Z.lor v 1)). lia.
    Qed.

    (** Skipping a retained unknown field: all records of the run at once. *)
    Lemma unknown_step tag tb fs unk z z1 :
      tok_tag (za z) = TOk (tb, tag, za z1) -> z1 = pos z (za z1) ->
      all_bytes (za z) -> (length (za z1) < f)%nat ->
      m_unk (desc_of E ty) <> UNone -> tag_number tag <> 0 ->
      find_field (tag_number tag) (m_fields (desc_of E ty)) 0 = None ->
      goal E utf8_ok maxd body mode ty depth (fs, unk) tb tag z1
        (bind ('(unk1, a1) <- skip_field zops maxd f (m_unk (desc_of E ty)) depth tag unk z1 ;; Ok (fs, unk1, a1))
              (cont E utf8_ok maxd f mode ty depth)).
    Proof.
      intros Ktag Hz1 Hb Hf Hk Hnz Hff. pose proof (tag_number_nz _ Hnz) as Ht0.
      assert (Ht1 : 0 < tag) by (pose proof (tok_tag_range _ _ _ _ Ktag); lia).
      destruct (tok_tag_ok _ _ _ _ Ktag) as (m & _ & Hm1 & Hm2 & Htb & _ & Hbs & Happ).
      assert (Hb1 : all_bytes (za z1)) by (rewrite Happ in Hb; apply all_bytes_app in Hb; tauto).
      unfold goal. pose proof (skip_one_spec maxd f depth tag z1 Hb1 Hf) as Hsk. unfold skips in Hsk.
      set (K := m_unk (desc_of E ty)) in *.
      (* shape of skip_field *)
      assert (Hshape : skip_field zops maxd f K depth tag unk z1 =
        (a1 <- skip_fields_match_tag zops maxd f depth tag z1 ;;
         let len := zlen (za (z_unwind tag z1)) - zlen (za a1) in
         '(b, _) <- z_take (Z.to_nat len * 1) {| zb := zb (z_unwind tag z1); za := firstn (Z.to_nat len) (za (z_unwind tag z1)) |} ;;
         Ok (unk_add K (tag_number tag) b unk, a1))).
      { unfold skip_field. destruct K; [congruence|reflexivity|reflexivity|reflexivity]. }
      unfold skip_fields_match_tag in Hshape.
      destruct (tok_pay (grpB depth) tag (za z1)) as [[[p sub] bs2]| | |] eqn:Kp; auto.
      2: { destruct Hsk as [e He]. rewrite Hshape, He. cbn. auto. }
      rewrite Hsk in Hshape. cbn [bind] in Hshape.
      assert (Heg : tag_type tag <> WT_EGROUP).
      { intros Heg. unfold tok_pay in Kp. rewrite Heg in Kp. destruct (tag =? 0); discriminate. }
      destruct (pay_cut maxd depth _ _ _ _ _ Hb1 Kp) as (c & Hc & Hz2 & Hb2 & Hl2 & Hpp).
      set (z2 := pos z1 bs2) in *.
      pose proof (match_run tag mode depth f Heg Ht1 f z2 Hb2 ltac:(rewrite Hz2; lia) ltac:(rewrite Hz2; lia)) as Hrun.
      rewrite Hz2 in Hrun.
      (* the step succeeds wherever the run ends *)
      assert (Hstep : forall d bs', bs2 = d ++ bs' -> skip_match_loop zops maxd f f depth tag z2 = Ok (pos z2 bs') ->
        exists u, skip_field zops maxd f K depth tag unk z1 = Ok (u, pos z1 bs') /\
          (zlen tb = varint_size_u tag -> u = unk_add K (tag_number tag) (tb ++ c ++ d) unk)).
      { intros d bs' Hd Hm. rewrite Hshape, Hm. cbn [bind].
        assert (Hp2 : pos z2 bs' = pos z1 bs') by (unfold z2; rewrite Hd; apply (pos_pos z1 c); congruence).
        rewrite Hp2. cbv zeta.
        assert (Hza' : za (pos z1 bs') = bs') by (apply (pos_za z1 (c ++ d)); rewrite <- app_assoc, <- Hd; exact Hc).
        rewrite Hza'.
        pose proof (unwind_len tag z1) as Hu. set (w := z_unwind tag z1) in *.
        assert (Hlen : (length bs' <= length (za w))%nat).
        { rewrite Hc, Hd, !app_length in Hu. lia. }
        set (len := zlen (za w) - zlen bs').
        assert (Hlen2 : (Z.to_nat len <= length (za w))%nat) by (unfold len, zlen; lia).
        unfold z_take. cbn [za]. rewrite firstn_length, Nat.min_l, Nat.mul_1_r by auto. rewrite Nat.leb_refl. cbn [bind].
        rewrite firstn_firstn, Nat.min_id. eexists; split; [reflexivity|].
        intros Hcan. f_equal. 
        assert (Hzb : zb z1 = rev tb ++ zb z).
        { rewrite Hz1. rewrite (pos_app _ _ _ Happ). unfold zadv. cbn [zb]. rewrite Happ at 1.
          rewrite firstn_app, firstn_all, Nat.sub_diag. cbn. rewrite app_nil_r. reflexivity. }
        assert (Hw : za w = tb ++ za z1).
        { unfold w, z_unwind. cbn [za]. rewrite <- Hcan. unfold zlen. rewrite Nat2Z.id, Hzb.
          rewrite <- (rev_length tb), firstn_app, firstn_all, Nat.sub_diag. cbn. rewrite app_nil_r, rev_involutive. reflexivity. }
        unfold len. rewrite Hw, Hc, Hd.
        replace (Z.to_nat (zlen (tb ++ c ++ d ++ bs') - zlen bs')) with (length (tb ++ c ++ d))
          by (unfold zlen; rewrite !app_length; lia).
        replace (tb ++ c ++ d ++ bs') with ((tb ++ c ++ d) ++ bs') by (rewrite <- !app_assoc; reflexivity).
        rewrite firstn_app, firstn_all, Nat.sub_diag. cbn. apply app_nil_r. }
      assert (Hcontpos : forall d bs', bs2 = d ++ bs' -> all_bytes (za (pos z1 bs')) /\ za (pos z1 bs') = bs' /\
         (length (za (pos z1 bs')) < f)%nat /\ forall rs rest, tokB mode depth bs' = TOk (rs, rest) -> pos (pos z1 bs') rest = pos z1 rest).
      { intros d bs' Hd.
        assert (Hc' : za z1 = (c ++ d) ++ bs') by (rewrite <- app_assoc, <- Hd; exact Hc).
        split; [eapply all_bytes_pos; eauto|]. rewrite (pos_za _ _ _ Hc'). split; [reflexivity|].
        split. { apply (f_equal (@length Z)) in Hc'. rewrite app_length in Hc'. lia. }
        intros rs rest Hr. destruct (tokB_rest _ _ _ _ _ _ Hr) as [q Hq]. rewrite Hq. eapply pos_pos. rewrite <- Hq. exact Hc'. }
      destruct (tokB mode depth bs2) as [[rs rest]| | |] eqn:Kt; auto.
      - destruct Hrun as (run & rs' & bs' & -> & Hd & Ht' & Hall & Hm).
        destruct (Hstep _ _ Hd Hm) as (u & Hu & Hcan). rewrite Hu. cbn [bind cont].
        destruct (Hcontpos _ _ Hd) as (Hbb & Hzz & Hlz & Hpz).
        pose proof (fun fs unk => Hnext fs unk _ Hbb Hlz) as IH. rewrite Hzz, Ht' in IH. rewrite (Hpz _ _ Ht') in IH.
        set (r1 := Rec tb tag (used (za z1) bs2) p sub).
        change (r1 :: run ++ rs') with ((r1 :: run) ++ rs').
        rewrite (ap_unknown_run tag fs rs' Hk Hnz Hff) by (constructor; auto). cbn [forallb].
        change (zlen (r_tb r1)) with (zlen tb).
        destruct (Z.eqb_spec (zlen tb) (varint_size_u tag)) as [Hc1|Hc1]; cbn [andb].
        2: { cbn [tbind agree]. eapply agree_oe. apply IH. }
        destruct (forallb _ run).
        + rewrite (Hcan Hc1). assert (Hraw : raws (r1 :: run) = tb ++ c ++ raws run).
          { unfold raws. cbn [map concat]. unfold r_raw at 1. cbn [r_tb r_pb r1]. rewrite Hc, used_app, <- app_assoc. reflexivity. }
          rewrite Hraw. apply IH.
        + cbn [tbind agree]. eapply agree_oe. apply IH.
      - destruct Hrun as [[e He]|(d & bs' & Hd & Ht' & Hm)].
        + rewrite Hshape, He. cbn. auto.
        + destruct (Hstep _ _ Hd Hm) as (u & Hu & _). rewrite Hu. cbn [bind cont].
          destruct (Hcontpos _ _ Hd) as (Hbb & Hzz & Hlz & Hpz).
          pose proof (Hnext fs u _ Hbb Hlz) as IH. rewrite Hzz, Ht' in IH. exact IH.
    Qed.
  End Loop.

  (** A member read in runs of equal tags. *)
  Lemma unpacked_step f body mode ty depth tag i fd e one :
    (forall fs unk z, all_bytes (za z) -> (length (za z) < f)%nat ->
      match tokB mode depth (za z) with
      | TOk (rs, rest) =>
          agree (st1 <~ ap_recs E utf8_ok maxd body ty depth (fs, unk) rs ;; TOk (VMsg (fst st1) (snd st1)))
            (dl f mode ty fs unk depth z) (pos z rest)
      | TErr => is_err (dl f mode ty fs unk depth z)
      | TDev => True
      | TFuel => False
      end) ->
    tag_number tag <> 0 ->
    find_field (tag_number tag) (m_fields (desc_of E ty)) 0 = Some (i, fd) ->
    (forall cur unk tb pb z, all_bytes (za z) -> (length (za z) < f)%nat ->
        agree_pay z (tok_pay (grpB depth) tag (za z))
          (fun p sub => ap_field E utf8_ok maxd body (m_unk (desc_of E ty)) fd depth cur unk (Rec tb tag pb p sub))
          (one cur unk z)) ->
    (tag_type tag <> elem_wt e -> forall cur unk tb pb p sub,
       ap_field E utf8_ok maxd body (m_unk (desc_of E ty)) fd depth cur unk (Rec tb tag pb p sub) = TErr) ->
    forall fs unk tb z1, all_bytes (za z1) -> (length (za z1) < f)%nat ->
    goal E utf8_ok maxd body mode ty depth (fs, unk) tb tag z1
      (bind ('(cur, unk1, z2) <- dec_unpacked zops maxd one f e tag depth (nth i fs []) unk z1 ;; Ok (set_nth i cur fs, unk1, z2))
            (cont E utf8_ok maxd f mode ty depth)).
  Proof.
    intros Hnext Hnz Hff Hone Hbad fs unk tb z1 Hb Hf. unfold dec_unpacked.
    destruct (Z.eqb_spec (tag_type tag) (elem_wt e)) as [Hwt|Hwt]; cbn [negb].
    2: { unfold goal. cbn [bind]. destruct (tok_pay _ _ _) as [[[p sub] bs2]| | |]; auto.
         destruct (tokB mode depth bs2) as [[rs rest]| | |]; auto.
         cbn [ap_recs]. unfold ap_rec. cbn [r_tag]. destruct (Z.eqb_spec (tag_number tag) 0); [congruence|].
         rewrite Hff, Hbad by auto. cbn. auto. }
    assert (Heg : tag_type tag <> WT_EGROUP).
    { rewrite Hwt. destruct e as [| |[]| | |? []]; discriminate. }
    destruct (count_loop zops maxd f f depth tag z1) as [c|err| | |] eqn:Kc.
    - cbn [bind]. destruct (count_loop_ok maxd depth _ _ _ _ _ Kc) as [c' ->].
      eapply run_step; eauto.
    - cbn [bind]. pose proof (count_loop_err E utf8_ok maxd f body mode ty depth Hnext tag f z1 err Hb Hf Heg Kc) as He. unfold goal.
      destruct (tok_pay _ _ _) as [[[p sub] bs2]| | |]; auto.
      destruct (tokB mode depth bs2) as [[rs rest]| | |]; auto; tauto.
    - exfalso. pose proof (count_loop_safe maxd f f depth tag z1 Hf Hf) as Ho. rewrite Kc in Ho. exact Ho.
    - exfalso. pose proof (count_loop_safe maxd f f depth tag z1 Hf Hf) as Ho. rewrite Kc in Ho. exact Ho.
    - exfalso. pose proof (count_loop_safe maxd f f depth tag z1 Hf Hf) as Ho. rewrite Kc in Ho. exact Ho.
  Qed.

  Lemma dl_end f : rec_end (dl f).
  Proof.
    induction f as [|f IH]; intros ty fs unk depth z v z'; [discriminate|]. cbn [dec_loop].
    cbn [a_avail zops]. destruct (Z.leb_spec (zlen (za z)) 0).
    - destruct (Z.eqb_spec (zlen (za z)) 0) as [Hz|]; [|discriminate]. intros [= <- <-].
      destruct (za z) as [|b t]; [reflexivity|]. rewrite zlen_cons in Hz. pose proof (zlen_nonneg t). lia.
    - destruct (a_tag zops z) as [[tag z1]| | | |]; cbn [bind]; try discriminate.
      destruct (dec_by_tag _ _ _ _ _ _ _ _ _ _ _ _) as [[[fs1 unk1] z2]| | | |]; cbn [bind]; try discriminate.
      apply IH.
  Qed.

  (** The decoding loop computes the specification. *)
  Theorem dec_loop_spec : forall fuel fuel', (fuel <= fuel')%nat -> forall mode ty fs unk depth z,
    all_bytes (za z) -> (length (za z) < fuel)%nat ->
    match tokB mode depth (za z) with
    | TOk (rs, rest) => agree (body_val (ap_body E utf8_ok maxd fuel') ty depth fs unk rs) (dl fuel mode ty fs unk depth z) (pos z rest)
    | TErr => is_err (dl fuel mode ty fs unk depth z)
    | TDev => True
    | TFuel => False
    end.
  Proof.
    induction fuel as [|f IH]; intros fuel' Hle mode ty fs unk depth z Hb Hfuel; [lia|].
    destruct fuel' as [|f']; [lia|]. assert (Hle' : (f <= f')%nat) by lia.
    set (body := ap_body E utf8_ok maxd f').
    assert (Hspec : rec_spec maxd f (dl f) body) by (exact (IH f' Hle')).
    assert (Hsafe : rec_safe f (dl f)) by (apply dec_loop_safe; exact Hse).
    assert (Hend : rec_end (dl f)) by apply dl_end.
    assert (Hbv : forall rs fs unk, body_val (ap_body E utf8_ok maxd (S f')) ty depth fs unk rs =
      (st1 <~ ap_recs E utf8_ok maxd body ty depth (fs, unk) rs ;; TOk (VMsg (fst st1) (snd st1)))).
    { intros. unfold body_val. cbn [ap_body]. fold body. destruct (ap_recs _ _ _ _ _ _ _ rs) as [[? ?]| | |]; reflexivity. }
    assert (Hnext : forall fs unk z, all_bytes (za z) -> (length (za z) < f)%nat ->
      match tokB mode depth (za z) with
      | TOk (rs, rest) =>
          agree (st1 <~ ap_recs E utf8_ok maxd body ty depth (fs, unk) rs ;; TOk (VMsg (fst st1) (snd st1)))
            (dl f mode ty fs unk depth z) (pos z rest)
      | TErr => is_err (dl f mode ty fs unk depth z)
      | TDev => True
      | TFuel => False
      end).
    { intros fs0 unk0 z0 Hb0 Hl0. specialize (IH (S f') ltac:(lia) mode ty fs0 unk0 depth z0 Hb0 Hl0).
      destruct (tokB mode depth (za z0)) as [[rs rest]| | |]; auto. rewrite Hbv in IH. exact IH. }
    rewrite tokB_eq. cbn [dec_loop]. cbn [a_avail a_tag zops].
    destruct (za z) as [|b0 t0] eqn:Hz.
    { cbn. destruct mode; [auto|]. cbn. rewrite <- Hz, pos_self. reflexivity. }
    replace (zlen (b0 :: t0) <=? 0) with false by (rewrite zlen_cons; pose proof (zlen_nonneg t0); lia).
    rewrite <- Hz in *. clear b0 t0 Hz. pose proof (z_tag_spec z Hb) as Ht.
    destruct (tok_tag (za z)) as [[[tb tag] bs1]| | |] eqn:Kt; cbn [tbind]; auto.
    2: { rewrite Ht. cbn [bind].
         replace (match mode with Some num => (tag_type 0 =? WT_EGROUP) && (num =? tag_number 0) | None => false end) with false
           by (destruct mode; reflexivity). unfold dec_by_tag. cbn. auto. }
    rewrite Ht. cbn [bind].
    destruct (tok_tag_ok _ _ _ _ Kt) as (m & _ & Hm & Hl & Htb & _ & Hbs & Happ).
    assert (Hlb : (length bs1 < length (za z))%nat) by (rewrite Hbs, skipn_length; lia).
    replace (match mode with Some num => (tag_type tag =? WT_EGROUP) && (num =? tag_number tag) | None => false end)
      with (match mode with Some num => (tag_type tag =? WT_EGROUP) && (tag_number tag =? num) | None => false end)
      by (destruct mode as [num|]; [rewrite (Z.eqb_sym num); reflexivity|reflexivity]).
    destruct (match mode with Some num => _ | None => _ end) eqn:Kmode; [reflexivity|].
    pose proof (pos_za _ _ _ Happ) as Hz1. pose proof (all_bytes_pos _ _ _ Happ Hb) as Hb1.
    set (z1 := pos z bs1) in *.
    assert (Hlz1 : (length (za z1) < f)%nat) by (rewrite Hz1; lia).
    enough (Hgoal : goal E utf8_ok maxd body mode ty depth (fs, unk) tb tag z1
       (bind (dec_by_tag zops E utf8_ok maxd (dl f) f ty tag depth fs unk z1) (cont E utf8_ok maxd f mode ty depth))).
    { unfold goal in Hgoal. rewrite Hz1 in Hgoal.
      change (bind (dec_by_tag zops E utf8_ok maxd (dl f) f ty tag depth fs unk z1) (cont E utf8_ok maxd f mode ty depth))
        with ('(fs1, unk1, a2) <- dec_by_tag zops E utf8_ok maxd (dl f) f ty tag depth fs unk z1 ;; dl f mode ty fs1 unk1 depth a2) in Hgoal.
      pose proof (tokB_no_fuel maxd mode depth (za z)) as Hnf. rewrite tokB_eq in Hnf.
      destruct (za z) as [|b0 t0] eqn:Hz; [cbn in Hlb; lia|]. rewrite <- Hz in *. rewrite Kt in Hnf. cbn [tbind] in Hnf. rewrite Kmode in Hnf.
      destruct (tok_pay (grpB depth) tag bs1) as [[[p sub] bs2]| | |] eqn:Kp; cbn [tbind] in *; auto.
      destruct (tokB mode depth bs2) as [[rs rest]| | |] eqn:K2; cbn [tbind] in *; auto.
      rewrite Hbv. replace (pos z rest) with (pos z1 rest); [exact Hgoal|].
      rewrite <- Hz1 in Kp. destruct (pay_cut maxd depth _ _ _ _ _ Hb1 Kp) as (c & Hc & _).
      destruct (tokB_rest _ _ _ _ _ _ K2) as [d Hd].
      unfold z1. assert (Hx : bs1 = (c ++ d) ++ rest) by (rewrite <- app_assoc, <- Hd; congruence).
      rewrite Hx. apply (pos_pos z tb). congruence. }
    unfold dec_by_tag. destruct (Z.eqb_spec (tag_number tag) 0) as [Hn0|Hn0].
    { unfold goal. cbn [bind]. destruct (tok_pay _ _ _) as [[[p sub] bs2]| | |]; auto.
      destruct (tokB mode depth bs2) as [[rs rest]| | |]; auto.
      cbn [ap_recs]. unfold ap_rec. cbn [r_tag]. rewrite Hn0. cbn. auto. }
    destruct (find_field (tag_number tag) (m_fields (desc_of E ty)) 0) as [[i fd]|] eqn:Kff.
    - destruct (find_field_spec _ _ _ _ _ Kff) as [Hin Hnum].
      assert (Hfs : field_safe (m_unk (desc_of E ty)) fd) by (exact (proj1 (Forall_forall _ _) (Hse ty) fd Hin)).
      destruct (run_field fd tag) eqn:Krun.
      + destruct fd as [num e [ex d| |pk|assoc]|alts]; cbn [run_field] in Krun; try discriminate; cbn [field_safe] in Hfs; unfold dec_field.
        * apply negb_true_iff in Krun. rewrite Krun. apply (unpacked_step f body mode ty depth tag i _ e _ Hnext Hn0 Kff).
          -- intros. apply (dec_one_spec E utf8_ok maxd f (dl f) body Hspec Hsafe Hend); auto. apply tag_number_nz; auto.
          -- intros Hwt cur u tb' pb p sub. unfold ap_field. cbn [r_tag]. rewrite Krun. unfold ap_value. cbn [r_tag].
             destruct (Z.eqb_spec (tag_type tag) (elem_wt e)); [congruence|]. reflexivity.
          -- exact Hb1.
          -- exact Hlz1.
        * apply (unpacked_step f body mode ty depth tag i _ e _ Hnext Hn0 Kff).
          -- intros. apply (dec_map_one_spec E utf8_ok maxd f (dl f) body Hspec Hsafe Hend); auto. apply tag_number_nz; auto.
          -- intros Hwt cur u tb' pb p sub. unfold ap_field. unfold ap_value. cbn [r_tag].
             destruct (Z.eqb_spec (tag_type tag) (elem_wt e)); [congruence|]. reflexivity.
          -- exact Hb1.
          -- exact Hlz1.
      + apply single_step; auto.
        pose proof (dec_field_spec E utf8_ok maxd f (dl f) body Hspec Hsafe Hend (m_unk (desc_of E ty)) fd tag depth (nth i fs []) unk tb
          (used (za z1) (match tok_pay (grpB depth) tag (za z1) with TOk (_, _, r) => r | _ => [] end)) z1 Hb1 Hlz1 (tag_number_nz _ Hn0) Hfs Hnum Krun) as Hf1.
        destruct (tok_pay (grpB depth) tag (za z1)) as [[[p sub] bs2]| | |] eqn:Kp; cbn [agree_pay] in *; auto.
        unfold ap_rec. cbn [r_tag]. destruct (Z.eqb_spec (tag_number tag) 0); [congruence|]. rewrite Kff.
        eapply agree_bind; [exact Hf1| |].
        * intros [c u] _. reflexivity.
        * intros _ [c u]. reflexivity.
    - cbn [a_avail zops]. destruct (Z.ltb_spec 0 (zlen (za z1))).
      2: { unfold goal. assert (za z1 = []) as -> by (destruct (za z1) as [|y l]; [reflexivity|rewrite zlen_cons in *; pose proof (zlen_nonneg l); lia]).
           rewrite tok_pay_nil by (intros; apply grpB_nil). cbn. auto. }
      destruct (match m_unk (desc_of E ty) with UNone => true | _ => false end) eqn:KU.
      + assert (KU' : m_unk (desc_of E ty) = UNone) by (destruct (m_unk (desc_of E ty)); congruence).
        rewrite KU'. cbn [skip_field]. apply single_step; auto.
        pose proof (skip_one_spec maxd f depth tag z1 Hb1 Hlz1) as Hsk. unfold skips in Hsk.
        destruct (tok_pay (grpB depth) tag (za z1)) as [[[p sub] bs2]| | |] eqn:Kp; cbn [agree_pay] in *; auto.
        unfold ap_rec. cbn [r_tag]. destruct (Z.eqb_spec (tag_number tag) 0); [congruence|]. rewrite Kff, KU'.
        cbn [ap_unknown tbind agree]. rewrite Hsk. reflexivity.
      + apply (unknown_step f body mode ty depth Hnext tag tb fs unk z z1); auto.
        * rewrite Hz1. exact Kt.
        * rewrite Hz1. reflexivity.
        * intros K; rewrite K in KU; discriminate.
  Qed.

  (** ** Whole messages *)

  Lemma decode_safe ty cur bs : oe (fun _ => True) (decode_bytes E utf8_ok maxd ty cur bs).
  Proof.
    unfold decode_bytes, decode, dec_msg. destruct (negb _); [exact I|].
    eapply (oe_bind (fun _ => True)); [|intros [v z] _; exact I].
    eapply (oe_bind (fun _ => True)).
    - destruct (m_entry _); [|exact I]. cbn [andb a_avail a_byte0 zops za]. destruct bs as [|b t]; [exact I|].
      destruct (0 <? _); [|exact I]. cbn. destruct (_ =? 1); exact I.
    - intros _ _. eapply oe_weaken; [apply dec_loop_safe; [exact Hse|cbn; lia]|]. auto.
  Qed.

  (** The result of read_binpb on a message [cur] of type [ty]. *)
  Definition spec_decode (ty : nat) (cur : val) (bs : bytes) : tres val :=
    if negb (scope_ok maxd 0) then TErr
    else
      '(rs, _) <~ tokB None 1 bs ;;
      '(fs, unk) <~ ap_body E utf8_ok maxd (S (length bs)) ty 1 (msg_fields cur, msg_unk cur) rs ;;
      TOk (VMsg fs unk).

  Theorem decode_bytes_spec ty cur bs : all_bytes bs -> m_entry (desc_of E ty) = false ->
    match spec_decode ty cur bs with
    | TOk v => decode_bytes E utf8_ok maxd ty cur bs = Ok v
    | TErr => is_err (decode_bytes E utf8_ok maxd ty cur bs)
    | TDev => oe (fun _ => True) (decode_bytes E utf8_ok maxd ty cur bs)
    | TFuel => False
    end.
  Proof.
    intros Hb He. pose proof (decode_safe ty cur bs) as Hs.
    unfold spec_decode, decode_bytes, decode, dec_msg in *. rewrite He in *. cbn [andb] in *.
    destruct (scope_ok maxd 0); cbn [negb] in *; [|cbn; auto]. cbn [bind] in *.
    pose proof (dec_loop_spec (S (length bs)) (S (length bs)) (le_n _) None ty (msg_fields cur) (msg_unk cur) (0 + 1) (Zip [] bs) Hb (Nat.lt_succ_diag_r _)) as H.
    cbn [za] in H. change (0 + 1) with 1 in *. unfold body_val in H.
    destruct (tokB None 1 bs) as [[rs rest]| | |]; cbn [tbind] in *.
    - destruct (ap_body E utf8_ok maxd (S (length bs)) ty 1 (msg_fields cur, msg_unk cur) rs) as [[fs unk]| | |]; cbn [tbind agree] in *.
      + rewrite H. reflexivity.
      + apply is_err_bind. exact H.
      + exact Hs.
      + exact H.
    - apply is_err_bind. exact H.
    - exact Hs.
    - exact H.
  Qed.
End Spec.
