(** The decoder over the reference archive computes the record specification:
    fields, runs of equal tags, and the message loop. *)
Require Import Verif.Bits Verif.Varint Verif.VarintSpec Verif.VarintProofs Verif.VarintFacts Verif.VarintMain.
Require Import Verif.Schema Verif.Archive Verif.Decode Verif.DecodeSafe Verif.Wire Verif.WireFacts.
Require Import Verif.DecodeSpec1 Verif.DecodeSpec2.

Lemma nth_set_nth i x l : nth i (set_nth i x l) [] = x.
Proof. revert l; induction i as [|i IH]; intros [|h t]; cbn; auto. Qed.
Lemma set_set_nth i x y l : set_nth i x (set_nth i y l) = set_nth i x l.
Proof. revert l; induction i as [|i IH]; intros [|h t]; cbn; f_equal; auto. Qed.

(** Unknown bytes added in one go or in two. *)
Lemma umap_add_app num a b l : umap_add num (a ++ b) l = umap_add num b (umap_add num a l).
Proof.
  induction l as [|[n c] t IH]; cbn [umap_add].
  - rewrite Z.eqb_refl. reflexivity.
  - destruct (Z.eqb_spec n num) as [->|Hne]; cbn [umap_add].
    + rewrite Z.eqb_refl, app_assoc. reflexivity.
    + destruct (Z.ltb_spec num n); cbn [umap_add].
      * rewrite Z.eqb_refl. reflexivity.
      * destruct (Z.eqb_spec n num); [congruence|]. destruct (Z.ltb_spec num n); [lia|]. rewrite IH. reflexivity.
Qed.
Lemma upairs_add_app num a b l : upairs_add num (a ++ b) l = upairs_add num b (upairs_add num a l).
Proof.
  induction l as [|[n c] t IH]; cbn [upairs_add].
  - rewrite Z.eqb_refl. reflexivity.
  - destruct (Z.eqb_spec n num) as [->|Hne]; cbn [upairs_add].
    + rewrite Z.eqb_refl, app_assoc. reflexivity.
    + destruct (Z.eqb_spec n num); [congruence|]. rewrite IH. reflexivity.
Qed.
Lemma unk_add_app k num a b l : unk_add k num (a ++ b) l = unk_add k num b (unk_add k num a l).
Proof.
  destruct k; cbn [unk_add]; [reflexivity| |apply umap_add_app|apply upairs_add_app].
  destruct l as [|[n c] t]; cbn; [reflexivity|]. rewrite app_assoc. reflexivity.
Qed.

Lemma tag_number_nz tag : tag_number tag <> 0 -> tag <> 0.
Proof. intros H ->. apply H. reflexivity. Qed.

Section Spec.
  Context (E : env) (utf8_ok : bytes -> bool) (maxd : Z).
  Hypothesis Hse : safe_env E.
  Notation tokB := (tokB maxd).
  Notation grpB := (grpB maxd).
  Notation dl := (dec_loop zops E utf8_ok maxd).

  Lemma tok_pay_depth tag bs d1 d2 : tag_type tag = WT_LEN -> tok_pay (grpB d1) tag bs = tok_pay (grpB d2) tag bs.
  Proof. intros H. rewrite !tok_pay_len by auto. reflexivity. Qed.

  Section Rec.
    Variables (n : nat) (rec : @recT zip) (body : nat -> Z -> state -> list Wire.rec -> tres state).
    Hypothesis (Hspec : rec_spec maxd n rec body) (Hsafe : rec_safe n rec) (Hend : rec_end rec).

    Lemma dec_one_spec k num e pk tag depth cur unk tb pb z :
      all_bytes (za z) -> (length (za z) < n)%nat -> tag <> 0 -> (elem_closed e = true -> k <> UPairs) ->
      packable e && (tag_type tag =? WT_LEN) = false ->
      agree_pay z (tok_pay (grpB depth) tag (za z))
        (fun p sub => ap_field E utf8_ok maxd body k (Field num e (CRep pk)) depth cur unk (Rec tb tag pb p sub))
        (dec_one zops E utf8_ok maxd rec k e tag depth cur unk z).
    Proof.
      intros Hb Hn Ht Hk Hp. unfold ap_field, dec_one. cbn [r_tag]. rewrite Hp.
      pose proof (dec_value_spec E utf8_ok maxd n rec body Hspec Hsafe Hend e (elem_default E e) tag depth tb pb z Hb Hn Ht) as Hv.
      destruct (tok_pay (grpB depth) tag (za z)) as [[[p sub] r]| | |]; cbn [agree_pay] in *; auto.
      eapply agree_bind; [exact Hv| |].
      - intros v _. destruct e as [| | |closed| |]; try reflexivity. destruct closed as [l|]; [|reflexivity].
        cbv zeta. destruct (enum_valid _ _); [reflexivity|].
        destruct (unknown_enum_safe k (tag_number tag) (to_enum (int_of v)) unk) as [u ->]; [auto|]. reflexivity.
      - intros _ v. destruct e as [| | |closed| |]; try reflexivity. destruct closed as [l|]; [|reflexivity].
        cbv zeta. destruct (enum_valid _ _); [reflexivity|].
        destruct (unknown_enum_safe k (tag_number tag) (to_enum (int_of v)) unk) as [u ->]; [auto|]. reflexivity.
    Qed.

    Lemma dec_map_one_spec k num e assoc tag depth cur unk tb pb z :
      all_bytes (za z) -> (length (za z) < n)%nat -> tag <> 0 ->
      agree_pay z (tok_pay (grpB depth) tag (za z))
        (fun p sub => ap_field E utf8_ok maxd body k (Field num e (CMap assoc)) depth cur unk (Rec tb tag pb p sub))
        (dec_map_one zops E utf8_ok maxd rec assoc e tag depth cur unk z).
    Proof.
      intros Hb Hn Ht. unfold ap_field, dec_map_one.
      pose proof (dec_value_spec E utf8_ok maxd n rec body Hspec Hsafe Hend e (elem_default E e) tag depth tb pb z Hb Hn Ht) as Hv.
      destruct (tok_pay (grpB depth) tag (za z)) as [[[p sub] r]| | |]; cbn [agree_pay] in *; auto.
      eapply agree_bind; [exact Hv| |]; intros; reflexivity.
    Qed.

    (** Is the member read in runs of equal tags? *)
    Definition run_field (fd : field) (tag : Z) : bool :=
      match fd with
      | Field _ e (CRep _) => negb (packable e && (tag_type tag =? WT_LEN))
      | Field _ _ (CMap _) => true
      | _ => false
      end.

    Lemma find_alt_some alts : forall tagn i, has_num tagn (Oneof alts) = true ->
      Forall (fun a => elem_closed (snd a) = false) alts ->
      exists j e, find_alt tagn alts i = Some (j, e) /\ elem_closed e = false.
    Proof.
      intros tagn. induction alts as [|[num e] t IH]; intros i Hn Hs; cbn [has_num existsb fst find_alt] in *; [discriminate|].
      inversion Hs; subst. destruct (num =? tagn); [eauto|]. apply IH; auto.
    Qed.

    Lemma dec_field_spec k fd tag depth cur unk tb pb z :
      all_bytes (za z) -> (length (za z) < n)%nat -> tag <> 0 -> field_safe k fd -> has_num (tag_number tag) fd = true ->
      run_field fd tag = false ->
      agree_pay z (tok_pay (grpB depth) tag (za z))
        (fun p sub => ap_field E utf8_ok maxd body k fd depth cur unk (Rec tb tag pb p sub))
        (dec_field zops E utf8_ok maxd rec n k fd tag depth cur unk z).
    Proof.
      intros Hb Hn Ht Hs Hnum Hrun. unfold ap_field, dec_field. destruct fd as [num e c|alts].
      - destruct c as [ex d| |pk|assoc]; cbn [field_safe] in Hs; cbn [run_field] in Hrun.
        + pose proof (dec_value_spec E utf8_ok maxd n rec body Hspec Hsafe Hend e (start_val E e cur) tag depth tb pb z Hb Hn Ht) as Hv.
          destruct (tok_pay (grpB depth) tag (za z)) as [[[p sub] r]| | |]; cbn [agree_pay] in *; auto.
          eapply agree_bind; [exact Hv| |].
          * intros v _. destruct e as [| | |closed| |]; try reflexivity. destruct closed as [l|]; [|reflexivity].
            destruct (ex && _); [|reflexivity].
            destruct (unknown_enum_safe k num (int_of v) unk) as [u ->]; [auto|]. cbn; auto.
          * intros _ v. destruct e as [| | |closed| |]; try reflexivity. destruct closed as [l|]; [|reflexivity].
            destruct (ex && _); [|reflexivity].
            destruct (unknown_enum_safe k num (int_of v) unk) as [u ->]; [auto|]. exact I.
        + pose proof (dec_value_spec E utf8_ok maxd n rec body Hspec Hsafe Hend e (start_val E e cur) tag depth tb pb z Hb Hn Ht) as Hv.
          destruct (tok_pay (grpB depth) tag (za z)) as [[[p sub] r]| | |]; cbn [agree_pay] in *; auto.
          eapply agree_bind; [exact Hv| |].
          * intros v _. destruct e as [| | |closed| |]; try reflexivity. destruct closed as [l|]; [|reflexivity].
            destruct (enum_valid _ _); [reflexivity|].
            destruct (unknown_enum_safe k num (int_of v) unk) as [u ->]; [auto|]. reflexivity.
          * intros _ v. destruct e as [| | |closed| |]; try reflexivity. destruct closed as [l|]; [|reflexivity].
            destruct (enum_valid _ _); [reflexivity|].
            destruct (unknown_enum_safe k num (int_of v) unk) as [u ->]; [auto|]. reflexivity.
        + apply negb_false_iff in Hrun. cbn [r_tag r_pay]. rewrite Hrun. apply andb_prop in Hrun. destruct Hrun as [Hp Hl].
          apply Z.eqb_eq in Hl. rewrite (tok_pay_depth _ _ depth 0 Hl). apply dec_packed_spec; auto.
        + discriminate.
      - cbn [field_safe] in Hs. cbn [r_tag]. destruct (find_alt_some alts (tag_number tag) 0 Hnum Hs) as (i & e & -> & Hc).
        unfold dec_oneof. set (active := match cur with VAlt j v :: _ => _ | _ => _ end).
        pose proof (dec_value_spec E utf8_ok maxd n rec body Hspec Hsafe Hend e (start_val E e active) tag depth tb pb z Hb Hn Ht) as Hv.
        destruct (tok_pay (grpB depth) tag (za z)) as [[[p sub] r]| | |]; cbn [agree_pay] in *; auto.
        eapply agree_bind; [exact Hv| |].
        + intros v _. destruct e as [| | |closed| |]; try reflexivity. destruct closed as [l|]; [discriminate|reflexivity].
        + intros _ v. destruct e as [| | |closed| |]; try reflexivity. destruct closed as [l|]; [discriminate|reflexivity].
    Qed.
  End Rec.

  (** ** The message loop *)
  Definition cont (f : nat) (mode : option Z) (ty : nat) (depth : Z)
    (p : list (list val) * list (Z * bytes) * zip) : res (val * zip) :=
    let '(fs1, unk1, z2) := p in dl f mode ty fs1 unk1 depth z2.

  (** What a step that starts after the tag at [z1] has to satisfy. *)
  Definition goal (body : nat -> Z -> state -> list Wire.rec -> tres state) (mode : option Z) (ty : nat) (depth : Z)
    (st : state) (tb : bytes) (tag : Z) (z1 : zip) (r : res (val * zip)) : Prop :=
    match tok_pay (grpB depth) tag (za z1) with
    | TOk (p, sub, bs2) =>
        match tokB mode depth bs2 with
        | TOk (rs, rest) =>
            agree (st1 <~ ap_recs E utf8_ok maxd body ty depth st (Rec tb tag (used (za z1) bs2) p sub :: rs) ;;
                   TOk (VMsg (fst st1) (snd st1))) r (pos z1 rest)
        | TErr => is_err r
        | _ => True
        end
    | TErr => is_err r
    | _ => True
    end.

  Section Loop.
    Variables (f : nat) (body : nat -> Z -> state -> list Wire.rec -> tres state) (mode : option Z) (ty : nat) (depth : Z).
    (** the loop on what is left after a step *)
    Hypothesis Hnext : forall fs unk z, all_bytes (za z) -> (length (za z) < f)%nat ->
      match tokB mode depth (za z) with
      | TOk (rs, rest) =>
          agree (st1 <~ ap_recs E utf8_ok maxd body ty depth (fs, unk) rs ;; TOk (VMsg (fst st1) (snd st1)))
            (dl f mode ty fs unk depth z) (pos z rest)
      | TErr => is_err (dl f mode ty fs unk depth z)
      | TDev => True
      | TFuel => False
      end.

    Lemma pay_cut tag z1 p sub bs2 : all_bytes (za z1) ->
      tok_pay (grpB depth) tag (za z1) = TOk (p, sub, bs2) ->
      exists c, za z1 = c ++ bs2 /\ za (pos z1 bs2) = bs2 /\ all_bytes (za (pos z1 bs2)) /\ (length bs2 <= length (za z1))%nat /\
        (forall mode' rs rest, tokB mode' depth bs2 = TOk (rs, rest) -> pos (pos z1 bs2) rest = pos z1 rest).
    Proof.
      intros Hb H. destruct (tok_pay_ok _ _ _ _ _ _ (fun num rs r => grpB_consumes' _ _ num _ rs r) H) as (c & Hc & _).
      exists c. split; [exact Hc|]. split; [eapply pos_za; eauto|]. split; [eapply all_bytes_pos; eauto|].
      split; [rewrite Hc, app_length; lia|]. intros mode' rs rest Hr.
      destruct (tokB_rest _ _ _ _ _ _ Hr) as [d Hd]. rewrite Hd. rewrite Hd in Hc. eapply pos_pos; eauto.
    Qed.

    (** A step that handles exactly one record. *)
    Lemma single_step tag tb fs unk z1 step :
      all_bytes (za z1) -> (length (za z1) < f)%nat ->
      agree_pay z1 (tok_pay (grpB depth) tag (za z1))
        (fun p sub => ap_rec E utf8_ok maxd body ty depth (fs, unk) (Rec tb tag (used (za z1) (match tok_pay (grpB depth) tag (za z1) with TOk (_, _, r) => r | _ => [] end)) p sub)) step ->
      goal body mode ty depth (fs, unk) tb tag z1 (bind step (cont f mode ty depth)).
    Proof.
      intros Hb Hf Hs. unfold goal. destruct (tok_pay (grpB depth) tag (za z1)) as [[[p sub] bs2]| | |] eqn:Kp; cbn [agree_pay] in *; auto.
      destruct (pay_cut _ _ _ _ _ Hb Kp) as (c & Hc & Hz2 & Hb2 & Hl2 & Hpp).
      assert (Hlen2 : (length (za (pos z1 bs2)) < f)%nat) by (rewrite Hz2; lia).
      pose proof (fun fs unk => Hnext fs unk _ Hb2 Hlen2) as IH. rewrite Hz2 in IH.
      destruct (tokB mode depth bs2) as [[rs rest]| | |] eqn:Kt; auto.
      - rewrite (Hpp _ _ _ Kt) in IH. cbn [ap_recs].
        destruct (ap_rec _ _ _ _ _ _ _ _) as [[fs1 unk1]| | |]; cbn [tbind agree] in *; auto.
        + rewrite Hs. cbn [bind cont]. apply IH.
        + eapply oe_bind; [exact Hs|]. intros [[fs1 unk1] z2] Hz; cbn in Hz; subst z2. cbn [cont].
          eapply agree_oe. apply IH.
      - destruct (ap_rec _ _ _ _ _ _ _ _) as [[fs1 unk1]| | |]; cbn [agree] in *.
        + rewrite Hs. apply IH.
        + apply is_err_bind; auto.
        + destruct step as [[[fs1 unk1] z2]| | | |]; cbn in Hs; try tauto; [|cbn; auto]. subst z2. apply IH.
        + tauto.
    Qed.

    Lemma count_loop_ok k fuel tag z c : count_loop zops maxd k fuel depth tag z = Ok c -> exists c', c = S c'.
    Proof.
      destruct k; cbn [count_loop]; [discriminate|]. destruct (skip_one _ _ _ _ _ _); cbn [bind]; try discriminate.
      destruct (_ =? 0); [intros [= <-]; eauto|].
      destruct (a_tag zops x) as [[t z2]| | | |]; cbn [bind]; try discriminate.
      destruct (t =? tag); [|intros [= <-]; eauto].
      destruct (count_loop _ _ _ _ _ _ z2); cbn [bind]; try discriminate. intros [= <-]; eauto.
    Qed.

    (** An error while counting a run means the bytes are malformed. *)
    Lemma count_loop_err tag k : forall z1 e, all_bytes (za z1) -> (length (za z1) < f)%nat -> tag_type tag <> WT_EGROUP ->
      count_loop zops maxd k f depth tag z1 = Err e ->
      match tok_pay (grpB depth) tag (za z1) with
      | TOk (_, _, bs2) => match tokB mode depth bs2 with TOk _ => False | _ => True end
      | _ => True
      end.
    Proof.
      induction k as [|k IH]; intros z1 e Hb Hf Heg; cbn [count_loop]; [discriminate|].
      pose proof (skip_one_spec maxd f depth tag z1 Hb Hf) as Hsk. unfold skips in Hsk.
      destruct (tok_pay (grpB depth) tag (za z1)) as [[[p sub] bs2]| | |] eqn:Kp; auto. rewrite Hsk. cbn [bind].
      destruct (pay_cut _ _ _ _ _ Hb Kp) as (c & Hc & Hz2 & Hb2 & Hl2 & _). cbn [a_avail a_tag zops]. rewrite Hz2.
      destruct (Z.eqb_spec (zlen bs2) 0); [discriminate|].
      pose proof (z_tag_spec _ Hb2) as Htg. rewrite Hz2 in Htg. rewrite tokB_eq.
      destruct bs2 as [|b0 t0] eqn:Hbs2; [cbn in n; congruence|]. rewrite <- Hbs2 in *. clear b0 t0 Hbs2.
      destruct (tok_tag bs2) as [[[tb' tag'] bs3]| | |] eqn:Kt; cbn [tbind]; auto.
      rewrite Htg. cbn [bind]. destruct (Z.eqb_spec tag' tag) as [->|]; [|discriminate].
      replace (match mode with Some num => (tag_type tag =? WT_EGROUP) && (tag_number tag =? num) | None => false end) with false
        by (destruct mode; [|reflexivity]; destruct (Z.eqb_spec (tag_type tag) WT_EGROUP); [congruence|reflexivity]).
      destruct (tok_tag_ok _ _ _ _ Kt) as (m & _ & Hm1 & Hm2 & _ & _ & Hbs & Happ).
      assert (Hza2 : za (pos z1 bs2) = tb' ++ bs3) by congruence.
      pose proof (pos_za _ _ _ Hza2) as Hz3. pose proof (all_bytes_pos _ _ _ Hza2 Hb2) as Hb3.
      assert (Hl3 : (length bs3 < length bs2)%nat) by (rewrite Hbs, skipn_length; lia).
      destruct (count_loop zops maxd k f depth tag (pos (pos z1 bs2) bs3)) as [c'|e'| | |] eqn:Kc; cbn [bind]; try discriminate.
      intros [= <-]. specialize (IH _ _ Hb3 ltac:(rewrite Hz3; lia) Heg Kc). rewrite Hz3 in IH.
      destruct (tok_pay (grpB depth) tag bs3) as [[[p' sub'] bs4]| | |]; cbn [tbind]; auto.
      destruct (tokB mode depth bs4) as [[rs rest]| | |]; cbn [tbind]; auto.
    Qed.

    (** A run of records with the same tag, decoded element by element. *)
    Lemma run_step tag i fd one : tag_type tag <> WT_EGROUP -> tag_number tag <> 0 ->
      find_field (tag_number tag) (m_fields (desc_of E ty)) 0 = Some (i, fd) ->
      (forall cur unk tb pb z, all_bytes (za z) -> (length (za z) < f)%nat ->
        agree_pay z (tok_pay (grpB depth) tag (za z))
          (fun p sub => ap_field E utf8_ok maxd body (m_unk (desc_of E ty)) fd depth cur unk (Rec tb tag pb p sub))
          (one cur unk z)) ->
      forall c k fs unk tb z1, all_bytes (za z1) -> (length (za z1) < f)%nat ->
      count_loop zops maxd k f depth tag z1 = Ok (S c) ->
      goal body mode ty depth (fs, unk) tb tag z1
        (bind ('(cur, unk1, z2) <- dec_elements zops one (S c) (nth i fs []) unk z1 ;; Ok (set_nth i cur fs, unk1, z2))
              (cont f mode ty depth)).
    Proof.
      intros Heg Hnz Hff Hone. induction c as [|c IHc]; intros k fs unk tb z1 Hb Hf Hcnt.
      - apply single_step; auto. cbn [dec_elements].
        specialize (Hone (nth i fs []) unk tb (used (za z1) (match tok_pay (grpB depth) tag (za z1) with TOk (_, _, r) => r | _ => [] end)) z1 Hb Hf).
        destruct (tok_pay (grpB depth) tag (za z1)) as [[[p sub] bs2]| | |] eqn:Kp; cbn [agree_pay] in *; auto.
        unfold ap_rec. cbn [r_tag]. destruct (Z.eqb_spec (tag_number tag) 0); [congruence|]. rewrite Hff.
        destruct (ap_field _ _ _ _ _ _ _ _ _ _) as [[cur1 unk1]| | |]; cbn [tbind agree] in *; auto.
        + rewrite Hone. reflexivity.
        + apply (oe_bind (fun p => snd p = pos z1 bs2)); [|intros [[a1 a2] a3] Ha; cbn in *; exact Ha].
          eapply oe_bind; [exact Hone|]. intros [[a1 a2] a3] Ha. cbn in *. exact Ha.
      - unfold goal. pose proof (Hone (nth i fs []) unk tb) as H1.
        specialize (fun pb => H1 pb z1 Hb Hf). destruct k as [|k]; [discriminate|]. cbn [count_loop] in Hcnt.
        pose proof (skip_one_spec maxd f depth tag z1 Hb Hf) as Hsk. unfold skips in Hsk.
        destruct (tok_pay (grpB depth) tag (za z1)) as [[[p sub] bs2]| | |] eqn:Kp; auto.
        2: { destruct Hsk as [e He]. rewrite He in Hcnt. discriminate. }
        rewrite Hsk in Hcnt. cbn [bind] in Hcnt. specialize (H1 (used (za z1) bs2)). cbn [agree_pay] in H1.
        destruct (pay_cut _ _ _ _ _ Hb Kp) as (cc & Hc & Hz2 & Hb2 & Hl2 & Hpp). cbn [a_avail a_tag zops] in Hcnt. rewrite Hz2 in Hcnt.
        destruct (Z.eqb_spec (zlen bs2) 0); [discriminate|].
        pose proof (z_tag_spec _ Hb2) as Htg. rewrite Hz2 in Htg. rewrite tokB_eq.
        destruct bs2 as [|b0 t0] eqn:Hbs2; [cbn in n; congruence|]. rewrite <- Hbs2 in *. clear b0 t0 Hbs2.
        destruct (tok_tag bs2) as [[[tb' tag'] bs3]| | |] eqn:Kt; cbn [tbind]; auto.
        2: { rewrite Htg in Hcnt. cbn [bind] in Hcnt. destruct (Z.eqb_spec 0 tag) as [<-|]; [cbn in Hnz; congruence|].
             discriminate. }
        rewrite Htg in Hcnt. cbn [bind] in Hcnt. destruct (Z.eqb_spec tag' tag) as [->|]; [|discriminate].
        replace (match mode with Some num => (tag_type tag =? WT_EGROUP) && (tag_number tag =? num) | None => false end) with false
          by (destruct mode; [|reflexivity]; destruct (Z.eqb_spec (tag_type tag) WT_EGROUP); [congruence|reflexivity]).
        destruct (tok_tag_ok _ _ _ _ Kt) as (m & _ & Hm1 & Hm2 & _ & _ & Hbs & Happ).
        assert (Hza2 : za (pos z1 bs2) = tb' ++ bs3) by congruence.
        pose proof (pos_za _ _ _ Hza2) as Hz3. pose proof (all_bytes_pos _ _ _ Hza2 Hb2) as Hb3.
        assert (Hl3 : (length bs3 < length bs2)%nat) by (rewrite Hbs, skipn_length; lia).
        set (z2 := pos z1 bs2) in *. set (z3 := pos z2 bs3) in *.
        destruct (count_loop zops maxd k f depth tag z3) as [c'| | | |] eqn:Kc; cbn [bind] in Hcnt; try discriminate.
        injection Hcnt as ->. assert (Hlf3 : (length (za z3) < f)%nat) by (rewrite Hz3; lia).
        pose proof (fun fs unk => IHc k fs unk tb' z3 Hb3 Hlf3 Kc) as IH. unfold goal in IH. rewrite Hz3 in IH.
        (* unfold one round of the decoder *)
        assert (Hround : forall cur1 unk1, one (nth i fs []) unk z1 = Ok (cur1, unk1, z2) ->
          bind ('(cur, unk1, z2) <- dec_elements zops one (S (S c)) (nth i fs []) unk z1 ;; Ok (set_nth i cur fs, unk1, z2))
               (cont f mode ty depth) =
          bind ('(cur, unk1, z2) <- dec_elements zops one (S c) (nth i (set_nth i cur1 fs) []) unk1 z3 ;;
                Ok (set_nth i cur (set_nth i cur1 fs), unk1, z2)) (cont f mode ty depth)).
        { intros cur1 unk1 Ho. remember (S c) as c1 eqn:Hc1. cbn [dec_elements]. rewrite Ho. cbn [bind].
          rewrite Hc1 at 1. cbn [a_tag zops]. rewrite Htg. cbn [bind]. rewrite nth_set_nth.
          destruct (dec_elements zops one c1 cur1 unk1 z3) as [[[a1 a2] a3]| | | |]; cbn [bind]; try reflexivity.
          rewrite set_set_nth. reflexivity. }
        assert (Herr : is_err (one (nth i fs []) unk z1) ->
          is_err (bind ('(cur, unk1, z2) <- dec_elements zops one (S (S c)) (nth i fs []) unk z1 ;; Ok (set_nth i cur fs, unk1, z2))
               (cont f mode ty depth))).
        { intros He. apply is_err_bind, is_err_bind. remember (S c) as c1. cbn [dec_elements]. apply is_err_bind. exact He. }
        assert (Happl : ap_rec E utf8_ok maxd body ty depth (fs, unk) (Rec tb tag (used (za z1) bs2) p sub) =
          ('(cur, unk1) <~ ap_field E utf8_ok maxd body (m_unk (desc_of E ty)) fd depth (nth i fs []) unk (Rec tb tag (used (za z1) bs2) p sub) ;;
           TOk (set_nth i cur fs, unk1))).
        { unfold ap_rec. cbn [r_tag]. destruct (Z.eqb_spec (tag_number tag) 0); [congruence|]. rewrite Hff. reflexivity. }
        destruct (tok_pay (grpB depth) tag bs3) as [[[p' sub'] bs4]| | |] eqn:Kp3; cbn [tbind]; auto.
        + assert (Hza3 : za z3 = bs3) by exact Hz3. rewrite <- Hza3 in Kp3.
          destruct (pay_cut _ _ _ _ _ Hb3 Kp3) as (c4 & Hc4 & Hz4 & Hb4 & Hl4 & Hpp4).
          destruct (tokB mode depth bs4) as [[rs rest]| | |] eqn:Kt4; cbn [tbind]; auto.
          * assert (Hpos : pos z3 rest = pos z1 rest).
            { destruct (tokB_rest _ _ _ _ _ _ Kt4) as [d Hd].
              assert (Hz3' : bs3 = (c4 ++ d) ++ rest) by (rewrite <- app_assoc, <- Hd; congruence).
              unfold z3. rewrite Hz3'. rewrite (pos_pos z2 tb') by (rewrite <- Hz3'; exact Hza2).
              unfold z2. rewrite Happ, Hz3', app_assoc. apply (pos_pos z1 cc). rewrite <- app_assoc, <- Hz3', <- Happ. exact Hc. }
            rewrite Hpos in IH. cbn [ap_recs]. rewrite Happl.
            destruct (ap_field _ _ _ _ _ _ _ _ _ _) as [[cur1 unk1]| | |]; cbn [tbind agree] in *; auto.
            -- rewrite (Hround _ _ H1). apply IH.
            -- destruct (one (nth i fs []) unk z1) as [[[cur1 unk1] w]| | | |] eqn:Ho; cbn in H1; try tauto.
               ++ subst w. rewrite (Hround _ _ eq_refl). eapply agree_oe. apply IH.
               ++ destruct (Herr ltac:(auto)) as [e' ->]. exact I.
          * destruct (ap_field _ _ _ _ _ _ _ _ _ _) as [[cur1 unk1]| | |]; cbn [agree] in *.
            -- rewrite (Hround _ _ H1). apply IH.
            -- auto.
            -- destruct (one (nth i fs []) unk z1) as [[[cur1 unk1] w]| | | |] eqn:Ho; cbn in H1; try tauto; [|auto].
               subst w. rewrite (Hround _ _ eq_refl). apply IH.
            -- tauto.
        + destruct (ap_field _ _ _ _ _ _ _ _ _ _) as [[cur1 unk1]| | |]; cbn [agree] in *.
          -- rewrite (Hround _ _ H1). apply IH.
          -- auto.
          -- destruct (one (nth i fs []) unk z1) as [[[cur1 unk1] w]| | | |] eqn:Ho; cbn in H1; try tauto; [|auto].
             subst w. rewrite (Hround _ _ eq_refl). apply IH.
          -- tauto.
    Qed.
  End Loop.
End Spec.
