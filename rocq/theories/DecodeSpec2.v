(** The decoder over the reference archive computes the record specification:
    values and single records. *)
Require Import Verif.Bits Verif.Varint Verif.VarintSpec Verif.VarintProofs Verif.VarintFacts Verif.VarintMain.
Require Import Verif.Schema Verif.Archive Verif.Decode Verif.DecodeSafe Verif.Wire Verif.WireFacts Verif.DecodeSpec1.

(** ** Packed varints *)
Lemma scan_terminators max d n : scan max d = Found n -> terminators d = S (terminators (skipn n d)).
Proof.
  revert d n; induction max as [|k IH]; intros d n; cbn [scan]; [discriminate|].
  destruct d as [|b t]; [discriminate|]. cbn [terminators]. destruct (b <? 128); [intros [= <-]; reflexivity|].
  destruct (scan k t) eqn:K; try discriminate. intros [= <-]. cbn [skipn]. apply IH; auto.
Qed.

Lemma scan_last max d n : scan max d = Found n -> last (firstn n d) 0 < 128.
Proof.
  revert d n; induction max as [|k IH]; intros d n; cbn [scan]; [discriminate|].
  destruct d as [|b t]; [discriminate|]. destruct (Z.ltb_spec b 128); [intros [= <-]; cbn; auto|].
  destruct (scan k t) eqn:K; try discriminate. intros [= <-]. cbn [firstn].
  pose proof (scan_len _ _ _ K). apply IH in K. destruct (firstn n0 t) eqn:Hf; [|exact K].
  apply (f_equal (@length Z)) in Hf. rewrite firstn_length in Hf. cbn in Hf. lia.
Qed.

Lemma last_app {T} (a b : list T) d : b <> [] -> last (a ++ b) d = last b d.
Proof.
  intros Hb. induction a as [|x a IH]; [reflexivity|]. cbn [app].
  destruct (a ++ b) eqn:K; [destruct a; cbn in K; congruence|]. rewrite <- IH. reflexivity.
Qed.

Lemma last_skipn {T} n (l : list T) d : skipn n l <> [] -> last (skipn n l) d = last l d.
Proof. intros H. rewrite <- (firstn_skipn n l) at 2. rewrite last_app; auto. Qed.

Lemma forall_last (P : Z -> Prop) d : d <> [] -> Forall P d -> P (last d 0).
Proof.
  intros Hd H. induction H as [|x t Hx Ht IH]; [congruence|]. destruct t as [|y t]; [exact Hx|].
  apply IH. discriminate.
Qed.

Lemma varints_open f max d : d <> [] -> 128 <= last d 0 -> varints f max d = None.
Proof.
  revert d; induction f as [|f IH]; intros d Hd Hl; (destruct d as [|b t]; [congruence|]); cbn [varints]; [reflexivity|].
  destruct (scan max (b :: t)) as [| |n] eqn:K; try reflexivity.
  destruct (skipn n (b :: t)) as [|c u] eqn:Hs.
  - pose proof (scan_last _ _ _ K). rewrite <- (firstn_skipn n (b :: t)), Hs, app_nil_r in Hl. lia.
  - rewrite IH; [reflexivity|discriminate|]. rewrite <- Hs, last_skipn by (rewrite Hs; discriminate). exact Hl.
Qed.

Lemma varints_fuel f : forall f' max d, (length d <= f)%nat -> (length d <= f')%nat -> varints f max d = varints f' max d.
Proof.
  induction f as [|f IH]; intros f' max d H1 H2; (destruct d as [|b t]; [destruct f'; reflexivity|]).
  - cbn in H1; lia.
  - destruct f' as [|f']; [cbn in H2; lia|]. cbn [varints].
    destruct (scan max (b :: t)) as [| |n] eqn:K; try reflexivity. pose proof (scan_len _ _ _ K).
    rewrite (IH f'); [reflexivity| |]; rewrite skipn_length; cbn [length] in *; lia.
Qed.

Lemma parse_region_spec t f : forall d, all_bytes d -> (length d <= f)%nat ->
  match varints f (max_len t) d with
  | Some l => parse_region f t (terminators d) d = Ok (map (fun b => meaning t (b128 b)) l) /\ length l = terminators d
  | None => is_err (parse_region f t (terminators d) d)
  end.
Proof.
  induction f as [|f IH]; intros d Hb Hl; (destruct d as [|b d]; [cbn; auto|]).
  - cbn in Hl; lia.
  - cbn [varints parse_region]. pose proof (parse_varint_spec t (b :: d) Hb) as Hp. rewrite max_len_sm in Hp.
    destruct (scan (max_len t) (b :: d)) as [| |n] eqn:K; rewrite Hp.
    + destruct (terminators (b :: d)); auto.
    + destruct (terminators (b :: d)); auto.
    + rewrite (scan_terminators _ _ _ K). pose proof (scan_len _ _ _ K).
      specialize (IH (skipn n (b :: d)) (all_bytes_skipn _ _ Hb)).
      rewrite skipn_length in IH. specialize (IH ltac:(cbn [length] in *; lia)).
      destruct (varints f (max_len t) (skipn n (b :: d))) as [l|].
      * destruct IH as [-> IH]. cbn [bind map length]. split; [reflexivity|lia].
      * apply is_err_bind; auto.
Qed.

Lemma pbool_spec f : forall d r z, all_bytes (d ++ r) -> (length d <= f)%nat -> za z = d ++ r ->
  (d <> [] -> last d 0 < 128) ->
  match varints f 10 d with
  | Some l => z_pbool (terminators d) z = Ok (map bool_of l, pos z r)
  | None => is_err (z_pbool (terminators d) z)
  end.
Proof.
  induction f as [|f IH]; intros d r z Hb Hl Hz Hlast; (destruct d as [|b d]).
  1, 3: cbn; rewrite <- (app_nil_l r), <- Hz, pos_self; reflexivity.
  - cbn in Hl; lia.
  - specialize (Hlast ltac:(discriminate)). set (d' := b :: d) in *. cbn [varints]. fold d'.
    change (match d' with [] => Some [] | _ :: _ => match scan 10 d' with Found n =>
      match varints f 10 (skipn n d') with Some l => Some (firstn n d' :: l) | None => None end | _ => None end end)
      with (match scan 10 d' with Found n =>
      match varints f 10 (skipn n d') with Some l => Some (firstn n d' :: l) | None => None end | _ => None end).
    assert (Hns : scan 10 d' <> Short).
    { intros K. apply scan_short in K. destruct K as [_ K]. pose proof (forall_last _ d' ltac:(discriminate) K) as K'. cbv beta in K'. clear - K' Hlast. unfold d' in *. lia. }
    assert (Hza : all_bytes (za z)) by congruence.
    assert (Ht : exists k, terminators d' = S k).
    { clear - Hlast. unfold d' in *. clear d'. revert b Hlast; induction d as [|c d IH]; intros b Hl.
      - cbn in *. destruct (Z.ltb_spec b 128); [eauto|lia].
      - destruct (IH c Hl) as [k Hk]. cbn [terminators] in *. destruct (b <? 128); eauto. }
    destruct (scan 10 d') as [| |n] eqn:K; [congruence| |].
    + destruct Ht as [k ->]. cbn [z_pbool]. rewrite z_bool_spec by auto.
      rewrite Hz, scan_app by congruence. rewrite K. cbn. auto.
    + rewrite (scan_terminators _ _ _ K). pose proof (scan_len _ _ _ K). cbn [z_pbool]. rewrite z_bool_spec by auto.
      rewrite Hz, scan_app by congruence. rewrite K. cbn [bind].
      assert (Hfs : firstn n (d' ++ r) = firstn n d').
      { rewrite firstn_app. replace (n - length d')%nat with 0%nat by lia. cbn. apply app_nil_r. }
      assert (Hsk : skipn n (d' ++ r) = skipn n d' ++ r).
      { rewrite skipn_app. replace (n - length d')%nat with 0%nat by lia. reflexivity. }
      rewrite Hfs, Hsk.
      assert (Hz2 : za z = firstn n d' ++ skipn n d' ++ r) by (rewrite app_assoc, firstn_skipn; exact Hz).
      assert (Hzp : za (pos z (skipn n d' ++ r)) = skipn n d' ++ r) by (eapply pos_za; eauto).
      specialize (IH (skipn n d') r (pos z (skipn n d' ++ r))).
      destruct (varints f 10 (skipn n d')) as [l|].
      * rewrite IH; auto.
        -- cbn [bind map]. rewrite (pos_pos _ _ _ _ Hz2). reflexivity.
        -- rewrite <- Hsk. apply all_bytes_skipn; auto.
        -- rewrite skipn_length. unfold d' in *; cbn [length] in *. lia.
        -- intros Hne. rewrite last_skipn; auto.
      * apply is_err_bind. apply IH; auto.
        -- rewrite <- Hsk. apply all_bytes_skipn; auto.
        -- rewrite skipn_length. unfold d' in *; cbn [length] in *. lia.
        -- intros Hne. rewrite last_skipn; auto.
Qed.

(** ** Length-delimited payloads *)
Definition tok_len (bs : bytes) : tres (bytes * list rec * bytes) :=
  match scan 6 bs with
  | Found n =>
      '(p, rest) <~ tok_take (Z.to_nat (b128 (firstn n bs) mod 2 ^ 32)) (skipn n bs) ;; TOk (p, [], rest)
  | _ => TErr
  end.

Lemma tok_pay_len g tag bs : tag_type tag = WT_LEN -> tok_pay g tag bs = tok_len bs.
Proof.
  intros H. unfold tok_pay, tok_len. rewrite H. destruct (Z.eqb_spec tag 0) as [->|]; [discriminate|]. reflexivity.
Qed.

Inductive len_case (z : zip) : Prop :=
| LenErr : tok_len (za z) = TErr -> z_varint VU32 z = Err BadMessage -> len_case z
| LenShort len z1 : tok_len (za z) = TErr -> z_varint VU32 z = Ok (len, z1) -> zlen (za z1) < len -> len_case z
| LenOk len z1 p r : tok_len (za z) = TOk (p, [], r) -> z_varint VU32 z = Ok (len, z1) ->
    za z1 = p ++ r -> zlen p = len -> pos z1 r = pos z r -> all_bytes (za z1) ->
    (length (za z1) < length (za z))%nat -> (exists c, za z = c ++ za z1) -> len_case z.

Lemma len_cases z : all_bytes (za z) -> len_case z.
Proof.
  intros Hb. pose proof (z_varint_spec VU32 z Hb) as Hv. cbn [max_len meaning] in Hv.
  unfold tok_len in *. destruct (scan 6 (za z)) as [| |n] eqn:K.
  1, 2: apply LenErr; [unfold tok_len; rewrite K; reflexivity|auto].
  pose proof (scan_len _ _ _ K) as Hn.
  assert (Hz1 : za (pos z (skipn n (za z))) = skipn n (za z)) by (apply za_pos_skipn; lia).
  destruct (tok_take (Z.to_nat (b128 (firstn n (za z)) mod 2 ^ 32)) (skipn n (za z))) as [[p r]| | |] eqn:Ht.
  - pose proof (tok_take_ok _ _ _ _ Ht) as [H1 H2].
    eapply LenOk with (p := p) (r := r); try exact Hv.
    + unfold tok_len. rewrite K, Ht. reflexivity.
    + congruence.
    + unfold zlen. rewrite H2. rewrite Z2Nat.id; [reflexivity|]. apply Z.mod_pos_bound; reflexivity.
    + apply (pos_skipn2 _ _ p); [lia|auto].
    + rewrite Hz1. apply all_bytes_skipn; auto.
    + rewrite Hz1, skipn_length. lia.
    + rewrite Hz1. exists (firstn n (za z)). symmetry; apply firstn_skipn.
  - eapply LenShort; try exact Hv.
    + unfold tok_len. rewrite K, Ht. reflexivity.
    + rewrite Hz1. unfold tok_take in Ht. destruct (Nat.leb_spec (Z.to_nat (b128 (firstn n (za z)) mod 2 ^ 32)) (length (skipn n (za z)))); [discriminate|].
      unfold zlen. lia.
  - unfold tok_take in Ht; destruct (_ <=? _)%nat; discriminate.
  - unfold tok_take in Ht; destruct (_ <=? _)%nat; discriminate.
Qed.

Section Spec.
  Context (E : env) (utf8_ok : bytes -> bool) (maxd : Z).
  Notation tokB := (tokB maxd).
  Notation grpB := (grpB maxd).
  Notation dl := (dec_loop zops E utf8_ok maxd).

  (** ** Packed records *)
  Definition agree_pay {X} (z : zip) (s : tres (bytes * list rec * bytes)) (k : bytes -> list rec -> tres X)
    (r : res (X * zip)) : Prop :=
    match s with
    | TOk (p, sub, rest) => agree (k p sub) r (pos z rest)
    | TErr => is_err r
    | _ => True
    end.

  Lemma dec_packed_spec k num e cur unk tag z : all_bytes (za z) -> packable e = true ->
    (elem_closed e = true -> k <> UPairs) -> tag_type tag = WT_LEN ->
    agree_pay z (tok_pay (grpB 0) tag (za z)) (fun p _ => ap_packed k num e cur unk p)
      (dec_packed zops k num e cur unk z).
  Proof.
    intros Hb He Hk Ht. rewrite tok_pay_len by auto. unfold dec_packed. cbn [a_varint zops].
    destruct (len_cases z Hb) as [H1 H2|len z1 H1 H2 H3|len z1 p r H1 H2 H3 H4 H5 H6 H7 _]; rewrite H1, H2; cbn [bind agree_pay].
    - auto.
    - pose proof (zlen_nonneg (za z1)). destruct (Z.eqb_spec len 0); [lia|].
      assert (Hn : z_nvarints len z1 = Ok None).
      { unfold z_nvarints. destruct (Nat.leb_spec (Z.to_nat len) (length (za z1))); [unfold zlen in *; lia|reflexivity]. }
      unfold count_packed. cbn [a_nvarints zops]. rewrite Hn.
      destruct e; try discriminate; cbn [bind]; auto.
      destruct (Z.eqb_spec (len mod Z.of_nat (fix_size is64)) 0) as [Hm|]; auto.
      cbn [a_packed zops]. rewrite Nat2Z.id. unfold z_take.
      destruct (Nat.leb_spec (Z.to_nat (len / Z.of_nat (fix_size is64)) * fix_size is64) (length (za z1))); [|cbn; auto].
      exfalso. unfold zlen in *. destruct is64; cbn [fix_size] in *; lia.
    - destruct (Z.eqb_spec len 0) as [Hz|Hnz].
      { assert (p = []) by (destruct p; [reflexivity|]; rewrite zlen_cons in H4; pose proof (zlen_nonneg p); lia). subst p.
        assert (Hz1 : z1 = pos z r) by (rewrite <- H5; rewrite <- (app_nil_l r), <- H3, pos_self; reflexivity).
        destruct e; try discriminate; cbn [ap_packed].
        - cbn. rewrite app_nil_r, Hz1. reflexivity.
        - cbn. rewrite app_nil_r, Hz1. reflexivity.
        - destruct is64; cbn; rewrite app_nil_r, Hz1; reflexivity.
        - cbn. rewrite app_nil_r, Hz1. reflexivity. }
      assert (Hp : p <> []) by (intros ->; cbn in H4; congruence).
      assert (Hto : Z.to_nat len = length p) by (unfold zlen in H4; lia).
      assert (Hfp : firstn (length p) (za z1) = p) by (rewrite H3, firstn_app, firstn_all, Nat.sub_diag; cbn; apply app_nil_r).
      assert (Hsp : skipn (length p) (za z1) = r) by (rewrite H3, skipn_app, skipn_all, Nat.sub_diag; reflexivity).
      assert (Hle : (length p <= length (za z1))%nat) by (rewrite H3, app_length; lia).
      assert (Hbp : all_bytes p) by (rewrite H3 in H6; apply all_bytes_app in H6; tauto).
      assert (Hz1r : zadv (length p) z1 = pos z r) by (rewrite <- pos_skipn, Hsp by auto; exact H5).
      assert (Hn : z_nvarints len z1 = Ok (if last p 0 <? 128 then Some (terminators p) else None)).
      { unfold z_nvarints. rewrite Hto. destruct (Nat.leb_spec (length p) (length (za z1))); [|lia].
        rewrite Hfp. destruct (_ <? _); reflexivity. }
      assert (Hpv : forall t, match varints (length p) (max_len t) p with
        | Some l => last p 0 < 128 /\ z_pvarint t len (terminators p) z1 = Ok (map (fun b => meaning t (b128 b)) l, pos z r)
        | None => last p 0 < 128 -> is_err (z_pvarint t len (terminators p) z1) end).
      { intros t. pose proof (parse_region_spec t (length p) p Hbp (Nat.le_refl _)) as Hr.
        assert (Hz : z_pvarint t len (terminators p) z1 =
           (vs <- parse_region (length p) t (terminators p) p ;; Ok (pad_room (terminators p) vs, pos z r))).
        { unfold z_pvarint, z_take. rewrite Hto. destruct (Nat.leb_spec (length p) (length (za z1))); [|lia].
          cbn [bind]. rewrite Hfp, Hz1r. reflexivity. }
        rewrite Hz. destruct (varints (length p) (max_len t) p) as [l|] eqn:Hvs.
        - destruct Hr as [-> Hlen]. split.
          + destruct (Z_lt_le_dec (last p 0) 128); [auto|]. rewrite varints_open in Hvs by auto. discriminate.
          + cbn [bind]. unfold pad_room. rewrite map_length, Hlen, Nat.sub_diag. cbn. rewrite app_nil_r. reflexivity.
        - intros _. apply is_err_bind; auto. }
      unfold count_packed. cbn [a_nvarints a_pvarint a_pbool a_packed zops]. rewrite Hn.
      destruct e; try discriminate; cbn [bind ap_packed].
      + specialize (Hpv t). destruct (varints (length p) (max_len t) p) as [l|].
        * destruct Hpv as [Hl Hq]. destruct (Z.ltb_spec (last p 0) 128); [|lia]. rewrite Hq. cbn. rewrite map_map. reflexivity.
        * destruct (Z.ltb_spec (last p 0) 128); cbn; auto.
      + pose proof (pbool_spec (length p) p r z1 ltac:(congruence) (Nat.le_refl _) H3) as Hr. rewrite H5 in Hr.
        destruct (Z.ltb_spec (last p 0) 128) as [Hl|Hl].
        * specialize (Hr (fun _ => Hl)). destruct (varints (length p) 10 p) as [l|].
          -- rewrite Hr. cbn. rewrite map_map. reflexivity.
          -- cbn. auto.
        * rewrite varints_open by auto. cbn. auto.
      + rewrite H4. destruct (len mod Z.of_nat (fix_size is64) =? 0) eqn:Hm; [|cbn; auto].
        cbn [a_packed zops]. rewrite Nat2Z.id. unfold z_take.
        assert (Hmul : (Z.to_nat (len / Z.of_nat (fix_size is64)) * fix_size is64)%nat = length p).
        { unfold zlen in H4. destruct is64; cbn [fix_size] in *; lia. }
        assert (Hdiv : Z.to_nat (len / Z.of_nat (fix_size is64)) = (length p / fix_size is64)%nat).
        { rewrite <- Hmul. rewrite Nat.div_mul; [reflexivity|]. destruct is64; discriminate. }
        rewrite Hmul. destruct (Nat.leb_spec (length p) (length (za z1))); [|lia]. cbn [bind].
        rewrite Hfp, Hz1r, Hdiv. reflexivity.
      + specialize (Hpv VI64). cbn [max_len] in Hpv. destruct (varints (length p) 10 p) as [l|].
        * destruct Hpv as [Hl Hq]. destruct (Z.ltb_spec (last p 0) 128); [|lia]. rewrite Hq. cbn [bind]. rewrite map_map.
          destruct (filter_enum_safe k num closed (map (fun b => to_enum (meaning VI64 (b128 b))) l) unk) as [[q u] ->].
          { intros Hc. apply Hk. destruct closed; [reflexivity|congruence]. }
          reflexivity.
        * destruct (Z.ltb_spec (last p 0) 128); cbn; auto.
  Qed.

  (** ** Values *)
  Definition body_val (body : nat -> Z -> state -> list rec -> tres state) ty depth fs unk rs : tres val :=
    '(fs', unk') <~ body ty depth (fs, unk) rs ;; TOk (VMsg fs' unk').

  (** What is known of the decoding loop on shorter inputs. *)
  Definition rec_spec (n : nat) (rec : @recT zip) (body : nat -> Z -> state -> list Wire.rec -> tres state) : Prop :=
    forall mode ty fs unk depth z, all_bytes (za z) -> (length (za z) < n)%nat ->
    match tokB mode depth (za z) with
    | TOk (rs, rest) => agree (body_val body ty depth fs unk rs) (rec mode ty fs unk depth z) (pos z rest)
    | TErr => is_err (rec mode ty fs unk depth z)
    | TDev => True
    | TFuel => False
    end.
  Definition rec_end (rec : @recT zip) : Prop :=
    forall ty fs unk depth z v z', rec None ty fs unk depth z = Ok (v, z') -> za z' = [].

  Section Rec.
    Variables (n : nat) (rec : @recT zip) (body : nat -> Z -> state -> list Wire.rec -> tres state).
    Hypothesis (Hspec : rec_spec n rec body) (Hsafe : rec_safe n rec) (Hend : rec_end rec).

    Lemma dec_message_spec ty (delim : bool) cur tag depth tb pb z : all_bytes (za z) -> (length (za z) < n)%nat ->
      tag_type tag = (if delim then WT_SGROUP else WT_LEN) ->
      agree_pay z (tok_pay (grpB depth) tag (za z))
        (fun p sub => ap_message E maxd body ty delim cur depth (Rec tb tag pb p sub))
        (dec_message zops E maxd rec ty delim cur tag depth z).
    Proof.
      intros Hb Hn Ht. unfold dec_message. rewrite Ht, Z.eqb_refl. cbn [negb]. destruct delim.
      - unfold tok_pay. rewrite Ht. destruct (Z.eqb_spec tag 0) as [->|]; [discriminate|].
        change (WT_SGROUP =? WT_VARINT) with false. change (WT_SGROUP =? WT_LEN) with false.
        change (WT_SGROUP =? WT_I64) with false. change (WT_SGROUP =? WT_SGROUP) with true. cbv iota.
        unfold dec_group, WireFacts.grpB. destruct (scope_ok maxd depth); [|cbn; auto].
        specialize (Hspec (Some (tag_number tag)) ty (msg_fields cur) (msg_unk cur) (depth + 1) z Hb Hn).
        destruct (tokB (Some (tag_number tag)) (depth + 1) (za z)) as [[rs rest]| | |]; cbn [tbind agree_pay]; auto.
      - rewrite tok_pay_len by auto. unfold dec_sized. cbn [a_varint zops].
        destruct (len_cases z Hb) as [H1 H2|len z1 H1 H2 H3|len z1 p r H1 H2 H3 H4 H5 H6 H7 [c Hc]]; rewrite H1, H2; cbn [bind agree_pay].
        + auto.
        + destruct (_ && _); auto. cbn [a_avail zops]. destruct (Z.ltb_spec len (zlen (za z1))); [lia|].
          destruct (Z.eqb_spec len (zlen (za z1))); [lia|]. auto.
        + unfold ap_message. cbn [r_pay]. cbn [a_avail zops].
          assert (Hle : len <= zlen (za z1)) by (rewrite H3; unfold zlen in *; rewrite app_length; lia).
          assert (Hto : Z.to_nat len = length p) by (unfold zlen in H4; lia).
          assert (Hfp : firstn (length p) (za z1) = p) by (rewrite H3, firstn_app, firstn_all, Nat.sub_diag; cbn; apply app_nil_r).
          assert (Hsp : skipn (length p) (za z1) = r) by (rewrite H3, skipn_app, skipn_all, Nat.sub_diag; reflexivity).
          assert (Hlp : (length p <= length (za z1))%nat) by (rewrite H3, app_length; lia).
          assert (Hbp : all_bytes p) by (rewrite H3 in H6; apply all_bytes_app in H6; tauto).
          (* the message decoder on an archive whose remaining bytes are the payload *)
          assert (Hmsg : forall zz, za zz = p -> (len =? 0) && m_entry (desc_of E ty) = false ->
            agree
              (if m_entry (desc_of E ty) && negb (tag_number (hd 0 p) =? 1) then TErr
               else if negb (scope_ok maxd depth) then TErr
               else '(rs, _) <~ tokB None (depth + 1) p ;;
                 '(fs, unk) <~ body ty (depth + 1) (msg_fields cur, msg_unk cur) rs ;; TOk (VMsg fs unk))
              (dec_msg zops E maxd rec ty cur depth zz) (pos zz [])).
          { intros zz Hzz Hent. unfold dec_msg. destruct (scope_ok maxd depth); cbn [negb].
            2: { destruct (m_entry (desc_of E ty) && _); cbn [agree]; apply is_err_intro. }
            cbn [a_avail a_byte0 zops].
            assert (Hck : (if m_entry (desc_of E ty) && (0 <? zlen (za zz)) then
                b <- match za zz with [] => UB | b :: _ => Ok b end;; (if tag_number b =? 1 then Ok tt else Err BadMessage)
                else Ok tt) = if m_entry (desc_of E ty) && negb (tag_number (hd 0 p) =? 1) then Err BadMessage else Ok tt).
            { rewrite Hzz. destruct (m_entry (desc_of E ty)); [|reflexivity]. rewrite andb_true_r in Hent.
              destruct p as [|b0 p0]; [cbn in H4; subst len; discriminate|].
              replace (0 <? zlen (b0 :: p0)) with true by (rewrite zlen_cons; pose proof (zlen_nonneg p0); lia).
              cbn [hd andb bind]. destruct (tag_number b0 =? 1); reflexivity. }
            rewrite Hck. destruct (m_entry (desc_of E ty) && negb _); [cbn; auto|]. cbn [bind].
            assert (Hln : (length (za zz) < n)%nat) by (rewrite Hzz; lia).
            pose proof (Hspec None ty (msg_fields cur) (msg_unk cur) (depth + 1) zz ltac:(congruence) Hln) as Hs.
            rewrite Hzz in Hs. destruct (tokB None (depth + 1) p) as [[rs rest]| | |] eqn:Kt; cbn [tbind]; auto.
            - pose proof (tok_raws _ _ _ _ _ _ _ Kt) as (e & _ & _ & ->). exact Hs.
            - cbn [agree]. pose proof (Hsafe None ty (msg_fields cur) (msg_unk cur) (depth + 1) zz Hln) as Hsf.
              destruct (rec None ty (msg_fields cur) (msg_unk cur) (depth + 1) zz) as [[v z']| | | |] eqn:Kr; cbn in *; auto.
              apply Hend in Kr. apply suf_nil; auto. }
          destruct ((len =? 0) && m_entry (desc_of E ty)) eqn:Hent.
          { apply andb_prop in Hent. destruct Hent as [Hl0 He]. rewrite He.
            assert (p = []) by (destruct p; [reflexivity|]; rewrite zlen_cons in H4; pose proof (zlen_nonneg p); lia). subst p.
            cbn. auto. }
          destruct (Z.ltb_spec len (zlen (za z1))).
          * cbn [a_split zops]. unfold z_split. rewrite Hto, Hfp.
            specialize (Hmsg {| zb := zb z1; za := p |} eq_refl eq_refl).
            assert (Hz1r : zadv (length p) z1 = pos z r) by (rewrite <- pos_skipn, Hsp by auto; exact H5).
            rewrite Hz1r. destruct (if m_entry (desc_of E ty) && _ then TErr else _); cbn [agree] in *.
            -- rewrite Hmsg. reflexivity.
            -- apply is_err_bind; auto.
            -- eapply oe_bind; [exact Hmsg|]. intros [v w] _. reflexivity.
            -- auto.
          * destruct (Z.eqb_spec len (zlen (za z1))); [|lia].
            assert (Hr0 : r = []). { clear - H3 H4 e. rewrite H3 in e. unfold zlen in *. rewrite app_length in e. destruct r; [reflexivity|cbn [length] in *; lia]. }
            rewrite Hr0 in *. rewrite app_nil_r in H3. specialize (Hmsg z1 H3 eq_refl). rewrite H5 in Hmsg. exact Hmsg.
    Qed.

    Lemma dec_value_spec e cur tag depth tb pb z : all_bytes (za z) -> (length (za z) < n)%nat -> tag <> 0 ->
      agree_pay z (tok_pay (grpB depth) tag (za z))
        (fun p sub => ap_value E utf8_ok maxd body e cur depth (Rec tb tag pb p sub))
        (dec_value zops E utf8_ok maxd rec e cur tag depth z).
    Proof.
      intros Hb Hn H0. unfold ap_value. cbn [r_tag].
      destruct (Z.eqb_spec (tag_type tag) (elem_wt e)) as [Hw|Hw]; cbn [negb].
      2: { assert (Hr : is_err (dec_value zops E utf8_ok maxd rec e cur tag depth z)).
           { apply Z.eqb_neq in Hw. unfold dec_value. destruct e; unfold dec_scalar; try (rewrite Hw; cbn; auto; fail).
             unfold dec_message. cbn [elem_wt] in Hw. rewrite Hw. cbn; auto. }
           destruct (tok_pay _ _ _) as [[[p sub] r]| | |]; cbn; auto. }
      assert (Hvar : tag_type tag = WT_VARINT -> tok_pay (grpB depth) tag (za z) =
         match scan 10 (za z) with Found k => TOk (firstn k (za z), [], skipn k (za z)) | _ => TErr end).
      { intros Hv. unfold tok_pay. rewrite Hv. destruct (Z.eqb_spec tag 0); [congruence|]. reflexivity. }
      destruct e as [t| |is64 fl|closed|utf8 view|ty delim]; cbn [elem_wt] in Hw; cbn [dec_value].
      - rewrite Hvar by auto. unfold dec_scalar. cbn [elem_wt]. rewrite Hw, Z.eqb_refl. cbn [negb a_varint zops].
        rewrite z_varint_spec by auto. destruct (scan 10 (za z)) as [| |k] eqn:K; cbn [agree_pay r_pay].
        + destruct (scan (max_len t) (za z)) as [| |k'] eqn:K'; cbn; auto.
          apply (scan_mono _ 10) in K'; [congruence|destruct t; cbn; lia].
        + destruct (scan (max_len t) (za z)) as [| |k'] eqn:K'; cbn; auto.
          apply (scan_mono _ 10) in K'; [congruence|destruct t; cbn; lia].
        + pose proof (scan_len _ _ _ K) as Hk.
          assert (Hfl : length (firstn k (za z)) = k) by (rewrite firstn_length; lia). rewrite Hfl.
          destruct (Nat.leb_spec k (max_len t)).
          * rewrite (scan_mono_inv (max_len t) 10 _ _ ltac:(destruct t; cbn; lia) K) by auto. reflexivity.
          * destruct (scan (max_len t) (za z)) as [| |k'] eqn:K'; cbn; auto.
            pose proof (scan_len _ _ _ K').
            apply (scan_mono _ 10) in K'; [|destruct t; cbn; lia]. assert (k = k') by congruence. lia.
      - rewrite Hvar by auto. unfold dec_scalar. cbn [elem_wt]. rewrite Hw, Z.eqb_refl. cbn [negb a_bool zops].
        rewrite z_bool_spec by auto. destruct (scan 10 (za z)) as [| |k] eqn:K; cbn; auto.
      - unfold dec_scalar. cbn [elem_wt]. rewrite Hw.
        assert (Htp : tok_pay (grpB depth) tag (za z) = ('(p, rest) <~ tok_take (fix_size is64) (za z) ;; TOk (p, [], rest))).
        { unfold tok_pay. rewrite Hw. destruct (Z.eqb_spec tag 0); [congruence|]. destruct is64; reflexivity. }
        rewrite Htp, Z.eqb_refl. cbn [negb a_fixed zops]. rewrite z_take_spec.
        destruct (tok_take _ (za z)) as [[p r]| | |]; cbn; auto.
      - rewrite Hvar by auto. unfold dec_scalar. cbn [elem_wt]. rewrite Hw, Z.eqb_refl. cbn [negb a_varint zops].
        rewrite z_varint_spec by auto. cbn [max_len]. destruct (scan 10 (za z)) as [| |k] eqn:K; cbn; auto.
      - unfold dec_scalar. cbn [elem_wt]. rewrite Hw, Z.eqb_refl. cbn [negb]. rewrite tok_pay_len by auto.
        unfold dec_bytes. cbn [a_varint zops a_padded andb].
        destruct (len_cases z Hb) as [H1 H2|len z1 H1 H2 H3|len z1 p r H1 H2 H3 H4 H5 H6 H7 _]; rewrite H1, H2; cbn [bind agree_pay r_pay].
        + auto.
        + pose proof (zlen_nonneg (za z1)). destruct (Z.eqb_spec len 0); [lia|]. cbn [a_packed zops]. unfold z_take.
          destruct (Nat.leb_spec (Z.to_nat len * 1) (length (za z1))); [unfold zlen in *; lia|]. cbn; auto.
        + destruct (Z.eqb_spec len 0) as [Hz|Hnz].
          * assert (p = []) by (destruct p; [reflexivity|]; rewrite zlen_cons in H4; pose proof (zlen_nonneg p); lia). subst p.
            assert (Hz1 : z1 = pos z r) by (rewrite <- H5; rewrite <- (app_nil_l r), <- H3, pos_self; reflexivity).
            destruct (utf8 && _); cbn; auto. rewrite Hz1. reflexivity.
          * cbn [a_packed zops]. rewrite z_take_spec.
            assert (Hto : (Z.to_nat len * 1)%nat = length p) by (unfold zlen in H4; lia). rewrite Hto.
            unfold tok_take. rewrite H3. destruct (Nat.leb_spec (length p) (length (p ++ r))); [|rewrite app_length in *; lia].
            rewrite firstn_app, skipn_app, firstn_all, skipn_all, Nat.sub_diag. cbn [firstn skipn app]. rewrite app_nil_r, H5.
            cbn [bind]. destruct (utf8 && _); cbn; auto.
      - apply dec_message_spec; auto.
    Qed.
  End Rec.
End Spec.
