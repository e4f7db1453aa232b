(** The decoder over the reference archive computes the record specification:
    archive operations, skipping and values. *)
Require Import Verif.Bits Verif.Varint Verif.VarintSpec Verif.VarintProofs Verif.VarintFacts Verif.VarintMain.
Require Import Verif.Schema Verif.Archive Verif.Decode Verif.DecodeSafe Verif.Wire Verif.WireFacts.

Definition is_err {T} (r : res T) : Prop := exists e, r = Err e.

Lemma is_err_bind {T U} (r : res T) (k : T -> res U) : is_err r -> is_err (bind r k).
Proof. intros [e ->]. exists e. reflexivity. Qed.
Lemma is_err_intro {T} e : is_err (@Err T e).
Proof. exists e; reflexivity. Qed.
#[export] Hint Resolve is_err_intro is_err_bind : core.

(** The archive after consuming everything up to [rest]. *)
Definition pos (z : zip) (rest : bytes) : zip := zadv (length (za z) - length rest) z.

Lemma pos_app z c rest : za z = c ++ rest -> pos z rest = zadv (length c) z.
Proof. intros H. unfold pos. rewrite H, app_length. f_equal. lia. Qed.
Lemma pos_za z c rest : za z = c ++ rest -> za (pos z rest) = rest.
Proof. intros H. rewrite (pos_app _ _ _ H), zadv_za, H, skipn_app, skipn_all, Nat.sub_diag. reflexivity. Qed.
Lemma pos_pos z c d rest : za z = c ++ d ++ rest -> pos (pos z (d ++ rest)) rest = pos z rest.
Proof.
  intros H. rewrite (pos_app _ _ _ H).
  assert (K : za (zadv (length c) z) = d ++ rest) by (rewrite zadv_za, H, skipn_app, skipn_all, Nat.sub_diag; reflexivity).
  rewrite (pos_app _ _ _ K), zadv_zadv. rewrite app_assoc in H. rewrite (pos_app _ _ _ H), app_length. reflexivity.
Qed.
Lemma pos_self z : pos z (za z) = z.
Proof. unfold pos. rewrite Nat.sub_diag. apply zadv_0. Qed.
Lemma pos_skipn z n : (n <= length (za z))%nat -> pos z (skipn n (za z)) = zadv n z.
Proof. intros H. unfold pos. rewrite skipn_length. f_equal. lia. Qed.
Lemma pos_len z c rest : za z = c ++ rest -> length (za (pos z rest)) = length rest.
Proof. intros H. rewrite (pos_za _ _ _ H). reflexivity. Qed.

Lemma suf_nil z z' : suf z z' -> za z' = [] -> z' = pos z [].
Proof.
  intros [n ->] H. rewrite zadv_za in H. unfold pos. cbn [length]. rewrite Nat.sub_0_r.
  assert (length (za z) <= n)%nat. { apply (f_equal (@length Z)) in H. rewrite skipn_length in H. cbn in H. lia. }
  unfold zadv. rewrite (skipn_all2 _ H0), firstn_all2 by lia. rewrite firstn_all, skipn_all. reflexivity.
Qed.

Lemma all_bytes_app a b : all_bytes (a ++ b) <-> all_bytes a /\ all_bytes b.
Proof. apply Forall_app. Qed.
Lemma all_bytes_skipn n b : all_bytes b -> all_bytes (skipn n b).
Proof. intros H. rewrite <- (firstn_skipn n b) in H. apply all_bytes_app in H. tauto. Qed.
Lemma all_bytes_firstn n b : all_bytes b -> all_bytes (firstn n b).
Proof. intros H. rewrite <- (firstn_skipn n b) in H. apply all_bytes_app in H. tauto. Qed.
Lemma all_bytes_pos z c rest : za z = c ++ rest -> all_bytes (za z) -> all_bytes (za (pos z rest)).
Proof. intros H K. rewrite (pos_za _ _ _ H). rewrite H in K. apply all_bytes_app in K. tauto. Qed.

(** Specification outcome against decoder outcome. *)
Definition agree {X} (s : tres X) (r : res (X * zip)) (z' : zip) : Prop :=
  match s with
  | TOk x => r = Ok (x, z')
  | TErr => is_err r
  | TDev => oe (fun p => snd p = z') r
  | TFuel => False
  end.

Lemma agree_oe {X} (s : tres X) r z' : agree s r z' -> oe (fun p => snd p = z') r.
Proof. destruct s; cbn; [intros ->; reflexivity|intros [e ->]; exact I|auto|tauto]. Qed.

Lemma agree_bind {X Y} (s : tres X) r z1 (k : X -> tres Y) h z' :
  agree s r z1 -> (forall x, s = TOk x -> agree (k x) (h (x, z1)) z') ->
  (s = TDev -> forall x, oe (fun p => snd p = z') (h (x, z1))) ->
  agree (tbind s k) (bind r h) z'.
Proof.
  destruct s; cbn [agree tbind]; [intros ->; cbn; auto|intros [e ->]; cbn; eauto| |tauto].
  intros H _ K. eapply oe_bind; [exact H|]. intros [x w] Hw. cbn in Hw; subst. auto.
Qed.

(** ** Archive operations *)

Lemma land_le_r a b : 0 <= b -> 0 <= Z.land a b <= b.
Proof.
  intros H. split; [apply Z.land_nonneg; lia|].
  assert (b - Z.land a b = Z.ldiff b (Z.land a b)).
  { apply Z.sub_nocarry_ldiff. apply Z.bits_inj'; intros j Hj.
    rewrite Z.ldiff_spec, Z.land_spec, Z.bits_0. destruct (Z.testbit a j), (Z.testbit b j); reflexivity. }
  assert (0 <= Z.ldiff b (Z.land a b)) by (apply Z.ldiff_nonneg; lia). lia.
Qed.

Lemma shift_mix_small m n : scan 5 m = Found n -> (n <= 4)%nat -> all_bytes m ->
  shift_mix SMTAG m = POk (b128 (firstn n m)) n.
Proof.
  intros Hs Hn Hm.
  assert (E1 : shift_mix SMTAG m = shift_mix SM64 m /\
    forall v k, shift_mix SMTAG m = POk v k -> 0 <= v < 2 ^ 63).
  { pose proof (shift_mix_spec SMTAG _ Hm) as K. unfold pres_matches in K. cbn [sm_max] in K.
    rewrite Hs in K. destruct K as (v0 & K & _). unfold shift_mix in *.
    destruct m as [|b0 m]; [discriminate|]; cbn [next] in *; destruct (0 <=? sext8 b0) eqn:G0.
    { split; [reflexivity|]. intros v k [= <- _]. inversion Hm as [|? ? Hb0 _]; subst. unfold is_byte in Hb0.
      unfold sext8 in *. destruct (Z.ltb_spec b0 128); lia. }
    destruct m as [|b1 m]; [discriminate|]; cbn [next] in *; destruct (0 <=? shl_byte 1 _ _) eqn:G1.
    { split; [reflexivity|]. intros v k [= <- _]. pose proof (shl_byte_range 1 (sext8 b1) (sext8 b0)) as R.
      unfold fits_s in R. pose proof (land_le_r (sext8 b0) (shl_byte 1 (sext8 b1) (sext8 b0))). lia. }
    destruct m as [|b2 m]; [discriminate|]; cbn [next] in *; destruct (0 <=? shl_byte 2 _ _) eqn:G2.
    { split; [reflexivity|]. intros v k [= <- _]. pose proof (shl_byte_range 2 (sext8 b2) (sext8 b0)) as R.
      unfold fits_s in R. unfold done2.
      pose proof (land_le_r (shl_byte 1 (sext8 b1) (sext8 b0)) (shl_byte 2 (sext8 b2) (sext8 b0))).
      pose proof (land_le_r (sext8 b0) (Z.land (shl_byte 1 (sext8 b1) (sext8 b0)) (shl_byte 2 (sext8 b2) (sext8 b0)))).
      lia. }
    destruct m as [|b3 m]; [discriminate|]; cbn [next] in *; destruct (0 <=? Z.land _ _) eqn:G3.
    { split; [reflexivity|]. intros v k [= <- _]. pose proof (shl_byte_range 3 (sext8 b3) (sext8 b0)) as R.
      pose proof (shl_byte_range 1 (sext8 b1) (sext8 b0)) as R1. unfold fits_s in R, R1. unfold done2.
      set (x := Z.land (shl_byte 1 (sext8 b1) (sext8 b0)) (shl_byte 3 (sext8 b3) (sext8 b0))) in *.
      assert (x < 2 ^ 63).
      { unfold x. destruct (Z_lt_le_dec (shl_byte 3 (sext8 b3) (sext8 b0)) 0).
        - assert (0 <= shl_byte 1 (sext8 b1) (sext8 b0)).
          { destruct (Z_lt_le_dec (shl_byte 1 (sext8 b1) (sext8 b0)) 0) as [Hx|]; [|auto].
            pose proof (proj2 (Z.land_neg (shl_byte 1 (sext8 b1) (sext8 b0)) (shl_byte 3 (sext8 b3) (sext8 b0)))).
            unfold x in G3. lia. }
          lia.
        - pose proof (land_le_r (shl_byte 1 (sext8 b1) (sext8 b0)) (shl_byte 3 (sext8 b3) (sext8 b0))). lia. }
      rewrite (Z.land_comm x). pose proof (land_le_r (shl_byte 2 (sext8 b2) (sext8 b0)) x).
      pose proof (land_le_r (sext8 b0) (Z.land (shl_byte 2 (sext8 b2) (sext8 b0)) x)). lia. }
    exfalso. unfold sm_last in K. destruct m as [|b4 m]; cbn [next] in K; [discriminate|].
    destruct (_ =? 1); [injection K as _ K; lia|]. destruct (negb _); [discriminate|].
    cbn [andb] in K. injection K as _ K; lia. }
  destruct E1 as [E1 E2].
  pose proof (shift_mix_spec SM64 _ Hm) as K. unfold pres_matches in K. cbn [sm_max] in K.
  rewrite (scan_mono 5 10 _ _ ltac:(lia) Hs) in K. destruct K as (v & K & Hv).
  rewrite <- E1 in K. specialize (E2 _ _ K). rewrite K. f_equal.
  cbn [sm_bits sm_expected] in Hv.
  assert (Hb : 0 <= b128 (firstn n m) < 2 ^ 28).
  { split; [apply b128_nonneg|]. eapply Z.lt_le_trans; [apply b128_bound|]. apply Z.pow_le_mono_r; [lia|].
    unfold zlen. rewrite firstn_length. lia. }
  rewrite !Z.mod_small in Hv; auto.
  - split; [lia|]. eapply Z.lt_trans; [apply Hb|reflexivity].
  - split; [lia|]. eapply Z.lt_trans; [apply E2|reflexivity].
Qed.

(** A five byte tag: the 64-bit result is negative. *)
Lemma shift_mix_five m v n : shift_mix SMTAG m = POk v n -> (n = 5)%nat -> v < 0.
Proof.
  intros H ->. unfold shift_mix, next, sm_last in H.
  destruct m as [|b0 m]; [discriminate|]. destruct (Z.leb_spec 0 (sext8 b0)); [discriminate|].
  destruct m as [|b1 m]; [discriminate|]. destruct (Z.leb_spec 0 (shl_byte 1 (sext8 b1) (sext8 b0))); [discriminate|].
  destruct m as [|b2 m]; [discriminate|]. destruct (Z.leb_spec 0 (shl_byte 2 (sext8 b2) (sext8 b0))); [discriminate|].
  destruct m as [|b3 m]; [discriminate|].
  destruct (Z.leb_spec 0 (Z.land (shl_byte 1 (sext8 b1) (sext8 b0)) (shl_byte 3 (sext8 b3) (sext8 b0)))); [discriminate|].
  destruct m as [|b4 m]; [discriminate|].
  assert (Hd : v = done2 (sext8 b0) (Z.land (shl_byte 1 (sext8 b1) (sext8 b0)) (shl_byte 3 (sext8 b3) (sext8 b0)))
                     (shl_byte 2 (sext8 b2) (sext8 b0))).
  { unfold next in H. destruct (sext8 b4 =? 1); [congruence|]. destruct (negb _); [discriminate|].
    cbn [andb] in H. congruence. }
  subst v. unfold done2. apply Z.land_neg. split; [lia|]. apply Z.land_neg. split; lia.
Qed.

Lemma shift_mix_tag m n : scan 5 m = Found n -> all_bytes m ->
  exists v, shift_mix SMTAG m = POk v n /\ wrapU 32 v = tag_value (firstn n m) /\
    ((n <= 4)%nat -> v = tag_value (firstn n m)) /\ ((4 < n)%nat -> v < 0).
Proof.
  intros Hs Hm. pose proof (shift_mix_spec SMTAG _ Hm) as K. unfold pres_matches in K. cbn [sm_max] in K.
  rewrite Hs in K. destruct K as (v & K & Hv). exists v. split; [exact K|].
  cbn [sm_bits sm_expected] in Hv. pose proof (tag_value_range (firstn n m)) as R.
  split. { unfold wrapU. rewrite Hv. apply Z.mod_small. exact R. }
  pose proof (scan_len _ _ _ Hs) as Hl. split.
  - intros Hn. rewrite (shift_mix_small _ _ Hs Hn Hm) in K. injection K as <-.
    symmetry. apply tag_value_small. rewrite firstn_length. lia.
  - intros Hn. eapply shift_mix_five; [exact K|]. lia.
Qed.

Lemma z_tag_spec z : all_bytes (za z) ->
  match tok_tag (za z) with
  | TOk (_, tag, r) => z_tag z = Ok (tag, pos z r)
  | TErr => z_tag z = Ok (0, z)
  | _ => False
  end.
Proof.
  intros Hb. unfold tok_tag, z_tag. pose proof (shift_mix_spec SMTAG _ Hb) as K.
  unfold pres_matches in K. cbn [sm_max] in K. destruct (scan 5 (za z)) as [| |n] eqn:Hs.
  - rewrite K. reflexivity.
  - rewrite K. reflexivity.
  - clear K. destruct (shift_mix_tag _ _ Hs Hb) as (v & K & Hv & _). rewrite K. cbn [z_parse].
    apply scan_len in Hs. rewrite pos_skipn by lia. rewrite Hv. reflexivity.
Qed.

(** match_tag never recognises a five byte tag. *)
Lemma z_match_spec t z : all_bytes (za z) -> 0 <= t ->
  match tok_tag (za z) with
  | TOk (tb, tag, r) => z_match t z = Ok (if (tag =? t) && (length tb <=? 4)%nat then (true, pos z r) else (false, z))
  | TErr => z_match t z = Ok (false, z)
  | _ => False
  end.
Proof.
  intros Hb H0. unfold tok_tag, z_match. pose proof (shift_mix_spec SMTAG _ Hb) as K.
  unfold pres_matches in K. cbn [sm_max] in K. destruct (scan 5 (za z)) as [| |n] eqn:Hs.
  - rewrite K. reflexivity.
  - rewrite K. reflexivity.
  - clear K. destruct (shift_mix_tag _ _ Hs Hb) as (v & K & _ & Hv & Hv'). rewrite K. cbn [z_parse].
    apply scan_len in Hs. rewrite pos_skipn by lia. rewrite firstn_length, Nat.min_l by lia.
    destruct (Nat.leb_spec n 4) as [Hn|Hn].
    + rewrite <- Hv by auto. rewrite andb_true_r. destruct (v =? t); reflexivity.
    + specialize (Hv' Hn). rewrite andb_false_r. destruct (Z.eqb_spec v t); [lia|reflexivity].
Qed.

Lemma z_varint_spec t z : all_bytes (za z) ->
  z_varint t z = match scan (max_len t) (za z) with
                 | Found n => Ok (meaning t (b128 (firstn n (za z))), pos z (skipn n (za z)))
                 | _ => Err BadMessage
                 end.
Proof.
  intros Hb. unfold z_varint. rewrite parse_varint_spec, max_len_sm by auto.
  destruct (scan (max_len t) (za z)) as [| |n] eqn:Hs; try reflexivity. cbn [z_parse].
  apply scan_len in Hs. rewrite pos_skipn by lia. reflexivity.
Qed.

Lemma z_bool_spec z : all_bytes (za z) ->
  z_bool z = match scan 10 (za z) with
             | Found n => Ok (bool_of (firstn n (za z)), pos z (skipn n (za z)))
             | _ => Err BadMessage
             end.
Proof.
  intros Hb. unfold z_bool. rewrite parse_bool_spec by auto.
  destruct (scan 10 (za z)) as [| |n] eqn:Hs; try reflexivity. cbn [z_parse].
  apply scan_len in Hs. rewrite pos_skipn by lia. reflexivity.
Qed.

Lemma z_take_spec n z : z_take n z = match tok_take n (za z) with
                                     | TOk (p, r) => Ok (p, pos z r)
                                     | _ => Err BadMessage
                                     end.
Proof.
  unfold z_take, tok_take. destruct (Nat.leb_spec n (length (za z))); [|reflexivity].
  rewrite pos_skipn by lia. reflexivity.
Qed.

Lemma z_skip_spec n z : 0 <= n -> z_skip n z = match tok_take (Z.to_nat n) (za z) with
                                     | TOk (p, r) => Ok (pos z r)
                                     | _ => Err BadMessage
                                     end.
Proof.
  intros Hn. unfold z_skip, tok_take, zlen. destruct (Nat.leb_spec (Z.to_nat n) (length (za z))).
  - destruct (Z.ltb_spec (Z.of_nat (length (za z))) n); [lia|]. rewrite pos_skipn by lia. reflexivity.
  - destruct (Z.ltb_spec (Z.of_nat (length (za z))) n); [|lia]. reflexivity.
Qed.

Lemma z_skip_varint_spec z :
  z_skip_varint z = match scan 10 (za z) with Found n => Ok (pos z (skipn n (za z))) | _ => Err BadMessage end.
Proof.
  unfold z_skip_varint. rewrite find_term_scan. destruct (scan 10 (za z)) eqn:Hs; try reflexivity.
  apply scan_len in Hs. rewrite pos_skipn by lia. reflexivity.
Qed.

(** Positions after a two-step read. *)
Lemma pos_skipn2 z n p r : (n <= length (za z))%nat -> skipn n (za z) = p ++ r ->
  pos (pos z (skipn n (za z))) r = pos z r.
Proof.
  intros Hn H. rewrite H. apply (pos_pos z (firstn n (za z))). rewrite <- H. symmetry. apply firstn_skipn.
Qed.

Lemma za_pos_skipn z n : (n <= length (za z))%nat -> za (pos z (skipn n (za z))) = skipn n (za z).
Proof. intros. rewrite pos_skipn by auto. reflexivity. Qed.

Section Spec.
  Context (maxd : Z).
  Notation tokB := (tokB maxd).
  Notation grpB := (grpB maxd).

  (** ** Skipping a record *)
  Definition skips (z : zip) (s : tres (bytes * list rec * bytes)) (r : res zip) : Prop :=
    match s with
    | TOk (_, _, rest) => r = Ok (pos z rest)
    | TErr => is_err r
    | TDev => True
    | TFuel => False
    end.

  Lemma do_skip_spec (g : Z -> bytes -> tres (list rec * bytes)) h tag z : all_bytes (za z) ->
    (forall num, match g num (za z) with
                 | TOk (_, rest) => h num z = Ok (pos z rest)
                 | TErr => is_err (h num z) | TDev => True | TFuel => False end) ->
    skips z (tok_pay g tag (za z)) (do_skip_field zops h tag z).
  Proof.
    intros Hb Hg. unfold tok_pay, do_skip_field. destruct (tag =? 0); [cbn; auto|].
    destruct (_ =? WT_VARINT).
    { cbn [a_skip_varint zops]. rewrite z_skip_varint_spec. destruct (scan 10 (za z)); cbn; auto. }
    destruct (_ =? WT_LEN).
    { cbn [a_varint zops]. rewrite z_varint_spec by auto. cbn [max_len].
      destruct (scan 6 (za z)) as [| |n] eqn:Hs; cbn [bind skips]; auto. cbn [a_skip zops meaning].
      apply scan_len in Hs. rewrite z_skip_spec by (apply Z.mod_pos_bound; reflexivity).
      rewrite za_pos_skipn by lia.
      destruct (tok_take _ (skipn n (za z))) as [[p r]| | |] eqn:Ht; cbn [tbind skips]; auto;
        [|unfold tok_take in Ht; destruct (_ <=? _)%nat; discriminate].
      apply tok_take_ok in Ht. destruct Ht as [Ht _]. rewrite (pos_skipn2 _ _ p) by (auto; lia). reflexivity. }
    assert (Htk : forall n, skips z ('(p, rest) <~ tok_take n (za z) ;; TOk (p, [], rest)) (z_skip (Z.of_nat n) z)).
    { intros n. rewrite z_skip_spec by lia. rewrite Nat2Z.id. destruct (tok_take n (za z)) as [[p r]| | |] eqn:Ht; cbn; auto.
      unfold tok_take in Ht; destruct (_ <=? _)%nat; discriminate. }
    destruct (_ =? WT_I64); [apply (Htk 8%nat)|].
    destruct (_ =? WT_SGROUP).
    { specialize (Hg (tag_number tag)). destruct (g (tag_number tag) (za z)) as [[rs r]| | |]; cbn; auto. }
    destruct (_ =? WT_I32); [apply (Htk 4%nat)|cbn; auto].
  Qed.

  Lemma tok_pay_nil g tag : (forall num, g num [] = TErr) -> tok_pay g tag [] = TErr.
  Proof.
    intros Hg. unfold tok_pay. destruct (tag =? 0); [reflexivity|].
    destruct (_ =? WT_VARINT); [reflexivity|]. destruct (_ =? WT_LEN); [reflexivity|].
    destruct (_ =? WT_I64); [reflexivity|]. destruct (_ =? WT_SGROUP); [rewrite Hg; reflexivity|].
    destruct (_ =? WT_I32); reflexivity.
  Qed.
  Lemma grpB_nil depth num : grpB depth num [] = TErr.
  Proof. unfold WireFacts.grpB. destruct (scope_ok maxd depth); reflexivity. Qed.

  Lemma skip_group_spec fuel : forall num depth z, all_bytes (za z) -> (length (za z) < fuel)%nat ->
    match tokB (Some num) depth (za z) with
    | TOk (_, rest) => skip_group_loop zops maxd fuel num depth z = Ok (pos z rest)
    | TErr => is_err (skip_group_loop zops maxd fuel num depth z)
    | TDev => True
    | TFuel => False
    end.
  Proof.
    induction fuel as [|f IH]; intros num depth z Hb Hf; [lia|]. rewrite tokB_eq. cbn [skip_group_loop].
    destruct (za z) as [|b0 t0] eqn:Hz; [cbn; rewrite Hz; cbn; auto|].
    cbn [a_avail zops]. rewrite Hz.
    replace (zlen (b0 :: t0) <=? 0) with false by (rewrite zlen_cons; pose proof (zlen_nonneg t0); lia).
    rewrite <- Hz in *. clear b0 t0 Hz. pose proof (z_tag_spec z Hb) as Ht.
    destruct (tok_tag (za z)) as [[[tb tag] bs1]| | |] eqn:Kt; cbn [tbind]; auto.
    2: { cbn [a_tag zops]. rewrite Ht. cbn [bind].
         change ((tag_type 0 =? WT_EGROUP) && (tag_number 0 =? num)) with false. cbv iota.
         destruct (zlen (za z) <=? 0); cbn; auto. }
    cbn [a_tag zops]. rewrite Ht. cbn [bind].
    destruct (tok_tag_ok _ _ _ _ Kt) as (n & _ & Hn & Hl & Htb & _ & Hbs & Happ).
    assert (Hlb : (length bs1 < length (za z))%nat) by (rewrite Hbs, skipn_length; lia).
    destruct (_ && _); [reflexivity|].
    pose proof (pos_za _ _ _ Happ) as Hz1. pose proof (all_bytes_pos _ _ _ Happ Hb) as Hb1.
    set (z1 := pos z bs1) in *.
    destruct (Z.leb_spec (zlen (za z1)) 0) as [Hle|Hgt].
    { assert (Hnil : bs1 = []) by (rewrite Hz1 in Hle; destruct bs1 as [|x y]; [reflexivity|];
        rewrite zlen_cons in Hle; pose proof (zlen_nonneg y); lia).
      rewrite Hnil, tok_pay_nil by (apply grpB_nil). cbn; auto. }
    assert (Hsk : skips z1 (tok_pay (grpB depth) tag (za z1))
       (do_skip_field zops (fun n0 x => if scope_ok maxd depth then skip_group_loop zops maxd f n0 (depth + 1) x else Err TooLarge) tag z1)).
    { apply do_skip_spec; [auto|]. intros num0. unfold WireFacts.grpB. destruct (scope_ok maxd depth); [|cbn; auto].
      apply IH; [auto|]. rewrite Hz1. lia. }
    rewrite Hz1 in Hsk. destruct (tok_pay (grpB depth) tag bs1) as [[[p sub] bs2]| | |] eqn:Kp; cbn [tbind skips] in *; auto.
    rewrite Hsk. cbn [bind].
    destruct (tok_pay_ok _ _ _ _ _ _ (fun num rs r => grpB_consumes' _ _ num _ rs r) Kp) as (c & Hc & _).
    assert (Hz1c : za z1 = c ++ bs2) by congruence.
    pose proof (pos_za _ _ _ Hz1c) as Hz2.
    assert (Hp2 : pos z1 bs2 = pos z bs2) by (unfold z1; rewrite Hc; apply (pos_pos z tb); congruence).
    specialize (IH num depth (pos z1 bs2) (all_bytes_pos _ _ _ Hz1c Hb1)).
    rewrite Hz2 in IH. specialize (IH ltac:(apply (f_equal (@length Z)) in Hc; rewrite app_length in Hc; lia)).
    destruct (tokB (Some num) depth bs2) as [[rs rest]| | |] eqn:Kr; cbn [tbind]; auto.
    rewrite IH. f_equal. destruct (tokB_rest _ _ _ _ _ _ Kr) as [d Hd].
    rewrite Hd. rewrite (pos_pos z1 c) by congruence.
    unfold z1. rewrite Hc, Hd, app_assoc. apply (pos_pos z tb). rewrite <- app_assoc. congruence.
  Qed.

  Lemma skip_one_spec fuel depth tag z : all_bytes (za z) -> (length (za z) < fuel)%nat ->
    skips z (tok_pay (grpB depth) tag (za z)) (skip_one zops maxd fuel depth tag z).
  Proof.
    intros Hb Hf. apply do_skip_spec; [auto|]. intros num. unfold do_skip_group, WireFacts.grpB.
    destruct (scope_ok maxd depth); [|cbn; auto]. apply skip_group_spec; auto.
  Qed.
End Spec.
