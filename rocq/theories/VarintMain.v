(** Corollaries about varints in the form used by PropertiesVarint.v. *)
Require Import Verif.Bits Verif.Varint Verif.VarintSpec Verif.VarintProofs Verif.VarintFacts.

(** Longest accepted encoding per type, in bytes. *)
Definition max_len (t : vtype) : nat := match t with VU32 => 6 | _ => 10 end.

Lemma max_len_sm t : sm_max (smtype_of t) = max_len t.
Proof. destruct t; reflexivity. Qed.

Lemma scan_short_iff max m : scan max m = Short <-> (length m < max)%nat /\ Forall (fun b => 128 <= b) m.
Proof.
  split; [apply scan_short|].
  revert m; induction max as [|k IH]; intros m [H1 H2]; [lia|].
  cbn [scan]. destruct m as [|b t]; [reflexivity|]. inversion H2; subst.
  destruct (Z.ltb_spec b 128); [lia|]. rewrite IH; [reflexivity|]. cbn in H1. split; [lia|auto].
Qed.

Lemma scan_toolong_iff max m : scan max m = TooLong <->
  (max <= length m)%nat /\ Forall (fun b => 128 <= b) (firstn max m).
Proof.
  split; [apply scan_toolong|].
  revert m; induction max as [|k IH]; intros m [H1 H2]; [reflexivity|].
  cbn [scan]. destruct m as [|b t]; [cbn in H1; lia|]. cbn [firstn] in H2. inversion H2; subst.
  destruct (Z.ltb_spec b 128); [lia|]. rewrite IH; [reflexivity|]. cbn in H1. split; [lia|auto].
Qed.

Lemma parse_varint_ok_iff t m v n : all_bytes m ->
  (parse_varint t m = POk v n <->
   (n <= length m)%nat /\ (n <= max_len t)%nat /\ is_varint (firstn n m) /\ v = meaning t (b128 (firstn n m))).
Proof.
  intros Hm. rewrite parse_varint_spec by auto. rewrite max_len_sm. split.
  - destruct (scan (max_len t) m) as [| |k] eqn:E; try discriminate.
    intros [= <- <-]. apply scan_found in E; [|auto]. intuition lia.
  - intros (H1 & H2 & H3 & ->).
    assert (E : scan (max_len t) m = Found n).
    { rewrite <- (firstn_skipn n m). rewrite scan_is_varint; auto.
      - rewrite firstn_length, Nat.min_l by lia. reflexivity.
      - rewrite firstn_length. lia. }
    rewrite E. reflexivity.
Qed.

Lemma parse_varint_unterm_iff t m : all_bytes m ->
  (parse_varint t m = PUnterm <->
   (max_len t <= length m)%nat /\ Forall (fun b => 128 <= b) (firstn (max_len t) m)).
Proof.
  intros Hm. rewrite parse_varint_spec, max_len_sm, <- scan_toolong_iff by auto.
  destruct (scan _ _); split; congruence.
Qed.

Lemma parse_varint_ub_iff t m : all_bytes m ->
  (parse_varint t m = PUB <-> (length m < max_len t)%nat /\ Forall (fun b => 128 <= b) m).
Proof.
  intros Hm. rewrite parse_varint_spec, max_len_sm, <- scan_short_iff by auto.
  destruct (scan _ _); split; congruence.
Qed.

Lemma pack_varint_shortest t v bs :
  is_varint bs -> b128 bs = b128 (pack_varint t v) -> zlen (pack_varint t v) <= zlen bs.
Proof.
  intros Hv Hb. destruct (pack_varint_spec t v) as (_ & E & ->).
  assert (1 <= zlen bs) by (destruct bs; [destruct Hv|]; rewrite zlen_cons; pose proof (zlen_nonneg bs); lia).
  apply varint_size_u_bounds; [|lia]. rewrite <- E, <- Hb.
  split; [apply b128_nonneg|apply b128_bound].
Qed.

Lemma varint_main_roundtrip t v rest : in_vtype t v ->
  parse_varint t (pack_varint t v ++ rest) = POk v (length (pack_varint t v)).
Proof. apply parse_pack. Qed.

Lemma bool_roundtrip b rest : (b = 0 \/ b = 1) -> parse_bool ([b] ++ rest) = POk b 1.
Proof. intros [-> | ->]; reflexivity. Qed.

Lemma varint_size_exact t v : in_vtype t v ->
  zlen (pack_varint t v) = encode_size t v /\ is_varint (pack_varint t v) /\
  1 <= zlen (pack_varint t v) <= 10 /\ (enc_bits t = 32 -> zlen (pack_varint t v) <= 5).
Proof.
  intros H. split; [apply encode_size_pack; auto|]. split; [apply pack_varint_spec|].
  split; [apply pack_varint_len|]. intros; apply pack_varint_len32; auto.
Qed.

Lemma zigzag_code_range t v : is_zigzag t = true -> in_vtype t v ->
  pack_value t v = (if v <? 0 then - 2 * v - 1 else 2 * v) /\ 0 <= pack_value t v < 2 ^ vbits t.
Proof.
  intros Hz Hv. rewrite pack_value_zigzag by auto. split; [reflexivity|].
  destruct t; try discriminate; apply zz_range; try exact Hv; cbn; lia.
Qed.

Lemma zigzag_decode t u : is_zigzag t = true -> 0 <= u < 2 ^ vbits t ->
  in_vtype t (finish_varint t u) /\ pack_value t (finish_varint t u) = u.
Proof.
  intros Hz Hu.
  assert (E : finish_varint t u = unzz u).
  { rewrite finish_varint_spec, Hz. destruct t; try discriminate; cbn [vbits cast_vtype] in *.
    - rewrite (Z.mod_small u (2 ^ 64)) by lia. apply wrapS_id; [lia|].
      apply zz_range; [lia|]. rewrite zz_unzz by lia. exact Hu.
    - rewrite (Z.mod_small u (2 ^ 64)) by lia. apply wrapS_id; [lia|].
      apply zz_range; [lia|]. rewrite zz_unzz by lia. exact Hu. }
  assert (I : in_vtype t (unzz u)).
  { destruct t; try discriminate; cbn [in_vtype vbits] in *; apply zz_range; try lia;
      rewrite zz_unzz by lia; exact Hu. }
  rewrite E. split; [exact I|]. rewrite pack_value_zigzag by auto. apply zz_unzz. lia.
Qed.

Lemma zigzag_injective t a b : is_zigzag t = true -> in_vtype t a -> in_vtype t b ->
  pack_value t a = pack_value t b -> a = b.
Proof.
  intros Hz Ha Hb. rewrite !pack_value_zigzag by auto. intros H.
  rewrite <- (unzz_zz a), <- (unzz_zz b), H. reflexivity.
Qed.

Lemma zigzag_order t a b : is_zigzag t = true -> in_vtype t a -> in_vtype t b ->
  Z.abs a < Z.abs b -> pack_value t a < pack_value t b.
Proof.
  intros Hz Ha Hb H. rewrite !pack_value_zigzag by auto. unfold zz.
  destruct (Z.ltb_spec a 0), (Z.ltb_spec b 0); lia.
Qed.

Lemma parse_bool_varint m : all_bytes m ->
  parse_bool m =
  match parse_varint VU64 m with
  | POk u n => POk (if u =? 0 then 0 else 1) n
  | r => r
  end.
Proof.
  intros H. rewrite parse_bool_spec, (parse_varint_spec VU64) by auto. cbn [smtype_of sm_max meaning].
  destruct (scan 10 m); reflexivity.
Qed.
