(** Base64: specification from RFC 4648 and proofs about the model. *)
Require Import Verif.Bits Verif.Base64.
Open Scope Z_scope.

(** ** Specification (RFC 4648, section 4) *)

(** The character of the 6-bit value [v]. *)
Definition sextet_char (v : Z) : Z :=
  if v <? 26 then 65 + v                (* A-Z *)
  else if v <? 52 then 97 + (v - 26)    (* a-z *)
  else if v <? 62 then 48 + (v - 52)    (* 0-9 *)
  else if v =? 62 then 43 else 47.      (* + / *)

(** The characters of the 24-bit group [g], most significant sextet first. *)
Definition group_chars (g : Z) : list Z :=
  [ sextet_char (g / 2 ^ 18); sextet_char (g / 2 ^ 12 mod 64);
    sextet_char (g / 2 ^ 6 mod 64); sextet_char (g mod 64) ].

(** The base64 text of a byte sequence; 61 is the padding character [=]. *)
Fixpoint b64_text (bs : bytes) : list Z :=
  match bs with
  | b0 :: b1 :: b2 :: r => group_chars (b0 * 2 ^ 16 + b1 * 2 ^ 8 + b2) ++ b64_text r
  | [b0; b1] => firstn 3 (group_chars (b0 * 2 ^ 16 + b1 * 2 ^ 8)) ++ [61]
  | [b0] => firstn 2 (group_chars (b0 * 2 ^ 16)) ++ [61; 61]
  | [] => []
  end.

Definition is_b64_char (c : Z) : Prop :=
  65 <= c <= 90 \/ 97 <= c <= 122 \/ 48 <= c <= 57 \/ c = 43 \/ c = 47.

(** ** Finite facts about the two tables *)

Definition allZ (n : nat) (p : Z -> bool) : bool := forallb (fun k => p (Z.of_nat k)) (seq 0 n).

Lemma allZ_spec n p : allZ n p = true -> forall v, 0 <= v < Z.of_nat n -> p v = true.
Proof.
  unfold allZ; intros H v Hv. rewrite forallb_forall in H.
  specialize (H (Z.to_nat v)). rewrite in_seq in H. rewrite Z2Nat.id in H by lia. apply H; lia.
Qed.

Lemma b64c_char v : 0 <= v < 64 -> b64c v = sextet_char v.
Proof.
  intros Hv. apply Z.eqb_eq. revert v Hv.
  exact (allZ_spec 64 (fun v => b64c v =? sextet_char v) ltac:(vm_compute; reflexivity)).
Qed.

Lemma b64d_char v : 0 <= v < 64 -> b64d (sextet_char v) = v.
Proof.
  intros Hv. apply Z.eqb_eq. revert v Hv.
  exact (allZ_spec 64 (fun v => b64d (sextet_char v) =? v) ltac:(vm_compute; reflexivity)).
Qed.

Lemma sextet_char_in v : 0 <= v < 64 -> is_b64_char (sextet_char v).
Proof. intros Hv; unfold sextet_char, is_b64_char; destruct (Z.ltb_spec v 26), (Z.ltb_spec v 52), (Z.ltb_spec v 62), (Z.eqb_spec v 62); lia. Qed.

Definition b64_charb (c : Z) : bool :=
  ((65 <=? c) && (c <=? 90)) || ((97 <=? c) && (c <=? 122)) || ((48 <=? c) && (c <=? 57)) || (c =? 43) || (c =? 47).

Lemma b64_charb_spec c : b64_charb c = true <-> is_b64_char c.
Proof. unfold b64_charb, is_b64_char; lia. Qed.

Lemma b64d_cases c : is_byte c ->
  (is_b64_char c /\ 0 <= b64d c < 64 /\ c = sextet_char (b64d c)) \/ (~ is_b64_char c /\ b64d c = 64).
Proof.
  intros Hc.
  assert (H : (if b64_charb c then (0 <=? b64d c) && (b64d c <? 64) && (c =? sextet_char (b64d c)) else b64d c =? 64) = true).
  { revert c Hc. exact (allZ_spec 256
      (fun c => if b64_charb c then (0 <=? b64d c) && (b64d c <? 64) && (c =? sextet_char (b64d c)) else b64d c =? 64)
      ltac:(vm_compute; reflexivity)). }
  destruct (b64_charb c) eqn:E.
  - left. apply b64_charb_spec in E. repeat split; auto; lia.
  - right. split; [intros F; apply b64_charb_spec in F; congruence | lia].
Qed.

Lemma is_b64_char_byte c : is_b64_char c -> is_byte c.
Proof. unfold is_b64_char, is_byte; lia. Qed.

(** ** Bit arithmetic *)

Lemma shr_div x k : 0 <= k -> Z.shiftr x k = x / 2 ^ k.
Proof. apply Z.shiftr_div_pow2. Qed.

Lemma land_mask x m : 0 <= m -> Z.land x (2 ^ m - 1) = x mod 2 ^ m.
Proof. intros. rewrite <- Z.land_ones by lia. rewrite Z.ones_equiv. f_equal; lia. Qed.

Lemma land_shifted_mask x k m : 0 <= k -> 0 <= m ->
  Z.land x ((2 ^ m - 1) * 2 ^ k) = (x / 2 ^ k) mod 2 ^ m * 2 ^ k.
Proof.
  intros Hk Hm. rewrite <- (land_mask _ m) by lia. rewrite <- !Z.shiftl_mul_pow2 by lia.
  rewrite <- (shr_div x k) by lia. rewrite Z.shiftl_land. apply Z.bits_inj'; intros n Hn.
  rewrite !Z.land_spec. rewrite !Z.shiftl_spec by lia.
  destruct (Z.ltb_spec n k) as [H|H].
  - rewrite (Z.testbit_neg_r (2 ^ m - 1) (n - k)) by lia. rewrite !andb_false_r. reflexivity.
  - rewrite Z.shiftr_spec by lia. replace (n - k + k) with n by lia. reflexivity.
Qed.

Lemma lor_disjoint a b k : 0 <= k -> 0 <= b < 2 ^ k -> Z.lor (a * 2 ^ k) b = a * 2 ^ k + b.
Proof.
  intros Hk Hb.
  assert (Hl : Z.land (a * 2 ^ k) b = 0).
  { apply Z.bits_inj'; intros n Hn. rewrite Z.land_spec, Z.bits_0.
    destruct (Z.ltb_spec n k).
    - rewrite Z.mul_pow2_bits_low by lia. reflexivity.
    - destruct (Z.eqb_spec b 0) as [->|]; [rewrite Z.bits_0; apply andb_false_r|].
      rewrite (Z.bits_above_log2 b n), andb_false_r; [reflexivity | lia |].
      assert (Z.log2 b < k) by (apply Z.log2_lt_pow2; lia). lia. }
  rewrite <- Z.lxor_lor by auto. symmetry. apply Z.add_nocarry_lxor; auto.
Qed.

Lemma b64_enc3_spec le b0 b1 b2 : is_byte b0 -> is_byte b1 -> is_byte b2 ->
  b64_enc3 le b0 b1 b2 = group_chars (b0 * 2 ^ 16 + b1 * 2 ^ 8 + b2).
Proof.
  intros H0 H1 H2. unfold is_byte in *. unfold b64_enc3, group_chars.
  assert (Hm : forall x, Z.land x 63 = x mod 64) by (intros; apply (land_mask x 6); lia).
  assert (Hf : forall x, Z.land x 15 = x mod 16) by (intros; apply (land_mask x 4); lia).
  assert (H30 : forall x, Z.land x 48 = x / 16 mod 4 * 16) by (intros; apply (land_shifted_mask x 4 2); lia).
  assert (H3c : forall x, Z.land x 60 = x / 4 mod 16 * 4) by (intros; apply (land_shifted_mask x 2 4); lia).
  destruct le; cbv zeta.
  - rewrite !Hm, !Hf, H30, H3c, !shr_div, Z.shiftl_mul_pow2 by lia. unfold wrapU.
    change (2 ^ 2) with 4. change (2 ^ 4) with 16. change (2 ^ 12) with 4096. change (2 ^ 6) with 64.
    change (2 ^ 22) with 4194304. change (2 ^ 16) with 65536. change (2 ^ 8) with 256.
    change (2 ^ 18) with 262144. change (2 ^ 32) with 4294967296.
    set (x := b0 + 256 * b1 + 65536 * b2). set (g := b0 * 65536 + b1 * 256 + b2).
    assert (L1 : Z.lor (x * 16 mod 4294967296 / 16 mod 4 * 16) (x / 4096 mod 16) = x * 16 mod 4294967296 / 16 mod 4 * 16 + x / 4096 mod 16).
    { apply (lor_disjoint _ _ 4); lia. }
    assert (L2 : Z.lor (x / 64 / 4 mod 16 * 4) (x / 4194304 mod 64) = x / 64 / 4 mod 16 * 4 + x / 4194304 mod 64).
    { apply (lor_disjoint _ _ 2); [lia|]. subst x; lia. }
    rewrite L1, L2.
    assert (E1 : (x / 4) mod 64 = g / 262144) by (subst x g; lia).
    assert (E2 : x * 16 mod 4294967296 / 16 mod 4 * 16 + x / 4096 mod 16 = g / 4096 mod 64) by (subst x g; lia).
    assert (E3 : x / 64 / 4 mod 16 * 4 + x / 4194304 mod 64 = g / 64 mod 64).
    { assert (A1 : x / 64 / 4 = b1 + 256 * b2) by (subst x; clear - H0 H1 H2; lia).
      assert (A2 : x / 4194304 = b2 / 64) by (subst x; clear - H0 H1 H2; lia).
      assert (A3 : g / 64 = b0 * 1024 + b1 * 4 + b2 / 64) by (subst g; clear - H0 H1 H2; lia).
      rewrite A1, A2, A3. clear - H0 H1 H2. lia. }
    assert (E4 : (x / 65536) mod 64 = g mod 64).
    { assert (A1 : x / 65536 = b2) by (subst x; clear - H0 H1 H2; lia).
      rewrite A1. subst g. clear - H0 H1 H2. lia. }
    assert (G : 0 <= g / 262144 < 64) by (subst g; clear - H0 H1 H2; lia).
    rewrite E1, E2, E3, E4. clear - G.
    rewrite !b64c_char by (clear - G; lia). reflexivity.
  - rewrite !Hm, !shr_div by lia.
    change (2 ^ 12) with 4096. change (2 ^ 6) with 64. change (2 ^ 16) with 65536. change (2 ^ 8) with 256.
    change (2 ^ 18) with 262144.
    set (g := b0 * 65536 + b1 * 256 + b2).
    assert (E : (16777216 * b0 + 65536 * b1 + 256 * b2) / 256 = g) by (subst g; lia). rewrite E.
    assert (E1 : g / 64 / 64 / 64 mod 64 = g / 262144) by (subst g; lia).
    assert (E2 : g / 64 / 64 mod 64 = g / 4096 mod 64) by lia.
    assert (G : 0 <= g / 262144 < 64) by (subst g; clear - H0 H1 H2; lia).
    rewrite E1, E2. clear - G. rewrite !b64c_char by (clear - G; lia). reflexivity.
Qed.

Lemma b64_enc_groups_spec le k : forall s, all_bytes s -> 3 * Z.of_nat k <= zlen s ->
  exists o r, b64_enc_groups le k s = Some (o, r) /\ b64_text s = o ++ b64_text r /\
    all_bytes r /\ zlen r = zlen s - 3 * Z.of_nat k.
Proof.
  induction k as [|k IH]; intros s Hs Hl.
  - exists [], s. repeat split; auto. lia.
  - unfold zlen in Hl. destruct s as [|b0 [|b1 [|b2 s]]]; cbn [length] in Hl; try lia.
    inversion Hs as [|? ? P0 Hs0]; inversion Hs0 as [|? ? P1 Hs1]; inversion Hs1 as [|? ? P2 Hs2]; subst.
    destruct (IH s Hs2) as (o & r & E & T & Hr & Hn); [unfold zlen; lia|].
    exists (b64_enc3 le b0 b1 b2 ++ o), r. cbn [b64_enc_groups]. rewrite E. repeat split; auto.
    + cbn [b64_text]. rewrite T, b64_enc3_spec, app_assoc by auto. reflexivity.
    + rewrite Hn. unfold zlen. cbn [length]. lia.
Qed.

Lemma b64_enc_unrolled_spec le fuel : forall s, all_bytes s -> zlen s < Z.of_nat fuel ->
  exists o r, b64_enc_unrolled le fuel s = Some (o, r) /\ b64_text s = o ++ b64_text r /\
    all_bytes r /\ zlen r < 24 /\ zlen r <= zlen s.
Proof.
  induction fuel as [|fuel IH]; intros s Hs Hl; [unfold zlen in Hl; lia|].
  cbn [b64_enc_unrolled]. destruct (Z.leb_spec 24 (zlen s)) as [H|H].
  - destruct (b64_enc_groups_spec le 8 s Hs) as (o & r & E & T & Hr & Hn); [lia|].
    rewrite E. destruct (IH r Hr) as (o' & r' & E' & T' & Hr' & Hn' & Hle); [lia|].
    rewrite E'. exists (o ++ o'), r'. repeat split; auto; [|lia]. rewrite T, T', app_assoc. reflexivity.
  - exists [], s. repeat split; auto; lia.
Qed.

Lemma b64_enc_rest_spec le fuel : forall s, all_bytes s -> zlen s < Z.of_nat fuel ->
  exists o r, b64_enc_rest le fuel s = Some (o, r) /\ b64_text s = o ++ b64_text r /\
    all_bytes r /\ zlen r <= 2.
Proof.
  induction fuel as [|fuel IH]; intros s Hs Hl; [unfold zlen in Hl; lia|].
  cbn [b64_enc_rest]. destruct (Z.ltb_spec 2 (zlen s)) as [H|H].
  - destruct (b64_enc_groups_spec le 1 s Hs) as (o & r & E & T & Hr & Hn); [lia|].
    rewrite E. destruct (IH r Hr) as (o' & r' & E' & T' & Hr' & Hn'); [lia|].
    rewrite E'. exists (o ++ o'), r'. repeat split; auto. rewrite T, T', app_assoc. reflexivity.
  - exists [], s. repeat split; auto; lia.
Qed.

Lemma b64_enc_tail_spec s : all_bytes s -> zlen s <= 2 -> b64_enc_tail s = Some (b64_text s).
Proof.
  intros Hs Hl. unfold zlen in Hl.
  assert (H3 : forall x, Z.land x 3 = x mod 4) by (intros; apply (land_mask x 2); lia).
  assert (Hf : forall x, Z.land x 15 = x mod 16) by (intros; apply (land_mask x 4); lia).
  destruct s as [|b0 [|b1 [|b2 s]]]; cbn [length] in Hl; try lia; [reflexivity| |].
  - inversion Hs as [|? ? P0 Hs0]; subst. unfold is_byte in *.
    unfold b64_enc_tail, b64_text, group_chars. cbn [firstn app].
    rewrite H3, shr_div, Z.shiftl_mul_pow2 by lia.
    change (2 ^ 2) with 4. change (2 ^ 4) with 16. change (2 ^ 12) with 4096. change (2 ^ 16) with 65536.
    change (2 ^ 18) with 262144.
    rewrite !b64c_char by lia.
    replace (b0 * 65536 / 262144) with (b0 / 4) by lia.
    replace (b0 * 65536 / 4096 mod 64) with (b0 mod 4 * 16) by lia. reflexivity.
  - inversion Hs as [|? ? P0 Hs0]; inversion Hs0 as [|? ? P1 Hs1]; subst. unfold is_byte in *.
    unfold b64_enc_tail, b64_text, group_chars. cbn [firstn app].
    rewrite H3, Hf, !shr_div, !Z.shiftl_mul_pow2 by lia.
    rewrite lor_disjoint by (change (2 ^ 4) with 16; lia).
    change (2 ^ 2) with 4. change (2 ^ 4) with 16. change (2 ^ 12) with 4096. change (2 ^ 16) with 65536.
    change (2 ^ 18) with 262144. change (2 ^ 8) with 256. change (2 ^ 6) with 64.
    rewrite !b64c_char by lia.
    replace ((b0 * 65536 + b1 * 256) / 262144) with (b0 / 4) by lia.
    replace ((b0 * 65536 + b1 * 256) / 4096 mod 64) with (b0 mod 4 * 16 + b1 / 16) by lia.
    replace ((b0 * 65536 + b1 * 256) / 64 mod 64) with (b1 mod 16 * 4) by lia. reflexivity.
Qed.

Lemma b64_encode_spec le s : all_bytes s -> b64_encode le s = Some (b64_text s).
Proof.
  intros Hs. unfold b64_encode.
  destruct (b64_enc_unrolled_spec le (S (length s)) s Hs) as (o1 & s1 & E1 & T1 & H1 & _); [unfold zlen; lia|].
  rewrite E1.
  destruct (b64_enc_rest_spec le (S (length s1)) s1 H1) as (o2 & s2 & E2 & T2 & H2 & L2); [unfold zlen; lia|].
  rewrite E2, b64_enc_tail_spec by auto. rewrite T1, T2. reflexivity.
Qed.

(** Induction three bytes at a time. *)
Lemma list_ind3 {A} (P : list A -> Prop) :
  P [] -> (forall a, P [a]) -> (forall a b, P [a; b]) ->
  (forall a b c l, P l -> P (a :: b :: c :: l)) -> forall l, P l.
Proof.
  intros H0 H1 H2 H3.
  assert (forall n l, (length l < n)%nat -> P l) as H.
  { induction n; intros l Hl; [lia|]. destruct l as [|a [|b [|c l]]]; auto. apply H3, IHn. cbn [length] in Hl. lia. }
  intros l. apply (H (S (length l))). lia.
Qed.

Lemma list_ind4 {A} (P : list A -> Prop) :
  P [] -> (forall a, P [a]) -> (forall a b, P [a; b]) -> (forall a b c, P [a; b; c]) ->
  (forall a b c d l, P l -> P (a :: b :: c :: d :: l)) -> forall l, P l.
Proof.
  intros H0 H1 H2 H3 H4.
  assert (forall n l, (length l < n)%nat -> P l) as H.
  { induction n; intros l Hl; [lia|]. destruct l as [|a [|b [|c [|d l]]]]; auto. apply H4, IHn. cbn [length] in Hl. lia. }
  intros l. apply (H (S (length l))). lia.
Qed.

Lemma b64_text_length s : zlen (b64_text s) = 4 * ((zlen s + 2) / 3).
Proof.
  induction s as [|a|a b|a b c l IH] using list_ind3; try reflexivity.
  cbn [b64_text group_chars app]. unfold zlen in *. cbn [length]. lia.
Qed.

Lemma b64_max_encode_size_spec n : 0 <= n -> b64_max_encode_size n = 4 * ((n + 2) / 3).
Proof. intros. unfold b64_max_encode_size. destruct (Z.gtb_spec (n mod 3) 0); lia. Qed.

Lemma Forall_firstn {A} (P : A -> Prop) n l : Forall P l -> Forall P (firstn n l).
Proof. intros H; revert n; induction H; intros [|n]; cbn [firstn]; auto. Qed.

Lemma group_chars_in g : 0 <= g < 2 ^ 24 -> Forall is_b64_char (group_chars g).
Proof.
  intros Hg. unfold group_chars. change (2 ^ 24) with 16777216 in Hg. change (2 ^ 18) with 262144. change (2 ^ 12) with 4096. change (2 ^ 6) with 64.
  repeat (apply Forall_cons; [apply sextet_char_in; lia|]). apply Forall_nil.
Qed.

(** The text is alphabet characters followed by at most two padding characters. *)
Lemma b64_text_chars s : all_bytes s ->
  exists cs k, b64_text s = cs ++ repeat 61 k /\ Forall is_b64_char cs /\
    Z.of_nat k = (- zlen s) mod 3.
Proof.
  induction s as [|a|a b|a b c l IH] using list_ind3; intros Hs.
  - exists [], 0%nat. repeat split; auto.
  - inversion Hs as [|? ? P0 Hs0]; subst. unfold is_byte in *.
    exists (firstn 2 (group_chars (a * 2 ^ 16))), 2%nat. repeat split; auto.
    apply Forall_firstn, group_chars_in. change (2 ^ 24) with 16777216. change (2 ^ 16) with 65536. lia.
  - inversion Hs as [|? ? P0 Hs0]; inversion Hs0 as [|? ? P1 Hs1]; subst. unfold is_byte in *.
    exists (firstn 3 (group_chars (a * 2 ^ 16 + b * 2 ^ 8))), 1%nat. repeat split; auto.
    apply Forall_firstn, group_chars_in. change (2 ^ 24) with 16777216. change (2 ^ 16) with 65536. change (2 ^ 8) with 256. lia.
  - inversion Hs as [|? ? P0 Hs0]; inversion Hs0 as [|? ? P1 Hs1]; inversion Hs1 as [|? ? P2 Hs2]; subst.
    destruct (IH Hs2) as (cs & k & E & F & K). unfold is_byte in *.
    exists (group_chars (a * 2 ^ 16 + b * 2 ^ 8 + c) ++ cs), k. repeat split.
    + cbn [b64_text]. rewrite E, app_assoc. reflexivity.
    + apply Forall_app; split; auto. apply group_chars_in. change (2 ^ 24) with 16777216. change (2 ^ 16) with 65536. change (2 ^ 8) with 256. lia.
    + rewrite K. unfold zlen. cbn [length]. lia.
Qed.

(** ** Decoding *)

Lemma lor_ge_64 a b c d : 0 <= a <= 64 -> 0 <= b <= 64 -> 0 <= c <= 64 -> 0 <= d <= 64 ->
  (64 <=? Z.lor (Z.lor (Z.lor a b) c) d) = negb ((a <? 64) && (b <? 64) && (c <? 64) && (d <? 64)).
Proof.
  intros Ha Hb Hc Hd.
  assert (L : forall x y, 0 <= x -> 0 <= y -> (64 <=? Z.lor x y) = (64 <=? x) || (64 <=? y)).
  { intros x y Hx Hy.
    assert (D : forall z, 0 <= z -> (64 <=? z) = negb (z / 64 =? 0)) by (intros; lia).
    rewrite (D (Z.lor x y)), (D x), (D y) by (try apply Z.lor_nonneg; lia).
    replace (Z.lor x y / 64) with (Z.lor (x / 64) (y / 64)).
    - assert (0 <= x / 64) by lia. assert (0 <= y / 64) by lia.
      destruct (Z.eqb_spec (Z.lor (x / 64) (y / 64)) 0) as [E|E]; rewrite Z.lor_eq_0_iff in E; lia.
    - change 64 with (2 ^ 6). rewrite <- !shr_div by lia. rewrite Z.shiftr_lor. reflexivity. }
  assert (N : forall x y, 0 <= x -> 0 <= y -> 0 <= Z.lor x y) by (intros; apply Z.lor_nonneg; lia).
  rewrite !L by (repeat apply N; lia). lia.
Qed.

(** Which quartets pass [validate_and_decode_quartet]. *)
Lemma b64_validate_spec x y z w e : is_byte x -> is_byte y -> is_byte z -> is_byte w ->
  b64_validate (b64d x) (b64d y) (b64d z) (b64d w) z w e =
  (b64_charb x && b64_charb y && b64_charb z && b64_charb w) || ((w =? 61) && e).
Proof.
  intros Hx Hy Hz Hw. unfold b64_validate.
  assert (D : forall c, is_byte c -> 0 <= b64d c <= 64 /\ (b64d c <? 64) = b64_charb c).
  { intros c Hc. destruct (b64d_cases c Hc) as [(A & B & _)|(A & B)].
    - apply b64_charb_spec in A. rewrite A. lia.
    - destruct (b64_charb c) eqn:E; [apply b64_charb_spec in E; contradiction|lia]. }
  destruct (D x Hx) as [Rx Ex]. destruct (D y Hy) as [Ry Ey].
  destruct (D z Hz) as [Rz Ez]. destruct (D w Hw) as [Rw Ew].
  rewrite lor_ge_64, Ex, Ey, Ez, Ew by auto.
  assert (P : b64_charb 61 = false) by reflexivity.
  destruct (Z.eqb_spec w 61) as [->|Nw].
  - rewrite P, !andb_false_r. change (b64d 61) with 64. cbn [negb andb].
    destruct (Z.eqb_spec z 61) as [->|Nz]; destruct e; reflexivity.
  - cbn [andb]. rewrite orb_false_r. destruct (_ && _ && _ && _); reflexivity.
Qed.

Lemma b64_write_length t r : 0 <= r -> zlen (b64_write t r) = Z.min r 3.
Proof. intros. unfold b64_write, zlen. rewrite firstn_length. cbn [length]. lia. Qed.

(** The sum of four sextets below 64 is the 24-bit group. *)
Lemma triple_plain a b c d : 0 <= a < 64 -> 0 <= b < 64 -> 0 <= c <= 64 -> 0 <= d <= 64 ->
  wrapU 32 (Z.shiftl a 18 + Z.shiftl b 12 + Z.shiftl c 6 + d) = a * 262144 + b * 4096 + c * 64 + d.
Proof.
  intros. rewrite !Z.shiftl_mul_pow2 by lia. unfold wrapU.
  change (2 ^ 18) with 262144. change (2 ^ 12) with 4096. change (2 ^ 6) with 64. change (2 ^ 32) with 4294967296. lia.
Qed.

Definition triple_bytes (t : Z) : list Z := [t / 65536 mod 256; t / 256 mod 256; t mod 256].

Lemma b64_write_spec t r : b64_write t r = firstn (Z.to_nat r) (triple_bytes t).
Proof.
  unfold b64_write, triple_bytes.
  assert (H : forall x, Z.land x 255 = x mod 256) by (intros; apply (land_mask x 8); lia).
  rewrite !H, !shr_div by lia. change (2 ^ 16) with 65536. change (2 ^ 8) with 256. change (2 ^ 0) with 1.
  rewrite Z.div_1_r. reflexivity.
Qed.

(** Decoding the text of a byte sequence. *)
Lemma b64_dec_loop_text s : all_bytes s -> b64_dec_loop (b64_text s) (zlen s) = Some s.
Proof.
  induction s as [|a|a b|a b c l IH] using list_ind3; intros Hs.
  - reflexivity.
  - inversion Hs as [|? ? P0 Hs0]; subst. unfold is_byte in *.
    cbn [b64_text group_chars firstn app b64_dec_loop]. change (zlen [a]) with 1.
    set (u := a * 2 ^ 16 / 2 ^ 18). set (v := a * 2 ^ 16 / 2 ^ 12 mod 64).
    assert (Hu : 0 <= u < 64) by (subst u; change (2 ^ 16) with 65536; change (2 ^ 18) with 262144; lia).
    assert (Hv : 0 <= v < 64) by (subst v; lia).
    pose proof (is_b64_char_byte _ (sextet_char_in u Hu)). pose proof (is_b64_char_byte _ (sextet_char_in v Hv)).
    rewrite b64_validate_spec by (auto; unfold is_byte; lia).
    change ((61 =? 61) && true) with true. rewrite orb_true_r.
    rewrite !b64d_char by auto. change (b64d 61) with 64. rewrite triple_plain by lia.
    rewrite b64_write_spec. change (Z.to_nat 1) with 1%nat. unfold triple_bytes. cbn [firstn].
    change (zlen [_]) with 1. cbn [Z.eqb Z.sub Z.add Z.opp Z.pos_sub b64_dec_loop app].
    change (1 - 1 =? 0) with true. cbv iota. cbn [app].
    do 2 f_equal. subst u v. change (2 ^ 16) with 65536; change (2 ^ 18) with 262144; change (2 ^ 12) with 4096. lia.
  - inversion Hs as [|? ? P0 Hs0]; inversion Hs0 as [|? ? P1 Hs1]; subst. unfold is_byte in *.
    cbn [b64_text group_chars firstn app b64_dec_loop]. change (zlen [a; b]) with 2.
    set (g := a * 2 ^ 16 + b * 2 ^ 8).
    set (u := g / 2 ^ 18). set (v := g / 2 ^ 12 mod 64). set (w := g / 2 ^ 6 mod 64).
    assert (Hu : 0 <= u < 64) by (subst u g; change (2 ^ 16) with 65536; change (2 ^ 8) with 256; change (2 ^ 18) with 262144; lia).
    assert (Hv : 0 <= v < 64) by (subst v; lia). assert (Hw : 0 <= w < 64) by (subst w; lia).
    pose proof (is_b64_char_byte _ (sextet_char_in u Hu)). pose proof (is_b64_char_byte _ (sextet_char_in v Hv)).
    pose proof (is_b64_char_byte _ (sextet_char_in w Hw)).
    rewrite b64_validate_spec by (auto; unfold is_byte; lia).
    change ((61 =? 61) && true) with true. rewrite orb_true_r.
    rewrite !b64d_char by auto. change (b64d 61) with 64. rewrite triple_plain by lia.
    rewrite b64_write_spec. change (Z.to_nat 2) with 2%nat. unfold triple_bytes. cbn [firstn].
    change (zlen [_; _]) with 2. change (2 - 2 =? 0) with true. cbv iota. cbn [app].
    f_equal. subst u v w g. change (2 ^ 16) with 65536; change (2 ^ 8) with 256; change (2 ^ 18) with 262144; change (2 ^ 12) with 4096;
    change (2 ^ 6) with 64. f_equal; [|f_equal]; lia.
  - inversion Hs as [|? ? P0 Hs0]; inversion Hs0 as [|? ? P1 Hs1]; inversion Hs1 as [|? ? P2 Hs2]; subst.
    specialize (IH Hs2). unfold is_byte in *.
    cbn [b64_text group_chars app b64_dec_loop].
    set (g := a * 2 ^ 16 + b * 2 ^ 8 + c).
    set (u := g / 2 ^ 18). set (v := g / 2 ^ 12 mod 64). set (w := g / 2 ^ 6 mod 64). set (x := g mod 64).
    assert (Hu : 0 <= u < 64) by (subst u g; change (2 ^ 16) with 65536; change (2 ^ 8) with 256; change (2 ^ 18) with 262144; lia).
    assert (Hv : 0 <= v < 64) by (subst v; lia). assert (Hw : 0 <= w < 64) by (subst w; lia). assert (Hx : 0 <= x < 64) by (subst x; lia).
    pose proof (sextet_char_in u Hu) as Cu. pose proof (sextet_char_in v Hv) as Cv.
    pose proof (sextet_char_in w Hw) as Cw. pose proof (sextet_char_in x Hx) as Cx.
    rewrite b64_validate_spec by (apply is_b64_char_byte; auto).
    apply b64_charb_spec in Cu; apply b64_charb_spec in Cv; apply b64_charb_spec in Cw; apply b64_charb_spec in Cx.
    rewrite Cu, Cv, Cw, Cx. cbn [andb orb].
    rewrite !b64d_char by auto. rewrite triple_plain by lia.
    rewrite b64_write_spec.
    assert (E : firstn (Z.to_nat (zlen (a :: b :: c :: l))) (triple_bytes (u * 262144 + v * 4096 + w * 64 + x)) = [a; b; c]).
    { replace (Z.to_nat (zlen (a :: b :: c :: l))) with (S (S (S (length l)))) by (unfold zlen; cbn [length]; lia).
      unfold triple_bytes. cbn [firstn]. rewrite firstn_nil.
      subst u v w x g. change (2 ^ 16) with 65536; change (2 ^ 8) with 256; change (2 ^ 18) with 262144; change (2 ^ 12) with 4096;
      change (2 ^ 6) with 64. f_equal; [|f_equal; [|f_equal]]; lia. }
    rewrite E. replace (zlen (a :: b :: c :: l) - zlen [a; b; c]) with (zlen l) by (unfold zlen; cbn [length]; lia).
    rewrite IH. reflexivity.
Qed.

Lemma nth_repeat_lt {A} (x d : A) k : forall i, (i < k)%nat -> nth i (repeat x k) d = x.
Proof. induction k; intros [|i] H; cbn; auto; try lia. apply IHk; lia. Qed.

Lemma nth_repeat_tail {A} (x : A) (d : A) l k i : (length l <= i < length l + k)%nat -> nth i (l ++ repeat x k) d = x.
Proof. intros. rewrite app_nth2 by lia. rewrite nth_repeat_lt by lia. reflexivity. Qed.

Lemma b64_decode_text s : all_bytes s -> b64_decode (b64_text s) = Some s.
Proof.
  intros Hs. unfold b64_decode. rewrite b64_text_length.
  destruct (b64_text_chars s Hs) as (cs & k & E & F & K).
  assert (L : zlen (b64_text s) = zlen cs + Z.of_nat k).
  { rewrite E. unfold zlen. rewrite app_length, repeat_length. lia. }
  rewrite b64_text_length in L.
  assert (Z0 : 0 <= zlen s) by (unfold zlen; lia).
  destruct (Z.eqb_spec (4 * ((zlen s + 2) / 3)) 0) as [Hz|Hz].
  { destruct s; [reflexivity|]. unfold zlen in *. cbn [length] in *. lia. }
  replace (4 * ((zlen s + 2) / 3) mod 4 =? 0) with true by lia. cbn [negb].
  set (n := 4 * ((zlen s + 2) / 3)) in *.
  assert (Hk : (k <= 2)%nat) by lia.
  assert (N : forall i, 0 <= i < n -> nth (Z.to_nat i) (b64_text s) 0 =? 61 = (zlen cs <=? i)).
  { intros i Hi. rewrite E. destruct (Z.leb_spec (zlen cs) i).
    - rewrite nth_repeat_tail by (unfold zlen in *; lia). reflexivity.
    - rewrite app_nth1 by (unfold zlen in *; lia).
      assert (is_b64_char (nth (Z.to_nat i) cs 0)).
      { rewrite Forall_forall in F. apply F, nth_In. unfold zlen in *; lia. }
      unfold is_b64_char in *. lia. }
  rewrite !N by lia.
  replace (if zlen cs <=? n - 2 then (if zlen cs <=? n - 1 then n / 4 * 3 - 1 else n / 4 * 3) - 1
           else if zlen cs <=? n - 1 then n / 4 * 3 - 1 else n / 4 * 3) with (zlen s).
  - apply b64_dec_loop_text; auto.
  - destruct (Z.leb_spec (zlen cs) (n - 2)), (Z.leb_spec (zlen cs) (n - 1)); subst n; lia.
Qed.

(** ** Which texts are accepted *)

(** The texts the decoder accepts: whole quartets; all but the last made of
    alphabet characters; the last made of alphabet characters or ending in [=]. *)
Definition b64_accepted (s : bytes) : Prop :=
  s = [] \/
  exists pre q, s = pre ++ q /\ zlen pre mod 4 = 0 /\ zlen q = 4 /\
    Forall is_b64_char pre /\ (Forall is_b64_char q \/ nth 3 q 0 = 61).

(** The number of bytes announced for the text: three per quartet less one for
    each of the last two positions holding [=]. *)
Definition b64_len (s : bytes) : Z :=
  let n := zlen s in
  n / 4 * 3 - (if nth (Z.to_nat (n - 1)) s 0 =? 61 then 1 else 0)
            - (if nth (Z.to_nat (n - 2)) s 0 =? 61 then 1 else 0).

(** Effect of the loop, quartet by quartet. *)
Lemma b64_dec_loop_step x y z w s room : is_byte x -> is_byte y -> is_byte z -> is_byte w -> 0 <= room ->
  b64_dec_loop (x :: y :: z :: w :: s) room =
  if (b64_charb x && b64_charb y && b64_charb z && b64_charb w) ||
     ((w =? 61) && match s with [] => true | _ => false end)
  then match b64_dec_loop s (room - Z.min room 3) with
       | Some o => Some (b64_write (wrapU 32 (Z.shiftl (b64d x) 18 + Z.shiftl (b64d y) 12 + Z.shiftl (b64d z) 6 + b64d w)) room ++ o)
       | None => None end
  else None.
Proof.
  intros Hx Hy Hz Hw Hr. cbn [b64_dec_loop]. rewrite b64_validate_spec by auto.
  rewrite b64_write_length by auto. reflexivity.
Qed.

(** Induction on the text: the loop succeeds exactly when each quartet is fine
    and the announced length fits. *)
Lemma b64_dec_loop_some s : all_bytes s -> forall room, 0 <= room -> zlen s mod 4 = 0 ->
  (exists o, b64_dec_loop s room = Some o) <->
  (b64_accepted s /\ room <= zlen s / 4 * 3).
Proof.
  induction s as [|a|a b|a b c|x y z w s IH] using list_ind4; intros Hs room Hr Hl;
    try (unfold zlen in Hl; cbn [length] in Hl; lia).
  - cbn [b64_dec_loop]. change (zlen (@nil Z) / 4 * 3) with 0. destruct (Z.eqb_spec room 0) as [->|N].
    + split; [intros _; split; [left; reflexivity|lia] | intros _; eauto].
    + split; [intros [o H]; discriminate | intros [_ H]; lia].
  - assert (Hb : is_byte x /\ is_byte y /\ is_byte z /\ is_byte w /\ all_bytes s).
    { inversion Hs as [|? ? A1 B1]; inversion B1 as [|? ? A2 B2]; inversion B2 as [|? ? A3 B3]; inversion B3; subst; auto. }
    destruct Hb as (Hx & Hy & Hz & Hw & Hs'). clear Hs.
    assert (Hl' : zlen (x :: y :: z :: w :: s) = zlen s + 4) by (unfold zlen; cbn [length]; lia).
    assert (Hns : 0 <= zlen s) by (unfold zlen; lia).
    rewrite Hl' in *. rewrite b64_dec_loop_step by auto.
    specialize (IH Hs' (room - Z.min room 3) ltac:(lia) ltac:(lia)).
    assert (Q : b64_charb x && b64_charb y && b64_charb z && b64_charb w = true <-> Forall is_b64_char [x; y; z; w]).
    { rewrite !andb_true_iff, !b64_charb_spec. rewrite !Forall_cons_iff. intuition. }
    destruct s as [|s0 s1].
    + rewrite andb_true_r. cbn [b64_dec_loop].
      split.
      * intros [o H]. destruct (_ || _) eqn:V; [|discriminate].
        destruct (Z.eqb_spec (room - Z.min room 3) 0) as [E|E]; [|discriminate].
        split; [|change (zlen (@nil Z)) with 0; lia].
        right. exists [], [x; y; z; w]. repeat split; auto.
        apply orb_true_iff in V. destruct V as [V|V]; [left; apply Q; auto | right; cbn [nth]; lia].
      * intros [[A|(pre & q & E & P1 & P2 & P3 & P4)] B]; [discriminate|].
        assert (pre = []).
        { destruct pre as [|p0 pre]; auto. apply (f_equal (@length Z)) in E. rewrite app_length in E. unfold zlen in *. cbn [length] in *. lia. }
        subst pre. cbn [app] in E. subst q.
        replace (_ || _) with true.
        -- replace (room - Z.min room 3 =? 0) with true; [eauto|]. change (zlen (@nil Z)) with 0 in B. lia.
        -- symmetry. apply orb_true_iff. destruct P4 as [P4|P4]; [left; apply Q; auto | right; cbn [nth] in P4; lia].
    + rewrite andb_false_r, orb_false_r.
      split.
      * intros [o H]. destruct (_ && _) eqn:V; [|discriminate]. pose proof (proj1 Q eq_refl) as V2.
        destruct (b64_dec_loop (s0 :: s1) (room - Z.min room 3)) as [o'|] eqn:D; [|discriminate].
        destruct (proj1 IH ltac:(eauto)) as [[A|(pre & q & E & P1 & P2 & P3 & P4)] B]; [discriminate|].
        split; [|lia]. right. exists ([x; y; z; w] ++ pre), q. repeat split; auto.
        -- rewrite E. reflexivity.
        -- unfold zlen in *. rewrite app_length. cbn [length]. lia.
        -- apply Forall_app; auto.
      * intros [[A|(pre & q & E & P1 & P2 & P3 & P4)] B]; [discriminate|].
        destruct pre as [|p0 [|p1 [|p2 [|p3 pre]]]]; try (unfold zlen in P1; cbn [length] in P1; lia).
        { apply (f_equal (@length Z)) in E. unfold zlen in *. cbn [length app] in E. lia. }
        cbn [app] in E. injection E as E0 E1 E2 E3 E4. subst p0 p1 p2 p3.
        inversion P3 as [|? ? C0 D0]; inversion D0 as [|? ? C1 D1]; inversion D1 as [|? ? C2 D2]; inversion D2 as [|? ? C3 D3]; subst.
        replace (b64_charb x && b64_charb y && b64_charb z && b64_charb w) with true
          by (symmetry; apply Q; repeat (apply Forall_cons; auto)).
        destruct (proj2 IH) as [o' Ho'].
        { split; [|lia]. right. exists pre, q. repeat split; auto. unfold zlen in *. cbn [length] in P1. lia. }
        rewrite Ho'. eauto.
Qed.

Lemma b64_decode_len s : zlen s <> 0 -> zlen s mod 4 = 0 -> b64_decode s = b64_dec_loop s (b64_len s).
Proof.
  intros H0 H4. unfold b64_decode, b64_len.
  destruct (Z.eqb_spec (zlen s) 0); [contradiction|]. replace (zlen s mod 4 =? 0) with true by lia. cbn [negb].
  f_equal. destruct (_ =? 61), (_ =? 61); lia.
Qed.

Lemma b64_len_bounds s : zlen s <> 0 -> zlen s mod 4 = 0 -> 1 <= b64_len s <= zlen s / 4 * 3.
Proof.
  intros H0 H4. assert (0 <= zlen s) by (unfold zlen; lia).
  unfold b64_len. destruct (_ =? 61), (_ =? 61); lia.
Qed.

(** Which texts are accepted, exactly. *)
Lemma b64_decode_accepts s : all_bytes s -> (exists bs, b64_decode s = Some bs) <-> b64_accepted s.
Proof.
  intros Hs. destruct (Z.eqb_spec (zlen s) 0) as [H0|H0].
  { assert (s = []) as -> by (destruct s; auto; unfold zlen in H0; cbn [length] in H0; lia).
    split; [intros _; left; reflexivity | intros _; exists []; reflexivity]. }
  destruct (Z.eqb_spec (zlen s mod 4) 0) as [H4|H4].
  - rewrite b64_decode_len by auto. pose proof (b64_len_bounds s H0 H4).
    rewrite b64_dec_loop_some by (auto; lia). intuition.
  - split.
    + intros [bs H]. unfold b64_decode in H. replace (zlen s =? 0) with false in H by lia.
      replace (zlen s mod 4 =? 0) with false in H by lia. discriminate.
    + intros [->|(pre & q & E & P1 & P2 & _)]; [contradiction|].
      exfalso. apply H4. subst s. unfold zlen in *. rewrite app_length. lia.
Qed.

(** The number of bytes produced is the announced one. *)
Lemma b64_dec_loop_length s : all_bytes s -> forall room o, 0 <= room -> zlen s mod 4 = 0 ->
  b64_dec_loop s room = Some o -> zlen o = room.
Proof.
  induction s as [|a|a b|a b c|x y z w s IH] using list_ind4; intros Hs room o Hr Hl H;
    try (unfold zlen in Hl; cbn [length] in Hl; lia).
  - cbn [b64_dec_loop] in H. destruct (Z.eqb_spec room 0) as [->|]; [|discriminate]. injection H as <-. reflexivity.
  - assert (Hb : is_byte x /\ is_byte y /\ is_byte z /\ is_byte w /\ all_bytes s).
    { inversion Hs as [|? ? A1 B1]; inversion B1 as [|? ? A2 B2]; inversion B2 as [|? ? A3 B3]; inversion B3; subst; auto. }
    destruct Hb as (Hx & Hy & Hz & Hw & Hs').
    rewrite b64_dec_loop_step in H by auto. destruct (_ || _); [|discriminate].
    destruct (b64_dec_loop s _) as [o'|] eqn:D; [|discriminate]. injection H as <-.
    apply IH in D; auto; [| lia | unfold zlen in *; cbn [length] in Hl; lia].
    assert (A : forall (u v : bytes), zlen (u ++ v) = zlen u + zlen v) by (intros; unfold zlen; rewrite app_length; lia).
    rewrite A, b64_write_length, D by auto. lia.
Qed.

Lemma b64_decode_length s bs : all_bytes s -> s <> [] -> b64_decode s = Some bs -> zlen bs = b64_len s.
Proof.
  intros Hs Hn H.
  assert (H0 : zlen s <> 0) by (destruct s; [contradiction|unfold zlen; cbn [length]; lia]).
  assert (H4 : zlen s mod 4 = 0).
  { destruct (proj1 (b64_decode_accepts s Hs) (ex_intro _ bs H)) as [->|(pre & q & E & P1 & P2 & _)]; [contradiction|].
    subst s. unfold zlen in *. rewrite app_length. lia. }
  rewrite b64_decode_len in H by auto. apply b64_dec_loop_length in H; auto.
  pose proof (b64_len_bounds s H0 H4). lia.
Qed.

(** Texts made of alphabet characters only decode to bytes whose text they are. *)
Lemma b64_full_text s : zlen s mod 4 = 0 -> Forall is_b64_char s -> exists bs, all_bytes bs /\ b64_text bs = s.
Proof.
  induction s as [|a|a b|a b c|x y z w s IH] using list_ind4; intros Hl Hf;
    try (unfold zlen in Hl; cbn [length] in Hl; lia).
  - exists []. split; [constructor|reflexivity].
  - inversion Hf as [|? ? C0 D0]; inversion D0 as [|? ? C1 D1]; inversion D1 as [|? ? C2 D2]; inversion D2 as [|? ? C3 D3]; subst.
    destruct IH as (bs & B1 & B2); [unfold zlen in *; cbn [length] in Hl; lia | auto |].
    assert (S : forall c, is_b64_char c -> 0 <= b64d c < 64 /\ c = sextet_char (b64d c)).
    { intros c Hc. destruct (b64d_cases c (is_b64_char_byte c Hc)) as [(_ & U & V)|(U & _)]; [auto|contradiction]. }
    destruct (S x C0) as [R0 E0]. destruct (S y C1) as [R1 E1]. destruct (S z C2) as [R2 E2]. destruct (S w C3) as [R3 E3].
    set (a := b64d x) in *. set (b := b64d y) in *. set (c := b64d z) in *. set (d := b64d w) in *.
    exists ((a * 4 + b / 16) :: (b mod 16 * 16 + c / 4) :: (c mod 4 * 64 + d) :: bs). split.
    + repeat (apply Forall_cons; [unfold is_byte; lia|]). exact B1.
    + cbn [b64_text group_chars app]. rewrite B2, E0, E1, E2, E3.
      clearbody a b c d. clear - R0 R1 R2 R3.
      change (2 ^ 16) with 65536; change (2 ^ 8) with 256; change (2 ^ 18) with 262144; change (2 ^ 12) with 4096; change (2 ^ 6) with 64.
      set (g := _ + _). assert (G : g = a * 262144 + b * 4096 + c * 64 + d) by (subst g; lia). clearbody g. subst g.
      replace ((a * 262144 + b * 4096 + c * 64 + d) / 262144) with a by lia.
      replace ((a * 262144 + b * 4096 + c * 64 + d) / 4096 mod 64) with b by lia.
      replace ((a * 262144 + b * 4096 + c * 64 + d) / 64 mod 64) with c by lia.
      replace ((a * 262144 + b * 4096 + c * 64 + d) mod 64) with d by lia. reflexivity.
Qed.
