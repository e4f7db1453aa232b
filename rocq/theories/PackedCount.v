(** Counting the varints of a packed field eight bytes at a time. *)
Require Import Verif.Bits.

(** Number of bytes below 128: the specification of the count. *)
Fixpoint terminators (bs : bytes) : nat :=
  match bs with [] => O | b :: t => if b <? 128 then S (terminators t) else terminators t end.

(** packed_varint_count_chunk_bytes and packed_varint_terminator_mask,
    deserialize.hpp:43-44. *)
Definition chunk_bytes : nat := 8.
Definition terminator_mask : Z := 0x8080808080808080.

(** std::popcount of a 64-bit word (popcntq has the same meaning), deserialize.hpp:526-537. *)
Definition popcount (v : Z) : nat :=
  length (filter (fun i => Z.testbit v (Z.of_nat i)) (seq 0 64)).

(** The 64-bit word whose object representation is the given 8 bytes
    (std::memcpy), for either byte order. *)
Fixpoint le_word (bs : bytes) : Z := match bs with [] => 0 | b :: t => b + 256 * le_word t end.
Definition load_word (big : bool) (bs : bytes) : Z := le_word (if big then rev bs else bs).

(** popcount(~v & packed_varint_terminator_mask), deserialize.hpp:543, 549. *)
Definition count_word (v : Z) : nat := popcount (Z.land (wrapU 64 (Z.lnot v)) terminator_mask).

(** The loop over whole words, deserialize.hpp:539-544; [k] words. *)
Fixpoint count_words (big : bool) (k : nat) (data : bytes) : nat :=
  match k with
  | O => O
  | S k => (count_word (load_word big (firstn chunk_bytes data)) + count_words big k (skipn chunk_bytes data))%nat
  end.

(** count_number_of_varints_in_region, deserialize.hpp:522-552, on the [n] bytes
    [bs]: whole words first, then the remaining bytes copied over a word of ones. *)
Definition count_region (big : bool) (bs : bytes) : nat :=
  let n := length bs in
  let data := firstn (n - n mod chunk_bytes) bs in
  let remaining := skipn (n - n mod chunk_bytes) bs in
  (count_words big (length data / chunk_bytes) data +
   match remaining with
   | [] => 0
   | _ => count_word (load_word big (remaining ++ repeat 255%Z (chunk_bytes - length remaining)))
   end)%nat.

(** number_of_varints, deserialize.hpp:556-566, when the [n] bytes lie in the
    current region, whose bytes are [region]. *)
Definition number_of_varints (big : bool) (n : nat) (region : bytes) : option nat :=
  if 128 <=? nth (n - 1) region 0 then None else Some (count_region big (firstn n region)).

(** ** Correctness of the word trick *)
Lemma terminators_filter bs : terminators bs = length (filter (fun b => b <? 128) bs).
Proof. induction bs as [|b t IH]; cbn; [reflexivity|]. destruct (b <? 128); cbn; auto. Qed.

Lemma terminators_app a b : terminators (a ++ b) = (terminators a + terminators b)%nat.
Proof. induction a as [|x t IH]; cbn; [reflexivity|]. destruct (x <? 128); cbn; rewrite IH; reflexivity. Qed.

Lemma terminators_rev a : terminators (rev a) = terminators a.
Proof. induction a as [|x t IH]; cbn; [reflexivity|]. rewrite terminators_app, IH. cbn. destruct (x <? 128); lia. Qed.

Lemma le_word_bit bs : forall i, all_bytes bs -> (i < length bs)%nat ->
  Z.testbit (le_word bs) (8 * Z.of_nat i + 7) = negb (nth i bs 0 <? 128).
Proof.
  induction bs as [|b t IH]; intros i Hb Hi; [cbn in Hi; lia|].
  inversion Hb as [|? ? Hb0 Ht]; subst. cbn [le_word].
  assert (Hlow : forall j, 0 <= j < 8 -> Z.testbit (b + 256 * le_word t) j = Z.testbit b j).
  { intros j Hj. rewrite <- (Z.mod_pow2_bits_low (b + 256 * le_word t) 8) by lia.
    change (2 ^ 8) with 256. replace ((b + 256 * le_word t) mod 256) with b; [reflexivity|].
    unfold is_byte in Hb0. rewrite Z.mul_comm, Z_mod_plus_full, Z.mod_small; lia. }
  destruct i as [|i].
  - rewrite Hlow by lia. cbn [nth]. change (8 * Z.of_nat 0 + 7) with 7.
    unfold is_byte in Hb0. rewrite Z.testbit_odd, Z.shiftr_div_pow2 by lia. change (2 ^ 7) with 128.
    destruct (Z.ltb_spec b 128).
    + rewrite Z.div_small by lia. reflexivity.
    + replace (b / 128) with 1 by lia. reflexivity.
  - cbn [nth]. cbn [length] in Hi.
    rewrite <- (IH i Ht) by lia.
    replace (8 * Z.of_nat (S i) + 7) with ((8 * Z.of_nat i + 7) + 8) by lia.
    rewrite <- Z.div_pow2_bits by lia. change (2 ^ 8) with 256. f_equal.
    unfold is_byte in Hb0. rewrite Z.mul_comm, Z_div_plus_full, Z.div_small; lia.
Qed.

Lemma mask_bits : forall i, (i < 64)%nat -> Z.testbit terminator_mask (Z.of_nat i) = (i mod 8 =? 7)%nat.
Proof.
  intros i Hi. do 64 (destruct i as [|i]; [reflexivity|]). lia.
Qed.

Lemma count_word_terminators bs : all_bytes bs -> length bs = 8%nat ->
  count_word (le_word bs) = terminators bs.
Proof.
  intros Hb Hl. unfold count_word, popcount.
  rewrite (filter_ext_in _ (fun i => ((i mod 8 =? 7)%nat && (nth (i / 8) bs 0 <? 128))%bool)).
  - do 8 (destruct bs as [|? bs]; [discriminate|]). destruct bs; [|discriminate].
    cbn [seq filter Nat.modulo Nat.divmod snd fst Nat.sub Nat.eqb andb Nat.div nth terminators].
    repeat match goal with |- context[?x <? 128] => destruct (x <? 128) end; reflexivity.
  - intros i Hi. apply in_seq in Hi. rewrite Z.land_spec. unfold wrapU.
    rewrite Z.mod_pow2_bits_low by lia. rewrite Z.lnot_spec by lia. rewrite mask_bits by lia.
    destruct (Nat.eqb_spec (i mod 8) 7) as [E|E]; [|apply andb_false_r].
    rewrite andb_true_r. cbn [andb].
    replace (Z.of_nat i) with (8 * Z.of_nat (i / 8) + 7) by lia.
    rewrite le_word_bit by (auto; lia). apply negb_involutive.
Qed.

Lemma load_word_terminators big bs : all_bytes bs -> length bs = 8%nat ->
  count_word (load_word big bs) = terminators bs.
Proof.
  intros Hb Hl. unfold load_word. destruct big; [|apply count_word_terminators; auto].
  rewrite count_word_terminators; [apply terminators_rev| |rewrite rev_length; auto].
  unfold all_bytes in *. apply Forall_rev; auto.
Qed.

Lemma all_bytes_split (bs : bytes) n : all_bytes bs -> all_bytes (firstn n bs) /\ all_bytes (skipn n bs).
Proof. intros H. rewrite <- (firstn_skipn n bs) in H. apply Forall_app in H. exact H. Qed.

Lemma count_words_terminators big k : forall data, all_bytes data -> length data = (8 * k)%nat ->
  count_words big k data = terminators data.
Proof.
  induction k as [|k IH]; intros data Hb Hl.
  - destruct data; [reflexivity|cbn in Hl; lia].
  - cbn [count_words]. destruct (all_bytes_split data chunk_bytes Hb) as [H1 H2]. unfold chunk_bytes in *.
    rewrite load_word_terminators by (auto; rewrite firstn_length; lia).
    rewrite IH by (auto; rewrite skipn_length; lia).
    rewrite <- terminators_app, firstn_skipn. reflexivity.
Qed.

Lemma terminators_ones n : terminators (repeat 255 n) = O.
Proof. induction n; cbn; auto. Qed.

Lemma count_region_terminators big bs : all_bytes bs -> count_region big bs = terminators bs.
Proof.
  intros Hb. unfold count_region, chunk_bytes.
  set (m := (length bs - length bs mod 8)%nat).
  assert (Hm : (m = 8 * (length bs / 8))%nat) by (subst m; lia).
  destruct (all_bytes_split bs m Hb) as [H1 H2].
  assert (L1 : length (firstn m bs) = m) by (rewrite firstn_length; lia).
  rewrite L1. rewrite (count_words_terminators big (m / 8)) by (auto; rewrite L1; lia).
  assert (L2 : (length (skipn m bs) < 8)%nat) by (rewrite skipn_length; lia).
  transitivity (terminators (firstn m bs) + terminators (skipn m bs))%nat.
  - f_equal. destruct (skipn m bs) as [|x t] eqn:E; [reflexivity|]. rewrite <- E in *.
    rewrite load_word_terminators.
    + rewrite terminators_app, terminators_ones. lia.
    + apply Forall_app. split; [exact H2|]. apply Forall_forall. intros y Hy. apply repeat_spec in Hy. subst; unfold is_byte; lia.
    + rewrite app_length, repeat_length. lia.
  - rewrite <- terminators_app, firstn_skipn. reflexivity.
Qed.
