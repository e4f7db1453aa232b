(** C01-C05: varints.  Every theorem is stated with the definitions of
    VarintSpec.v ([is_varint], [b128]: the base-128 reading of a byte string),
    [in_vtype] (the value range of a type) and the modelled functions. *)
Require Import Verif.Bits Verif.Varint Verif.VarintSpec Verif.VarintFacts Verif.VarintMain.

(** C01 *)
Theorem C01_varint_round_trip t v rest : in_vtype t v ->
  parse_varint t (pack_varint t v ++ rest) = POk v (length (pack_varint t v)).
Proof. exact (varint_main_roundtrip t v rest). Qed.
Print Assumptions C01_varint_round_trip.

Theorem C01_bool_round_trip b rest : b = 0 \/ b = 1 -> parse_bool ([b] ++ rest) = POk b 1.
Proof. exact (bool_roundtrip b rest). Qed.
Print Assumptions C01_bool_round_trip.

Example C01_case : in_vtype VS64 (-9223372036854775808) /\
  parse_varint VS64 (pack_varint VS64 (-9223372036854775808) ++ [255; 3]) = POk (-9223372036854775808) 10.
Proof. split; [unfold in_vtype, fits_s; lia|vm_compute; reflexivity]. Qed.

(** C02 *)
Theorem C02_size_and_shape t v : in_vtype t v ->
  zlen (pack_varint t v) = encode_size t v /\ is_varint (pack_varint t v) /\
  1 <= zlen (pack_varint t v) <= 10 /\ (enc_bits t = 32 -> zlen (pack_varint t v) <= 5).
Proof. exact (varint_size_exact t v). Qed.
Print Assumptions C02_size_and_shape.

Theorem C02_shortest t v bs :
  is_varint bs -> b128 bs = b128 (pack_varint t v) -> zlen (pack_varint t v) <= zlen bs.
Proof. exact (pack_varint_shortest t v bs). Qed.
Print Assumptions C02_shortest.

Example C02_case : is_varint [172; 130; 128; 0] /\ b128 [172; 130; 128; 0] = b128 (pack_varint VU32 300) /\
  pack_varint VU32 300 = [172; 2].
Proof. repeat split; cbn; lia. Qed.

(** C03: success, rejection and the exact set of bytes looked at. *)
Theorem C03_accepts t m v n : all_bytes m ->
  (parse_varint t m = POk v n <->
   (n <= length m)%nat /\ (n <= max_len t)%nat /\ is_varint (firstn n m) /\ v = meaning t (b128 (firstn n m))).
Proof. exact (parse_varint_ok_iff t m v n). Qed.
Print Assumptions C03_accepts.

Theorem C03_rejects t m : all_bytes m ->
  (parse_varint t m = PUnterm <->
   (max_len t <= length m)%nat /\ Forall (fun b => 128 <= b) (firstn (max_len t) m)).
Proof. exact (parse_varint_unterm_iff t m). Qed.
Print Assumptions C03_rejects.

(** The parser reads outside the memory [m] only when [m] holds no terminator and
    is shorter than the maximum length. *)
Theorem C03_reads_outside t m : all_bytes m ->
  (parse_varint t m = PUB <-> (length m < max_len t)%nat /\ Forall (fun b => 128 <= b) m).
Proof. exact (parse_varint_ub_iff t m). Qed.
Print Assumptions C03_reads_outside.

Theorem C03_ignores_suffix t m rest : parse_varint t m <> PUB -> parse_varint t (m ++ rest) = parse_varint t m.
Proof. exact (parse_varint_app t m rest). Qed.
Print Assumptions C03_ignores_suffix.

Example C03_case : parse_varint VI32 [255;255;255;255;255;255;255;255;255;1; 77] = POk (-1) 10 /\
  parse_varint VU64 [128;128;128;128;128;128;128;128;128;128;0] = PUnterm /\
  parse_varint VU32 [129;128;0] = POk 1 3.
Proof. vm_compute; repeat split. Qed.

(** Deviations from the protobuf wire format found while proving C03 (DESIGN.md):
    sint32 applies zigzag before truncating to 32 bits, uint32 refuses encodings
    longer than six bytes that int32 accepts. *)
Theorem C03_sint32_truncation_refuted : exists m v n, all_bytes m /\
  parse_varint VS32 m = POk v n /\ v <> wrapS 32 (unzz (b128 m mod 2 ^ 32)).
Proof.
  exists [128;128;128;128;16], (-2147483648), 5%nat.
  split; [repeat constructor; unfold is_byte; lia|]. split; [vm_compute; reflexivity|]. vm_compute. congruence.
Qed.
Print Assumptions C03_sint32_truncation_refuted.

Theorem C03_uint32_overlong_refuted : exists m, all_bytes m /\
  parse_varint VU32 m = PUnterm /\ exists v, parse_varint VI32 m = POk v (length m).
Proof.
  exists [129;128;128;128;128;128;0].
  split; [repeat constructor; unfold is_byte; lia|]. split; [vm_compute; reflexivity|].
  exists 1. vm_compute. reflexivity.
Qed.
Print Assumptions C03_uint32_overlong_refuted.

(** C04 *)
Theorem C04_bool m : all_bytes m ->
  parse_bool m =
  match parse_varint VU64 m with
  | POk u n => POk (if u =? 0 then 0 else 1) n
  | r => r
  end.
Proof. exact (parse_bool_varint m). Qed.
Print Assumptions C04_bool.

Example C04_case : parse_bool [128;128;128;128;128;128;128;128;128;2] = POk 0 10 /\
  parse_bool [128;128;128;128;128;128;128;128;128;1] = POk 1 10 /\ parse_bool [2] = POk 1 1.
Proof. vm_compute; repeat split. Qed.

(** C05: the code of a signed value is the textbook zigzag code, which covers
    exactly the unsigned values of the same width; decoding inverts it. *)
Theorem C05_zigzag_code t v : is_zigzag t = true -> in_vtype t v ->
  pack_value t v = (if v <? 0 then - 2 * v - 1 else 2 * v) /\ 0 <= pack_value t v < 2 ^ vbits t.
Proof. exact (zigzag_code_range t v). Qed.
Print Assumptions C05_zigzag_code.

Theorem C05_zigzag_surjective t u : is_zigzag t = true -> 0 <= u < 2 ^ vbits t ->
  in_vtype t (finish_varint t u) /\ pack_value t (finish_varint t u) = u.
Proof. exact (zigzag_decode t u). Qed.
Print Assumptions C05_zigzag_surjective.

Theorem C05_zigzag_injective t a b : is_zigzag t = true -> in_vtype t a -> in_vtype t b ->
  pack_value t a = pack_value t b -> a = b.
Proof. exact (zigzag_injective t a b). Qed.
Print Assumptions C05_zigzag_injective.

Theorem C05_small_magnitude_first t a b : is_zigzag t = true -> in_vtype t a -> in_vtype t b ->
  Z.abs a < Z.abs b -> pack_value t a < pack_value t b.
Proof. exact (zigzag_order t a b). Qed.
Print Assumptions C05_small_magnitude_first.

Example C05_case : is_zigzag VS32 = true /\ in_vtype VS32 (-2147483648) /\
  pack_value VS32 (-2147483648) = 4294967295 /\ finish_varint VS32 4294967295 = -2147483648.
Proof. repeat split; vm_compute; congruence. Qed.
