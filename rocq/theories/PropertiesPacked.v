(** C06: the number of elements reserved for packed varint fields.  The
    vocabulary is [is_varint], [b128] (VarintSpec.v) and the field encodings of
    FieldSpec.v. *)
Require Import Verif.Bits Verif.Varint Verif.VarintSpec Verif.VarintFacts Verif.VarintMain Verif.PackedCount.
Require Import Verif.Schema Verif.Archive Verif.Decode Verif.DecodeSafe Verif.WireGrammar Verif.FieldSpec Verif.DecodeOcc Verif.DecodeTerms.
Require Import Verif.PackedMain Verif.ExampleSchema.

(** The count computed word by word is the number of bytes below 128, for either byte order. *)
Theorem C06_count big bs : all_bytes bs ->
  count_region big bs = length (filter (fun b => b <? 128) bs).
Proof. intros H. rewrite <- terminators_filter. exact (count_region_terminators big bs H). Qed.
Print Assumptions C06_count.

(** The payload of [len] bytes is accepted only if it consists of exactly the
    [n] varints room was made for, and then every element is one of them. *)
Theorem C06_reserved big t len z n vs z' : all_bytes (za z) -> 0 < len <= zlen (za z) ->
  number_of_varints big (Z.to_nat len) (za z) = Some n -> a_pvarint zops t len n z = Ok (vs, z') ->
  exists ps, firstn (Z.to_nat len) (za z) = concat ps /\
    Forall (fun p => is_varint p /\ (length p <= max_len t)%nat) ps /\ length ps = n /\
    vs = map (fun p => meaning t (b128 p)) ps.
Proof. exact (reserved_exact big t len z n vs z'). Qed.
Print Assumptions C06_reserved.

Example C06_reserved_case :
  let payload := [1; 172; 2; 255; 255; 3; 4; 5; 6; 128; 1] in
  count_region false payload = 7%nat /\ count_region true payload = 7%nat /\
  number_of_varints true 11 payload = Some 7%nat /\
  a_pvarint zops VU64 11 7 (Zip [] (payload ++ [9])) = Ok ([1; 300; 65535; 4; 5; 6; 128], Zip (rev payload) [9]).
Proof. cbv zeta. split; [vm_compute; reflexivity|]. split; [vm_compute; reflexivity|]. split; vm_compute; reflexivity. Qed.

(** A message holding one packed field: either it is rejected, or the payload
    is a sequence of varints, as many as it has bytes below 128, and these are
    appended (of a closed enum the known values). *)
Theorem C06_packed_field E utf8_ok limit : safe_env E -> forall ty cur i num e pk tb lb p,
  0 < num -> m_entry (desc_of E ty) = false -> scope_ok limit 0 = true ->
  member E ty num i (Field num e (CRep pk)) -> varint_elem e = true -> (i < length (msg_fields cur))%nat ->
  tag_bytes num WT_LEN tb -> len_bytes (zlen p) lb -> all_bytes p ->
  rejected (decode_bytes E utf8_ok limit ty cur (tb ++ lb ++ p)) \/
  exists ps xs v, p = concat ps /\ Forall2 (scalar_payload utf8_ok e) ps xs /\
    length xs = length (filter (fun b => b <? 128) p) /\
    decode_bytes E utf8_ok limit ty cur (tb ++ lb ++ p) = Ok v /\
    nth i (msg_fields v) [] = nth i (msg_fields cur) [] ++ filter (kept e) xs.
Proof.
  intros H ty cur i num e pk tb lb p. rewrite <- terminators_filter.
  exact (packed_field E utf8_ok limit H ty cur i num e pk tb lb p).
Qed.
Print Assumptions C06_packed_field.

(** A payload that ends inside a varint is rejected. *)
Theorem C06_unterminated E utf8_ok limit : safe_env E -> forall ty cur i num e pk tb lb p,
  0 < num -> m_entry (desc_of E ty) = false -> scope_ok limit 0 = true ->
  member E ty num i (Field num e (CRep pk)) -> varint_elem e = true -> (i < length (msg_fields cur))%nat ->
  tag_bytes num WT_LEN tb -> len_bytes (zlen p) lb -> all_bytes p -> p <> [] -> 128 <= last p 0 ->
  rejected (decode_bytes E utf8_ok limit ty cur (tb ++ lb ++ p)).
Proof. exact (packed_unterminated E utf8_ok limit). Qed.
Print Assumptions C06_unterminated.

Example C06_case : let E := ex_env UBytes in
  safe_env E /\ member E 0 3 2 (Field 3 (EVar VS32) (CRep true)) /\ tag_bytes 3 WT_LEN [26] /\
  len_bytes (zlen [1; 130; 1; 3]) [4] /\
  nth 2 (msg_fields (match decode_bytes E any_utf8 100 0 (default_msg E 0) [26; 4; 1; 130; 1; 3] with Ok v => v | _ => VInt 0 end)) [] =
    [VInt (-1); VInt 65; VInt (-2)] /\
  decode_bytes E any_utf8 100 0 (default_msg E 0) [26; 4; 1; 130; 1; 131] = Err BadMessage.
Proof.
  cbv zeta. split; [apply ex_safe; discriminate|]. split; [vm_compute; reflexivity|].
  split; [repeat split; cbn; lia|]. split; [repeat split; cbn; lia|]. split; vm_compute; reflexivity.
Qed.
