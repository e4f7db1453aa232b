(** C07-C10, C12, C14, C24, C28: what write_binpb produces, for every schema and
    message.

    Writing is [encode_bytes E utf8_ok maxd ty v]: [E] the schema, [utf8_ok] the
    UTF-8 validator (any function), [maxd] the recursion limit, [ty] the message
    type and [v] the message.  The expected bytes are [enc_msg E ty v]
    (EncodeSpec.v), written there without size passes or caches.
    [legal_numbers E]: every field number is in 1 .. 2^29-1.
    [wt_msg E utf8_ok ty v]: [v] is a value the generated struct can hold (WellTyped.v).
    [generated E] (RoundTrip.v): field numbers distinct and below 2^25, map entries
    as the generator emits them, and [safe_env] (see PropertiesDecode.v).
    [canonical E limit 1 ty v] (RoundTrip.v): members omitted on writing have
    exactly their default value (not -0.0) and the kept unknown fields are fields. *)
From Coq Require Import Sorted.
Require Import Verif.Bits Verif.Varint Verif.VarintSpec Verif.VarintFacts.
Require Import Verif.Schema Verif.Archive Verif.Decode Verif.DecodeSafe Verif.WireGrammar Verif.FieldSpec Verif.DecodeTerms Verif.WellTyped.
Require Import Verif.Encode Verif.EncodeSpec Verif.EncodeProofs Verif.RoundTrip Verif.Presence.
Require Import Verif.StoredTags Verif.ExampleSchema Verif.ExampleMessage.
Require Verif.EncodeMain Verif.EncodeMain2 Verif.Reencode.

Local Lemma ex_legal : legal_numbers (ex_env UBytes).
Proof. apply generated_legal, ex_generated. discriminate. Qed.

(** ** C07: the computed size is the number of bytes written. *)
Theorem C07_size_is_length E utf8_ok maxd : legal_numbers E -> forall ty v bs, wt_msg E utf8_ok ty v ->
  encode_bytes E utf8_ok maxd ty v = Ok bs -> fst (sz_msg E ty v) = zlen bs.
Proof. exact (EncodeMain2.e_size E utf8_ok maxd). Qed.
Print Assumptions C07_size_is_length.

(** The buffer is allocated with the size announced before writing. *)
Theorem C07_planned_size E utf8_ok maxd : legal_numbers E -> forall ty v s ws, wt_msg E utf8_ok ty v ->
  plan E utf8_ok maxd ty v = Ok (s, ws) -> s = zlen (flat ws).
Proof. exact (EncodeMain2.e_plan_size E utf8_ok maxd). Qed.
Print Assumptions C07_planned_size.

(** Every length prefix is the length of the bytes after it: the bytes written are
    those of [enc_msg]. *)
Theorem C07_length_prefixes E utf8_ok maxd : legal_numbers E -> forall ty v bs, wt_msg E (fun _ => true) ty v ->
  encode_bytes E utf8_ok maxd ty v = Ok bs -> bs = enc_msg E ty v.
Proof. exact (EncodeMain2.e_utf8 E utf8_ok maxd). Qed.
Print Assumptions C07_length_prefixes.

Example C07_case : legal_numbers (ex_env UBytes) /\ wt_msg (ex_env UBytes) any_utf8 0 ex_value /\
  encode_bytes (ex_env UBytes) any_utf8 100 0 ex_value = Ok ex_written /\ zlen ex_written = 44.
Proof. split; [exact ex_legal|]. split; [exact ex_wt|]. split; [exact ex_encoded|reflexivity]. Qed.

(** ** C08: the size cache has exactly as many entries as are counted, stored and read. *)
Theorem C08_cache_consistent E utf8_ok maxd : legal_numbers E -> forall ty v n, wt_msg E (fun _ => true) ty v ->
  cnt_msg E maxd 0 ty v = Some n ->
  length (snd (sz_msg E ty v)) = n /\
  (zlen (enc_msg E ty v) < 2 ^ 31 - 1 -> forall rest,
    match ser_msg E utf8_ok maxd 0 ty v (snd (sz_msg E ty v) ++ rest) with
    | Ok (_, c) => c = rest
    | Err _ => exists b, utf8_ok b = false
    | UB | Exn | NoFuel => False
    end).
Proof. exact (EncodeMain2.e_cache E utf8_ok maxd). Qed.
Print Assumptions C08_cache_consistent.

Theorem C08_no_overrun E utf8_ok maxd : legal_numbers E -> forall ty v, wt_msg E (fun _ => true) ty v ->
  plan E utf8_ok maxd ty v <> UB /\ plan E utf8_ok maxd ty v <> Exn.
Proof. exact (EncodeMain2.e_no_ub E utf8_ok maxd). Qed.
Print Assumptions C08_no_overrun.

Example C08_case : wt_msg (ex_env UBytes) any_utf8 0 ex_value /\ cnt_msg (ex_env UBytes) 100 0 0 ex_value = Some 3%nat /\
  snd (sz_msg (ex_env UBytes) 0 ex_value) = [3; 2; 5].
Proof. split; [exact ex_wt|]. split; reflexivity. Qed.

(** ** C09: the binary round trip. *)
(** Writing succeeds, ... *)
Theorem C09_writes E utf8_ok maxd : legal_numbers E -> forall ty v, 0 <= maxd < 2 ^ 32 - 1 -> wt_msg E utf8_ok ty v ->
  (forall n, nested E ty v n -> Z.of_nat n <= maxd + 1) -> zlen (enc_msg E ty v) < 2 ^ 31 - 1 ->
  encode_bytes E utf8_ok maxd ty v = Ok (enc_msg E ty v).
Proof. exact (EncodeMain2.e_written E utf8_ok maxd). Qed.
Print Assumptions C09_writes.

(** ... and what is written is read back as the same message. *)
Theorem C09_round_trip E utf8_ok maxd limit ty v bs : generated E -> m_entry (desc_of E ty) = false -> maxd <= limit ->
  wt_msg E utf8_ok ty v -> canonical E limit 1 ty v -> encode_bytes E utf8_ok maxd ty v = Ok bs ->
  decode_bytes E utf8_ok limit ty (default_msg E ty) bs = Ok v.
Proof. exact (EncodeMain.round_trip E utf8_ok maxd limit ty v bs). Qed.
Print Assumptions C09_round_trip.

(** Any input that can be read gives a message that survives being written and read. *)
Theorem C09_reread E utf8_ok limit : generated E -> forall maxd ty bs v bs', m_entry (desc_of E ty) = false -> maxd <= limit ->
  wt_defaults E utf8_ok -> all_bytes bs -> short_stored E ty bs ->
  decode_bytes E utf8_ok limit ty (default_msg E ty) bs = Ok v -> everywhere E (fun _ => omitted_default E) 1 ty v ->
  encode_bytes E utf8_ok maxd ty v = Ok bs' -> decode_bytes E utf8_ok limit ty (default_msg E ty) bs' = Ok v.
Proof. exact (Reencode.reread E utf8_ok limit). Qed.
Print Assumptions C09_reread.

Example C09_case : generated (ex_env UBytes) /\ wt_msg (ex_env UBytes) any_utf8 0 ex_value /\ canonical (ex_env UBytes) 100 1 0 ex_value /\
  encode_bytes (ex_env UBytes) any_utf8 100 0 ex_value = Ok ex_written /\
  decode_bytes (ex_env UBytes) any_utf8 100 0 (default_msg (ex_env UBytes) 0) ex_written = Ok ex_value.
Proof.
  split; [apply ex_generated; discriminate|]. split; [exact ex_wt|]. split; [exact ex_canonical|]. split; [exact ex_encoded|vm_compute; reflexivity].
Qed.
Example C09_reread_case : wt_defaults (ex_env UBytes) any_utf8 /\ all_bytes ex_bytes /\ short_stored (ex_env UBytes) 0 ex_bytes /\
  decode_bytes (ex_env UBytes) any_utf8 100 0 (default_msg (ex_env UBytes) 0) ex_bytes = Ok ex_value /\ ex_bytes <> ex_written /\
  everywhere (ex_env UBytes) (fun _ => omitted_default (ex_env UBytes)) 1 0 ex_value.
Proof.
  split; [apply ex_defaults|]. split; [apply bytesb_ok; vm_compute; reflexivity|]. split; [apply no_pad_short; vm_compute; reflexivity|].
  split; [exact ex_decoded|]. split; [discriminate|exact ex_omitted].
Qed.

(** ** C10: a field number of 2^25 or more is read as another number. *)
Theorem C10_number_misread num wt : 2 ^ 25 <= num < 2 ^ 29 -> 0 <= wt < 8 ->
  tag_reads (tagb num wt) (8 * (15 * 2 ^ 25 + num mod 2 ^ 25) + wt).
Proof. exact (EncodeMain2.e_misread num wt). Qed.
Print Assumptions C10_number_misread.

(** If the type has no member of that other number, a written field is lost: the
    members come out as if it had not been there. *)
Theorem C10_field_lost E utf8_ok limit : safe_env E -> forall ty cur a b num e x, 2 ^ 25 <= num < 2 ^ 29 ->
  unknown_to E ty (15 * 2 ^ 25 + num mod 2 ^ 25) -> wt E utf8_ok e x -> scalar e = true -> zlen (enc_scalar e x) < 2 ^ 31 ->
  let f := enc_elem (enc_msg E) num e x in
  fields limit a -> fields limit b -> all_bytes (bytes_of a) -> all_bytes (bytes_of b) -> m_entry (desc_of E ty) = false ->
  short_stored E ty (bytes_of a ++ f ++ bytes_of b) -> short_stored E ty (bytes_of a ++ bytes_of b) ->
  forall v w, decode_bytes E utf8_ok limit ty cur (bytes_of a ++ f ++ bytes_of b) = Ok v ->
    decode_bytes E utf8_ok limit ty cur (bytes_of a ++ bytes_of b) = Ok w -> msg_fields v = msg_fields w.
Proof. exact (EncodeMain2.e_lost E utf8_ok limit). Qed.
Print Assumptions C10_field_lost.

Example C10_case : let E := [MDesc [Field 1 EBool COpt; Field 100000000 (EVar VI32) COpt] UNone false] in
  let f := enc_elem (enc_msg E) 100000000 (EVar VI32) (VInt 5) in
  member E 0 100000000 1 (Field 100000000 (EVar VI32) COpt) /\ unknown_to E 0 (15 * 2 ^ 25 + 100000000 mod 2 ^ 25) /\
  fields 100 [(1, [8; 1])] /\ f = [128; 144; 188; 253; 2; 5] /\ 
  decode_bytes E any_utf8 100 0 (default_msg E 0) ([8; 1] ++ f ++ []) = Ok (VMsg [[VInt 1]; []] []).
Proof.
  cbv zeta. split; [reflexivity|]. split; [split; [discriminate|repeat constructor]|]. split; [apply fields_ok; vm_compute; reflexivity|].
  split; vm_compute; reflexivity.
Qed.

(** ** C12: messages of 2^31-1 bytes or more are refused, and only those. *)
Theorem C12_oversized_refused E utf8_ok maxd : legal_numbers E -> forall ty v, 0 <= maxd < 2 ^ 32 - 1 -> wt_msg E utf8_ok ty v ->
  encode_bytes E utf8_ok maxd ty v = Err TooLarge <->
  2 ^ 31 - 1 <= zlen (enc_msg E ty v) /\ forall n, nested E ty v n -> Z.of_nat n <= maxd + 1.
Proof. exact (EncodeMain2.e_too_large E utf8_ok maxd). Qed.
Print Assumptions C12_oversized_refused.

(** A message with one [bytes] member can reach every size. *)
Example C12_case : let E := [MDesc [Field 1 (EBytes false false) COpt] UNone false] in
  forall k, Z.of_nat k = 2 ^ 31 -> let v := VMsg [[VBytes (repeat 0 k)]] [] in
  legal_numbers E /\ wt_msg E any_utf8 0 v /\ 2 ^ 31 - 1 <= zlen (enc_msg E 0 v) /\ forall n, nested E 0 v n -> Z.of_nat n <= 100 + 1.
Proof.
  cbv zeta. intros k Hk. split; [|split; [|split]].
  - intros [|[|ty]] f n; unfold desc_of; cbn [nth m_fields empty_desc In]; [|intros []|destruct ty; intros []]. intros [<-|[]] [<-|[]]. lia.
  - constructor; cbn; auto. constructor; [|constructor]. constructor. constructor; [|discriminate]. apply Forall_forall. intros b Hb.
    apply repeat_spec in Hb. subst b. unfold is_byte. lia.
  - cbn [enc_msg enc_unknown desc_of nth m_fields m_unk enc_fields omit enc_field map concat enc_elem enc_scalar]. unfold desc_of. cbn [nth m_fields m_unk enc_fields omit enc_field map concat enc_elem enc_scalar enc_unknown].
    rewrite !app_nil_r, !zlen_app.
    assert (Hz : zlen (repeat 0 k) = 2 ^ 31) by (unfold zlen; rewrite repeat_length; exact Hk). rewrite Hz.
    match goal with |- _ <= zlen ?a + (zlen ?b + _) => pose proof (zlen_nonneg a); pose proof (zlen_nonneg b) end. lia.
  - intros n Hn. inversion Hn; subst; [lia|]. exfalso.
    match goal with K : holds _ _ _ _ _ |- _ => unfold holds, desc_of in K; cbn [nth m_fields msg_fields combine In] in K; destruct K as [[= <- <-]|[]] end.
    match goal with K : sub_msg _ _ _ _ |- _ => inversion K end.
Qed.

(** ** C14: exactly the members that are present are written. *)
Theorem C14_presence E utf8_ok limit : generated E -> forall maxd ty v bs, maxd <= limit -> wt_defaults E utf8_ok -> wt_msg E utf8_ok ty v ->
  everywhere E (fun d ty v => stored_ok E limit d ty (msg_unk v)) 1 ty v -> encode_bytes E utf8_ok maxd ty v = Ok bs ->
  exists l, fields limit l /\ bs = bytes_of l ++ enc_unknown (m_unk (desc_of E ty)) (msg_unk v) /\
    forall num i f, member E ty num i f -> (In num (map fst l) <-> present f (nth i (msg_fields v) []) num).
Proof. exact (written_fields E utf8_ok limit). Qed.
Print Assumptions C14_presence.

Example C14_case : generated (ex_env UBytes) /\ everywhere (ex_env UBytes) (fun d ty v => stored_ok (ex_env UBytes) 100 d ty (msg_unk v)) 1 0 ex_value /\
  member (ex_env UBytes) 0 2 1 (Field 2 (EBytes true false) (CPlain false (VBytes []))) /\
  present (Field 2 (EBytes true false) (CPlain false (VBytes []))) [VBytes [104; 105]] 2 /\
  ~ present (Field 2 (EBytes true false) (CPlain false (VBytes []))) [VBytes []] 2 /\
  ~ present (Field 9 (EEnum (Some [0; 1; 2])) COpt) [] 9.
Proof.
  split; [apply ex_generated; discriminate|]. split; [exact ex_stored|]. split; [reflexivity|]. split; [|split].
  - exists (VBytes [104; 105]). split; [reflexivity|discriminate].
  - intros (v & [= <-] & H). apply H. reflexivity.
  - intros H. apply H. reflexivity.
Qed.

(** The double -0.0 differs from the default 0.0 but is not written. *)
Theorem C14_negative_zero_refuted : exists E ty v, wt_msg E any_utf8 ty v /\ encode_bytes E any_utf8 100 ty v = Ok [] /\ v <> default_msg E ty.
Proof.
  exists [MDesc [Field 1 (EFix true true) (CPlain false (VInt 0))] UNone false], 0%nat, (VMsg [[VInt (2 ^ 63)]] []).
  split; [|split; [vm_compute; reflexivity|discriminate]]. repeat constructor; cbn; lia.
Qed.
Print Assumptions C14_negative_zero_refuted.

(** ** C24: kept unknown fields are written back, byte for byte, after the members. *)
Theorem C24_unknown_written_back E utf8_ok maxd : legal_numbers E -> forall ty v bs, wt_msg E utf8_ok ty v -> m_unk (desc_of E ty) <> UNone ->
  encode_bytes E utf8_ok maxd ty v = Ok bs -> bs = enc_msg E ty (VMsg (msg_fields v) []) ++ kept_bytes (msg_unk v).
Proof. exact (EncodeMain2.e_unknown E utf8_ok maxd). Qed.
Print Assumptions C24_unknown_written_back.

Example C24_write_case : encode_bytes (ex_env UBytes) any_utf8 100 0 ex_value = Ok ex_written /\ kept_bytes (msg_unk ex_value) = [160; 1; 7; 72; 7].
Proof. split; [exact ex_encoded|reflexivity]. Qed.

(** ** C28: messages nested deeper than the limit are refused, and only those. *)
Theorem C28_too_deep_refused E utf8_ok maxd : legal_numbers E -> forall ty v, 0 <= maxd < 2 ^ 32 - 1 -> wt_msg E utf8_ok ty v ->
  encode_bytes E utf8_ok maxd ty v = Err BadMessage <-> exists n, nested E ty v n /\ maxd + 1 < Z.of_nat n.
Proof. exact (EncodeMain2.e_too_deep E utf8_ok maxd). Qed.
Print Assumptions C28_too_deep_refused.

Example C28_case : nested (ex_env UBytes) 0 ex_value 2 /\ encode_bytes (ex_env UBytes) any_utf8 0 0 ex_value = Err BadMessage /\
  encode_bytes (ex_env UBytes) any_utf8 1 0 ex_value = Ok ex_written.
Proof.
  split; [|split; vm_compute; reflexivity]. eapply NStep.
  - unfold holds, desc_of. cbn. do 3 right. left. reflexivity.
  - constructor. left. reflexivity.
  - constructor.
Qed.
