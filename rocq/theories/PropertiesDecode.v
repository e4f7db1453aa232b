(** C10, C15, C21-C27, C29-C32, C35: what read_binpb computes on a contiguous
    input, for every schema, message and byte sequence.

    Reading is [decode_bytes E utf8_ok limit ty cur bs]: [E] the schema,
    [utf8_ok] the UTF-8 validator (any function), [limit] the recursion limit,
    [ty] the message type, [cur] the message read into.  The vocabulary of the
    statements is in WireGrammar.v (the wire format as a grammar), FieldSpec.v
    (encodings of single and repeated fields), DecodeTerms.v and WellTyped.v.

    [safe_env E] excludes two kinds of schema for which reading is not memory
    safe or throws: closed enums in a oneof (C30_closed_enum_oneof_refuted) and
    closed enums in a message whose unknown fields are kept as a list of pairs
    (C29_pair_storage_refuted).
    [short_stored E ty bs] excludes overlong tags of stored unknown fields
    (C24_overlong_tag_refuted); it is trivial when unknown fields are not kept. *)
From Coq Require Import Sorted.
Require Import Verif.Bits Verif.Varint Verif.VarintSpec Verif.VarintFacts.
Require Import Verif.Schema Verif.Archive Verif.Decode Verif.DecodeSafe Verif.Encode Verif.WireGrammar Verif.FieldSpec Verif.DecodeOcc Verif.DecodeTerms Verif.WellTyped.
Require Import Verif.DecodeMain Verif.DecodeMain2 Verif.DecodeMain3 Verif.DepthMain Verif.StoredTags Verif.ExampleSchema.

Local Ltac chk := first
  [ apply bytesb_ok; vm_compute; reflexivity
  | apply fields_ok; vm_compute; reflexivity
  | apply no_pad_short; vm_compute; reflexivity
  | apply ex_safe; discriminate
  | vm_compute; reflexivity ].

(** ** C10: the round trip fails for field numbers of five byte tags. *)
Theorem C10_round_trip_refuted :
  exists E ty v bs, encode_bytes E any_utf8 100 ty v = Ok bs /\ v <> default_msg E ty /\
    decode_bytes E any_utf8 100 ty (default_msg E ty) bs = Ok (default_msg E ty).
Proof.
  exists [MDesc [Field 33554432 (EVar VI32) COpt] UNone false], 0%nat, (VMsg [[VInt 5]] []), [128; 128; 128; 128; 1; 5].
  vm_compute. repeat split; discriminate.
Qed.
Print Assumptions C10_round_trip_refuted.

(** ** C15: reading always ends with a message or an error status. *)
Theorem C15_decoding_terminates E utf8_ok limit : safe_env E -> forall ty cur bs,
  (exists v, decode_bytes E utf8_ok limit ty cur bs = Ok v) \/ (exists e, decode_bytes E utf8_ok limit ty cur bs = Err e).
Proof. exact (dec_outcome E utf8_ok limit). Qed.
Print Assumptions C15_decoding_terminates.

Definition ex_input : list (Z * bytes) :=
  [(1, [8; 5]); (20, [160; 1; 7]); (2, [18; 2; 104; 105]); (3, [26; 2; 1; 2]); (3, [24; 3]); (5, [42; 5; 10; 1; 97; 16; 4]);
   (6, [48; 1]); (7, [58; 1; 120]); (9, [72; 7]); (4, [34; 2; 8; 9])].
Definition ex_message : val := VMsg
  [[VInt 5]; [VBytes [104; 105]]; [VInt (-1); VInt 1; VInt (-2)]; [VMsg [[VInt 9]; [VBytes []]; []; []; []; []; []; []; []; [VInt 0]] []];
   [VMsg [[VBytes [97]]; [VInt 4]] []]; [VAlt 1 (VBytes [120])]; []; []; []; [VInt 0]] [(0, [160; 1; 7; 72; 7])].

Example C15_case : safe_env (ex_env UBytes) /\
  decode_bytes (ex_env UBytes) any_utf8 100 0 (default_msg (ex_env UBytes) 0) (bytes_of ex_input) = Ok ex_message.
Proof. split; chk. Qed.

(** ** C21: concatenation is merge. *)
Theorem C21_concatenation_is_merge E utf8_ok limit : safe_env E -> forall ty cur a b v,
  all_bytes a -> all_bytes b -> m_entry (desc_of E ty) = false ->
  short_stored E ty a -> short_stored E ty b ->
  decode_bytes E utf8_ok limit ty cur a = Ok v ->
  same_result (decode_bytes E utf8_ok limit ty cur (a ++ b)) (decode_bytes E utf8_ok limit ty v b).
Proof. exact (p_concat E utf8_ok limit). Qed.
Print Assumptions C21_concatenation_is_merge.

(** A message field that occurs twice is read like one occurrence holding both
    contents, also as an alternative of a oneof: nested messages are merged. *)
Theorem C21_nested_merge E utf8_ok limit : safe_env E -> forall ty cur i num f ty' tb1 lb1 b1 tb2 lb2 b2 tb lb v1,
  0 < limit < 2 ^ 32 - 1 -> 0 < num ->
  m_entry (desc_of E ty) = false -> m_entry (desc_of E ty') = false -> all_bytes b1 -> all_bytes b2 ->
  message_member E ty num i f ty' ->
  tag_bytes num WT_LEN tb1 -> len_bytes (zlen b1) lb1 -> tag_bytes num WT_LEN tb2 -> len_bytes (zlen b2) lb2 ->
  tag_bytes num WT_LEN tb -> len_bytes (zlen (b1 ++ b2)) lb ->
  short_stored E ty' b1 -> short_stored E ty' b2 ->
  decode_bytes E utf8_ok limit ty cur (tb1 ++ lb1 ++ b1) = Ok v1 ->
  same_result (decode_bytes E utf8_ok limit ty cur ((tb1 ++ lb1 ++ b1) ++ (tb2 ++ lb2 ++ b2)))
              (decode_bytes E utf8_ok limit ty cur (tb ++ lb ++ (b1 ++ b2))).
Proof. exact (p_nested_merge E utf8_ok limit). Qed.
Print Assumptions C21_nested_merge.

Example C21_nested_case : let E := ex_env UBytes in
  message_member E 0 4 3 (Field 4 (EMsg 0 false) COpt) 0 /\
  message_member E 0 8 5 (Oneof [(6, EBool); (7, EBytes true false); (8, EMsg 0 false)]) 0 /\
  tag_bytes 8 WT_LEN [66] /\ len_bytes 2 [2] /\ len_bytes 4 [4] /\
  decode_bytes E any_utf8 100 0 (default_msg E 0) [66; 2; 48; 1; 66; 2; 72; 2] =
  decode_bytes E any_utf8 100 0 (default_msg E 0) [66; 4; 48; 1; 72; 2] /\
  (exists v, decode_bytes E any_utf8 100 0 (default_msg E 0) [66; 2; 48; 1; 66; 2; 72; 2] = Ok v).
Proof.
  cbv zeta. split; [split; reflexivity|]. split; [split; [reflexivity|exists 2%nat; reflexivity]|].
  split; [repeat split; cbn; lia|]. split; [repeat split; cbn; lia|]. split; [repeat split; cbn; lia|].
  split; [vm_compute; reflexivity|]. eexists. vm_compute. reflexivity.
Qed.

Example C21_case : let E := ex_env UBytes in
  all_bytes (bytes_of ex_input) /\ short_stored E 0 (bytes_of ex_input) /\
  decode_bytes E any_utf8 100 0 ex_message (bytes_of ex_input) =
  decode_bytes E any_utf8 100 0 (default_msg E 0) (bytes_of ex_input ++ bytes_of ex_input).
Proof. cbv zeta. repeat split; chk. Qed.

(** ** C22: the last occurrence of a singular scalar wins; the last alternative of a oneof is active. *)
Theorem C22_last_value_wins E utf8_ok limit : safe_env E -> forall ty cur i num e c pre tb pb x post v,
  0 < num -> m_entry (desc_of E ty) = false ->
  member E ty num i (Field num e c) -> singular (Field num e c) -> elem_closed e = false ->
  fields limit pre -> tag_bytes num (elem_wt e) tb -> scalar_payload utf8_ok e pb x -> fields limit post ->
  Forall (fun y => forall f, ~ member E ty (fst y) i f) post ->
  all_bytes (bytes_of pre) -> all_bytes (bytes_of post) ->
  short_stored E ty (bytes_of pre ++ (tb ++ pb) ++ bytes_of post) ->
  decode_bytes E utf8_ok limit ty cur (bytes_of pre ++ (tb ++ pb) ++ bytes_of post) = Ok v ->
  nth i (msg_fields v) [] = [x].
Proof. exact (p_last_wins E utf8_ok limit). Qed.
Print Assumptions C22_last_value_wins.

Theorem C22_last_alternative_is_active E utf8_ok limit : safe_env E -> forall ty cur i num alts j e pre tb pb x post v,
  0 < num -> m_entry (desc_of E ty) = false ->
  member E ty num i (Oneof alts) -> find_alt num alts 0 = Some (j, e) ->
  fields limit pre -> tag_bytes num (elem_wt e) tb -> scalar_payload utf8_ok e pb x -> fields limit post ->
  Forall (fun y => forall f, ~ member E ty (fst y) i f) post ->
  all_bytes (bytes_of pre) -> all_bytes (bytes_of post) ->
  short_stored E ty (bytes_of pre ++ (tb ++ pb) ++ bytes_of post) ->
  decode_bytes E utf8_ok limit ty cur (bytes_of pre ++ (tb ++ pb) ++ bytes_of post) = Ok v ->
  nth i (msg_fields v) [] = [VAlt j x].
Proof. exact (p_last_wins_oneof E utf8_ok limit). Qed.
Print Assumptions C22_last_alternative_is_active.

Example C22_case : let E := ex_env UBytes in let pre := [(6, [48; 1]); (7, [58; 1; 120])] in let post := [(20, [160; 1; 7])] in
  member E 0 6 5 (Oneof [(6, EBool); (7, EBytes true false); (8, EMsg 0 false)]) /\
  fields 100 pre /\ fields 100 post /\ tag_bytes 6 WT_VARINT [176; 0] /\ scalar_payload any_utf8 EBool [1] (VInt 1) /\
  Forall (fun y => forall f, ~ member E 0 (fst y) 5 f) post /\
  exists v, decode_bytes E any_utf8 100 0 (default_msg E 0) (bytes_of pre ++ ([176; 0] ++ [1]) ++ bytes_of post) = Ok v.
Proof.
  cbv zeta. split; [reflexivity|]. split; [chk|]. split; [chk|]. split; [repeat split; cbn; lia|].
  split; [exact (SPbool any_utf8 [1] ltac:(cbn; lia) ltac:(cbn; lia))|]. split; [|eexists; vm_compute; reflexivity].
  constructor; [|constructor]. intros f. unfold member. vm_compute. discriminate.
Qed.

(** ** C23: packed, unpacked and mixed encodings of a repeated field are interchangeable. *)
Theorem C23_packed_unpacked E utf8_ok limit : safe_env E -> forall ty cur i num e pk pre bs1 bs2 xs post,
  0 < num -> m_entry (desc_of E ty) = false ->
  member E ty num i (Field num e (CRep pk)) ->
  rep_enc utf8_ok num e bs1 xs -> rep_enc utf8_ok num e bs2 xs ->
  fields limit pre -> fields limit post -> all_bytes (bytes_of pre) -> all_bytes (bytes_of post) ->
  (i < length (msg_fields cur))%nat ->
  short_stored E ty (bytes_of pre ++ bs1 ++ bytes_of post) -> short_stored E ty (bytes_of pre ++ bs2 ++ bytes_of post) ->
  same_result (decode_bytes E utf8_ok limit ty cur (bytes_of pre ++ bs1 ++ bytes_of post))
              (decode_bytes E utf8_ok limit ty cur (bytes_of pre ++ bs2 ++ bytes_of post)).
Proof. exact (p_repeated_same E utf8_ok limit). Qed.
Print Assumptions C23_packed_unpacked.

(** The elements arrive in order; of a closed enum the valid ones. *)
Theorem C23_repeated_elements E utf8_ok limit : safe_env E -> forall ty cur i num e pk bs xs,
  0 < num -> m_entry (desc_of E ty) = false -> scope_ok limit 0 = true ->
  member E ty num i (Field num e (CRep pk)) -> rep_enc utf8_ok num e bs xs -> (i < length (msg_fields cur))%nat ->
  exists v, decode_bytes E utf8_ok limit ty cur bs = Ok v /\
    nth i (msg_fields v) [] = nth i (msg_fields cur) [] ++ filter (kept e) xs /\
    msg_unk v = drop_unknown e (m_unk (desc_of E ty)) num xs (msg_unk cur) /\
    forall j, j <> i -> nth j (msg_fields v) [] = nth j (msg_fields cur) [].
Proof. exact (repeated_value E utf8_ok limit). Qed.
Print Assumptions C23_repeated_elements.

Example C23_case : let e := EVar VS32 in
  rep_enc any_utf8 3 e [26; 2; 1; 2; 24; 3] [VInt (-1); VInt 1; VInt (-2)] /\
  rep_enc any_utf8 3 e [24; 1; 26; 3; 2; 131; 0] [VInt (-1); VInt 1; VInt (-2)].
Proof.
  cbv zeta. split.
  - apply (RPacked any_utf8 3 (EVar VS32) [26] [2] [[1]; [2]] [VInt (-1); VInt 1] [24; 3] [VInt (-2)]); [reflexivity| | | |].
    + repeat split; cbn; lia.
    + repeat split; cbn; lia.
    + constructor; [exact (SPvar any_utf8 VS32 [1] ltac:(cbn; lia) ltac:(cbn; lia))|].
      constructor; [exact (SPvar any_utf8 VS32 [2] ltac:(cbn; lia) ltac:(cbn; lia))|constructor].
    + apply (ROne any_utf8 3 (EVar VS32) [24] [3] (VInt (-2)) [] []); [repeat split; cbn; lia| |constructor].
      exact (SPvar any_utf8 VS32 [3] ltac:(cbn; lia) ltac:(cbn; lia)).
  - apply (ROne any_utf8 3 (EVar VS32) [24] [1] (VInt (-1)) [26; 3; 2; 131; 0] [VInt 1; VInt (-2)]); [repeat split; cbn; lia| |].
    { exact (SPvar any_utf8 VS32 [1] ltac:(cbn; lia) ltac:(cbn; lia)). }
    apply (RPacked any_utf8 3 (EVar VS32) [26] [3] [[2]; [131; 0]] [VInt 1; VInt (-2)] [] []); [reflexivity| | | |constructor].
    + repeat split; cbn; lia.
    + repeat split; cbn; lia.
    + constructor; [exact (SPvar any_utf8 VS32 [2] ltac:(cbn; lia) ltac:(cbn; lia))|].
      constructor; [|constructor]. exact (SPvar any_utf8 VS32 [131; 0] ltac:(cbn; lia) ltac:(cbn; lia)).
Qed.

(** ** C24: unknown fields are kept byte for byte and in order. *)
Theorem C24_unknown_fields_kept E utf8_ok limit : safe_env E -> forall ty cur l v,
  fields limit l -> all_bytes (bytes_of l) -> m_entry (desc_of E ty) = false ->
  no_closed_enum E ty -> m_unk (desc_of E ty) <> UNone -> store_ok (m_unk (desc_of E ty)) (msg_unk cur) ->
  short_stored E ty (bytes_of l) -> decode_bytes E utf8_ok limit ty cur (bytes_of l) = Ok v ->
  (m_unk (desc_of E ty) = UBytes -> kept_bytes (msg_unk v) = kept_bytes (msg_unk cur) ++ bytes_of (unknowns E ty l)) /\
  (m_unk (desc_of E ty) = UMap \/ m_unk (desc_of E ty) = UPairs -> forall n,
     kept_for n (msg_unk v) = kept_for n (msg_unk cur) ++ bytes_of (filter (fun x => fst x =? n) (unknowns E ty l))).
Proof. exact (p_retained E utf8_ok limit). Qed.
Print Assumptions C24_unknown_fields_kept.

Example C24_case : let E := ex_env UMap in
  let l := [(20, [163; 1; 8; 1; 164; 1]); (1, [8; 5]); (7, [58; 1; 120]); (20, [160; 1; 9])] in
  fields 100 l /\ no_closed_enum E 2 /\ short_stored E 2 (bytes_of l) /\
  decode_bytes E any_utf8 100 2 (default_msg E 2) (bytes_of l) =
  Ok (VMsg [[VInt 5]; []] [(7, [58; 1; 120]); (20, [163; 1; 8; 1; 164; 1; 160; 1; 9])]).
Proof. cbv zeta. split; [chk|]. split; [repeat constructor|]. split; chk. Qed.

(** An unknown field whose tag is overlong is stored without the first bytes of its tag. *)
Theorem C24_overlong_tag_refuted : exists E ty bs f v,
  fields 100 [(1, f)] /\ bs = bytes_of [(1, f)] /\ unknown_to E ty 1 /\ m_unk (desc_of E ty) = UBytes /\
  decode_bytes E any_utf8 100 ty (default_msg E ty) bs = Ok v /\ kept_bytes (msg_unk v) <> f.
Proof.
  exists [MDesc [] UBytes false], 0%nat, [136; 0; 5], [136; 0; 5], (VMsg [] [(0, [0; 5])]).
  split; [chk|]. split; [reflexivity|]. split; [split; [discriminate|constructor]|]. split; [reflexivity|].
  split; [reflexivity|discriminate].
Qed.
Print Assumptions C24_overlong_tag_refuted.

(** ** C25: unknown fields do not disturb known ones. *)
Theorem C25_unknown_fields_undisturbing E utf8_ok limit : safe_env E -> forall ty cur a u b,
  fields limit (a ++ u ++ b) -> all_bytes (bytes_of (a ++ u ++ b)) -> m_entry (desc_of E ty) = false ->
  Forall (fun x => unknown_to E ty (fst x)) u ->
  short_stored E ty (bytes_of (a ++ u ++ b)) -> short_stored E ty (bytes_of (a ++ b)) ->
  (forall v, decode_bytes E utf8_ok limit ty cur (bytes_of (a ++ u ++ b)) = Ok v ->
     exists w, decode_bytes E utf8_ok limit ty cur (bytes_of (a ++ b)) = Ok w /\ msg_fields w = msg_fields v) /\
  (forall w, decode_bytes E utf8_ok limit ty cur (bytes_of (a ++ b)) = Ok w ->
     exists v, decode_bytes E utf8_ok limit ty cur (bytes_of (a ++ u ++ b)) = Ok v /\ msg_fields v = msg_fields w).
Proof. exact (p_insert E utf8_ok limit). Qed.
Print Assumptions C25_unknown_fields_undisturbing.

Example C25_case : let E := ex_env UBytes in let u := [(20, [163; 1; 8; 1; 164; 1]); (21, [168; 1; 3])] in
  fields 100 (ex_input ++ u ++ ex_input) /\ Forall (fun x => unknown_to E 0 (fst x)) u /\
  short_stored E 0 (bytes_of (ex_input ++ u ++ ex_input)) /\ short_stored E 0 (bytes_of (ex_input ++ ex_input)).
Proof.
  cbv zeta. split; [chk|]. split; [repeat constructor; cbn; discriminate|]. split; chk.
Qed.

(** ** C26: skipping a field consumes exactly its payload. *)
Theorem C26_skip_consumes_payload limit d tag bs rest : all_bytes bs ->
  (exists z, skip_one zops limit (S (length bs)) d tag (Zip [] bs) = Ok z /\ za z = rest) <->
  exists p, bs = p ++ rest /\ payload limit d tag p.
Proof. exact (p_skip limit d tag bs rest). Qed.
Print Assumptions C26_skip_consumes_payload.

Theorem C26_skip_fails limit d tag bs : all_bytes bs ->
  (forall p rest, bs = p ++ rest -> ~ payload limit d tag p) ->
  exists e, skip_one zops limit (S (length bs)) d tag (Zip [] bs) = Err e.
Proof. exact (p_skip_fails limit d tag bs). Qed.
Print Assumptions C26_skip_fails.

(** Whatever is accepted is a sequence of fields, in exactly one way. *)
Theorem C26_accepted_is_fields E utf8_ok limit : safe_env E -> forall ty cur bs v,
  all_bytes bs -> m_entry (desc_of E ty) = false -> decode_bytes E utf8_ok limit ty cur bs = Ok v ->
  exists l, fields limit l /\ bs = bytes_of l.
Proof. exact (accepted_fields E utf8_ok limit). Qed.
Print Assumptions C26_accepted_is_fields.

Theorem C26_fields_unique limit l1 l2 : fields limit l1 -> fields limit l2 -> bytes_of l1 = bytes_of l2 -> l1 = l2.
Proof. exact (fields_unique limit l1 l2). Qed.
Print Assumptions C26_fields_unique.

Example C26_case : payload 100 1 163 [8; 1; 164; 1] /\ payload 100 1 162 [3; 1; 2; 3] /\
  skip_one zops 100 10 1 163 (Zip [] [8; 1; 164; 1; 77]) = Ok (Zip [1; 164; 1; 8] [77]).
Proof.
  split.
  { apply PGroup; [reflexivity|split; [lia|discriminate]|].
    apply (GField 100 (1 + 1) (tag_number 163) [8] 8 [1] [164; 1]).
    - repeat split; cbn; lia.
    - apply PVarint; [discriminate|reflexivity|cbn; lia|cbn; lia].
    - apply (GEnd 100 (1 + 1) _ [164; 1] 164); [repeat split; cbn; lia|reflexivity|reflexivity]. }
  split; [|reflexivity].
  apply (PLen 100 1 162 [3] [1; 2; 3]); [reflexivity|cbn; lia|cbn; lia|reflexivity].
Qed.

(** The claim "fails on field number 0" does not hold inside skipped groups. *)
Theorem C26_number_zero_in_group_refuted : exists E ty bs v,
  decode_bytes E any_utf8 100 ty (default_msg E ty) bs = Ok v /\
  bs = [163; 1] ++ [5; 1; 2; 3; 4] ++ [164; 1] /\ tag_number 5 = 0.
Proof. exists [MDesc [] UNone false], 0%nat. do 2 eexists. repeat split. vm_compute. reflexivity. Qed.
Print Assumptions C26_number_zero_in_group_refuted.

(** ** C27: the recursion limit is exact. *)
Theorem C27_limit_exact E utf8_ok : safe_env E -> forall limit k ty b,
  levels E k ty b -> m_entry (desc_of E ty) = false -> 0 <= limit < 2 ^ 32 - 1 -> forall cur,
  (Z.of_nat k <= limit -> exists v, decode_bytes E utf8_ok limit ty cur b = Ok v) /\
  (limit < Z.of_nat k -> decode_bytes E utf8_ok limit ty cur b = Err TooLarge).
Proof. exact (depth_exact E utf8_ok). Qed.
Print Assumptions C27_limit_exact.

Theorem C27_limit_monotone E utf8_ok limit : safe_env E -> forall limit' ty cur bs v,
  all_bytes bs -> m_entry (desc_of E ty) = false -> limit <= limit' -> short_stored E ty bs ->
  decode_bytes E utf8_ok limit ty cur bs = Ok v -> decode_bytes E utf8_ok limit' ty cur bs = Ok v.
Proof. exact (p_limit_mono E utf8_ok limit). Qed.
Print Assumptions C27_limit_monotone.

(** A nested message is read exactly as its content would be, into the message
    already held there, under a limit smaller by one. *)
Theorem C27_nested_message E utf8_ok limit : safe_env E -> forall ty cur i num f ty' tb lb b v,
  0 < limit < 2 ^ 32 - 1 -> 0 < num ->
  m_entry (desc_of E ty) = false -> m_entry (desc_of E ty') = false -> all_bytes b ->
  message_member E ty num i f ty' ->
  tag_bytes num WT_LEN tb -> len_bytes (zlen b) lb -> short_stored E ty' b ->
  decode_bytes E utf8_ok limit ty cur (tb ++ lb ++ b) = Ok v <->
  exists w, decode_bytes E utf8_ok (limit - 1) ty' (held E num f ty' (nth i (msg_fields cur) [])) b = Ok w /\
    v = VMsg (set_nth i (holding num f w) (msg_fields cur)) (msg_unk cur).
Proof. exact (p_nested E utf8_ok limit). Qed.
Print Assumptions C27_nested_message.

Example C27_case : let E := ex_env UBytes in levels E 3 0 [34; 7; 91; 163; 1; 164; 1; 92; 0] \/ levels E 3 0 [34; 6; 91; 163; 1; 164; 1; 92].
Proof.
  cbv zeta. right.
  apply (LMsg _ 2 0 4 0 [34] [6] [91; 163; 1; 164; 1; 92]).
  - split; [lia|]. exists 3%nat, (Field 4 (EMsg 0 false) COpt). split; reflexivity.
  - reflexivity.
  - repeat split; cbn; lia.
  - repeat split; cbn; lia.
  - apply (LGroup _ 1 0 11 0 [91] [92] [163; 1; 164; 1]).
    + split; [lia|]. exists 8%nat, (Field 11 (EMsg 0 true) COpt). split; reflexivity.
    + reflexivity.
    + repeat split; cbn; lia.
    + repeat split; cbn; lia.
    + apply (LUnknown _ 0 0 20 [163; 1] [164; 1] []).
      * split; [lia|]. repeat constructor.
      * lia.
      * right; right. cbn. lia.
      * repeat split; cbn; lia.
      * repeat split; cbn; lia.
      * constructor.
Qed.

(** ** C29: closed enums. *)
(** Reading keeps messages well-formed; [wt_msg] includes that optional, repeated
    and required closed enum members only hold values of their enum. *)
Theorem C29_closed_enum_members E utf8_ok limit : safe_env E -> forall ty cur bs v,
  map_shape E -> wt_defaults E utf8_ok -> all_bytes bs -> m_entry (desc_of E ty) = false -> short_stored E ty bs ->
  wt_msg E utf8_ok ty cur -> decode_bytes E utf8_ok limit ty cur bs = Ok v -> wt_msg E utf8_ok ty v.
Proof. exact (p_wt E utf8_ok limit). Qed.
Print Assumptions C29_closed_enum_members.

(** An optional closed enum: a value of the enum is stored, any other becomes an
    unknown field and leaves the member as it was. *)
Theorem C29_optional_closed_enum E utf8_ok limit : safe_env E -> forall ty cur i num l pb z tb,
  0 < num -> m_entry (desc_of E ty) = false -> scope_ok limit 0 = true ->
  member E ty num i (Field num (EEnum (Some l)) COpt) -> tag_bytes num WT_VARINT tb ->
  is_varint pb -> (length pb <= 10)%nat -> z = meaning VI64 (b128 pb) -> (i < length (msg_fields cur))%nat ->
  decode_bytes E utf8_ok limit ty cur (tb ++ pb) =
    if enum_valid (Some l) (wrapS 32 z) then Ok (VMsg (set_nth i [VInt (wrapS 32 z)] (msg_fields cur)) (msg_unk cur))
    else Ok (VMsg (msg_fields cur) (unk_add (m_unk (desc_of E ty)) num (enum_field num z) (msg_unk cur))).
Proof. exact (closed_enum_optional E utf8_ok limit). Qed.
Print Assumptions C29_optional_closed_enum.

(** A required closed enum rejects other values.  (Repeated ones: C23_repeated_elements.) *)
Theorem C29_required_closed_enum E utf8_ok limit : safe_env E -> forall ty cur i num l d pb z tb,
  0 < num -> m_entry (desc_of E ty) = false -> scope_ok limit 0 = true ->
  member E ty num i (Field num (EEnum (Some l)) (CPlain true d)) -> tag_bytes num WT_VARINT tb ->
  is_varint pb -> (length pb <= 10)%nat -> z = wrapS 32 (b128 pb) -> ~ In z l ->
  rejected (decode_bytes E utf8_ok limit ty cur (tb ++ pb)).
Proof. exact (closed_enum_required E utf8_ok limit). Qed.
Print Assumptions C29_required_closed_enum.

Example C29_case : let E := ex_env UBytes in
  map_shape E /\ wt_defaults E any_utf8 /\ member E 0 9 6 (Field 9 (EEnum (Some [0; 1; 2])) COpt) /\
  decode_bytes E any_utf8 100 0 (default_msg E 0) [72; 1; 72; 7; 82; 2; 2; 9] =
  Ok (VMsg [[]; [VBytes []]; []; []; []; []; [VInt 1]; [VInt 2]; []; [VInt 0]] [(0, [72; 7; 80; 9])]).
Proof. cbv zeta. split; [apply ex_shape|]. split; [apply ex_defaults|]. split; chk. Qed.

(** With unknown fields kept as a list of pairs the bytes of the value are
    referenced after their lifetime. *)
Theorem C29_pair_storage_refuted : exists E ty bs, decode_bytes E any_utf8 100 ty (default_msg E ty) bs = UB.
Proof. exists [MDesc [Field 9 (EEnum (Some [0; 1])) COpt] UPairs false], 0%nat, [72; 7]. reflexivity. Qed.
Print Assumptions C29_pair_storage_refuted.

(** ** C30: reading a closed enum alternative of a oneof throws. *)
Theorem C30_closed_enum_oneof_refuted : exists E ty bs, decode_bytes E any_utf8 100 ty (default_msg E ty) bs = Exn.
Proof. exists [MDesc [Oneof [(1, EEnum (Some [0; 1]))]] UNone false], 0%nat, [8; 1]. reflexivity. Qed.
Print Assumptions C30_closed_enum_oneof_refuted.

(** ** C31: truncated input. *)
Theorem C31_truncated_field_rejected E utf8_ok limit : safe_env E -> forall ty cur num f p q,
  one_field limit 1 num f -> all_bytes p -> p ++ q = f -> p <> [] -> q <> [] ->
  m_entry (desc_of E ty) = false -> rejected (decode_bytes E utf8_ok limit ty cur p).
Proof. exact (p_truncated E utf8_ok limit). Qed.
Print Assumptions C31_truncated_field_rejected.

Theorem C31_accepted_prefix E utf8_ok limit : safe_env E -> forall ty cur l p q v,
  fields limit l -> all_bytes p -> p ++ q = bytes_of l -> m_entry (desc_of E ty) = false ->
  decode_bytes E utf8_ok limit ty cur p = Ok v -> exists l1 l2, l = l1 ++ l2 /\ p = bytes_of l1 /\ q = bytes_of l2.
Proof. exact (accepted_prefix E utf8_ok limit). Qed.
Print Assumptions C31_accepted_prefix.

Example C31_case : fields 100 ex_input /\ exists v,
  decode_bytes (ex_env UBytes) any_utf8 100 0 (default_msg (ex_env UBytes) 0) (firstn 5 (bytes_of ex_input)) = Ok v.
Proof. split; [chk|]. eexists. vm_compute. reflexivity. Qed.

(** ** C32: fields of different members may be reordered. *)
Theorem C32_field_order E utf8_ok limit : safe_env E -> forall ty cur l l',
  fields limit l -> fields limit l' -> m_entry (desc_of E ty) = false ->
  all_bytes (bytes_of l) -> all_bytes (bytes_of l') ->
  (forall k, concerning E ty k l = concerning E ty k l') ->
  short_stored E ty (bytes_of l) -> short_stored E ty (bytes_of l') ->
  same_result (decode_bytes E utf8_ok limit ty cur (bytes_of l)) (decode_bytes E utf8_ok limit ty cur (bytes_of l')).
Proof. exact (p_reorder E utf8_ok limit). Qed.
Print Assumptions C32_field_order.

Example C32_case : let E := ex_env UBytes in
  let l := [(1, [8; 5]); (20, [160; 1; 7]); (3, [24; 3]); (1, [8; 6])] in let l' := [(3, [24; 3]); (1, [8; 5]); (1, [8; 6]); (20, [160; 1; 7])] in
  fields 100 l /\ fields 100 l' /\ (forall k, concerning E 0 k l = concerning E 0 k l').
Proof.
  cbv zeta. split; [chk|]. split; [chk|]. intros [[|[|[|k]]]|]; vm_compute; reflexivity.
Qed.

(** ** C35: map members. *)
(** Keys stay sorted and distinct, and every key has the entry of its last occurrence. *)
Theorem C35_map_last_entry_wins E utf8_ok limit : safe_env E -> forall ty cur i num e l v,
  fields limit l -> all_bytes (bytes_of l) -> m_entry (desc_of E ty) = false ->
  map_shape E -> wt_defaults E utf8_ok -> wt_msg E utf8_ok ty cur -> member E ty num i (Field num e (CMap true)) ->
  short_stored E ty (bytes_of l) -> decode_bytes E utf8_ok limit ty cur (bytes_of l) = Ok v ->
  StronglySorted key_lt (map entry_key (nth i (msg_fields v) [])) /\
  exists ws,
    Forall2 (fun x w => exists v', decode_bytes E utf8_ok limit ty (default_msg E ty) (snd x) = Ok v' /\ nth i (msg_fields v') [] = [w])
      (filter (fun x => fst x =? num) l) ws /\
    forall k, is_key k -> map_get k (nth i (msg_fields v) []) =
      match last_with k ws with Some w => Some w | None => map_get k (nth i (msg_fields cur) []) end.
Proof. exact (p_map E utf8_ok limit). Qed.
Print Assumptions C35_map_last_entry_wins.

(** One entry: its key and value, or its key and the default value. *)
Theorem C35_map_entry E utf8_ok limit : safe_env E -> forall ty cur i num ty' ek dk ev dv assoc tb lb kb k vb x,
  0 < num -> m_entry (desc_of E ty) = false -> 1 <= limit < 2 ^ 32 - 1 ->
  member E ty num i (Field num (EMsg ty' false) (CMap assoc)) ->
  desc_of E ty' = MDesc [Field 1 ek (CPlain true dk); Field 2 ev (CPlain true dv)] UNone true ->
  elem_closed ek = false -> elem_closed ev = false ->
  tag_bytes num WT_LEN tb -> len_bytes (zlen ((8 + elem_wt ek) :: kb ++ vb)) lb -> scalar_payload utf8_ok ek kb k ->
  (vb = [] /\ x = dv) \/ (exists tv pv, vb = tv ++ pv /\ tag_bytes 2 (elem_wt ev) tv /\ scalar_payload utf8_ok ev pv x) ->
  let w := VMsg [[k]; [x]] [] in
  decode_bytes E utf8_ok limit ty cur (tb ++ lb ++ (8 + elem_wt ek) :: kb ++ vb) =
  Ok (VMsg (set_nth i (if assoc then map_put w (nth i (msg_fields cur) []) else nth i (msg_fields cur) [] ++ [w]) (msg_fields cur)) (msg_unk cur)).
Proof. exact (map_entry E utf8_ok limit). Qed.
Print Assumptions C35_map_entry.

Example C35_case : let E := ex_env UBytes in
  let l := [(5, [42; 5; 10; 1; 98; 16; 4]); (5, [42; 3; 10; 1; 97]); (5, [42; 5; 10; 1; 98; 16; 9])] in
  fields 100 l /\ wt_msg E any_utf8 0 (default_msg E 0) /\ member E 0 5 4 (Field 5 (EMsg 1 false) (CMap true)) /\
  exists v, decode_bytes E any_utf8 100 0 (default_msg E 0) (bytes_of l) = Ok v /\
    nth 4 (msg_fields v) [] = [VMsg [[VBytes [97]]; [VInt 0]] []; VMsg [[VBytes [98]]; [VInt 9]] []].
Proof.
  cbv zeta. split; [chk|]. split; [apply ex_defaults|]. split; [chk|]. eexists. split; vm_compute; reflexivity.
Qed.

(** An entry without a key is rejected instead of meaning the default key. *)
Theorem C35_missing_key_refuted : let E := ex_env UBytes in
  rejected (decode_bytes E any_utf8 100 0 (default_msg E 0) [42; 0]) /\
  rejected (decode_bytes E any_utf8 100 0 (default_msg E 0) [42; 2; 16; 9]) /\
  rejected (decode_bytes E any_utf8 100 0 (default_msg E 0) [42; 5; 16; 9; 10; 1; 97]).
Proof. cbv zeta. repeat split; eexists; vm_compute; reflexivity. Qed.
Print Assumptions C35_missing_key_refuted.
