(** C47, C48: Any messages and extensions.

    [pack_any E utf8_ok maxd name ty v] packs message [v] of type [ty], whose full
    name is [name]; [unpack_any … name ty a] unpacks it as a message of that type:
    [Unpacked r] with [r] what read_binpb returns, or [InvalidArgument].
    [plain_name n]: neither a slash nor a NUL occurs in [n].

    [ext_get], [ext_set] and [ext_in] are the members of extension_base; [k] is
    the representation of the extendee's store ([ext_store k]: a map from numbers
    to bytes, or a list of pairs), [xt] the extension type ([ext_type E xt n]: one
    member, numbered [n]) and [cur] what the extension object held before the call.
    For [generated], [wt_msg], [canonical] see PropertiesEncode.v. *)
From Coq Require Import Sorted String.
Require Import Verif.Bits Verif.Varint Verif.VarintSpec.
Require Import Verif.Schema Verif.Archive Verif.Decode Verif.DecodeSafe Verif.WireGrammar Verif.FieldSpec Verif.DecodeTerms Verif.WellTyped Verif.StoredTags.
Require Import Verif.Encode Verif.EncodeSpec Verif.RoundTrip Verif.AnyExt.
Require Import Verif.ExampleSchema Verif.ExampleMessage Verif.AnyExtMain Verif.ExampleExt.
Local Open Scope list_scope.

(** ** C47: Any *)
(** Unpacking what was packed, as the same type, gives the message back. *)
Theorem C47_round_trip E utf8_ok maxd limit name ty v a : generated E -> m_entry (desc_of E ty) = false -> maxd <= limit -> plain_name name ->
  wt_msg E utf8_ok ty v -> canonical E limit 1 ty v -> pack_any E utf8_ok maxd name ty v = Ok a ->
  unpack_any E utf8_ok limit name ty a = Unpacked (Ok v).
Proof. exact (pack_unpack E utf8_ok maxd limit name ty v a). Qed.
Print Assumptions C47_round_trip.

(** What was packed: the type url of the message and its encoding. *)
Theorem C47_packed E utf8_ok maxd name ty v a : pack_any E utf8_ok maxd name ty v = Ok a ->
  type_url a = chars "type.googleapis.com" ++ [47] ++ name /\ encode_bytes E utf8_ok maxd ty v = Ok (any_value a).
Proof. exact (packed_url E utf8_ok maxd name ty v a). Qed.
Print Assumptions C47_packed.

(** Unpacking as another type fails. *)
Theorem C47_other_type E utf8_ok maxd limit name name' ty ty' v a : plain_name name -> plain_name name' -> name <> name' ->
  pack_any E utf8_ok maxd name ty v = Ok a -> unpack_any E utf8_ok limit name' ty' a = InvalidArgument.
Proof. exact (unpack_other E utf8_ok maxd limit name name' ty ty' v a). Qed.
Print Assumptions C47_other_type.

(** For every Any: it is read exactly when its type url ends with a slash and the name. *)
Theorem C47_accepted_urls E utf8_ok limit name ty a : plain_name name ->
  ((exists p, type_url a = p ++ [47] ++ name) ->
     unpack_any E utf8_ok limit name ty a = Unpacked (decode_bytes E utf8_ok limit ty (default_msg E ty) (any_value a))) /\
  ((forall p, type_url a <> p ++ [47] ++ name) -> unpack_any E utf8_ok limit name ty a = InvalidArgument).
Proof. exact (unpack_iff E utf8_ok limit name ty a). Qed.
Print Assumptions C47_accepted_urls.

Example C47_case : let n := chars "test.Root" in plain_name n /\ plain_name (chars "test.Roo") /\
  exists a, pack_any (ex_env UBytes) any_utf8 100 n 0 ex_value = Ok a /\ type_url a = chars "type.googleapis.com/test.Root" /\ any_value a = ex_written /\
    unpack_any (ex_env UBytes) any_utf8 100 (chars "test.Roo") 0 a = InvalidArgument /\
    unpack_any (ex_env UBytes) any_utf8 100 (chars "test.Root") 0 (Any (chars "x/y/test.Root") ex_written) = Unpacked (Ok ex_value).
Proof.
  cbv zeta. split; [repeat constructor; discriminate|]. split; [repeat constructor; discriminate|].
  exists (Any (chars "type.googleapis.com/test.Root") ex_written). split; [vm_compute; reflexivity|]. split; [reflexivity|]. split; [reflexivity|].
  split; vm_compute; reflexivity.
Qed.

(** ** C48: extensions *)
(** Getting an extension after setting it gives the value set; in a list of pairs
    when the extension was not there before. *)
Theorem C48_get_after_set E utf8_ok maxd limit k xt v l l' cur : generated E -> maxd <= limit -> m_entry (desc_of E xt) = false -> ext_store k ->
  wt_msg E utf8_ok xt v -> canonical E limit 1 xt v -> (k = UPairs -> ext_in E k xt l = false) -> ext_set E utf8_ok maxd k xt v l = Ok l' ->
  v <> default_msg E xt -> ext_in E k xt l' = true /\ ext_get E utf8_ok limit k xt l' cur = Ok v.
Proof. exact (get_after_set E utf8_ok maxd limit k xt v l l' cur). Qed.
Print Assumptions C48_get_after_set.

(** Setting fails only when the extension cannot be written. *)
Theorem C48_set_works E utf8_ok maxd k xt v l : (exists l', ext_set E utf8_ok maxd k xt v l = Ok l') <-> exists bs, encode_bytes E utf8_ok maxd xt v = Ok bs.
Proof. exact (ext_set_works E utf8_ok maxd k xt v l). Qed.
Print Assumptions C48_set_works.

(** Other extensions are unaffected. *)
Theorem C48_others E utf8_ok maxd limit k xt xt' v l l' cur : ext_number E xt' <> ext_number E xt -> ext_set E utf8_ok maxd k xt v l = Ok l' ->
  ext_get E utf8_ok limit k xt' l' cur = ext_get E utf8_ok limit k xt' l cur /\ ext_in E k xt' l' = ext_in E k xt' l.
Proof. exact (other_unaffected E utf8_ok maxd limit k xt xt' v l l' cur). Qed.
Print Assumptions C48_others.

(** Getting an extension that is not there succeeds and leaves the object as it was. *)
Theorem C48_absent E utf8_ok limit k xt l cur : ext_store k -> ext_in E k xt l = false -> ext_get E utf8_ok limit k xt l cur = Ok cur.
Proof. exact (get_absent E utf8_ok limit k xt l cur). Qed.
Print Assumptions C48_absent.

(** A value that encodes to no bytes is the default, and setting it does nothing. *)
Theorem C48_set_default E utf8_ok maxd limit k xt v l : generated E -> maxd <= limit -> m_entry (desc_of E xt) = false ->
  wt_msg E utf8_ok xt v -> canonical E limit 1 xt v -> encode_bytes E utf8_ok maxd xt v = Ok [] ->
  v = default_msg E xt /\ ext_set E utf8_ok maxd k xt v l = Ok l.
Proof. intros. split; [eapply set_default; eauto|apply set_nothing; assumption]. Qed.
Print Assumptions C48_set_default.

(** Hence an extension that is there cannot be cleared: after setting an empty
    value the old one is still read. *)
Theorem C48_clear_refuted : exists E xt v l l' w, generated E /\ ext_type E xt 100 /\ wt_msg E any_utf8 xt v /\ canonical E 100 1 xt v /\
  ext_set E any_utf8 100 UMap xt v l = Ok l' /\ ext_get E any_utf8 100 UMap xt l' v = Ok w /\ w <> v.
Proof.
  exists (ext_env UMap), 1%nat, (VMsg [[]] []), [(100, [160; 6; 5])], [(100, [160; 6; 5])], (x_value 5).
  split; [apply ext_generated|]. split; [apply ext_x|]. split; [exact (ext_defaults UMap 1%nat)|].
  split; [constructor; [split|intros f c ty' v' H K; exfalso; eapply ext_no_sub; eauto]; [|constructor]|].
  - intros f c H Ho. unfold holds, desc_of in H. cbn in H. destruct H as [[= <- <-]|[]]. reflexivity.
  - split; [reflexivity|]. split; [vm_compute; reflexivity|discriminate].
Qed.
Print Assumptions C48_clear_refuted.

(** In a list of pairs a second value set is read into the first. *)
Theorem C48_set_again_pairs E utf8_ok maxd limit xt v l l' cur bs : encode_bytes E utf8_ok maxd xt v = Ok bs -> bs <> [] -> ext_in E UPairs xt l = true ->
  ext_set E utf8_ok maxd UPairs xt v l = Ok l' ->
  ext_get E utf8_ok limit UPairs xt l' cur = (old <- ext_get E utf8_ok limit UPairs xt l cur ;; decode_bytes E utf8_ok limit xt old bs).
Proof. exact (get_after_set_pairs E utf8_ok maxd limit xt v l l' cur bs). Qed.
Print Assumptions C48_set_again_pairs.

(** For a repeated extension that is not the value set: [3] then [4] gives [3, 4]. *)
Theorem C48_pairs_refuted : exists E xt l l', generated E /\ ext_type E xt 101 /\
  ext_set E any_utf8 100 UPairs xt (y_value [3]) [] = Ok l /\ ext_set E any_utf8 100 UPairs xt (y_value [4]) l = Ok l' /\
  ext_get E any_utf8 100 UPairs xt l' (y_value []) = Ok (y_value [3; 4]).
Proof.
  exists (ext_env UPairs), 2%nat, [(101, [170; 6; 1; 3])], [(101, [170; 6; 1; 3]); (101, [170; 6; 1; 4])].
  split; [apply ext_generated|]. split; [apply ext_y|]. split; [vm_compute; reflexivity|]. split; vm_compute; reflexivity.
Qed.
Print Assumptions C48_pairs_refuted.

(** Set an extension, write the extendee, read it back, get the extension: the
    value set, and the members of the extendee are as before. *)
Theorem C48_survives_the_wire E utf8_ok maxd limit ty xt n v fs l l' bs cur : generated E -> maxd <= limit -> m_entry (desc_of E ty) = false -> ext_type E xt n ->
  wt_msg E utf8_ok xt v -> canonical E limit 1 xt v -> v <> default_msg E xt ->
  ext_store (m_unk (desc_of E ty)) -> unknown_to E ty n -> (m_unk (desc_of E ty) = UPairs -> ext_in E UPairs xt l = false) ->
  wt_msg E utf8_ok ty (VMsg fs l) -> canonical E limit 1 ty (VMsg fs l) -> ext_set E utf8_ok maxd (m_unk (desc_of E ty)) xt v l = Ok l' ->
  encode_bytes E utf8_ok maxd ty (VMsg fs l') = Ok bs ->
  exists m, decode_bytes E utf8_ok limit ty (default_msg E ty) bs = Ok m /\ msg_fields m = fs /\
    ext_get E utf8_ok limit (m_unk (desc_of E ty)) xt (msg_unk m) cur = Ok v.
Proof. exact (ext_trip E utf8_ok maxd limit ty xt n v fs l l' bs cur). Qed.
Print Assumptions C48_survives_the_wire.

(** Getting an extension from a parsed message reads the fields of the input with
    its number, in their order; it is there when there is such a field. *)
Theorem C48_parsed E utf8_ok limit ty xt n fl v cur : generated E -> wt_defaults E utf8_ok -> fields limit fl -> all_bytes (bytes_of fl) -> m_entry (desc_of E ty) = false ->
  no_closed_enum E ty -> ext_store (m_unk (desc_of E ty)) -> short_stored E ty (bytes_of fl) -> ext_type E xt n -> unknown_to E ty n ->
  decode_bytes E utf8_ok limit ty (default_msg E ty) (bytes_of fl) = Ok v ->
  let mine := filter (fun x => fst x =? n) fl in
  (ext_in E (m_unk (desc_of E ty)) xt (msg_unk v) = true <-> mine <> []) /\
  (mine <> [] -> ext_get E utf8_ok limit (m_unk (desc_of E ty)) xt (msg_unk v) cur = decode_bytes E utf8_ok limit xt (default_msg E xt) (bytes_of mine)).
Proof. exact (read_extension E utf8_ok limit ty xt n fl v cur). Qed.
Print Assumptions C48_parsed.

Example C48_case k : ext_store k -> let E := ext_env k in let l := msg_unk e_value in let l' := set_store k 100 [160; 6; 5] l in
  generated E /\ ext_type E 1 100 /\ ext_number E 2 <> ext_number E 1 /\ wt_msg E any_utf8 1 (x_value 5) /\ canonical E 100 1 1 (x_value 5) /\ ext_in E k 1 l = false /\
  unknown_to E 0 100 /\ wt_msg E any_utf8 0 e_value /\ canonical E 100 1 0 e_value /\
  ext_set E any_utf8 100 k 1 (x_value 5) l = Ok l' /\ ext_get E any_utf8 100 k 1 l' (x_value 9) = Ok (x_value 5) /\
  ext_get E any_utf8 100 k 2 l' (y_value []) = Ok (y_value [3; 4]) /\
  exists bs, encode_bytes E any_utf8 100 0 (VMsg (msg_fields e_value) l') = Ok bs.
Proof.
  intros Hk. cbv zeta. split; [apply ext_generated|]. split; [apply ext_x|]. split; [discriminate|].
  split; [apply x_wt; unfold in_vtype, fits_s; lia|]. split; [apply x_canonical|]. split; [reflexivity|].
  split; [split; [lia|]; repeat constructor|]. split; [apply e_wt; exact Hk|]. split; [apply e_canonical|].
  destruct Hk as [-> | ->]; (split; [vm_compute; reflexivity|]); (split; [vm_compute; reflexivity|]); (split; [vm_compute; reflexivity|]).
  - exists [8; 7; 160; 6; 5; 170; 6; 2; 3; 4]. vm_compute. reflexivity.
  - exists [8; 7; 170; 6; 2; 3; 4; 160; 6; 5]. vm_compute. reflexivity.
Qed.

Example C48_parsed_case : let E := ext_env UPairs in let fl := [(101, [168; 6; 3]); (1, [8; 7]); (101, [170; 6; 1; 4])] in
  fields 100 fl /\ short_stored E 0 (bytes_of fl) /\ wt_defaults E any_utf8 /\
  decode_bytes E any_utf8 100 0 (default_msg E 0) (bytes_of fl) = Ok (VMsg [[VInt 7]] [(101, [168; 6; 3; 170; 6; 1; 4])]) /\
  ext_get E any_utf8 100 UPairs 2 [(101, [168; 6; 3; 170; 6; 1; 4])] (y_value []) = Ok (y_value [3; 4]).
Proof. cbv zeta. split; [apply fields_ok; vm_compute; reflexivity|]. split; [apply no_pad_short; vm_compute; reflexivity|]. split; [apply ext_defaults|]. split; vm_compute; reflexivity. Qed.
