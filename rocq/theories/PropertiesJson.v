(** Properties C41 to C45: the text forms used in JSON. *)
Require Import Verif.Bits Verif.TextNum Verif.Base64 Verif.Base64Proofs Verif.Duration Verif.DurationProofs
  Verif.Calendar Verif.CalendarProofs Verif.Timestamp Verif.TimestampProofs Verif.FieldMask Verif.FieldMaskProofs.
Open Scope Z_scope.

(** ** C41: base64 round trip
    On little-endian and big-endian hosts alike the encoder reads only the
    source, writes the RFC 4648 text, as many characters as
    [max_encode_size] reserves (4*ceil(n/3)), and the decoder recovers the bytes. *)
Theorem C41_base64_encode : forall le s, all_bytes s ->
  b64_encode le s = Some (b64_text s) /\
  zlen (b64_text s) = 4 * ((zlen s + 2) / 3) /\
  b64_max_encode_size (zlen s) = zlen (b64_text s) /\
  exists cs k, b64_text s = cs ++ repeat 61 k /\ Forall is_b64_char cs /\ Z.of_nat k = (- zlen s) mod 3.
Proof.
  exact (fun le s H => conj (b64_encode_spec le s H) (conj (b64_text_length s)
    (conj (eq_trans (b64_max_encode_size_spec (zlen s) (Zle_0_nat (length s))) (eq_sym (b64_text_length s)))
      (b64_text_chars s H)))).
Qed.
Print Assumptions C41_base64_encode.

Theorem C41_base64_round_trip : forall le s t, all_bytes s ->
  b64_encode le s = Some t -> b64_decode t = Some s.
Proof.
  exact (fun le s t H E => eq_ind (b64_text s) (fun u => b64_decode u = Some s) (b64_decode_text s H) t
    (f_equal (fun o => match o with Some u => u | None => [] end) (eq_trans (eq_sym (b64_encode_spec le s H)) E))).
Qed.
Print Assumptions C41_base64_round_trip.

(** "Man" encodes to "TWFu" and 25 bytes go through the unrolled loop. *)
Example C41_case : b64_encode true [77; 97; 110] = Some [84; 87; 70; 117] /\
  (exists t, b64_encode false (map Z.of_nat (seq 230 25)) = Some t /\ zlen t = 36 /\ b64_decode t = Some (map Z.of_nat (seq 230 25))).
Proof. split; [reflexivity|]. eexists. repeat split; vm_compute; reflexivity. Qed.

(** ** C42: what base64 decoding accepts
    Exactly the texts made of whole quartets in which every character before the
    last quartet is in the alphabet and the last quartet is in the alphabet or
    ends in [=]. *)
Theorem C42_base64_accepts : forall s, all_bytes s ->
  (exists bs, b64_decode s = Some bs) <-> b64_accepted s.
Proof. exact b64_decode_accepts. Qed.
Print Assumptions C42_base64_accepts.

(** A text without padding decodes to the bytes it encodes. *)
Theorem C42_base64_unpadded : forall s, zlen s mod 4 = 0 -> Forall is_b64_char s ->
  exists bs, all_bytes bs /\ b64_text bs = s /\ b64_decode s = Some bs.
Proof.
  exact (fun s H F => match b64_full_text s H F with
    ex_intro _ bs (conj B T) => ex_intro _ bs (conj B (conj T (eq_ind (b64_text bs) (fun u => b64_decode u = Some bs) (b64_decode_text bs B) s T))) end).
Qed.
Print Assumptions C42_base64_unpadded.

(** The output has three bytes per quartet less one per padding character. *)
Theorem C42_base64_length : forall s bs, all_bytes s -> s <> [] ->
  b64_decode s = Some bs -> zlen bs = b64_len s.
Proof. exact b64_decode_length. Qed.
Print Assumptions C42_base64_length.

(** The claim that only alphabet characters are accepted before the padding is
    false: "!!!=" and "====" are accepted. *)
Theorem C42_invalid_characters_refuted :
  exists s bs, all_bytes s /\ ~ Forall (fun c => is_b64_char c \/ c = 61) s /\ b64_decode s = Some bs.
Proof.
  exists [33; 33; 33; 61]; eexists; split; [repeat constructor; discriminate|].
  split; [intros H; inversion H as [|? ? K _]; unfold is_b64_char in K; lia | vm_compute; reflexivity].
Qed.
Print Assumptions C42_invalid_characters_refuted.

Theorem C42_all_padding_refuted : exists bs, b64_decode [61; 61; 61; 61] = Some bs.
Proof. eexists; vm_compute; reflexivity. Qed.
Print Assumptions C42_all_padding_refuted.

(** Left-over bits are not ignored either: "AP==" is decoded to 0x01 although
    its first eight bits are zero. *)
Theorem C42_padding_bits_refuted :
  exists a b, 0 <= a < 64 /\ 0 <= b < 64 /\
    b64_decode [sextet_char a; sextet_char b; 61; 61] <> Some [a * 4 + b / 16].
Proof. exists 0, 15. repeat split; try lia. vm_compute. discriminate. Qed.
Print Assumptions C42_padding_bits_refuted.

Example C42_case : b64_decode [84; 87; 70; 61] = Some [77; 97] /\ b64_decode [84; 87; 61; 70] = None /\
  b64_decode [84; 87; 61; 61; 84; 87; 70; 117] = None /\ b64_decode [84; 87; 70] = None.
Proof. repeat split; reflexivity. Qed.

(** ** C43: Duration text *)

(** Formatting succeeds exactly on valid values. *)
Theorem C43_format_domain : forall s n, duration_encode s n <> None <-> valid_duration s n.
Proof.
  exact (fun s n => match duration_encode_cases s n with
    | or_introl (conj V N) => conj (fun _ => V) (fun _ => N)
    | or_intror (conj V N) => conj (fun K => False_ind _ (K N)) (fun K => False_ind _ (V K)) end).
Qed.
Print Assumptions C43_format_domain.

(** The text is a Duration text denoting the value; it fits the reserved buffer. *)
Theorem C43_format : forall s n t, duration_encode s n = Some t ->
  duration_text t s n /\ zlen t <= duration_max_encode_size.
Proof.
  exact (fun s n t H => conj (duration_encode_text s n t H) (duration_encode_fits s n t H)).
Qed.
Print Assumptions C43_format.

Theorem C43_round_trip : forall s n t, duration_encode s n = Some t -> duration_decode t = Some (s, n).
Proof. exact duration_roundtrip. Qed.
Print Assumptions C43_round_trip.

(** The parser accepts exactly the Duration texts whose seconds are in range and
    returns what they denote, which is a valid value. *)
Theorem C43_parse : forall t s n,
  duration_decode t = Some (s, n) <-> duration_text t s n /\ -315576000000 <= s <= 315576000000.
Proof. exact duration_decode_spec. Qed.
Print Assumptions C43_parse.

Theorem C43_parse_valid : forall t s n, duration_decode t = Some (s, n) -> valid_duration s n.
Proof. exact (fun t s n H => let K := proj1 (duration_decode_spec t s n) H in duration_text_valid t s n (proj1 K) (proj2 K)). Qed.
Print Assumptions C43_parse_valid.

(** -1.5s *)
Example C43_case : duration_encode (-1) (-500000000) = Some [45; 49; 46; 53; 48; 48; 115] /\
  duration_decode [45; 49; 46; 53; 115] = Some (-1, -500000000) /\
  duration_encode 1 (-1) = None /\ valid_duration (-1) (-500000000) /\
  duration_decode [51; 49; 53; 53; 55; 54; 48; 48; 48; 48; 48; 49; 115] = None.
Proof. unfold valid_duration. repeat split; try reflexivity; lia. Qed.

(** ** C44: Timestamp text *)

(** The calendar: day 0 is 1970-01-01, each day is followed by the next one,
    and numbers and dates correspond one to one. *)
Theorem C44_calendar :
  civil_from_days 0 = (1970, 1, 1) /\
  (forall z, civil_from_days (z + 1) = next_date (civil_from_days z)) /\
  (forall z, valid_date (civil_from_days z) /\ days_from_civil (civil_from_days z) = z) /\
  (forall dt, valid_date dt -> civil_from_days (days_from_civil dt) = dt).
Proof. exact (conj eq_refl (conj civil_next (conj (fun z => conj (civil_valid z) (days_civil z)) civil_days))). Qed.
Print Assumptions C44_calendar.

(** Formatting succeeds exactly for the years 0001 to 9999. *)
Theorem C44_format_domain : forall s n, timestamp_encode s n <> None <-> valid_timestamp s n.
Proof.
  exact (fun s n => match timestamp_encode_cases s n with
    | or_introl (conj V N) => conj (fun _ => V) (fun _ => N)
    | or_intror (conj V N) => conj (fun K => False_ind _ (K N)) (fun K => False_ind _ (V K)) end).
Qed.
Print Assumptions C44_format_domain.

(** The text is RFC 3339, denotes the instant and fits the reserved buffer. *)
Theorem C44_format : forall s n t, timestamp_encode s n = Some t ->
  timestamp_text t s n /\ strict_text t /\ zlen t <= timestamp_max_encode_size.
Proof.
  exact (fun s n t H => conj (timestamp_encode_text s n t H) (conj (proj1 (timestamp_encode_strict s n t H)) (timestamp_encode_fits s n t H))).
Qed.
Print Assumptions C44_format.

Theorem C44_round_trip : forall s n t, timestamp_encode s n = Some t -> timestamp_decode t = Some (s, n).
Proof. exact timestamp_roundtrip. Qed.
Print Assumptions C44_round_trip.

(** The parser accepts exactly these texts and returns the instant they denote,
    always within the years 0001 to 9999. *)
Theorem C44_parse : forall t s n, timestamp_decode t = Some (s, n) <-> timestamp_text t s n.
Proof. exact timestamp_decode_spec. Qed.
Print Assumptions C44_parse.

Theorem C44_parse_valid : forall t s n, timestamp_decode t = Some (s, n) -> valid_timestamp s n.
Proof. exact (fun t s n H => timestamp_text_valid t s n (proj1 (timestamp_decode_spec t s n) H)). Qed.
Print Assumptions C44_parse_valid.

(** The claim that only RFC 3339 texts are accepted is false:
    "2024-02-29T-0:00:00.-0Z" is accepted. *)
Theorem C44_strict_refuted : exists t s n, timestamp_decode t = Some (s, n) /\ ~ strict_text t.
Proof.
  exists [50; 48; 50; 52; 45; 48; 50; 45; 50; 57; 84; 45; 48; 58; 48; 48; 58; 48; 48; 46; 45; 48; 90], 1709164800, 0.
  split; [vm_compute; reflexivity|].
  intros (yy & mm & dd & hh & mn & ss & fs & E & D & L1 & L2 & L3 & L4 & _).
  assert (N : nth 11 (layout yy mm dd hh mn ss (match fs with [] => [] | _ => 46 :: fs end)) 0 = nth 0 hh 0).
  { unfold layout, zlen in *.
    destruct yy as [|? [|? [|? [|? [|? ?]]]]]; cbn [length] in L1; try lia.
    destruct mm as [|? [|? [|? ?]]]; cbn [length] in L2; try lia.
    destruct dd as [|? [|? [|? ?]]]; cbn [length] in L3; try lia.
    destruct hh as [|? [|? [|? ?]]]; cbn [length] in L4; try lia. reflexivity. }
  rewrite <- E in N. cbn [nth] in N. rewrite !Forall_app in D. destruct D as (_ & _ & _ & D & _).
  unfold zlen in *. destruct hh as [|h0 hh]; cbn [length] in L4; [lia|]. inversion D as [|? ? K _]; subst. unfold is_digit in K. cbn [nth] in N. lia.
Qed.
Print Assumptions C44_strict_refuted.

(** 2024-02-29T23:59:59.000001Z; 2023-02-29 does not exist. *)
Example C44_case :
  timestamp_encode 1709251199 1000 =
    Some [50; 48; 50; 52; 45; 48; 50; 45; 50; 57; 84; 50; 51; 58; 53; 57; 58; 53; 57; 46; 48; 48; 48; 48; 48; 49; 90] /\
  timestamp_decode [50; 48; 50; 51; 45; 48; 50; 45; 50; 57; 84; 50; 51; 58; 53; 57; 58; 53; 57; 90] = None /\
  timestamp_encode (-62135596801) 0 = None /\ timestamp_encode 253402300799 999999999 <> None.
Proof. repeat split; try reflexivity. vm_compute. discriminate. Qed.

(** ** C45: FieldMask text *)

(** The text written is a JSON string body that denotes the paths joined by
    commas and fits the reserved buffer. *)
Theorem C45_format : forall paths, Forall all_bytes paths ->
  json_unescape (mask_encode paths) = Some (join paths) /\ zlen (mask_encode paths) <= mask_max_encode_size paths.
Proof. exact (fun paths H => conj (mask_encode_unescape paths H) (mask_encode_len paths)). Qed.
Print Assumptions C45_format.

(** A mask survives the round trip exactly when no path contains a comma and it
    is not the mask with a single empty path. *)
Theorem C45_round_trip : forall paths, Forall all_bytes paths ->
  (exists s, json_unescape (mask_encode paths) = Some s /\ mask_decode s = paths) <->
  Forall (fun p => ~ In 44 p) paths /\ paths <> [[]].
Proof.
  exact mask_roundtrip.
Qed.
Print Assumptions C45_round_trip.

(** Parsing loses nothing: joining the paths gives the text back. *)
Theorem C45_parse : forall s, join (mask_decode s) = s /\ Forall (fun p => ~ In 44 p) (mask_decode s).
Proof. exact (fun s => conj (proj1 (mask_decode_inv s)) (proj1 (proj2 (mask_decode_inv s)))). Qed.
Print Assumptions C45_parse.

(** Paths "a.b" and "c", and one with a quote and a control character. *)
Example C45_case : mask_encode [[97; 46; 98]; [34; 1]] = [97; 46; 98; 44; 92; 34; 92; 117; 48; 48; 48; 49] /\
  mask_decode [97; 46; 98; 44; 34; 1] = [[97; 46; 98]; [34; 1]] /\ mask_decode (join [[]]) = [].
Proof. repeat split; reflexivity. Qed.
