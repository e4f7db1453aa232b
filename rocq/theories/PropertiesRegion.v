(** C16, C17, C18, C19, C20: what memory reading touches, and that segments and
    padding do not matter.

    [read_contiguous], [read_segments] and [read_padded] are read_binpb on a buffer,
    on a sequence of segments and on a buffer followed by padding bytes.  They read
    memory only through the regions of the archive; reading past the memory of a
    region is the outcome [UB].  [table segs] are those regions, [patch_written segs]
    is everything put into the patch buffer.  [decode_bytes] is the reference decoder
    all other properties of decoding are about.  [big]: the byte counting path for
    long inputs; [path]: how packed elements are copied. *)
Require Import Verif.Bits Verif.Varint Verif.Schema Verif.Archive Verif.Decode Verif.DecodeSafe Verif.DecodeSpec1.
Require Import Verif.SimMain Verif.Region Verif.RegionMain Verif.RegionProps Verif.ExampleSchema Verif.ExampleMessage Verif.ExampleRegion.

(** ** C16: a contiguous buffer *)

(** Reading ends with a message or an error, never in [UB]. *)
Theorem C16_in_bounds : forall big path E utf8_ok maxd ty cur bs,
  safe_env E -> m_entry (desc_of E ty) = false -> all_bytes bs -> zlen bs < 2 ^ 62 ->
  (exists v, read_contiguous big path E utf8_ok maxd ty cur bs = Ok v) \/ (exists e, read_contiguous big path E utf8_ok maxd ty cur bs = Err e).
Proof. exact contiguous_in_bounds. Qed.
Print Assumptions C16_in_bounds.

(** The memory of each region is the caller's buffer or part of the patch buffer,
    of which no more than the 32 bytes it has are used. *)
Theorem C16_memory : forall bs r, In r (table [bs]) ->
  r_mem r = bs \/ exists x y, patch_written [bs] = x ++ r_mem r ++ y.
Proof. exact contiguous_memory. Qed.
Print Assumptions C16_memory.
Theorem C16_patch_size : forall bs, (length (patch_written [bs]) <= 32)%nat.
Proof. exact contiguous_patch. Qed.
Print Assumptions C16_patch_size.

(** It gives what the reference decoder gives. *)
Theorem C16_reference : forall big path E utf8_ok maxd ty cur bs,
  safe_env E -> m_entry (desc_of E ty) = false -> all_bytes bs -> zlen bs < 2 ^ 62 ->
  read_contiguous big path E utf8_ok maxd ty cur bs = decode_bytes E utf8_ok maxd ty cur bs.
Proof. intros. apply read_contiguous_eq; assumption. Qed.
Print Assumptions C16_reference.

Example C16_hyps : safe_env (ex_env UBytes) /\ m_entry (desc_of (ex_env UBytes) 0) = false /\ all_bytes ex_bytes /\ zlen ex_bytes < 2 ^ 62.
Proof. split; [apply ex_safe; discriminate|]. split; [reflexivity|]. split; [exact ex_bytes_ok|reflexivity]. Qed.
Example C16_case : read_contiguous false CopyRaw (ex_env UBytes) any_utf8 100 0 (default_msg (ex_env UBytes) 0) ex_bytes = Ok ex_value /\
  length (table [ex_bytes]) = 2%nat.
Proof. split; vm_compute; reflexivity. Qed.

(** ** C17: segments *)
Theorem C17_in_bounds : forall big path E utf8_ok maxd ty cur segs,
  safe_env E -> m_entry (desc_of E ty) = false -> all_bytes (concat segs) -> zlen (concat segs) < 2 ^ 62 ->
  (exists v, read_segments big path E utf8_ok maxd ty cur segs = Ok v) \/ (exists e, read_segments big path E utf8_ok maxd ty cur segs = Err e).
Proof. exact segments_in_bounds. Qed.
Print Assumptions C17_in_bounds.

Theorem C17_memory : forall segs r, In r (table segs) ->
  In (r_mem r) segs \/ exists x y, patch_written segs = x ++ r_mem r ++ y.
Proof. exact table_memory. Qed.
Print Assumptions C17_memory.

(** Neither the patch buffer of 32 bytes a segment nor the table of two regions a
    segment overflows. *)
Theorem C17_fits : forall segs, (length (patch_written segs) <= 32 * length segs)%nat /\ (length (table segs) <= 2 * length segs)%nat.
Proof. exact table_fits. Qed.
Print Assumptions C17_fits.

Example C17_case : all_bytes (concat ex_segs) /\ length (table ex_segs) = 5%nat /\ length (patch_written ex_segs) = 83%nat.
Proof. split; [rewrite ex_segs_all; exact ex_bytes_ok|]. split; reflexivity. Qed.

(** ** C18: padding *)

(** With sixteen bytes of padding reading stays in bounds, when no string view field
    is validated. *)
Theorem C18_in_bounds : forall big path E utf8_ok maxd ty cur bs pad,
  safe_env E -> env_plain (rops true true big path) E ->
  m_entry (desc_of E ty) = false -> all_bytes bs -> all_bytes pad -> (16 <= length pad)%nat -> zlen bs < 2 ^ 62 ->
  (exists v, read_padded big path E utf8_ok maxd ty cur bs pad = Ok v) \/ (exists e, read_padded big path E utf8_ok maxd ty cur bs pad = Err e).
Proof. exact padded_in_bounds. Qed.
Print Assumptions C18_in_bounds.

(** A validated string view with a length past the padding is validated, so read,
    before its length is checked. *)
Theorem C18_view_refuted : exists E bs pad, safe_env E /\ all_bytes bs /\ all_bytes pad /\ (16 <= length pad)%nat /\
  read_padded false CopyRaw E any_utf8 100 0 (default_msg E 0) bs pad = UB.
Proof. exact view_out_of_bounds. Qed.
Print Assumptions C18_view_refuted.

Example C18_hyps : env_plain (rops true true false CopyRaw) (view_env false) /\ env_plain (rops true true false CopyRaw) (ex_env UBytes).
Proof. split; [apply view_plain|apply ex_plain]. Qed.
Example C18_case :
  read_padded false CopyRaw (view_env false) any_utf8 100 0 (default_msg (view_env false) 0) [10; 2; 104; 105] zeros = Ok (VMsg [[VBytes [104; 105]]] []) /\
  read_padded false CopyRaw (view_env false) any_utf8 100 0 (default_msg (view_env false) 0) [10; 100; 104; 105] zeros = Err BadMessage.
Proof. split; vm_compute; reflexivity. Qed.

(** ** C19: segments do not matter *)

(** The segments are accepted exactly when their concatenation is, with the same message. *)
Theorem C19_segments : forall big path E utf8_ok maxd ty cur segs,
  safe_env E -> m_entry (desc_of E ty) = false -> all_bytes (concat segs) -> zlen (concat segs) < 2 ^ 62 ->
  forall v, read_segments big path E utf8_ok maxd ty cur segs = Ok v <-> read_contiguous big path E utf8_ok maxd ty cur (concat segs) = Ok v.
Proof. exact segments_same. Qed.
Print Assumptions C19_segments.

(** Two ways to cut the same bytes. *)
Theorem C19_cuts : forall big path E utf8_ok maxd ty cur segs segs',
  safe_env E -> m_entry (desc_of E ty) = false -> all_bytes (concat segs) -> zlen (concat segs) < 2 ^ 62 -> concat segs = concat segs' ->
  forall v, read_segments big path E utf8_ok maxd ty cur segs = Ok v <-> read_segments big path E utf8_ok maxd ty cur segs' = Ok v.
Proof. exact cuts_same. Qed.
Print Assumptions C19_cuts.

(** When both are refused the error can differ. *)
Theorem C19_status_refuted : exists E segs, safe_env E /\ all_bytes (concat segs) /\
  read_segments false CopyRaw E any_utf8 1 0 (default_msg E 0) segs = Err TooLarge /\
  read_contiguous false CopyRaw E any_utf8 1 0 (default_msg E 0) (concat segs) = Err BadMessage.
Proof. exact status_differs. Qed.
Print Assumptions C19_status_refuted.

Example C19_case : read_segments false CopyRaw (ex_env UBytes) any_utf8 100 0 (default_msg (ex_env UBytes) 0) ex_segs = Ok ex_value /\ concat ex_segs = ex_bytes.
Proof. split; vm_compute; reflexivity. Qed.

(** ** C20: padding does not matter *)
Theorem C20_padding : forall big path E utf8_ok maxd ty cur bs pad,
  safe_env E -> env_plain (rops true true big path) E ->
  m_entry (desc_of E ty) = false -> all_bytes bs -> all_bytes pad -> (16 <= length pad)%nat -> zlen bs < 2 ^ 62 ->
  read_padded big path E utf8_ok maxd ty cur bs pad = read_contiguous big path E utf8_ok maxd ty cur bs.
Proof. exact padded_same. Qed.
Print Assumptions C20_padding.

Example C20_case : read_padded false CopyRaw (ex_env UBytes) any_utf8 100 0 (default_msg (ex_env UBytes) 0) ex_bytes (repeat 255 16) = Ok ex_value.
Proof. vm_compute. reflexivity. Qed.
