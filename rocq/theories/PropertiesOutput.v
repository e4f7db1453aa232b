(** Where the encoded bytes go. *)
Require Import Verif.Bits Verif.Varint Verif.Schema Verif.Archive Verif.Decode Verif.Encode Verif.EncodeProofs Verif.RoundTrip Verif.WellTyped Verif.ExampleSchema Verif.ExampleMessage Verif.Output Verif.OutputSpec Verif.OutputProofs.
Local Open Scope nat_scope.

(** ** C11: chunked output is the contiguous output cut into chunks.
    For every sink, whatever the sizes of its chunks: nothing is written outside a
    chunk, and either the chunks hold exactly the encoding, filled in order, or the
    sink had no chunk left although space was missing. *)
Theorem C11_chunked E utf8_ok maxd : legal_numbers E -> forall ty v bs chunk_size k old,
  wt_msg E utf8_ok ty v -> encode_bytes E utf8_ok maxd ty v = Ok bs ->
  exists r, write_sink E utf8_ok maxd Chunked chunk_size k old ty v = Ok r /\
    match r with
    | Some chunks => filled (k (length bs)) bs chunks
    | None => exists n, k (length bs) n = 0 /\ space (k (length bs)) n < length bs
    end.
Proof. exact (fun H ty v bs cs k old => sink_chunked E utf8_ok maxd H ty v bs cs k old). Qed.
Print Assumptions C11_chunked.

(** If the sink stays out of space once it is, writing fails exactly when the
    chunks before that cannot hold the encoding. *)
Theorem C11_chunked_fails E utf8_ok maxd : legal_numbers E -> forall ty v bs chunk_size k old,
  wt_msg E utf8_ok ty v -> encode_bytes E utf8_ok maxd ty v = Ok bs -> stays_empty (k (length bs)) ->
  write_sink E utf8_ok maxd Chunked chunk_size k old ty v = Ok None <-> exists n, k (length bs) n = 0 /\ space (k (length bs)) n < length bs.
Proof. exact (fun H ty v bs cs k old => sink_chunked_fails E utf8_ok maxd H ty v bs cs k old). Qed.
Print Assumptions C11_chunked_fails.

(** The adaptive mode is one of the other two. *)
Theorem C11_adaptive E utf8_ok maxd : legal_numbers E -> forall ty v bs chunk_size k old,
  wt_msg E utf8_ok ty v -> encode_bytes E utf8_ok maxd ty v = Ok bs ->
  write_sink E utf8_ok maxd Adaptive chunk_size k old ty v =
  write_sink E utf8_ok maxd (if length bs <=? chunk_size then Contiguous else Chunked) chunk_size k old ty v.
Proof. exact (fun H ty v bs cs k old => sink_adaptive_size E utf8_ok maxd H ty v bs cs k old). Qed.
Print Assumptions C11_adaptive.

(** The contiguous mode relies on the first chunk being large enough. *)
Theorem C11_contiguous E utf8_ok maxd : legal_numbers E -> forall ty v bs chunk_size k old,
  wt_msg E utf8_ok ty v -> encode_bytes E utf8_ok maxd ty v = Ok bs ->
  write_sink E utf8_ok maxd Contiguous chunk_size k old ty v =
    if length bs <=? k (length bs) 0 then Ok (Some [bs ++ map old (seq (length bs) (k (length bs) 0 - length bs))]) else UB.
Proof. exact (fun H ty v bs cs k old => sink_contiguous E utf8_ok maxd H ty v bs cs k old). Qed.
Print Assumptions C11_contiguous.

(** A buffer that can be resized holds exactly the encoding afterwards, ... *)
Theorem C11_buffer E utf8_ok maxd : legal_numbers E -> forall fresh ty v bs buf,
  wt_msg E utf8_ok ty v -> encode_bytes E utf8_ok maxd ty v = Ok bs ->
  write_binpb E utf8_ok maxd true fresh ty v buf = Ok (Some bs).
Proof. exact (fun H f ty v bs buf => write_resizable E utf8_ok maxd H f ty v bs buf). Qed.
Print Assumptions C11_buffer.
(** ... one of fixed size is refused if too small and else keeps the bytes behind. *)
Theorem C11_fixed_buffer E utf8_ok maxd : legal_numbers E -> forall fresh ty v bs buf,
  wt_msg E utf8_ok ty v -> encode_bytes E utf8_ok maxd ty v = Ok bs ->
  write_binpb E utf8_ok maxd false fresh ty v buf = Ok (if length buf <? length bs then None else Some (bs ++ skipn (length bs) buf)).
Proof. exact (fun H f ty v bs buf => write_fixed E utf8_ok maxd H f ty v bs buf). Qed.
Print Assumptions C11_fixed_buffer.

(** The 44 bytes of the example message in chunks of 7, 3, 1, 7, 3, 1, ... bytes,
    and in too small a sink. *)
Local Lemma ex_legal : legal_numbers (ex_env UBytes).
Proof. apply generated_legal, ex_generated. discriminate. Qed.
Definition ex_sink : sink := fun i => nth (i mod 3) [7; 3; 1] 0.
Example C11_case : legal_numbers (ex_env UBytes) /\ wt_msg (ex_env UBytes) any_utf8 0 ex_value /\ encode_bytes (ex_env UBytes) any_utf8 100 0 ex_value = Ok ex_written /\
  (exists chunks, write_sink (ex_env UBytes) any_utf8 100 Chunked 0 (fun _ => ex_sink) (fun _ => 0%Z) 0 ex_value = Ok (Some chunks) /\ length chunks = 12 /\ concat chunks = ex_written) /\
  write_sink (ex_env UBytes) any_utf8 100 Chunked 0 (fun _ i => if i <? 5 then 8 else 0) (fun _ => 0%Z) 0 ex_value = Ok None.
Proof.
  split; [exact ex_legal|]. split; [exact ex_wt|]. split; [exact ex_encoded|]. split; [|vm_compute; reflexivity]. eexists. split; [vm_compute; reflexivity|]. split; vm_compute; reflexivity.
Qed.

(** In contiguous mode a sink that hands out smaller chunks is overrun. *)
Theorem C11_contiguous_overrun_refuted : exists E ty v k, wt_msg E any_utf8 ty v /\ (forall n i, 0 < k n i) /\
  write_sink E any_utf8 100 Contiguous 8 k (fun _ => 0%Z) ty v = UB.
Proof. exists (ex_env UBytes), 0, ex_value, (fun _ _ => 8). split; [exact ex_wt|]. split; [intros; lia|vm_compute; reflexivity]. Qed.
Print Assumptions C11_contiguous_overrun_refuted.

(** ** C13: appending
    The encoding is written over the beginning of the buffer; the end is what was
    there before followed by the fresh elements. *)
Theorem C13_append_overwrites E utf8_ok maxd : legal_numbers E -> forall fresh ty v bs old,
  wt_msg E utf8_ok ty v -> encode_bytes E utf8_ok maxd ty v = Ok bs ->
  append_binpb E utf8_ok maxd fresh ty v old = Ok (Some (bs ++ skipn (length bs) (old ++ map fresh (seq (length old) (length bs))))).
Proof. exact (fun H f ty v bs old => append_does E utf8_ok maxd H f ty v bs old). Qed.
Print Assumptions C13_append_overwrites.

(** The claim is false: appending the example message to three bytes loses them. *)
Theorem C13_append_refuted : exists E ty v bs old buf, encode_bytes E any_utf8 100 ty v = Ok bs /\
  append_binpb E any_utf8 100 (fun _ => 0%Z) ty v old = Ok (Some buf) /\ firstn (length old) buf <> old /\ buf <> old ++ bs.
Proof.
  exists (ex_env UBytes), 0, ex_value, ex_written, [1; 2; 3]%Z. eexists. split; [exact ex_encoded|]. split; [vm_compute; reflexivity|]. split; vm_compute; discriminate.
Qed.
Print Assumptions C13_append_refuted.

(** ** C58: gRPC byte buffers
    In every mode, and for every chunk size, the slices put together are the
    encoding: no slice is larger than what was written into it. *)
Theorem C58_byte_buffer E utf8_ok maxd : legal_numbers E -> forall m chunk_size old ty v bs, 0 < chunk_size ->
  wt_msg E utf8_ok ty v -> encode_bytes E utf8_ok maxd ty v = Ok bs ->
  exists slices, write_byte_buffer E utf8_ok maxd m chunk_size old ty v = Ok (Some slices) /\ concat slices = bs.
Proof. exact (fun H m c old ty v bs => byte_buffer E utf8_ok maxd H m c old ty v bs). Qed.
Print Assumptions C58_byte_buffer.
Example C58_case : write_byte_buffer (ex_env UBytes) any_utf8 100 Chunked 20 (fun _ => 0%Z) 0 ex_value =
  Ok (Some [firstn 20 ex_written; firstn 20 (skipn 20 ex_written); skipn 40 ex_written]).
Proof. vm_compute. reflexivity. Qed.
