(** Where the encoder writes: contiguous buffers, sinks that hand out chunks, and
    the gRPC byte buffer (include/hpp_proto/binpb/serialize.hpp,
    include/hpp_proto/grpc/serialization.hpp).

    The write operations are those of Encode.v.  A write outside the memory handed
    out is [UB].  When the encoder itself fails (a string that is not UTF-8, or too
    much nesting) the operations before the failure are not modelled: the caller
    gets the error and no result. *)
Require Import Verif.Bits Verif.Varint Verif.Schema Verif.Archive Verif.Decode Verif.Encode.
Local Open Scope nat_scope.

(** ** Contiguous output *)
(** serialize.hpp:60-108 contiguous_out: no bounds check. *)
Definition store (buf : bytes) (pos : nat) (b : bytes) : bytes := firstn pos buf ++ b ++ skipn (pos + length b) buf.
Fixpoint contiguous_run (buf : bytes) (pos : nat) (ws : list wop) : res bytes :=
  match ws with
  | [] => Ok buf
  | w :: t =>
      let b := wop_bytes w in
      if pos + length b <=? length buf then contiguous_run (store buf pos b) (pos + length b) t else UB
  end.

(** buffer.resize(n): drops the tail or appends elements; [fresh] is the content of
    the new elements. *)
Definition resize (fresh : nat -> Z) (buf : bytes) (n : nat) : bytes := firstn n buf ++ map fresh (seq (length buf) (n - length buf)).

Section Buffers.
  Context (E : env) (utf8_ok : bytes -> bool) (maxd : Z).

  (** serialize.hpp:537-603.  [Ok None]: std::errc::not_enough_memory (a buffer that
      cannot be resized is too small).  Sizes are below 2^31, so [old + msg_sz] does
      not overflow. *)
  Definition write_buffer (overwrite resizable : bool) (fresh : nat -> Z) (ty : nat) (v : val) (buf : bytes) : res (option bytes) :=
    match cnt_msg E maxd 0 ty v with
    | None => Err BadMessage
    | Some n =>
        let '(s, c) := sz_msg E ty v in
        if n <? length c then UB
        else if (max_message_size <=? s)%Z then Err TooLarge
        else
          let new_size := (if overwrite then 0 else length buf) + Z.to_nat s in
          if negb resizable && (length buf <? new_size) then Ok None
          else
            let buf := if resizable then resize fresh buf new_size else buf in
            '(ws, _) <- ser_msg E utf8_ok maxd 0 ty v (c ++ repeat 0%Z (n - length c)) ;;
            buf <- contiguous_run buf 0 ws ;; Ok (Some buf)
    end.
  (** binpb.hpp:128-131: write_binpb with a buffer. *)
  Definition write_binpb := write_buffer true.
  (** binpb.hpp:197-204: append_binpb. *)
  Definition append_binpb := write_buffer false true.
End Buffers.

(** ** Chunked output *)
(** A sink is described by the size of the chunk it returns on each call of
    next_chunk(); size 0 means that it has no more space. *)
Definition sink := nat -> nat.
(** serialize.hpp:119-198 chunked_out.  [c_out]: what was written into each chunk
    handed out so far, last chunk first; [c_rem]: chunk_remaining_.size(). *)
Record cstate := CState { c_calls : nat; c_out : list bytes; c_rem : nat }.
Definition c_init := CState 0 [] 0.
(** [chunk_remaining_.empty() ? sink_.next_chunk() : chunk_remaining_] *)
Definition fetch (k : sink) (s : cstate) : cstate :=
  if c_rem s =? 0 then CState (S (c_calls s)) ([] :: c_out s) (k (c_calls s)) else s.
(** Write [b] at the start of chunk_remaining_ and shorten it. *)
Definition put (b : bytes) (s : cstate) : res cstate :=
  if length b <=? c_rem s then
    match c_out s with cur :: older => Ok (CState (c_calls s) ((cur ++ b) :: older) (c_rem s - length b)) | [] => UB end
  else UB.
(** serialize.hpp:178-196 write_all *)
Fixpoint write_all (k : sink) (fuel : nat) (data : bytes) (s : cstate) : res (bool * cstate) :=
  match fuel with
  | O => NoFuel
  | S fuel =>
      match data with
      | [] => Ok (true, s)
      | _ =>
          let s := fetch k s in
          if length data <=? c_rem s then s <- put data s ;; Ok (true, s)
          else if c_rem s =? 0 then Ok (false, s)
          else
            let n := c_rem s in
            s <- put (firstn n data) s ;; write_all k fuel (skipn n data) s
      end
  end.
(** serialize.hpp:142-157 (varint), 133-139 and 159-169 (raw bytes). *)
Definition chunked_write (k : sink) (w : wop) (s : cstate) : res (bool * cstate) :=
  match w with
  | WVar t z =>
      let s := fetch k s in
      let b := pack_varint t z in
      if 10 <=? c_rem s then s <- put b s ;; Ok (true, s) else write_all k (S (length b)) b s
  | WRaw b => write_all k (S (length b)) b s
  end.
Fixpoint chunked_run (k : sink) (ws : list wop) (s : cstate) : res (bool * cstate) :=
  match ws with
  | [] => Ok (true, s)
  | w :: t => '(ok, s) <- chunked_write k w s ;; if ok then chunked_run k t s else Ok (false, s)
  end.

Inductive mode := Contiguous | Adaptive | Chunked.
Section Sinks.
  Context (E : env) (utf8_ok : bytes -> bool) (maxd : Z).
  (** serialize.hpp:615-635: what is written into the chunks, and whether writing
      succeeded.  A chunk handed out by a contiguous write keeps [old] bytes where
      nothing is written. *)
  Definition contiguous_sink (k : sink) (old : nat -> Z) (ws : list wop) : res (option (list bytes)) :=
    b <- contiguous_run (map old (seq 0 (k 0))) 0 ws ;; Ok (Some [b]).
  Definition chunked_sink (k : sink) (ws : list wop) : res (option (list bytes)) :=
    '(ok, s) <- chunked_run k ws c_init ;; Ok (if ok then Some (rev (c_out s)) else None).
  (** serialize.hpp:637-673.  [k] depends on the size passed to set_message_size().
      [Ok None]: the sink ran out of space (std::errc::bad_message). *)
  Definition write_sink (m : mode) (chunk_size : nat) (k : nat -> sink) (old : nat -> Z) (ty : nat) (v : val) : res (option (list bytes)) :=
    '(s, ws) <- plan E utf8_ok maxd ty v ;;
    let k := k (Z.to_nat s) in
    match m with
    | Contiguous => contiguous_sink k old ws
    | Adaptive => if (s <=? Z.of_nat chunk_size)%Z then contiguous_sink k old ws else chunked_sink k ws
    | Chunked => chunked_sink k ws
    end.

  (** ** gRPC byte buffers *)
  (** grpc/serialization.hpp:63-86 byte_buffer_sink: the sizes of the slices for a
      message of [size] bytes; remaining_total_ is [size] less what was handed out. *)
  Definition slice_sizes (chunk_size size : nat) : sink := fun i => Nat.min chunk_size (size - i * chunk_size).
  (** 98-114: the slices of the byte buffer; one slice in contiguous mode, whose
      chunk size is SIZE_MAX. *)
  Definition write_byte_buffer (m : mode) (default_chunk_size : nat) (old : nat -> Z) (ty : nat) (v : val) : res (option (list bytes)) :=
    '(s, ws) <- plan E utf8_ok maxd ty v ;;
    match m with
    | Contiguous => contiguous_sink (fun i => if i =? 0 then Z.to_nat s else 0) old ws
    | _ => write_sink m default_chunk_size (slice_sizes default_chunk_size) old ty v
    end.
End Sinks.
