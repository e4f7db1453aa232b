(** Streams in the client: model of ClientCallbackReactor, include/hpp_proto/grpc/client.hpp:138-256,
    and Stub::async_call, 119-130.  What the application does and what the library does is
    any sequence of steps.  Write options but for the last message are not looked at, nor is
    metadata. *)
Require Import Verif.Bits Verif.Varint Verif.Schema Verif.Archive Verif.Decode Verif.Encode Verif.Output Verif.Region Verif.RegionMain Verif.Grpc.
Local Open Scope Z_scope.

(** request_ and response_ of the object; whether the library has bound it to a call *)
Record client := Client { c_bound : bool; c_request : buffer; c_response : buffer }.
(** What the library is asked for: StartCall, StartRead with &response_, StartWrite with
    &request_ (as the last message or not), StartWritesDone, AddHold, RemoveHold *)
Inductive cop := PStart | PRead | PWrite (last : bool) | PWritesDone | PHold (n : Z) | PRelease.
(** What happens.  The application: start_call, start_read, write or write_last, write_done,
    add_multiple_holds, remove_hold, get_response into a message.  The library: it reads the buffer
    it was given for a request, reports OnWriteDone, sets the buffer it was given for a response,
    reports OnReadDone, OnWritesDoneDone, OnDone. *)
Inductive cstep :=
| CStart | CRead | CWrite (v : val) (last : bool) | CWritesDone | CHold (n : Z) | CRelease | CGet (cur : val)
| LTake | LWritten (ok : bool) | LPut (b : buffer) | LRead (ok : bool) | LWritesDone (ok : bool) | LDone (s : gstatus).
(** Steps and what follows from them: a call of the library, what write of a message returns, what
    get_response returns and the message, what the library reads, a call of OnDone by
    prepare *)
Inductive citem := Did (s : cstep) | Asks (o : cop) | Returns (v : val) (last : bool) (s : gstatus) | Gets (g : gstatus * option val) | Takes (b : buffer) | Ends (s : gstatus).

Section Client.
  Context (E : env) (utf8_ok : bytes -> bool) (maxd limit : Z) (m : mode) (chunk : nat) (old : nat -> Z) (big : bool) (path : copy_path) (qt rt : nat).
  Notation wr := (write_message E utf8_ok maxd m chunk old qt).
  Notation rd := (read_message E utf8_ok limit big path rt).

  (** prepare, 162-167 and 182-187: where the client has a stream of requests *)
  Definition c_open (c : client) : list citem * client := ([], Client true (c_request c) (c_response c)).
  (** prepare, 169-180: where it has one request *)
  Definition c_open_with (v : val) (c : client) : res (list citem * client) :=
    '(s, b) <- wr v (c_request c) ;;
    if is_ok s then Ok ([], Client true b (c_response c)) else Ok ([Ends s], Client (c_bound c) b (c_response c)).

  (** The functions of the library need a call that was created. *)
  Definition c_ask (o : cop) (c : client) : res (list citem * client) := if c_bound c then Ok ([Asks o], c) else UB.
  (** start_call 189; start_read 190-194; write 196-214; write_last 216-223; write_done
      225-229; holds 231-241; get_response 243-253 *)
  Definition c_step (s : cstep) (c : client) : res (list citem * client) :=
    match s with
    | CStart => c_ask PStart c
    | CRead => c_ask PRead c
    | CWrite v last =>
        '(st, b) <- wr v (c_request c) ;;
        let c := Client (c_bound c) b (c_response c) in
        if is_ok st then '(l, c) <- c_ask (PWrite last) c ;; Ok (l ++ [Returns v last st], c) else Ok ([Returns v last st], c)
    | CWritesDone => c_ask PWritesDone c
    | CHold n => c_ask (PHold n) c
    | CRelease => c_ask PRelease c
    | CGet cur => g <- rd cur (c_response c) ;; Ok ([Gets g], c)
    | LTake => Ok ([Takes (c_request c)], c)
    | LPut b => Ok ([], Client (c_bound c) (c_request c) b)
    | _ => Ok ([], c)
    end.
  Fixpoint c_steps (l : list cstep) (c : client) : res (list citem * client) :=
    match l with
    | [] => Ok ([], c)
    | s :: t => '(x, c) <- c_step s c ;; '(y, c) <- c_steps t c ;; Ok (Did s :: x ++ y, c)
    end.
  (** async_call and what follows *)
  Definition new_client : client := Client false NoBuffer NoBuffer.
  Definition client_stream (l : list cstep) : res (list citem) :=
    let '(x, c) := c_open new_client in '(y, _) <- c_steps l c ;; Ok (x ++ y).
  Definition client_stream_of (v : val) (l : list cstep) : res (list citem) :=
    '(x, c) <- c_open_with v new_client ;; '(y, _) <- c_steps l c ;; Ok (x ++ y).
End Client.
