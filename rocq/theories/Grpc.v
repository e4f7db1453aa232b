(** Calls over gRPC: model of include/hpp_proto/grpc/serialization.hpp:99-203,
    the unary client of include/hpp_proto/grpc/client.hpp and the server reactors of
    include/hpp_proto/grpc/server.hpp.  The gRPC library is not modelled: what it hands
    to the code here is arbitrary, what the code asks of it is recorded.  Metadata, write
    options and the messages of statuses the application makes are not looked at. *)
From Coq Require Import Ascii String.
Require Import Verif.Bits Verif.Varint Verif.CppText Verif.Schema Verif.Archive Verif.Decode Verif.Encode Verif.Output Verif.Region Verif.RegionMain.
Local Open Scope string_scope.
Local Open Scope list_scope.
Local Open Scope Z_scope.

(** ** Statuses and byte buffers *)
(** grpc::Status: code and message *)
Definition gstatus : Type := (Z * bytes)%type.
Definition s_ok : gstatus := (0, []).
Definition s_cancelled : gstatus := (1, []).
Definition is_ok (s : gstatus) : bool := fst s =? 0.
(** serialization.hpp:113, 189, 194; server.hpp:280 *)
Definition s_unwritten : gstatus := (13, txt "Failed to serialize message").
Definition s_compressed : gstatus := (3, txt "Unsupported ByteBuffer compression").
Definition s_unread : gstatus := (13, txt "Failed to deserialize message").
Definition s_write_failed : gstatus := (2, txt "write failed").

(** grpc::ByteBuffer: without content, with slices, or with content that
    grpc_byte_buffer_reader_init cannot read. *)
Inductive buffer := NoBuffer | Slices (l : list bytes) | Unreadable.

Section Messages.
  (** Options of the contexts: limits of nesting when writing and reading, mode of
      writing; [chunk]: default_chunk_size, 106; the rest as in Output.v and Region.v. *)
  Context (E : env) (utf8_ok : bytes -> bool) (maxd limit : Z) (m : mode) (chunk : nat) (old : nat -> Z) (big : bool) (path : copy_path).

  (** write_binpb, serialization.hpp:99-114: the buffer is replaced if writing succeeds *)
  Definition write_message (ty : nat) (v : val) (b : buffer) : res (gstatus * buffer) :=
    match write_byte_buffer E utf8_ok maxd m chunk old ty v with
    | Ok (Some l) => Ok (s_ok, Slices l)
    | Ok None => Ok (s_unwritten, b)
    | Err _ => Ok (s_unwritten, b)
    | UB => UB
    | Exn => Exn
    | NoFuel => NoFuel
    end.

  (** slices_view, 122-178, and read_binpb, 184-195, into a message that is [cur].
      Nothing is said of a message of which reading failed. *)
  Definition read_message (ty : nat) (cur : val) (b : buffer) : res (gstatus * option val) :=
    match b with
    | Unreadable => Ok (s_compressed, Some cur)
    | _ =>
        match read_segments big path E utf8_ok limit ty (default_msg E ty) (match b with Slices l => l | _ => [] end) with
        | Ok v => Ok (s_ok, Some v)
        | Err _ => Ok (s_unread, None)
        | UB => UB
        | Exn => Exn
        | NoFuel => NoFuel
        end
    end.

  (** ** Unary calls with a callback: client.hpp:138-303 *)
  (** The object of class CallbackUnaryCall: whether it exists, whether the library has
      bound it to a call, and its request_. *)
  Record reactor := Reactor { r_alive : bool; r_bound : bool; r_request : buffer }.
  (** What the callback is called with: the status and the response *)
  Definition called : Type := (gstatus * option val)%type.
  Context (qt rt : nat).

  (** OnDone, 272-282: calls the callback and deletes the object.  [response]: response_ *)
  Definition on_done (cur : val) (s : gstatus) (response : buffer) (r : reactor) : res (called * reactor) :=
    if r_alive r then
      '(c : called) <- (if is_ok s then '(s', v) <- read_message rt cur response ;; Ok (if is_ok s' then s else s', v) else Ok (s, Some cur)) ;;
      Ok (c, Reactor false (r_bound r) (r_request r))
    else UB.
  (** prepare, 149-160 *)
  Definition prepare (cur : val) (v : val) (r : reactor) : res (list called * reactor) :=
    if r_alive r then
      '(s, b) <- write_message qt v (r_request r) ;;
      if is_ok s then Ok ([], Reactor true true b)
      else '(c, r) <- on_done cur s NoBuffer (Reactor true (r_bound r) b) ;; Ok ([c], r)
    else UB.
  (** start_call, 189; StartCall needs a call that was created. *)
  Definition start_call (r : reactor) : res unit := if r_alive r && r_bound r then Ok tt else UB.
  (** Stub::async_call, 290-303.  [answer]: the library, which takes the request and then
      calls OnDone, once, with a status and what it has put into response_. *)
  Definition async_call (answer : buffer -> gstatus * buffer) (cur v : val) : res (list called) :=
    '(cs, r) <- prepare cur v (Reactor true false NoBuffer) ;;
    _ <- start_call r ;;
    let '(s, response) := answer (r_request r) in
    '(c, _) <- on_done cur s response r ;; Ok (cs ++ [c]).

  (** ** Unary calls in the server: ServerRPC<NORMAL_RPC>, server.hpp:53-85 *)
  (** What the handler does with the result of RequestToken::get: one of the functions
      finish.  What is sent: the status and the buffer for the response. *)
  Inductive reply := RStatus (s : gstatus) | RMessage (v : val) (s : gstatus) | RBuffer (b : buffer) (s : gstatus).
  Definition serve (handler : gstatus * option val -> reply) (cur : val) (request : buffer) : res (gstatus * buffer) :=
    x <- read_message qt cur request ;;
    match handler x with
    | RStatus s => Ok (s, NoBuffer)
    | RMessage v s => '(s', b) <- write_message rt v NoBuffer ;; Ok (if is_ok s' then s else s', b)
    | RBuffer b s => Ok (s, b)
    end.

  (** ** Streams in the server: ServerRPC and BasicServerReactor, server.hpp:87-342 *)
  (** What a handler does: start_read, write, finish with a status, finish with a last message
      of a stream, finish with the only message where just requests are a stream. *)
  Inductive action := ARead | AWrite (v : val) | AFinish (s : gstatus) | AWriteFinish (v : val) (s : gstatus) | AReply (v : val).
  (** What the library is asked for: StartRead, StartWrite, Finish, StartWriteAndFinish,
      Finish with *resp_buf_ set *)
  Inductive op := ORead | OWrite (b : buffer) | OFinish (s : gstatus) | OWriteFinish (b : buffer) (s : gstatus) | OReply (b : buffer) (s : gstatus).
  (** What the library reports: OnReadDone with the request and what IsCancelled returns the
      first and the second time, OnWriteDone and IsCancelled, OnCancel. *)
  Inductive event := EReadDone (ok : bool) (b : buffer) (c1 c2 : bool) | EWriteDone (ok : bool) (c : bool) | ECancel.
  (** The handler of an RPC with a state of its own.  Optional member functions are
      options; they return whether the failure is handled. *)
  Record handler := Handler {
    h_state : Type;
    h_start : h_state * list action;
    h_read_ok : h_state -> gstatus * option val -> h_state * list action;
    h_write_ok : h_state -> h_state * list action;
    h_write_error : option (h_state -> (h_state * list action) * bool);
    h_read_cancel : option (h_state -> (h_state * list action) * bool);
    h_read_eof : option (h_state -> (h_state * list action) * bool);
    h_cancel : h_state -> h_state * list action }.

  (** What happens, in order.  [Left]: a failure the handler leaves to the reactor. *)
  Inductive item := Ev (e : event) | Act (a : action) | Left | Call (o : op).

  (** ServerRPC: start_read 100, 198; finish 103, 128, 201; write 130-146, 203-219;
      finish with a message 105-111, 153-176, 226-250.  [b]: response_ or *resp_buf_.  The
      functions given a buffer are left out. *)
  Definition perform (b : buffer) (a : action) : res (list item * buffer) :=
    match a with
    | ARead => Ok ([Act a; Call ORead], b)
    | AWrite v => '(s, b) <- write_message rt v b ;; Ok ([Act a; Call (if is_ok s then OWrite b else OFinish s)], b)
    | AFinish s => Ok ([Act a; Call (OFinish s)], b)
    | AWriteFinish v s' => '(s, b) <- write_message rt v b ;; Ok ([Act a; Call (if is_ok s then OWriteFinish b s' else OFinish s)], b)
    | AReply v => '(s, b) <- write_message rt v b ;; Ok ([Act a; Call (if is_ok s then OReply b s else OFinish s)], b)
    end.
  Fixpoint performs (b : buffer) (l : list action) : res (list item * buffer) :=
    match l with
    | [] => Ok ([], b)
    | a :: t => '(x, b) <- perform b a ;; '(y, b) <- performs b t ;; Ok (x ++ y, b)
    end.

  Section Reactor.
    Context (H : handler).
    (** The state of the handler and response_ *)
    Definition rstate : Type := (h_state H * buffer)%type.
    (** An optional function of the handler, and what is done if it does not handle it *)
    Definition offered (f : option (h_state H -> (h_state H * list action) * bool)) (s : gstatus) (x : rstate) : res (list item * rstate) :=
      let '((h, acts), handled) := match f with Some f => f (fst x) | None => ((fst x, []), false) end in
      '(l, b) <- performs (snd x) acts ;;
      Ok (l ++ (if handled then [] else [Left; Call (OFinish s)]), (h, b)).
    (** on_write_done, 266-283; on_read_done, 285-310; OnCancel, 336-340.  The request
        is read into a new message. *)
    Definition react (e : event) (x : rstate) : res (list item * rstate) :=
      match e with
      | EWriteDone true _ => let '(h, acts) := h_write_ok H (fst x) in '(l, b) <- performs (snd x) acts ;; Ok (l, (h, b))
      | EWriteDone false c => offered (h_write_error H) (if c then s_cancelled else s_write_failed) x
      | EReadDone true q _ _ =>
          g <- read_message qt (default_msg E qt) q ;;
          let '(h, acts) := h_read_ok H (fst x) g in '(l, b) <- performs (snd x) acts ;; Ok (l, (h, b))
      | EReadDone false _ c1 c2 => offered (if c1 then h_read_cancel H else h_read_eof H) (if c2 then s_cancelled else s_ok) x
      | ECancel => let '(h, acts) := h_cancel H (fst x) in '(l, b) <- performs (snd x) acts ;; Ok (l, (h, b))
      end.
    Fixpoint reacts (es : list event) (x : rstate) : res (list item * rstate) :=
      match es with
      | [] => Ok ([], x)
      | e :: t => '(l, x) <- react e x ;; '(l', x) <- reacts t x ;; Ok (Ev e :: l ++ l', x)
      end.
    (** The constructor of the handler, 312-322, and the events *)
    Definition stream (es : list event) : res (list item) :=
      '(l, b) <- performs NoBuffer (snd (h_start H)) ;;
      '(l', _) <- reacts es (fst (h_start H), b) ;; Ok (l ++ l').
  End Reactor.
End Messages.
