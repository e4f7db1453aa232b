(** Blocking unary calls: model of Stub::call, include/hpp_proto/grpc/client.hpp:107-119, and of
    SerializationTraits for with_pb_context, include/hpp_proto/grpc/serialization.hpp:208-224. *)
From Coq Require Import Ascii String.
Require Import Verif.Bits Verif.CppText Verif.Varint Verif.Schema Verif.Archive Verif.Decode Verif.Encode Verif.Output Verif.Region Verif.Grpc.
Local Open Scope Z_scope.

Definition s_no_message : gstatus := (12, txt "No message returned for unary request").

Section Blocking.
  (** One context is used for the request and the response, 111-113. *)
  Context (E : env) (utf8_ok : bytes -> bool) (maxd limit : Z) (m : mode) (chunk : nat) (old : nat -> Z) (big : bool) (path : copy_path) (qt rt : nat).
  (** Serialize, 212-215: into a new buffer, which the library then owns *)
  Definition trait_serialize (v : val) : res (gstatus * buffer) := write_message E utf8_ok maxd m chunk old qt v NoBuffer.
  (** Deserialize, 217-221: the status, the message and the buffer, which is cleared *)
  Definition trait_deserialize (cur : val) (b : buffer) : res (gstatus * option val * buffer) :=
    '(s, w) <- read_message E utf8_ok limit big path rt cur b ;; Ok (s, w, NoBuffer).
  (** Stub::call with BlockingUnaryCallImpl of the gRPC library, which is not in this repository:
      nothing is sent if Serialize fails; a response that came is read whatever the status; without
      a response that can be read the status is UNIMPLEMENTED unless the call failed.
      [answer]: status and response (NoBuffer: none) for what is sent.  Result: what is sent, the
      status that is returned, and the response, which was [cur]. *)
  Definition blocking_call (answer : buffer -> gstatus * buffer) (cur v : val) : res (list buffer * (gstatus * option val)) :=
    '(s, b) <- trait_serialize v ;;
    if is_ok s then
      let '(s, response) := answer b in
      match response with
      | NoBuffer => Ok ([b], (if is_ok s then s_no_message else s, Some cur))
      | _ => '(s', w, _) <- trait_deserialize cur response ;; Ok ([b], (if is_ok s && negb (is_ok s') then s_no_message else s, w))
      end
    else Ok ([], (s, Some cur)).
End Blocking.
