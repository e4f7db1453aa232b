(** C104: blocking unary calls. *)
Require Import Verif.Bits Verif.Varint Verif.Schema Verif.Archive Verif.Decode Verif.Encode Verif.RoundTrip Verif.DecodeSafe Verif.WellTyped Verif.Output Verif.Region Verif.ExampleSchema Verif.ExampleMessage Verif.ExampleRegion.
Require Import Verif.Grpc Verif.GrpcSpec Verif.GrpcEx Verif.GrpcBlocking Verif.GrpcBlocking1.
Local Open Scope Z_scope.

(** A request that cannot be written is not sent: the call returns INTERNAL and the response is
    left as it is (compare C98_unwritable_refuted). *)
Theorem C104_unwritable E utf8_ok maxd limit m chunk old big path qt rt answer cur v e : encode_bytes E utf8_ok maxd qt v = Err e ->
  blocking_call E utf8_ok maxd limit m chunk old big path qt rt answer cur v = Ok ([], (s_unwritten, Some cur)).
Proof. exact (blocking_unwritable E utf8_ok maxd limit m chunk old big path qt rt answer cur v e). Qed.
Print Assumptions C104_unwritable.
(** Other requests are sent once.  The status of the call is returned, or UNIMPLEMENTED if there is no
    response that can be read; the response is what is seen of the buffer that came. *)
Theorem C104_outcome E utf8_ok maxd limit m chunk old big path qt rt answer cur v bs : generated E -> m_entry (desc_of E rt) = false -> (0 < chunk)%nat -> wt_msg E utf8_ok qt v -> encode_bytes E utf8_ok maxd qt v = Ok bs ->
  (forall b, usable (snd (answer b))) ->
  exists b, carries E utf8_ok maxd qt v b /\ blocking_call E utf8_ok maxd limit m chunk old big path qt rt answer cur v =
    Ok ([b], let '(s, response) := answer b in
             let '(s', w) := match response with NoBuffer => (s_no_message, Some cur) | _ => seen E utf8_ok limit rt cur response end in
             (if is_ok s then if is_ok s' then s else s_no_message else s, w)).
Proof. exact (blocking_seen E utf8_ok maxd limit m chunk old big path qt rt answer cur v bs). Qed.
Print Assumptions C104_outcome.
(** If the call returns OK, the request was sent, the server answered OK, and the response is the message it sent. *)
Theorem C104_ok E utf8_ok maxd limit m chunk old big path qt rt answer cur v sent s w : generated E -> m_entry (desc_of E rt) = false -> (0 < chunk)%nat -> wt_msg E utf8_ok qt v -> (forall b, usable (snd (answer b))) ->
  blocking_call E utf8_ok maxd limit m chunk old big path qt rt answer cur v = Ok (sent, (s, w)) -> is_ok s = true ->
  exists b l x, sent = [b] /\ carries E utf8_ok maxd qt v b /\ answer b = (s, Slices l) /\ decode_bytes E utf8_ok limit rt (default_msg E rt) (concat l) = Ok x /\ w = Some x.
Proof. exact (blocking_ok E utf8_ok maxd limit m chunk old big path qt rt answer cur v sent s w). Qed.
Print Assumptions C104_ok.
(** From the client to the handler and back.  Primed: the server. *)
Theorem C104_round_trip E utf8_ok maxd limit m chunk old big path maxd' limit' m' chunk' old' big' path' qt rt h answer cur cur' v w bs bs' :
  generated E -> m_entry (desc_of E qt) = false -> m_entry (desc_of E rt) = false -> maxd <= limit' -> maxd' <= limit -> (0 < chunk)%nat -> (0 < chunk')%nat ->
  wt_msg E utf8_ok qt v -> canonical E limit' 1 qt v -> encode_bytes E utf8_ok maxd qt v = Ok bs ->
  wt_msg E utf8_ok rt w -> canonical E limit 1 rt w -> encode_bytes E utf8_ok maxd' rt w = Ok bs' ->
  h (s_ok, Some v) = RMessage w s_ok ->
  (forall b, carries E utf8_ok maxd qt v b -> exists request s response, same_bytes b request /\
     serve E utf8_ok maxd' limit' m' chunk' old' big' path' qt rt h cur' request = Ok (s, response) /\ fst (answer b) = s /\ same_bytes response (snd (answer b))) ->
  exists b, blocking_call E utf8_ok maxd limit m chunk old big path qt rt answer cur v = Ok ([b], (s_ok, Some w)).
Proof. exact (blocking_round E utf8_ok maxd limit m chunk old big path maxd' limit' m' chunk' old' big' path' qt rt h answer cur cur' v w bs bs'). Qed.
Print Assumptions C104_round_trip.
(** A call with a callback gives the same as a blocking call that succeeds. *)
Theorem C104_async E utf8_ok maxd limit m chunk old big path qt rt answer cur v sent s w : generated E -> m_entry (desc_of E rt) = false -> (0 < chunk)%nat -> wt_msg E utf8_ok qt v -> (forall b, usable (snd (answer b))) ->
  blocking_call E utf8_ok maxd limit m chunk old big path qt rt answer cur v = Ok (sent, (s, w)) -> is_ok s = true ->
  async_call E utf8_ok maxd limit m chunk old big path qt rt answer cur v = Ok [(s, w)].
Proof. exact (blocking_async E utf8_ok maxd limit m chunk old big path qt rt answer cur v sent s w). Qed.
Print Assumptions C104_async.

(** The server of C98_case; one that answers nothing; and a request nested too deep *)
Example C104_case : generated ex_e /\ wt_msg ex_e any_utf8 0 ex_value /\ canonical ex_e 100 1 0 ex_value /\ encode_bytes ex_e any_utf8 100 0 ex_value = Ok ex_written /\
  (forall b, carries ex_e any_utf8 100 0 ex_value b -> exists request s response, same_bytes b request /\ ex_serve echo (default_msg ex_e 0) request = Ok (s, response) /\ fst (ex_answer b) = s /\ same_bytes response (snd (ex_answer b))).
Proof. split; [apply ex_generated; discriminate|]. exact (conj ex_wt (conj ex_canonical (conj ex_encoded ex_answers))). Qed.
Definition ex_blocking (maxd : Z) answer := blocking_call ex_e any_utf8 maxd 100 Chunked 20 (fun _ => 0) false CopyRaw 0 0 answer (default_msg ex_e 0) ex_value.
Example C104_ex_ok : match ex_blocking 100 (fun b => (s_ok, b)) with Ok ([Slices l], r) => concat l = ex_written /\ r = (s_ok, Some ex_value) | _ => False end.
Proof. vm_compute. split; reflexivity. Qed.
Example C104_ex_none : match ex_blocking 100 (fun b => (s_ok, NoBuffer)) with Ok ([Slices l], r) => r = (s_no_message, Some (default_msg ex_e 0)) | _ => False end.
Proof. vm_compute. reflexivity. Qed.
Example C104_ex_bad : match ex_blocking 100 (fun b => (s_ok, Slices [[255]])) with Ok ([Slices l], r) => r = (s_no_message, None) | _ => False end.
Proof. vm_compute. reflexivity. Qed.
Example C104_ex_deep : ex_blocking 0 (fun b => (s_ok, b)) = Ok ([], (s_unwritten, Some (default_msg ex_e 0))).
Proof. vm_compute. reflexivity. Qed.
