(** C98, C99: calls over gRPC. *)
Require Import Verif.Bits Verif.Varint Verif.Schema Verif.Archive Verif.Decode Verif.Encode Verif.DecodeSafe Verif.WellTyped Verif.RoundTrip Verif.ExampleSchema Verif.ExampleMessage Verif.ExampleRegion Verif.EncodeProofs Verif.EncodeMain Verif.SimMain Verif.Output Verif.Region.
Require Import Verif.Grpc Verif.GrpcSpec Verif.Grpc1 Verif.Grpc2 Verif.GrpcEx.
Local Open Scope Z_scope.

(** ** C98: unary calls *)
(** A request reaches the handler and the reply the callback, once, whatever the options of
    both sides and however the network cuts the buffers.  Primed: the server. *)
Theorem C98_round_trip E utf8_ok maxd limit m chunk old big path maxd' limit' m' chunk' old' big' path' qt rt h answer cur cur' v w bs bs' :
  generated E -> m_entry (desc_of E qt) = false -> m_entry (desc_of E rt) = false -> maxd <= limit' -> maxd' <= limit -> (0 < chunk)%nat -> (0 < chunk')%nat ->
  wt_msg E utf8_ok qt v -> canonical E limit' 1 qt v -> encode_bytes E utf8_ok maxd qt v = Ok bs ->
  wt_msg E utf8_ok rt w -> canonical E limit 1 rt w -> encode_bytes E utf8_ok maxd' rt w = Ok bs' ->
  h (s_ok, Some v) = RMessage w s_ok ->
  (forall b, carries E utf8_ok maxd qt v b -> exists request s response, same_bytes b request /\
     serve E utf8_ok maxd' limit' m' chunk' old' big' path' qt rt h cur' request = Ok (s, response) /\ fst (answer b) = s /\ same_bytes response (snd (answer b))) ->
  async_call E utf8_ok maxd limit m chunk old big path qt rt answer cur v = Ok [(s_ok, Some w)].
Proof. exact (unary_round E utf8_ok maxd limit m chunk old big path maxd' limit' m' chunk' old' big' path' qt rt h answer cur cur' v w bs bs'). Qed.
Print Assumptions C98_round_trip.
Example C98_case : generated ex_e /\ wt_msg ex_e any_utf8 0 ex_value /\ canonical ex_e 100 1 0 ex_value /\ encode_bytes ex_e any_utf8 100 0 ex_value = Ok ex_written /\ echo (s_ok, Some ex_value) = RMessage ex_value s_ok /\
  (forall b, carries ex_e any_utf8 100 0 ex_value b -> exists request s response, same_bytes b request /\ ex_serve echo (default_msg ex_e 0) request = Ok (s, response) /\ fst (ex_answer b) = s /\ same_bytes response (snd (ex_answer b))) /\
  ex_call ex_answer (default_msg ex_e 0) ex_value = Ok [(s_ok, Some ex_value)].
Proof. split; [apply ex_generated; discriminate|]. exact (conj ex_wt (conj ex_canonical (conj ex_encoded (conj eq_refl (conj ex_answers ex_called))))). Qed.

(** Whatever the library answers, the callback is called once: with the status of the call,
    or with that of reading if the call succeeded and the response cannot be read.  The
    response is set only if the call succeeded. *)
Theorem C98_callback E utf8_ok maxd limit m chunk old big path qt rt answer cur v bs : generated E -> m_entry (desc_of E rt) = false -> (0 < chunk)%nat -> wt_msg E utf8_ok qt v -> encode_bytes E utf8_ok maxd qt v = Ok bs ->
  (forall b, usable (snd (answer b))) ->
  exists b, carries E utf8_ok maxd qt v b /\ async_call E utf8_ok maxd limit m chunk old big path qt rt answer cur v =
    Ok [let '(s, response) := answer b in
        if is_ok s then let '(s', w) := seen E utf8_ok limit rt cur response in (if is_ok s' then s else s', w) else (s, Some cur)].
Proof. exact (unary_seen E utf8_ok maxd limit m chunk old big path qt rt answer cur v bs). Qed.
Print Assumptions C98_callback.
(** A handler sees the message of the request or why there is none.  Its status is sent with
    the bytes of its reply, or INTERNAL if the reply cannot be written. *)
Theorem C98_served E utf8_ok maxd limit m chunk old big path qt rt h cur request : generated E -> m_entry (desc_of E qt) = false -> (0 < chunk)%nat -> usable request ->
  match h (seen E utf8_ok limit qt cur request) with
  | RStatus s => serve E utf8_ok maxd limit m chunk old big path qt rt h cur request = Ok (s, NoBuffer)
  | RBuffer b s => serve E utf8_ok maxd limit m chunk old big path qt rt h cur request = Ok (s, b)
  | RMessage w s => wt_msg E utf8_ok rt w ->
      (exists b, carries E utf8_ok maxd rt w b /\ serve E utf8_ok maxd limit m chunk old big path qt rt h cur request = Ok (s, b)) \/
      (exists e, encode_bytes E utf8_ok maxd rt w = Err e) /\ serve E utf8_ok maxd limit m chunk old big path qt rt h cur request = Ok (s_unwritten, NoBuffer)
  end.
Proof. exact (served E utf8_ok maxd limit m chunk old big path qt rt h cur request). Qed.
Print Assumptions C98_served.
Example C98_served_case : usable (Slices ex_segs) /\ seen ex_e any_utf8 100 0 (default_msg ex_e 0) (Slices ex_segs) = (s_ok, Some ex_value) /\ seen ex_e any_utf8 100 0 (default_msg ex_e 0) (Slices [[8]]) = (s_unread, None).
Proof. split; [split; [exact ex_bytes_ok|vm_compute; reflexivity]|]. split; vm_compute; reflexivity. Qed.

(** If the request cannot be written, the object that holds the call is deleted and then
    used. *)
Theorem C98_unwritable_refuted E utf8_ok maxd limit m chunk old big path qt rt answer cur v e : encode_bytes E utf8_ok maxd qt v = Err e ->
  async_call E utf8_ok maxd limit m chunk old big path qt rt answer cur v = UB.
Proof. exact (unary_unwritable E utf8_ok maxd limit m chunk old big path qt rt answer cur v e). Qed.
Print Assumptions C98_unwritable_refuted.
Example C98_unwritable_case : wt_msg ex_e any_utf8 0 ex_value /\ encode_bytes ex_e any_utf8 0 0 ex_value = Err BadMessage.
Proof. exact (conj ex_wt ex_too_deep). Qed.

(** ** C99: streams in the server *)
(** Any handler and any reports of the library: what happens is defined. *)
Theorem C99_defined E utf8_ok maxd limit m chunk old big path qt rt H es : legal_numbers E -> (0 < chunk)%nat -> safe_env E -> m_entry (desc_of E qt) = false -> tidy (wt_msg E utf8_ok rt) H -> Forall usable_event es ->
  exists l, stream E utf8_ok maxd limit m chunk old big path qt rt H es = Ok l.
Proof. exact (fun HN HC => stream_total E utf8_ok maxd limit m chunk old big path qt rt HN HC H es). Qed.
Print Assumptions C99_defined.
(** The messages a handler writes are sent in order, and each of them is read as what it was. *)
Theorem C99_messages E utf8_ok maxd limit m chunk old big path qt rt H es l : legal_numbers E -> (0 < chunk)%nat -> stream E utf8_ok maxd limit m chunk old big path qt rt H es = Ok l ->
  Forall (writable E utf8_ok maxd rt) (some_of written l) -> Forall2 (carries E utf8_ok maxd rt) (some_of written l) (some_of sent l).
Proof. exact (fun HN HC => stream_carries E utf8_ok maxd limit m chunk old big path qt rt HN HC H es l). Qed.
Print Assumptions C99_messages.
Theorem C99_carries E utf8_ok maxd limit big path ty v cur b b' : generated E -> m_entry (desc_of E ty) = false -> maxd <= limit ->
  wt_msg E utf8_ok ty v -> canonical E limit 1 ty v -> carries E utf8_ok maxd ty v b -> same_bytes b b' -> read_message E utf8_ok limit big path ty cur b' = Ok (s_ok, Some v).
Proof. exact (carries_read E utf8_ok maxd limit big path ty v cur b b'). Qed.
Print Assumptions C99_carries.
(** A reply that cannot be written is not sent; the RPC is finished with INTERNAL instead. *)
Theorem C99_unwritable E utf8_ok maxd limit m chunk old big path qt rt H es l l1 a l2 v e : stream E utf8_ok maxd limit m chunk old big path qt rt H es = Ok l ->
  l = l1 ++ Act a :: l2 -> written (Act a) = Some v -> encode_bytes E utf8_ok maxd rt v = Err e -> exists l3, l2 = Call (OFinish s_unwritten) :: l3.
Proof. exact (fun S Eq => stream_closed E utf8_ok maxd limit m chunk old big path qt rt H es l S l1 a l2 Eq v e). Qed.
Print Assumptions C99_unwritable.
(** The handler is told of every report, with the message of each request or why there is
    none, and nothing is done but what it asks for (or finishing where it leaves a failure). *)
Theorem C99_script E utf8_ok maxd limit m chunk old big path qt rt H es l : legal_numbers E -> (0 < chunk)%nat -> safe_env E -> m_entry (desc_of E qt) = false -> Forall usable_event es ->
  stream E utf8_ok maxd limit m chunk old big path qt rt H es = Ok l ->
  filter (fun i => negb (is_call i)) l = map Act (snd (h_start H)) ++ script E utf8_ok limit qt H (fst (h_start H)) es /\ in_step (asks_for E utf8_ok maxd rt) l.
Proof. exact (fun HN HC HS He => stream_script E utf8_ok maxd limit m chunk old big path qt rt HN HC HS He H es l). Qed.
Print Assumptions C99_script.
Example C99_script_case : Forall usable_event ex_turns /\ script ex_e any_utf8 100 0 in_turn tt ex_turns =
  [Ev ex_request; Act (AWrite ex_value); Ev (EWriteDone true false); Act ARead; Ev ex_request; Act (AWrite ex_value); Ev (EWriteDone true false); Act ARead; Ev (EReadDone false NoBuffer false false); Left; Ev ECancel].
Proof. split; [|vm_compute; reflexivity]. assert (usable_event ex_request) by (split; [vm_compute; repeat constructor; discriminate|vm_compute; reflexivity]). assert (usable NoBuffer) by (split; [constructor|reflexivity]). repeat (apply Forall_cons; [first [assumption|exact Logic.I]|]). apply Forall_nil. Qed.
(** A failure the handler has no function for, or which it does not handle, finishes the RPC
    with the status of [failure_of]: CANCELLED if the call was, OK at the end of the requests,
    UNKNOWN if a reply could not be sent. *)
Theorem C99_left E utf8_ok maxd limit m chunk old big path qt rt H es1 e es2 l f s : stream E utf8_ok maxd limit m chunk old big path qt rt H (es1 ++ e :: es2) = Ok l ->
  failure_of H e = Some (f, s) -> leaves f ->
  exists l1 acts l2, l = l1 ++ Ev e :: acts ++ Left :: Call (OFinish s) :: l2 /\ Forall (fun i => match i with Act _ | Call _ => True | _ => False end) acts.
Proof. exact (stream_left E utf8_ok maxd limit m chunk old big path qt rt H es1 e es2 l f s). Qed.
Print Assumptions C99_left.
(** The rules of the library are kept if the handler keeps them and handles all failures, ... *)
Theorem C99_rules_handled E utf8_ok maxd limit m chunk old big path qt rt H es l : legal_numbers E -> (0 < chunk)%nat ->
  handles (h_write_error H) -> handles (h_read_cancel H) -> handles (h_read_eof H) -> stream E utf8_ok maxd limit m chunk old big path qt rt H es = Ok l ->
  Forall (writable E utf8_ok maxd rt) (some_of written l) -> seen_by_library l = seen_by_handler l.
Proof. exact (fun HN HC => stream_handled E utf8_ok maxd limit m chunk old big path qt rt HN HC H es l). Qed.
Print Assumptions C99_rules_handled.
(** ... or if it keeps them with one operation at a time, finishes only when none is
    outstanding, and does nothing where it does not handle a failure. *)
Theorem C99_rules_calm E utf8_ok maxd limit m chunk old big path qt rt H es l : legal_numbers E -> (0 < chunk)%nat ->
  quiet (h_write_error H) -> quiet (h_read_cancel H) -> quiet (h_read_eof H) -> (forall h, snd (h_cancel H h) = []) ->
  stream E utf8_ok maxd limit m chunk old big path qt rt H es = Ok l -> Forall (writable E utf8_ok maxd rt) (some_of written l) ->
  stays_calm l idle = true -> seen_by_library l <> Odd -> seen_by_handler l <> Broken -> exists x, seen_by_library l = Fine x.
Proof. exact (fun HN HC => stream_calm E utf8_ok maxd limit m chunk old big path qt rt HN HC H es l). Qed.
Print Assumptions C99_rules_calm.
Example C99_case : tidy (wt_msg ex_e any_utf8 0) early /\ handles (h_write_error careful) /\ handles (h_read_cancel careful) /\ handles (h_read_eof careful) /\
  (exists l, ex_stream careful ex_broken = Ok l /\ some_of written l = [ex_value] /\ seen_by_library l = Fine (Out false false true)) /\
  quiet (h_write_error in_turn) /\ quiet (h_read_cancel in_turn) /\ quiet (h_read_eof in_turn) /\ (forall h, snd (h_cancel in_turn h) = []) /\
  exists l, ex_stream in_turn ex_turns = Ok l /\ some_of written l = [ex_value; ex_value] /\ stays_calm l idle = true /\ seen_by_library l = Fine (Out false false true) /\ seen_by_handler l = Fine idle /\
    Forall (writable ex_e any_utf8 100 0) (some_of written l).
Proof.
  assert (K : handles (Some once)) by (exists once; split; reflexivity).
  split; [split; [constructor; [exact Logic.I|constructor; [exact ex_wt|constructor]]|]; cbn; repeat (split; [intros; repeat constructor|]); exact Logic.I|].
  exact (conj K (conj K (conj K (conj careful_runs (conj Logic.I (conj Logic.I (conj Logic.I (conj (fun _ => eq_refl) in_turn_runs)))))))).
Qed.

(** ** What is not so *)
(** A handler without functions for failures that reads the next request while it answers
    keeps the rules; if the client goes away, the RPC is finished twice. *)
Theorem C99_two_failures_refuted : exists l, ex_stream ahead ex_broken = Ok l /\ some_of written l = [ex_value] /\ seen_by_handler l = Fine idle /\ seen_by_library l = Broken.
Proof. exact ahead_breaks. Qed.
Print Assumptions C99_two_failures_refuted.
(** So it is if the handler has finished while a read is outstanding, ... *)
Theorem C99_finished_refuted : exists l, ex_stream early [EWriteDone true false; EReadDone false NoBuffer false false] = Ok l /\ some_of written l = [ex_value] /\
  seen_by_handler l = Fine (Out false false true) /\ seen_by_library l = Broken.
Proof. exact early_breaks. Qed.
Print Assumptions C99_finished_refuted.
(** ... or finishes after a reply that could not be written, of which it is not told. *)
Theorem C99_unwritable_refuted : exists l, stream ex_e any_utf8 0 100 Chunked 20 (fun _ => 0) false CopyRaw 0 0 final [] = Ok l /\ seen_by_handler l = Fine (Out false true true) /\ seen_by_library l = Broken.
Proof. exact final_breaks. Qed.
Print Assumptions C99_unwritable_refuted.
