(** C101, C102: streams in the client, and from end to end. *)
Require Import Verif.Bits Verif.Varint Verif.Schema Verif.Archive Verif.Decode Verif.Encode Verif.DecodeSafe Verif.WellTyped Verif.RoundTrip Verif.ExampleSchema Verif.ExampleMessage Verif.ExampleRegion Verif.EncodeProofs Verif.EncodeMain Verif.SimMain Verif.Output Verif.Region.
Require Import Verif.Grpc Verif.GrpcSpec Verif.GrpcEx Verif.GrpcClient Verif.GrpcClientSpec Verif.GrpcClient1 Verif.GrpcClient2 Verif.GrpcClientEx.
Local Open Scope Z_scope.

(** ** C101: streams in the client *)
(** Whatever the application and the library do, in any order: what happens is defined, ... *)
Theorem C101_defined E utf8_ok maxd limit m chunk old big path qt rt ss : legal_numbers E -> (0 < chunk)%nat -> safe_env E -> m_entry (desc_of E rt) = false -> Forall usable_step ss -> Forall (wt_step (wt_msg E utf8_ok qt)) ss ->
  exists l, client_stream E utf8_ok maxd limit m chunk old big path qt rt ss = Ok l.
Proof. exact (fun HN HC => stream_defined E utf8_ok maxd limit m chunk old big path qt rt HN HC ss). Qed.
Print Assumptions C101_defined.
(** ... each step is followed by what it asks for and nothing else, write returns OK if and
    only if the message can be written, and get_response reads what the library put last. *)
Theorem C101_follows E utf8_ok maxd limit m chunk old big path qt rt ss l : legal_numbers E -> (0 < chunk)%nat -> safe_env E -> m_entry (desc_of E rt) = false -> Forall usable_step ss ->
  client_stream E utf8_ok maxd limit m chunk old big path qt rt ss = Ok l -> follow E utf8_ok maxd limit qt rt ss NoBuffer l.
Proof. exact (fun HN HC => stream_follow E utf8_ok maxd limit m chunk old big path qt rt HN HC ss l). Qed.
Print Assumptions C101_follows.
(** So it is with one request, if that can be written. *)
Theorem C101_one_request E utf8_ok maxd limit m chunk old big path qt rt v bs ss : legal_numbers E -> (0 < chunk)%nat -> safe_env E -> m_entry (desc_of E rt) = false -> wt_msg E utf8_ok qt v -> encode_bytes E utf8_ok maxd qt v = Ok bs ->
  Forall usable_step ss -> Forall (wt_step (wt_msg E utf8_ok qt)) ss ->
  exists l, client_stream_of E utf8_ok maxd limit m chunk old big path qt rt v ss = Ok l /\ follow E utf8_ok maxd limit qt rt ss NoBuffer l.
Proof.
  exact (fun HN HC HS He Hv Hb Hu Hw => match stream_of_defined E utf8_ok maxd limit m chunk old big path qt rt HN HC v ss bs HS He Hv Hb Hu Hw with
    ex_intro _ l Hl => ex_intro _ l (conj Hl (stream_of_follow E utf8_ok maxd limit m chunk old big path qt rt HN HC v ss l bs HS He Hv Hb Hu Hl)) end).
Qed.
Print Assumptions C101_one_request.
(** If nothing was put, get_response gives an empty message and returns OK. *)
Theorem C101_early E utf8_ok maxd limit m chunk old big path qt rt ss l cur : legal_numbers E -> (0 < chunk)%nat -> safe_env E -> m_entry (desc_of E rt) = false -> 0 <= limit ->
  Forall (fun s => match s with LPut _ => False | _ => True end) ss -> client_stream E utf8_ok maxd limit m chunk old big path qt rt (ss ++ [CGet cur]) = Ok l ->
  exists l1, l = l1 ++ [Gets (s_ok, Some (default_msg E rt))].
Proof. exact (stream_early E utf8_ok maxd limit m chunk old big path qt rt ss l cur). Qed.
Print Assumptions C101_early.
(** The application keeps the rules of the library where a write counts if it returns OK. *)
Theorem C101_rules E utf8_ok maxd limit m chunk old big path qt rt rs ss l p : client_stream E utf8_ok maxd limit m chunk old big path qt rt ss = Ok l -> opine true rs l p = opine false rs l p.
Proof. exact (stream_rules E utf8_ok maxd limit m chunk old big path qt rt rs ss l p). Qed.
Print Assumptions C101_rules.
(** If it keeps them, what the library reads through the pointer it was given, whenever it
    reads, is the messages of which write returned OK, in order, ... *)
Theorem C101_taken E utf8_ok maxd limit m chunk old big path qt rt rs ss l p : legal_numbers E -> (0 < chunk)%nat -> client_stream E utf8_ok maxd limit m chunk old big path qt rt ss = Ok l ->
  Forall (wt_step (wt_msg E utf8_ok qt)) ss -> opine true rs l at_first = Good p -> exists n, Forall2 (carries E utf8_ok maxd qt) (firstn n (some_of accepted l)) (some_of took l).
Proof. exact (fun HN HC => stream_taken E utf8_ok maxd limit m chunk old big path qt rt HN HC rs ss l p). Qed.
Print Assumptions C101_taken.
(** ... and all of them when it reports that a write is done. *)
Theorem C101_acknowledged E utf8_ok maxd limit m chunk old big path qt rt rs ss l p : legal_numbers E -> (0 < chunk)%nat -> client_stream E utf8_ok maxd limit m chunk old big path qt rt (ss ++ [LWritten true]) = Ok l ->
  Forall (wt_step (wt_msg E utf8_ok qt)) ss -> opine true rs l at_first = Good p -> Forall2 (carries E utf8_ok maxd qt) (some_of accepted l) (some_of took l).
Proof. exact (fun HN HC => stream_acknowledged E utf8_ok maxd limit m chunk old big path qt rt HN HC rs ss l p). Qed.
Print Assumptions C101_acknowledged.
Example C101_case : generated ex_e /\ Forall usable_step ex_talk /\ Forall (wt_step (wt_msg ex_e any_utf8 0)) ex_talk /\
  (exists l p, ex_client ex_talk = Ok l /\ opine true true l at_first = Good p /\ some_of accepted l = [ex_value; ex_value]) /\
  (exists l b, ex_client [CStart; CWrite ex_value false; CWrite ex_empty false; LTake] = Ok l /\ some_of accepted l = [ex_value; ex_empty] /\ some_of took l = [b] /\ content b = [] /\ opine true true l at_first = Against).
Proof.
  split; [apply ex_generated; discriminate|]. split; [exact (proj1 talk_usable)|]. split; [exact talk_wt|]. split; [|exact overlap_runs].
  destruct talk_runs as (l & p & H1 & H2 & H3 & _). exists l, p. exact (conj H1 (conj H2 H3)).
Qed.
(** If the one request cannot be written, OnDone is called and async_call returns; the
    application that goes on as it otherwise must uses a call that does not exist. *)
Theorem C101_unwritable_refuted E utf8_ok maxd limit m chunk old big path qt rt v ss e s : encode_bytes E utf8_ok maxd qt v = Err e -> In s [CStart; CRead; CRelease] ->
  client_stream_of E utf8_ok maxd limit m chunk old big path qt rt v [] = Ok [Ends s_unwritten] /\ client_stream_of E utf8_ok maxd limit m chunk old big path qt rt v (s :: ss) = UB.
Proof. exact (stream_of_unwritable E utf8_ok maxd limit m chunk old big path qt rt v ss e s). Qed.
Print Assumptions C101_unwritable_refuted.
Example C101_unwritable_case : wt_msg ex_e any_utf8 0 ex_value /\ encode_bytes ex_e any_utf8 0 0 ex_value = Err BadMessage.
Proof. exact (conj ex_wt ex_too_deep). Qed.

(** ** C102: from end to end *)
(** The client keeps the rules, the network delivers what it took, cut as it likes: the handler
    in the server does what it would do if it were given the messages of the client one
    after the other.  Primed: the server. *)
Theorem C102_requests E utf8_ok maxd limit m chunk old big path maxd' limit' m' chunk' old' big' path' qt rt rs ss l p H es l' : generated E ->
  m_entry (desc_of E qt) = false -> maxd <= limit' -> (0 < chunk)%nat -> (0 < chunk')%nat ->
  client_stream E utf8_ok maxd limit m chunk old big path qt rt ss = Ok l -> Forall (wt_step (wt_msg E utf8_ok qt)) ss -> opine true rs l at_first = Good p ->
  Forall (fun v => wt_msg E utf8_ok qt v /\ canonical E limit' 1 qt v) (some_of accepted l) ->
  stream E utf8_ok maxd' limit' m' chunk' old' big' path' qt rt H es = Ok l' -> Forall usable_event es -> delivered (some_of took l) (some_of arrived es) ->
  exists n, length (some_of arrived es) = length (firstn n (some_of accepted l)) /\
    some_of act_of l' = snd (h_start H) ++ given E utf8_ok limit' qt H (fst (h_start H)) es (firstn n (some_of accepted l)).
Proof. exact (fun G => requests_arrive E utf8_ok G maxd limit m chunk old big path maxd' limit' m' chunk' old' big' path' qt rt rs ss l p H es l'). Qed.
Print Assumptions C102_requests.
(** One request is taken once, and read as what it was (C99_carries). *)
Theorem C102_request E utf8_ok maxd limit m chunk old big path qt rt rs v bs ss l p : generated E -> (0 < chunk)%nat -> wt_msg E utf8_ok qt v -> encode_bytes E utf8_ok maxd qt v = Ok bs ->
  client_stream_of E utf8_ok maxd limit m chunk old big path qt rt v ss = Ok l -> Forall no_write ss -> opine true rs l with_request = Good p ->
  some_of took l = [] \/ exists b, some_of took l = [b] /\ carries E utf8_ok maxd qt v b.
Proof. exact (fun G => request_taken E utf8_ok G maxd limit m chunk old big path qt rt rs v bs ss l p). Qed.
Print Assumptions C102_request.
(** What the handler writes arrives in the client: get_response gives the messages one after
    the other. *)
Theorem C102_replies E utf8_ok maxd limit m chunk old big path maxd' limit' m' chunk' old' big' path' qt rt ss l H es l' : generated E ->
  m_entry (desc_of E rt) = false -> maxd' <= limit -> (0 < chunk)%nat -> (0 < chunk')%nat ->
  client_stream E utf8_ok maxd limit m chunk old big path qt rt ss = Ok l \/
    (exists v bs, wt_msg E utf8_ok qt v /\ encode_bytes E utf8_ok maxd qt v = Ok bs /\ client_stream_of E utf8_ok maxd limit m chunk old big path qt rt v ss = Ok l) ->
  Forall (wt_step (wt_msg E utf8_ok qt)) ss -> Forall usable_step ss ->
  stream E utf8_ok maxd' limit' m' chunk' old' big' path' qt rt H es = Ok l' -> Forall (writable E utf8_ok maxd' rt) (some_of written l') -> Forall (canonical E limit 1 rt) (some_of written l') ->
  delivered (some_of sent l') (some_of put l) ->
  exists n, length (some_of put l) = length (firstn n (some_of written l')) /\ in_turn_gets (firstn n (some_of written l')) None l.
Proof. exact (fun G => replies_arrive E utf8_ok G maxd limit m chunk old big path maxd' limit' m' chunk' old' big' path' qt rt ss l H es l'). Qed.
Print Assumptions C102_replies.
Example C102_case : generated ex_e /\ canonical ex_e 100 1 0 ex_value /\ writable ex_e any_utf8 100 0 ex_value /\ Forall no_write ex_listen /\
  (exists l p, ex_client ex_talk = Ok l /\ opine true true l at_first = Good p /\ some_of accepted l = [ex_value; ex_value] /\ delivered (some_of took l) (some_of arrived ex_turns) /\
    (exists l', ex_stream in_turn ex_turns = Ok l' /\ delivered (some_of sent l') (some_of put l)) /\
    some_of (fun i => match i with Gets g => Some g | _ => None end) l = [(s_ok, Some ex_value); (s_ok, Some ex_value); (s_ok, Some ex_value)]) /\
  (exists l p, ex_client_of ex_value ex_listen = Ok l /\ opine true true l with_request = Good p /\ length (some_of took l) = 1%nat /\ length (some_of put l) = 1%nat).
Proof. split; [apply ex_generated; discriminate|]. exact (conj ex_canonical (conj ex_writable (conj listen_none (conj talk_runs listen_runs)))). Qed.
