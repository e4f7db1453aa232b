(** Streams between a client and a server with the example message. *)
Require Import Verif.Bits Verif.Varint Verif.Schema Verif.Archive Verif.Decode Verif.Encode Verif.DecodeSafe Verif.WellTyped Verif.RoundTrip Verif.ExampleSchema Verif.ExampleMessage Verif.ExampleRegion Verif.Output Verif.Region Verif.RegionMain.
Require Import Verif.Grpc Verif.GrpcSpec Verif.Grpc1 Verif.GrpcEx Verif.GrpcClient Verif.GrpcClientSpec.
Local Open Scope Z_scope.

Notation ex_client := (client_stream ex_e any_utf8 100 100 Chunked 20 (fun _ => 0) false CopyRaw 0 0).
Notation ex_client_of := (client_stream_of ex_e any_utf8 100 100 Chunked 20 (fun _ => 0) false CopyRaw 0 0).
Definition ex_reply : buffer := Slices [firstn 7 ex_written; skipn 7 ex_written].
Definition ex_empty : val := default_msg ex_e 0.
(** Two requests, each followed by the response to it, and the end *)
Definition ex_talk : list cstep :=
  [CWrite ex_value false; CStart; CRead; LTake; LWritten true; LPut ex_reply; LRead true; CGet ex_empty;
   CWrite ex_value true; CRead; LTake; LWritten true; LPut ex_reply; LRead true; CGet ex_empty; CRead; LRead false; CGet ex_empty; LDone s_ok].
(** One request, and what is sent back *)
Definition ex_listen : list cstep := [CRead; CStart; LTake; LPut ex_reply; LRead true; CGet ex_empty; CRead; LRead false; LWritten true; LDone s_ok].

Lemma reply_usable : usable ex_reply.
Proof. split; [vm_compute; repeat constructor; discriminate|vm_compute; reflexivity]. Qed.
Lemma talk_usable : Forall usable_step ex_talk /\ Forall usable_step ex_listen.
Proof. split; unfold ex_talk, ex_listen; repeat (apply Forall_cons; [first [exact reply_usable|exact Logic.I]|]); apply Forall_nil. Qed.
Lemma talk_wt : Forall (wt_step (wt_msg ex_e any_utf8 0)) ex_talk.
Proof. unfold ex_talk. repeat (apply Forall_cons; [first [exact ex_wt|exact Logic.I]|]). apply Forall_nil. Qed.
Lemma listen_none : Forall no_write ex_listen.
Proof. unfold ex_listen. repeat (apply Forall_cons; [exact Logic.I|]). apply Forall_nil. Qed.

Lemma talk_runs : exists l p, ex_client ex_talk = Ok l /\ opine true true l at_first = Good p /\ some_of accepted l = [ex_value; ex_value] /\
  delivered (some_of took l) (some_of arrived ex_turns) /\
  (exists l', ex_stream in_turn ex_turns = Ok l' /\ delivered (some_of sent l') (some_of put l)) /\
  some_of (fun i => match i with Gets g => Some g | _ => None end) l = [(s_ok, Some ex_value); (s_ok, Some ex_value); (s_ok, Some ex_value)].
Proof.
  eexists. eexists. split; [vm_compute; reflexivity|]. split; [vm_compute; reflexivity|]. split; [vm_compute; reflexivity|].
  split; [exists 2%nat; vm_compute; repeat constructor|]. split; [|vm_compute; reflexivity]. eexists. split; [vm_compute; reflexivity|]. exists 2%nat. vm_compute. repeat constructor.
Qed.
Lemma listen_runs : exists l p, ex_client_of ex_value ex_listen = Ok l /\ opine true true l with_request = Good p /\ length (some_of took l) = 1%nat /\ length (some_of put l) = 1%nat.
Proof. eexists. eexists. split; [vm_compute; reflexivity|]. split; [vm_compute; reflexivity|]. split; vm_compute; reflexivity. Qed.
(** A write before the one before it is done: the library may find the second message twice. *)
Lemma overlap_runs : exists l b, ex_client [CStart; CWrite ex_value false; CWrite ex_empty false; LTake] = Ok l /\ some_of accepted l = [ex_value; ex_empty] /\ some_of took l = [b] /\ content b = [] /\ opine true true l at_first = Against.
Proof. eexists. eexists. split; [vm_compute; reflexivity|]. split; [vm_compute; reflexivity|]. split; [vm_compute; reflexivity|]. split; vm_compute; reflexivity. Qed.
