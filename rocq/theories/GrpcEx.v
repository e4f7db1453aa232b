(** Calls over gRPC with the example message: cases for the theorems and handlers for which
    the rules of the library are broken. *)
Require Import Verif.Bits Verif.Varint Verif.Schema Verif.Archive Verif.Decode Verif.Encode Verif.DecodeSafe Verif.WellTyped Verif.RoundTrip Verif.ExampleSchema Verif.ExampleMessage Verif.ExampleRegion Verif.Output Verif.Region Verif.RegionMain.
Require Import Verif.Grpc Verif.GrpcSpec Verif.Grpc1.
Local Open Scope Z_scope.

Notation ex_e := (ex_env UBytes).
(** The client in chunks of 20 bytes, the server in one slice *)
Notation ex_call := (async_call ex_e any_utf8 100 100 Chunked 20 (fun _ => 0) false CopyRaw 0 0).
Notation ex_serve := (serve ex_e any_utf8 100 100 Contiguous 20 (fun _ => 0) false CopyRaw 0 0).
Definition echo (x : gstatus * option val) : reply := match snd x with Some v => RMessage v s_ok | None => RStatus (fst x) end.
(** The network cuts the request and the response anew. *)
Definition recut (b : buffer) : buffer := match b with Slices l => Slices [firstn 7 (concat l); skipn 7 (concat l)] | _ => b end.
Definition ex_answer (b : buffer) : gstatus * buffer :=
  match ex_serve echo (default_msg ex_e 0) (recut b) with Ok (s, r) => (s, recut r) | _ => (s_unread, NoBuffer) end.
Lemma recut_same b : same_bytes b (recut b).
Proof. destruct b as [|l|]; [reflexivity| |reflexivity]. unfold recut, same_bytes. cbn [concat]. rewrite app_nil_r. symmetry. apply firstn_skipn. Qed.
Lemma ex_answers b : carries ex_e any_utf8 100 0 ex_value b -> exists request s response, same_bytes b request /\ ex_serve echo (default_msg ex_e 0) request = Ok (s, response) /\
  fst (ex_answer b) = s /\ same_bytes response (snd (ex_answer b)).
Proof.
  intros (l & bs & -> & Hb & Hl). rewrite ex_encoded in Hb. injection Hb as <-. exists (recut (Slices l)).
  assert (K : exists r, ex_serve echo (default_msg ex_e 0) (recut (Slices l)) = Ok (s_ok, r)) by (unfold recut; rewrite Hl; eexists; vm_compute; reflexivity).
  destruct K as (r & K). exists s_ok, r. split; [apply recut_same|]. split; [exact K|]. unfold ex_answer. rewrite K. split; [reflexivity|apply recut_same].
Qed.
Lemma ex_called : ex_call ex_answer (default_msg ex_e 0) ex_value = Ok [(s_ok, Some ex_value)].
Proof. vm_compute. reflexivity. Qed.
(** A limit of nesting the message exceeds *)
Lemma ex_too_deep : encode_bytes ex_e any_utf8 0 0 ex_value = Err BadMessage.
Proof. vm_compute. reflexivity. Qed.

(** ** Handlers *)
Notation ex_stream H es := (stream ex_e any_utf8 100 100 Chunked 20 (fun _ => 0) false CopyRaw 0 0 H es).
Definition request_in (g : gstatus * option val) (k : val -> list action) : list action := match snd g with Some v => k v | None => [AFinish (fst g)] end.
(** Answers each request, then reads the next one. *)
Definition in_turn : handler :=
  Handler unit (tt, [ARead]) (fun _ g => (tt, request_in g (fun v => [AWrite v]))) (fun _ => (tt, [ARead])) None None None (fun _ => (tt, [])).
(** Reads the next request while it answers. *)
Definition ahead : handler :=
  Handler unit (tt, [ARead]) (fun _ g => (tt, request_in g (fun v => [AWrite v; ARead]))) (fun _ => (tt, [])) None None None (fun _ => (tt, [])).
(** The same with functions for every failure, of which the first one finishes. *)
Definition once (x : bool) : (bool * list action) * bool := ((true, if x then [] else [AFinish s_cancelled]), true).
Definition careful : handler :=
  Handler bool (false, [ARead]) (fun x g => (x, request_in g (fun v => [AWrite v; ARead]))) (fun x => (x, [])) (Some once) (Some once) (Some once) (fun x => (x, [])).
(** Finishes when the first message is sent, although a read is outstanding. *)
Definition early : handler :=
  Handler unit (tt, [ARead; AWrite ex_value]) (fun _ _ => (tt, [])) (fun _ => (tt, [AFinish s_ok])) None None None (fun _ => (tt, [])).
(** Writes a message and finishes. *)
Definition final : handler :=
  Handler unit (tt, [AWrite ex_value; AFinish s_ok]) (fun _ _ => (tt, [])) (fun _ => (tt, [])) None None None (fun _ => (tt, [])).

Definition ex_request : event := EReadDone true (Slices [firstn 30 ex_written; skipn 30 ex_written]) false false.
Definition ex_turns : list event := [ex_request; EWriteDone true false; ex_request; EWriteDone true false; EReadDone false NoBuffer false false; ECancel].
Definition ex_broken : list event := [ex_request; EReadDone false NoBuffer true true; EWriteDone false true].

Lemma ex_writable : writable ex_e any_utf8 100 0 ex_value.
Proof. split; [exact ex_wt|]. exists ex_written. exact ex_encoded. Qed.
Lemma in_turn_runs : exists l, ex_stream in_turn ex_turns = Ok l /\ some_of written l = [ex_value; ex_value] /\ stays_calm l idle = true /\ seen_by_library l = Fine (Out false false true) /\ seen_by_handler l = Fine idle /\
  Forall (writable ex_e any_utf8 100 0) (some_of written l).
Proof.
  eexists. split; [vm_compute; reflexivity|]. split; [vm_compute; reflexivity|]. split; [vm_compute; reflexivity|]. split; [vm_compute; reflexivity|]. split; [vm_compute; reflexivity|].
  match goal with |- Forall ?P ?l => assert (K : l = [ex_value; ex_value]) by (vm_compute; reflexivity); rewrite K end. constructor; [exact ex_writable|]. constructor; [exact ex_writable|constructor].
Qed.
Lemma careful_runs : exists l, ex_stream careful ex_broken = Ok l /\ some_of written l = [ex_value] /\ seen_by_library l = Fine (Out false false true).
Proof. eexists. split; [vm_compute; reflexivity|]. split; vm_compute; reflexivity. Qed.
Lemma ahead_breaks : exists l, ex_stream ahead ex_broken = Ok l /\ some_of written l = [ex_value] /\ seen_by_handler l = Fine idle /\ seen_by_library l = Broken.
Proof. eexists. split; [vm_compute; reflexivity|]. split; [vm_compute; reflexivity|]. split; vm_compute; reflexivity. Qed.
Lemma early_breaks : exists l, ex_stream early [EWriteDone true false; EReadDone false NoBuffer false false] = Ok l /\ some_of written l = [ex_value] /\
  seen_by_handler l = Fine (Out false false true) /\ seen_by_library l = Broken.
Proof. eexists. split; [vm_compute; reflexivity|]. split; [vm_compute; reflexivity|]. split; vm_compute; reflexivity. Qed.
Lemma final_breaks : exists l, stream ex_e any_utf8 0 100 Chunked 20 (fun _ => 0) false CopyRaw 0 0 final [] = Ok l /\ seen_by_handler l = Fine (Out false true true) /\ seen_by_library l = Broken.
Proof. eexists. split; [vm_compute; reflexivity|]. split; vm_compute; reflexivity. Qed.
