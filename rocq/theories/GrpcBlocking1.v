(** Blocking unary calls: proofs. *)
Require Import Verif.Bits Verif.Varint Verif.Schema Verif.Archive Verif.Decode Verif.Encode Verif.RoundTrip Verif.DecodeSafe Verif.WellTyped Verif.Output Verif.Region.
Require Import Verif.Grpc Verif.GrpcSpec Verif.Grpc1 Verif.Grpc2 Verif.GrpcBlocking.
Local Open Scope Z_scope.

Section Blocking.
  Context (E : env) (utf8_ok : bytes -> bool) (maxd limit : Z) (m : mode) (chunk : nat) (old : nat -> Z) (big : bool) (path : copy_path) (qt rt : nat).
  Notation call := (blocking_call E utf8_ok maxd limit m chunk old big path qt rt).
  Lemma blocking_unwritable answer cur v e : encode_bytes E utf8_ok maxd qt v = Err e -> call answer cur v = Ok ([], (s_unwritten, Some cur)).
  Proof. intros He. unfold blocking_call, trait_serialize. rewrite (write_err E utf8_ok maxd m chunk old qt v NoBuffer e He). reflexivity. Qed.
  Lemma blocking_seen answer cur v bs : generated E -> m_entry (desc_of E rt) = false -> (0 < chunk)%nat -> wt_msg E utf8_ok qt v -> encode_bytes E utf8_ok maxd qt v = Ok bs ->
    (forall b, usable (snd (answer b))) ->
    exists b, carries E utf8_ok maxd qt v b /\ call answer cur v =
      Ok ([b], let '(s, response) := answer b in
               let '(s', w) := match response with NoBuffer => (s_no_message, Some cur) | _ => seen E utf8_ok limit rt cur response end in
               (if is_ok s then if is_ok s' then s else s_no_message else s, w)).
  Proof.
    intros G He Hc Hw Hb Hu. destruct (write_ok E utf8_ok maxd m chunk old qt v NoBuffer bs (generated_legal E G) Hc Hw Hb) as (l & Hl & Hx). exists (Slices l). split; [exists l, bs; auto|].
    unfold blocking_call, trait_serialize. rewrite Hl. cbn [bind is_ok s_ok fst Z.eqb]. specialize (Hu (Slices l)). destruct (answer (Slices l)) as [s response]. cbn [snd] in Hu.
    destruct response as [|y|]; [destruct (is_ok s); reflexivity|..]; unfold trait_deserialize; rewrite (seen_is E utf8_ok limit big path rt cur _ (gen_safe E G) He Hu); cbn [bind];
      destruct (seen E utf8_ok limit rt cur _) as [s' w]; cbn [bind]; destruct (is_ok s), (is_ok s'); reflexivity.
  Qed.
  (** Success *)
  Lemma blocking_ok answer cur v sent s w : generated E -> m_entry (desc_of E rt) = false -> (0 < chunk)%nat -> wt_msg E utf8_ok qt v -> (forall b, usable (snd (answer b))) ->
    call answer cur v = Ok (sent, (s, w)) -> is_ok s = true ->
    exists b l x, sent = [b] /\ carries E utf8_ok maxd qt v b /\ answer b = (s, Slices l) /\ decode_bytes E utf8_ok limit rt (default_msg E rt) (concat l) = Ok x /\ w = Some x.
  Proof.
    intros G He Hc Hw Hu H Hs. destruct (encode_total E utf8_ok maxd (generated_legal E G) qt v Hw) as [(bs & Hb)|(e & Hb)].
    - destruct (blocking_seen answer cur v bs G He Hc Hw Hb Hu) as (b & Hcb & K). rewrite K in H. clear K. destruct (answer b) as [s1 response] eqn:Ha. destruct response as [|y|]; cbn [seen] in H.
      + cbn [is_ok s_no_message fst Z.eqb] in H. change (12 =? 0) with false in H. cbv iota in H. destruct (is_ok s1) eqn:H1; injection H as <- <- <-; [discriminate Hs|congruence].
      + destruct (decode_bytes E utf8_ok limit rt (default_msg E rt) (content (Slices y))) as [x|e| | |] eqn:D; cbn [is_ok s_ok s_unread fst] in H; change (0 =? 0) with true in H; change (13 =? 0) with false in H; cbv iota in H; destruct (is_ok s1) eqn:H1; injection H as <- <- <-; try discriminate Hs; try congruence.
        exists b, y, x. auto.
      + cbn [is_ok s_compressed fst] in H. change (3 =? 0) with false in H. cbv iota in H. destruct (is_ok s1) eqn:H1; injection H as <- <- <-; [discriminate Hs|congruence].
    - rewrite (blocking_unwritable answer cur v e Hb) in H. injection H as <- <- <-. discriminate Hs.
  Qed.
End Blocking.

Lemma blocking_round E utf8_ok maxd limit m chunk old big path maxd' limit' m' chunk' old' big' path' qt rt h answer cur cur' v w bs bs' :
  generated E -> m_entry (desc_of E qt) = false -> m_entry (desc_of E rt) = false -> maxd <= limit' -> maxd' <= limit -> (0 < chunk)%nat -> (0 < chunk')%nat ->
  wt_msg E utf8_ok qt v -> canonical E limit' 1 qt v -> encode_bytes E utf8_ok maxd qt v = Ok bs ->
  wt_msg E utf8_ok rt w -> canonical E limit 1 rt w -> encode_bytes E utf8_ok maxd' rt w = Ok bs' ->
  h (s_ok, Some v) = RMessage w s_ok ->
  (forall b, carries E utf8_ok maxd qt v b -> exists request s response, same_bytes b request /\ serve E utf8_ok maxd' limit' m' chunk' old' big' path' qt rt h cur' request = Ok (s, response) /\
     fst (answer b) = s /\ same_bytes response (snd (answer b))) ->
  exists b, blocking_call E utf8_ok maxd limit m chunk old big path qt rt answer cur v = Ok ([b], (s_ok, Some w)).
Proof.
  intros G Hq Hr Hd Hd' Hc Hc' Hw Hk Hb Hw' Hk' Hb' Hh Ha.
  destruct (write_ok E utf8_ok maxd m chunk old qt v NoBuffer bs (generated_legal E G) Hc Hw Hb) as (l & Hl & Hx). exists (Slices l).
  destruct (Ha (Slices l) ltac:(exists l, bs; auto)) as (request & s & response & S1 & S2 & S3 & S4).
  destruct (carried E utf8_ok maxd limit' m chunk old big' path' qt v cur' NoBuffer request bs G Hq Hd Hc Hw Hk Hb) as (l0 & Hl0 & R).
  rewrite Hl in Hl0. injection Hl0 as <-. unfold serve in S2. rewrite (R S1) in S2. cbn [bind] in S2. rewrite Hh in S2.
  destruct (answer (Slices l)) as [s1 response'] eqn:Hans. cbn [fst snd] in S3, S4. subst s1.
  destruct (carried E utf8_ok maxd' limit m' chunk' old' big path rt w cur NoBuffer response' bs' G Hr Hd' Hc' Hw' Hk' Hb') as (l' & Hl' & R').
  rewrite Hl' in S2. cbn [bind is_ok s_ok fst Z.eqb] in S2. injection S2 as <- <-. specialize (R' S4).
  unfold blocking_call, trait_serialize. rewrite Hl. cbn [bind is_ok s_ok fst Z.eqb]. rewrite Hans. unfold trait_deserialize. destruct response' as [|y|]; [discriminate S4| |discriminate S4]. rewrite R'. reflexivity.
Qed.

(** The two kinds of call *)
Lemma blocking_async E utf8_ok maxd limit m chunk old big path qt rt answer cur v sent s w : generated E -> m_entry (desc_of E rt) = false -> (0 < chunk)%nat -> wt_msg E utf8_ok qt v -> (forall b, usable (snd (answer b))) ->
  blocking_call E utf8_ok maxd limit m chunk old big path qt rt answer cur v = Ok (sent, (s, w)) -> is_ok s = true ->
  async_call E utf8_ok maxd limit m chunk old big path qt rt answer cur v = Ok [(s, w)].
Proof.
  intros G He Hc Hw Hu H Hs. destruct (blocking_ok E utf8_ok maxd limit m chunk old big path qt rt answer cur v sent s w G He Hc Hw Hu H Hs) as (b & l & x & -> & (l0 & bs & -> & Hb & Hl) & Ha & D & ->).
  destruct (write_ok E utf8_ok maxd m chunk old qt v NoBuffer bs (generated_legal E G) Hc Hw Hb) as (l1 & Hl1 & Hx).
  assert (l1 = l0). { unfold blocking_call, trait_serialize in H. rewrite Hl1 in H. cbn [bind is_ok s_ok fst Z.eqb] in H. destruct (answer (Slices l1)) as [s1 r]. destruct r; [injection H as -> _; reflexivity|..]; unfold trait_deserialize in H; destruct (read_message _ _ _ _ _ _ _ _) as [[? ?]| | | |]; try discriminate H; cbn [bind] in H; injection H as -> _; reflexivity. }
  subst l1. unfold async_call, prepare. cbn [r_alive r_request]. rewrite Hl1. cbn [bind is_ok s_ok fst Z.eqb start_call r_alive r_bound andb r_request]. rewrite Ha. unfold on_done. cbn [r_alive]. rewrite Hs. specialize (Hu (Slices l0)). rewrite Ha in Hu. cbn [snd] in Hu.
  rewrite (seen_is E utf8_ok limit big path rt cur _ (gen_safe E G) He Hu). unfold seen. cbn [content]. rewrite D. reflexivity.
Qed.
