(** Streams from end to end: proofs. *)
Require Import Verif.Bits Verif.Varint Verif.Schema Verif.Archive Verif.Decode Verif.Encode Verif.RoundTrip Verif.DecodeSafe Verif.WellTyped Verif.EncodeProofs Verif.EncodeMain Verif.Output Verif.OutputProofs Verif.SimMain Verif.Region Verif.RegionMain Verif.RegionProps.
Require Import Verif.Grpc Verif.GrpcSpec Verif.Grpc1 Verif.Grpc2 Verif.GrpcClient Verif.GrpcClientSpec Verif.GrpcClient1.
Local Open Scope Z_scope.

Lemma forall2_len {X Y} (R : X -> Y -> Prop) a b : Forall2 R a b -> length a = length b.
Proof. induction 1; cbn; congruence. Qed.
Lemma forall2_firstn {X Y} (R : X -> Y -> Prop) a b : Forall2 R a b -> forall n, Forall2 R (firstn n a) (firstn n b).
Proof. induction 1; intros [|n]; cbn; constructor; auto. Qed.
Lemma forall2_comp {X Y Z} (R : X -> Y -> Prop) (S : Y -> Z -> Prop) a b : Forall2 R a b -> forall c, Forall2 S b c -> Forall2 (fun x z => exists y, R x y /\ S y z) a c.
Proof. induction 1; intros c Hc; inversion Hc; subst; constructor; eauto. Qed.
Lemma forall2_and {X Y} (P : X -> Prop) (R S : X -> Y -> Prop) a b : (forall x y, P x -> R x y -> S x y) -> Forall P a -> Forall2 R a b -> Forall2 S a b.
Proof. intros K HP H. revert HP. induction H; intros HP; inversion HP; subst; constructor; auto. Qed.
Lemma forall_firstn {X} (P : X -> Prop) a : Forall P a -> forall n, Forall P (firstn n a).
Proof. induction 1; intros [|n]; cbn; constructor; auto. Qed.

(** What arrives of what was taken *)
Lemma delivered_carries {R : val -> buffer -> Prop} acc tk got : (exists n, Forall2 R (firstn n acc) tk) -> delivered tk got ->
  exists n, length got = length (firstn n acc) /\ Forall2 (fun v b => exists b0, R v b0 /\ same_bytes b0 b) (firstn n acc) got.
Proof.
  intros (n & H) (k & D). exists (Nat.min k n). rewrite <- firstn_firstn. pose proof (forall2_comp _ _ _ _ (forall2_firstn _ _ _ H k) _ D) as K. split; [symmetry; exact (forall2_len _ _ _ K)|exact K].
Qed.

Section Ends.
  Context (E : env) (utf8_ok : bytes -> bool).
  Hypothesis G : generated E.

  Lemma carried_seen maxd limit ty v cur b0 b : m_entry (desc_of E ty) = false -> maxd <= limit -> wt_msg E utf8_ok ty v -> canonical E limit 1 ty v ->
    carries E utf8_ok maxd ty v b0 -> same_bytes b0 b -> seen E utf8_ok limit ty cur b = (s_ok, Some v).
  Proof.
    intros He Hd Hw Hk Hc Hs. pose proof (carries_read E utf8_ok maxd limit false CopyRaw ty v cur b0 b G He Hd Hw Hk Hc Hs) as K.
    rewrite seen_is in K; [injection K as K; exact K|apply gen_safe; exact G|exact He|]. destruct Hc as (l & bs & -> & Hb & Hl). destruct (same_content _ _ Hs) as [Hx _].
    apply (encode_usable E utf8_ok maxd (fun _ => 0) ty v bs b (generated_legal E G) Hw Hb). rewrite <- Hx. exact Hl.
  Qed.

  (** ** Requests *)
  Section Server.
    Context (limit : Z) (qt : nat) (H : handler).
    Lemma acts_of l : some_of act_of (filter (fun i => negb (is_call i)) l) = some_of act_of l.
    Proof. induction l as [|[]]; cbn; congruence. Qed.
    Lemma acts_map l : some_of act_of (map Act l) = l.
    Proof. induction l; cbn; congruence. Qed.
    Lemma script_given es : forall h vs, Forall2 (fun v b => seen E utf8_ok limit qt (default_msg E qt) b = (s_ok, Some v)) vs (some_of arrived es) ->
      some_of act_of (script E utf8_ok limit qt H h es) = given E utf8_ok limit qt H h es vs.
    Proof.
      induction es as [|e t IH]; intros h vs K; [reflexivity|]. cbn [script given]. destruct (arrived e) as [b|] eqn:A.
      - cbn [some_of] in K. rewrite A in K. inversion K as [|v ? vs' ? Hv Hvs]; subst. destruct e as [[] q c1 c2| |]; try discriminate. injection A as ->. cbn [told failure_of]. rewrite Hv. destruct (h_read_ok H h (s_ok, Some v)) as [h' acts].
        cbn [some_of act_of app]. rewrite some_app, acts_map. cbn [app]. rewrite (IH h' vs' Hvs). reflexivity.
      - cbn [some_of] in K. rewrite A in K. destruct (told E utf8_ok limit qt H e h) as [[h' acts] lv]. cbn [some_of act_of app]. rewrite !some_app, acts_map.
        replace (some_of act_of (if lv then [Left] else [])) with (@nil action) by (destruct lv; reflexivity). cbn [app]. rewrite (IH h' vs K). reflexivity.
    Qed.
  End Server.

  Lemma requests_arrive maxd limit m chunk old big path maxd' limit' m' chunk' old' big' path' qt rt rs ss l p H es l' :
    m_entry (desc_of E qt) = false -> maxd <= limit' -> (0 < chunk)%nat -> (0 < chunk')%nat ->
    client_stream E utf8_ok maxd limit m chunk old big path qt rt ss = Ok l -> Forall (wt_step (wt_msg E utf8_ok qt)) ss -> opine true rs l at_first = Good p ->
    Forall (fun v => wt_msg E utf8_ok qt v /\ canonical E limit' 1 qt v) (some_of accepted l) ->
    stream E utf8_ok maxd' limit' m' chunk' old' big' path' qt rt H es = Ok l' -> Forall usable_event es -> delivered (some_of took l) (some_of arrived es) ->
    exists n, length (some_of arrived es) = length (firstn n (some_of accepted l)) /\
      some_of act_of l' = snd (h_start H) ++ given E utf8_ok limit' qt H (fst (h_start H)) es (firstn n (some_of accepted l)).
  Proof.
    intros He Hd HC HC' Hr Hw O Hk Hs Hu D. pose proof (generated_legal E G) as HN. pose proof (gen_safe E G) as HS.
    pose proof (stream_taken E utf8_ok maxd limit m chunk old big path qt rt HN HC rs ss l p Hr Hw O) as T. destruct (delivered_carries _ _ _ T D) as (n & Hn & K). exists n. split; [exact Hn|].
    destruct (stream_script E utf8_ok maxd' limit' m' chunk' old' big' path' qt rt HN HC' HS He H es l' Hu Hs) as [F _]. rewrite <- acts_of, F, some_app, acts_map. f_equal. apply script_given.
    refine (forall2_and _ _ _ _ _ _ (forall_firstn _ _ Hk n) K). intros v b [Hv Hc] (b0 & Hb & Hx). exact (carried_seen maxd limit' qt v _ b0 b He Hd Hv Hc Hb Hx).
  Qed.
  Lemma request_taken maxd limit m chunk old big path qt rt rs v bs ss l p : (0 < chunk)%nat -> wt_msg E utf8_ok qt v -> encode_bytes E utf8_ok maxd qt v = Ok bs ->
    client_stream_of E utf8_ok maxd limit m chunk old big path qt rt v ss = Ok l -> Forall no_write ss -> opine true rs l with_request = Good p ->
    some_of took l = [] \/ exists b, some_of took l = [b] /\ carries E utf8_ok maxd qt v b.
  Proof.
    intros HC Hv Hb Hr Hn O. pose proof (generated_legal E G) as HN.
    assert (Hw : Forall (wt_step (wt_msg E utf8_ok qt)) ss) by (refine (Forall_impl _ _ Hn); intros [] Hx; try exact Logic.I; contradiction).
    destruct (stream_of_taken E utf8_ok maxd limit m chunk old big path qt rt HN HC rs v ss l p bs Hv Hb Hr Hw O) as (n & T).
    assert (A : some_of accepted l = []).
    { destruct (run_of_steps E utf8_ok maxd limit m chunk old big path qt rt HN HC v ss l bs Hv Hb Hr) as (b & c & _ & S). clear -S Hn. revert l c S. generalize (Client true b NoBuffer). induction Hn as [|s t Hs Ht IH]; intros c0 l c S; cbn [c_steps] in S; [injection S as <- <-; reflexivity|].
      destruct (c_step _ _ _ _ _ _ _ _ _ _ _ s c0) as [[y c1]| | | |] eqn:Y; try discriminate. cbn [bind] in S. destruct (c_steps _ _ _ _ _ _ _ _ _ _ _ t c1) as [[z c2]| | | |] eqn:Z; try discriminate. cbn [bind] in S. injection S as <- <-.
      cbn [some_of accepted]. rewrite some_app, (IH _ _ _ Z), app_nil_r. destruct s; try contradiction; cbn [c_step] in Y; unfold c_ask in Y; try (destruct (c_bound c0); [|discriminate]); try (injection Y as <- <-; reflexivity).
      destruct (read_message _ _ _ _ _ _ _ _); try discriminate. cbn [bind] in Y. injection Y as <- <-. reflexivity. }
    rewrite A in T. destruct n as [|n]; cbn [firstn] in T; [inversion T; left; reflexivity|]. rewrite firstn_nil in T. inversion T as [|? b0 ? ? Hb0 Ht]; subst. inversion Ht; subst. right. exists b0. auto.
  Qed.

  (** ** Responses *)
  Lemma follow_gets maxd limit qt rt ss : forall b l ws cur,
    follow E utf8_ok maxd limit qt rt ss b l -> Forall (wt_step (wt_msg E utf8_ok qt)) ss -> Forall2 (fun w q => forall c, seen E utf8_ok limit rt c q = (s_ok, Some w)) ws (some_of put l) -> (forall w, cur = Some w -> forall c, seen E utf8_ok limit rt c b = (s_ok, Some w)) -> in_turn_gets ws cur l.
  Proof.
    induction ss as [|s t IH]; intros b l ws cur F Hw K Hc; cbn [follow] in F; [subst l; exact Logic.I|]. destruct F as (x & y & -> & Hx & Hy). inversion Hw as [|? ? Hs Ht]; subst.
    destruct s; try (cbn [follows] in Hx; subst x; cbn [app some_of put] in K |- *; cbn [in_turn_gets]; exact (IH b y ws cur Hy Ht K Hc)).
    - cbn [follows] in Hx. destruct (Hx Hs) as [[_ ->]|[_ ->]]; cbn [app some_of put] in K |- *; cbn [in_turn_gets]; exact (IH b y ws cur Hy Ht K Hc).
    - cbn [follows] in Hx. subst x. cbn [app some_of put] in K |- *. cbn [in_turn_gets]. split; [intros w Hcw; apply (Hc w Hcw)|]. exact (IH b y ws cur Hy Ht K Hc).
    - cbn [follows] in Hx. destruct Hx as (q & ->). cbn [app some_of put] in K |- *; cbn [in_turn_gets]; exact (IH b y ws cur Hy Ht K Hc).
    - cbn [follows] in Hx. subst x. cbn [app some_of put] in K |- *. inversion K as [|w ? ws' ? Hv Hvs]; subst. cbn [in_turn_gets]. apply (IH b0 y ws' (Some w) Hy Ht Hvs). intros w' Hw'. injection Hw' as <-. exact Hv.
  Qed.
  Lemma replies_arrive maxd limit m chunk old big path maxd' limit' m' chunk' old' big' path' qt rt ss l H es l' :
    m_entry (desc_of E rt) = false -> maxd' <= limit -> (0 < chunk)%nat -> (0 < chunk')%nat ->
    client_stream E utf8_ok maxd limit m chunk old big path qt rt ss = Ok l \/
      (exists v bs, wt_msg E utf8_ok qt v /\ encode_bytes E utf8_ok maxd qt v = Ok bs /\ client_stream_of E utf8_ok maxd limit m chunk old big path qt rt v ss = Ok l) ->
    Forall (wt_step (wt_msg E utf8_ok qt)) ss -> Forall usable_step ss ->
    stream E utf8_ok maxd' limit' m' chunk' old' big' path' qt rt H es = Ok l' -> Forall (writable E utf8_ok maxd' rt) (some_of written l') -> Forall (canonical E limit 1 rt) (some_of written l') ->
    delivered (some_of sent l') (some_of put l) ->
    exists n, length (some_of put l) = length (firstn n (some_of written l')) /\ in_turn_gets (firstn n (some_of written l')) None l.
  Proof.
    intros He Hd HC HC' Hr Hw Hu Hs Hwr Hk D. pose proof (generated_legal E G) as HN. pose proof (gen_safe E G) as HS.
    pose proof (stream_carries E utf8_ok maxd' limit' m' chunk' old' big' path' qt rt HN HC' H es l' Hs Hwr) as T.
    assert (T' : exists n, Forall2 (carries E utf8_ok maxd' rt) (firstn n (some_of written l')) (some_of sent l')) by (exists (length (some_of written l')); rewrite firstn_all; exact T).
    destruct (delivered_carries _ _ _ T' D) as (n & Hn & K). exists n. split; [exact Hn|].
    assert (F : follow E utf8_ok maxd limit qt rt ss NoBuffer l).
    { destruct Hr as [Hr|(v & bs & Hv & Hb & Hr)]; [exact (stream_follow E utf8_ok maxd limit m chunk old big path qt rt HN HC ss l HS He Hu Hr)|exact (stream_of_follow E utf8_ok maxd limit m chunk old big path qt rt HN HC v ss l bs HS He Hv Hb Hu Hr)]. }
    apply (follow_gets maxd limit qt rt ss NoBuffer l _ None F Hw); [|discriminate].
    assert (Q : Forall (fun w => wt_msg E utf8_ok rt w /\ canonical E limit 1 rt w) (some_of written l')).
    { apply Forall_forall. intros w Hi. split; [exact (proj1 (proj1 (Forall_forall _ _) Hwr w Hi))|exact (proj1 (Forall_forall _ _) Hk w Hi)]. }
    refine (forall2_and _ _ _ _ _ _ (forall_firstn _ _ Q n) K). intros v b [Hv Hc] (b0 & Hb & Hx) c. exact (carried_seen maxd' limit rt v c b0 b He Hd Hv Hc Hb Hx).
  Qed.
End Ends.
