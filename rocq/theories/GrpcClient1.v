(** Streams in the client: proofs. *)
Require Import Verif.Bits Verif.Varint Verif.Schema Verif.Archive Verif.Decode Verif.Encode Verif.RoundTrip Verif.DecodeSafe Verif.WellTyped Verif.EncodeProofs Verif.EncodeMain Verif.Output Verif.OutputProofs Verif.SimMain Verif.Region Verif.RegionMain Verif.RegionProps.
Require Import Verif.Grpc Verif.GrpcSpec Verif.Grpc1 Verif.Grpc2 Verif.GrpcClient Verif.GrpcClientSpec.
Local Open Scope Z_scope.

Lemma opine_app lib rs a : forall x b, opine lib rs (a ++ b) x = match opine lib rs a x with Good y => opine lib rs b y | v => v end.
Proof. induction a as [|i t IH]; intros x b; [reflexivity|]. cbn [app opine]. destruct (opined lib rs i x); [apply IH|reflexivity..]. Qed.

Section Client.
  Context (E : env) (utf8_ok : bytes -> bool) (maxd limit : Z) (m : mode) (chunk : nat) (old : nat -> Z) (big : bool) (path : copy_path) (qt rt : nat).
  Notation wr := (write_message E utf8_ok maxd m chunk old qt).
  Notation step := (c_step E utf8_ok maxd limit m chunk old big path qt rt).
  Notation steps := (c_steps E utf8_ok maxd limit m chunk old big path qt rt).
  Notation wt := (wt_msg E utf8_ok qt).
  Notation carr := (carries E utf8_ok maxd qt).
  Notation run := (client_stream E utf8_ok maxd limit m chunk old big path qt rt).
  Notation run_of := (client_stream_of E utf8_ok maxd limit m chunk old big path qt rt).

  Lemma wr_status v b s b' : wr v b = Ok (s, b') -> s = s_ok /\ (exists l, b' = Slices l) \/ s = s_unwritten /\ b' = b.
  Proof. unfold write_message. destruct (write_byte_buffer _ _ _ _ _ _ _ _) as [[l|]| | | |]; intros H; inversion H; subst; eauto. Qed.

  (** ** Each step *)
  Lemma step_write v last c x c' : step (CWrite v last) c = Ok (x, c') ->
    (exists b, wr v (c_request c) = Ok (s_ok, b) /\ c_bound c = true /\ x = [Asks (PWrite last); Returns v last s_ok] /\ c' = Client true b (c_response c)) \/
    (wr v (c_request c) = Ok (s_unwritten, c_request c) /\ x = [Returns v last s_unwritten] /\ c' = c).
  Proof.
    cbn [c_step]. destruct (wr v (c_request c)) as [[s b]| | | |] eqn:W; try discriminate. cbn [bind]. destruct (wr_status _ _ _ _ W) as [[-> (l & ->)]|[-> ->]].
    - cbn. unfold c_ask. cbn [c_bound]. destruct (c_bound c) eqn:B; [|discriminate]. cbn. intros H. injection H as <- <-. left. exists (Slices l). auto.
    - cbn. intros H. injection H as <- <-. right. destruct c; auto.
  Qed.
  Lemma step_bound s c x c' : step s c = Ok (x, c') -> c_bound c' = c_bound c.
  Proof.
    destruct s; try (cbn [c_step]; unfold c_ask; intros H; try (destruct (c_bound c) eqn:B; [|discriminate]); injection H as <- <-; cbn [c_bound]; congruence).
    - intros H. destruct (step_write _ _ _ _ _ H) as [(b & _ & B & _ & ->)|(_ & _ & ->)]; [rewrite B|]; reflexivity.
    - cbn [c_step]. destruct (read_message _ _ _ _ _ _ _ _); try discriminate. cbn [bind]. intros H. injection H as <- <-. reflexivity.
  Qed.
  Lemma step_response s c x c' : step s c = Ok (x, c') -> c_response c' = match s with LPut b => b | _ => c_response c end.
  Proof.
    destruct s; try (cbn [c_step]; unfold c_ask; intros H; try (destruct (c_bound c) eqn:B; [|discriminate]); injection H as <- <-; reflexivity).
    - intros H. destruct (step_write _ _ _ _ _ H) as [(b & _ & _ & _ & ->)|(_ & _ & ->)]; reflexivity.
    - cbn [c_step]. destruct (read_message _ _ _ _ _ _ _ _); try discriminate. cbn [bind]. intros H. injection H as <- <-. reflexivity.
  Qed.

  (** ** The rules *)
  Lemma step_rules rs s c x c' : step s c = Ok (x, c') -> forall p, opine true rs (Did s :: x) p = opine false rs (Did s :: x) p.
  Proof.
    intros H p. destruct s; try (cbn [c_step] in H; unfold c_ask in H; try (destruct (c_bound c) eqn:B; [|discriminate]); injection H as <- <-;
      first [reflexivity | cbn [opine opined]; match goal with |- match ?a with _ => _ end = _ => destruct a end; reflexivity]).
    - destruct (step_write _ _ _ _ _ H) as [(b & _ & _ & -> & _)|(_ & -> & _)]; [|reflexivity]. destruct p as [st r u w t cl f d]. change (is_ok s_ok) with true. destruct w, cl, d; reflexivity.
    - cbn [c_step] in H. destruct (read_message _ _ _ _ _ _ _ _); try discriminate. cbn [bind] in H. injection H as <- <-. reflexivity.
  Qed.
  Lemma steps_rules rs ss : forall c x c', steps ss c = Ok (x, c') -> forall p, opine true rs x p = opine false rs x p.
  Proof.
    induction ss as [|s t IH]; intros c x c' H p; cbn [c_steps] in H; [injection H as <- <-; reflexivity|].
    destruct (step s c) as [[y c1]| | | |] eqn:S; try discriminate. cbn [bind] in H. destruct (steps t c1) as [[z c2]| | | |] eqn:T; try discriminate. cbn [bind] in H. injection H as <- <-.
    change (Did s :: y ++ z) with ((Did s :: y) ++ z). rewrite !opine_app, (step_rules rs _ _ _ _ S). destruct (opine false rs (Did s :: y) p); [apply (IH _ _ _ T)|reflexivity..].
  Qed.

  (** ** What follows from the steps *)
  Lemma seen_get cur b g : safe_env E -> m_entry (desc_of E rt) = false -> usable b -> read_message E utf8_ok limit big path rt cur b = Ok g -> g = seen E utf8_ok limit rt cur b.
  Proof. intros HS He Hu H. rewrite seen_is in H by assumption. injection H as <-. reflexivity. Qed.
  Section Well.
  Hypotheses (HN : legal_numbers E) (HC : (0 < chunk)%nat).
  Lemma wr_total v b : wt v -> (exists bs l, encode_bytes E utf8_ok maxd qt v = Ok bs /\ wr v b = Ok (s_ok, Slices l) /\ concat l = bs) \/ (exists e, encode_bytes E utf8_ok maxd qt v = Err e) /\ wr v b = Ok (s_unwritten, b).
  Proof.
    intros Hw. destruct (encode_total E utf8_ok maxd HN qt v Hw) as [(bs & Hb)|(e & He)].
    - left. destruct (write_ok E utf8_ok maxd m chunk old qt v b bs HN HC Hw Hb) as (l & Hl & Hx). exists bs, l. auto.
    - right. split; [exists e; exact He|]. apply write_err with e. exact He.
  Qed.
  Lemma wr_carries v b b' : wt v -> wr v b = Ok (s_ok, b') -> carr v b'.
  Proof. intros Hw H. destruct (wr_total v b Hw) as [(bs & l & Hb & Hl & Hx)|[_ Hl]]; rewrite Hl in H; [|discriminate]. injection H as <-. exists l, bs. auto. Qed.

  Lemma step_follows s c x c' : safe_env E -> m_entry (desc_of E rt) = false -> usable (c_response c) -> step s c = Ok (x, c') -> follows E utf8_ok maxd limit qt rt s (c_response c) x.
  Proof.
    intros HS He Hu H. destruct s; try (cbn [c_step] in H; unfold c_ask in H; try (destruct (c_bound c) eqn:B; [|discriminate]); injection H as <- <-; cbn [follows]; eauto; fail).
    - cbn [follows]. intros Hw. destruct (step_write _ _ _ _ _ H) as [(b & W & _ & -> & _)|(W & -> & _)]; destruct (wr_total v (c_request c) Hw) as [(bs & l & Hb & Hl & _)|[Hb Hl]]; rewrite Hl in W; try discriminate; eauto.
    - cbn [c_step] in H. destruct (read_message _ _ _ _ _ _ _ _) as [g| | | |] eqn:R; try discriminate. cbn [bind] in H. injection H as <- <-. cbn [follows]. rewrite (seen_get _ _ _ HS He Hu R). reflexivity.
  Qed.
  Lemma steps_follow ss : safe_env E -> m_entry (desc_of E rt) = false -> forall c x c', usable (c_response c) -> Forall usable_step ss -> steps ss c = Ok (x, c') -> follow E utf8_ok maxd limit qt rt ss (c_response c) x.
  Proof.
    intros HS He. induction ss as [|s t IH]; intros c x c' Hu Hf H; cbn [c_steps] in H; [injection H as <- <-; reflexivity|].
    destruct (step s c) as [[y c1]| | | |] eqn:S; try discriminate. cbn [bind] in H. destruct (steps t c1) as [[z c2]| | | |] eqn:T; try discriminate. cbn [bind] in H. injection H as <- <-. inversion Hf as [|? ? Hs Ht]; subst.
    cbn [follow]. exists y, z. split; [reflexivity|]. split; [apply (step_follows _ _ _ _ HS He Hu S)|]. rewrite <- (step_response _ _ _ _ S). apply (IH c1 z c2); [|exact Ht|exact T]. rewrite (step_response _ _ _ _ S). destruct s; assumption.
  Qed.
  Lemma steps_total ss : safe_env E -> m_entry (desc_of E rt) = false -> forall c, c_bound c = true -> usable (c_response c) -> Forall usable_step ss -> Forall (wt_step wt) ss -> exists x, steps ss c = Ok x.
  Proof.
    intros HS He. induction ss as [|s t IH]; intros c Hb Hu Hf Hw; [eexists; reflexivity|]. inversion Hf as [|? ? Hs Ht]; subst. inversion Hw as [|? ? Hws Hwt]; subst.
    assert (K : exists y, step s c = Ok y).
    { destruct s; try (cbn [c_step]; unfold c_ask; rewrite ?Hb; eexists; reflexivity).
      - cbn [c_step]. destruct (wr_total v (c_request c) Hws) as [(bs & l & _ & Hl & _)|[_ Hl]]; rewrite Hl; cbn; unfold c_ask; cbn [c_bound]; rewrite ?Hb; eexists; reflexivity.
      - cbn [c_step]. destruct (read_total E utf8_ok limit big path rt cur (c_response c) HS He Hu) as (g & ->). eexists; reflexivity. }
    destruct K as ([y c1] & S). cbn [c_steps]. rewrite S. cbn [bind]. destruct (IH c1) as ([z c2] & T); [rewrite (step_bound _ _ _ _ S); exact Hb| |exact Ht|exact Hwt|].
    { rewrite (step_response _ _ _ _ S). destruct s; assumption. }
    rewrite T. eexists; reflexivity.
  Qed.

  (** ** What the library reads *)
  (** [ad]: what was accepted, [tk]: what was taken *)
  Definition inv (ad : list val) (tk : list buffer) (p : progress) (c : client) : Prop :=
    (exists n, Forall2 carr (firstn n ad) tk) /\
    (p_failed p = false -> if p_writing p && negb (p_taken p) then exists a v, ad = a ++ [v] /\ Forall2 carr a tk /\ carr v (c_request c) else Forall2 carr ad tk).
  Lemma prefix_all (a : list val) tk b : Forall2 carr a tk -> exists n, Forall2 carr (firstn n (a ++ b)) tk.
  Proof. intros H. exists (length a). rewrite firstn_app, Nat.sub_diag, firstn_all, firstn_O, app_nil_r. exact H. Qed.
  Lemma prefix_more (a : list val) tk b : (exists n, Forall2 carr (firstn n a) tk) -> exists n, Forall2 carr (firstn n (a ++ b)) tk.
  Proof.
    intros (n & H). exists (Nat.min n (length a)). rewrite firstn_app. replace (Nat.min n (length a) - length a)%nat with 0%nat by lia. rewrite firstn_O, app_nil_r.
    destruct (Nat.le_gt_cases n (length a)); [rewrite Nat.min_l by lia; exact H|]. rewrite Nat.min_r by lia. rewrite firstn_all. rewrite firstn_all2 in H by lia. exact H.
  Qed.
  Lemma step_inv rs s c x c' ad tk p p' : inv ad tk p c -> wt_step wt s -> step s c = Ok (x, c') -> opine true rs (Did s :: x) p = Good p' ->
    inv (ad ++ some_of accepted (Did s :: x)) (tk ++ some_of took (Did s :: x)) p' c'.
  Proof.
    intros [Hp Hi] Hw H O. destruct p as [st r u w t cl f d]. cbn [p_failed p_writing p_taken] in Hi.
    destruct s; try (cbn [c_step] in H; unfold c_ask in H; try (destruct (c_bound c) eqn:B; [|discriminate]); injection H as <- <-; cbn [opine opined may_ask may_do some_of accepted took] in O |- *; rewrite ?app_nil_r;
      try (match type of O with match (if ?b then _ else _) with _ => _ end = _ => destruct b eqn:Hc end; try discriminate); injection O as <-; split; cbn [p_failed p_writing p_taken c_request]; try exact Hp; try exact Hi; fail).
    - (* CWrite *) destruct (step_write _ _ _ _ _ H) as [(b & W & _ & -> & ->)|(_ & -> & ->)].
      + cbn [opine opined may_ask may_do some_of accepted took] in O |- *. change (is_ok s_ok) with true. cbv iota. rewrite app_nil_r. destruct w; [discriminate|]. destruct cl; [discriminate|]. destruct d; [discriminate|]. cbn in O. injection O as <-. split; [apply prefix_more; exact Hp|].
        cbn [p_failed p_writing p_taken c_request andb negb]. intros Hf. exists ad, v. split; [reflexivity|]. split; [exact (Hi Hf)|]. apply (wr_carries v _ b Hw W).
      + cbn [opine opined may_ask may_do some_of accepted took] in O |- *. change (is_ok s_unwritten) with false. cbv iota. rewrite !app_nil_r. injection O as <-. split; assumption.
    - (* CGet *) cbn [c_step] in H. destruct (read_message _ _ _ _ _ _ _ _) as [g| | | |] eqn:R; try discriminate. cbn [bind] in H. injection H as <- <-. cbn [opine opined may_do some_of accepted took] in O |- *. rewrite !app_nil_r. destruct r; [discriminate|]. injection O as <-. split; assumption.
    - (* LTake *) cbn [c_step] in H. injection H as <- <-. cbn [opine opined may_do some_of accepted took] in O |- *. rewrite app_nil_r. destruct st, w, t, f, d; try discriminate. cbn in O. injection O as <-. destruct (Hi eq_refl) as (a & v & -> & Ha & Hv).
      assert (K : Forall2 carr (a ++ [v]) (tk ++ [c_request c])) by (apply Forall2_app; [exact Ha|constructor; [exact Hv|constructor]]).
      split; [exists (length (a ++ [v])); rewrite firstn_all; exact K|]. cbn. intros _. exact K.
    - (* LWritten *) cbn [c_step] in H. injection H as <- <-. cbn [opine opined may_do some_of accepted took] in O |- *. rewrite !app_nil_r. destruct w; [|discriminate]. destruct ok.
      + destruct t; [|discriminate]. destruct f; [discriminate|]. cbn in O. injection O as <-. split; [exact Hp|]. cbn. cbn in Hi. exact Hi.
      + cbn in O. injection O as <-. split; [exact Hp|]. cbn [p_failed]. destruct f; discriminate.
  Qed.
  Lemma steps_inv rs ss : forall c x c' ad tk p p', inv ad tk p c -> Forall (wt_step wt) ss -> steps ss c = Ok (x, c') -> opine true rs x p = Good p' ->
    inv (ad ++ some_of accepted x) (tk ++ some_of took x) p' c'.
  Proof.
    induction ss as [|s t IH]; intros c x c' ad tk p p' Hi Hw H O; cbn [c_steps] in H; [injection H as <- <-; cbn in *; injection O as <-; rewrite !app_nil_r; exact Hi|].
    destruct (step s c) as [[y c1]| | | |] eqn:S; try discriminate. cbn [bind] in H. destruct (steps t c1) as [[z c2]| | | |] eqn:T; try discriminate. cbn [bind] in H. injection H as <- <-. inversion Hw as [|? ? Hs Ht]; subst.
    change (Did s :: y ++ z) with ((Did s :: y) ++ z) in *. rewrite opine_app in O. destruct (opine true rs (Did s :: y) p) as [p1| |] eqn:O1; try discriminate.
    rewrite !some_app, !app_assoc. apply (IH c1 z c2 _ _ p1); [|exact Ht|exact T|exact O]. apply (step_inv rs s c y c1 ad tk p p1 Hi Hs S O1).
  Qed.
  Lemma steps_app s1 : forall s2 c x c', steps (s1 ++ s2) c = Ok (x, c') -> exists y c1 z, steps s1 c = Ok (y, c1) /\ steps s2 c1 = Ok (z, c') /\ x = y ++ z.
  Proof.
    induction s1 as [|s t IH]; intros s2 c x c' H; [exists [], c, x; auto|]. cbn [app c_steps] in H. destruct (step s c) as [[y c1]| | | |] eqn:S; try discriminate. cbn [bind] in H.
    destruct (steps (t ++ s2) c1) as [[z c2]| | | |] eqn:T; try discriminate. cbn [bind] in H. injection H as <- <-. destruct (IH _ _ _ _ T) as (y' & c3 & z' & T1 & T2 & ->).
    exists (Did s :: y ++ y'), c3, z'. cbn [c_steps]. rewrite S. cbn [bind]. rewrite T1. cbn [bind]. split; [reflexivity|]. split; [exact T2|]. cbn [app]. rewrite app_assoc. reflexivity.
  Qed.

  (** ** The whole of a stream *)
  Lemma run_steps ss l : run ss = Ok l -> exists c, steps ss (Client true NoBuffer NoBuffer) = Ok (l, c).
  Proof. unfold client_stream, c_open, new_client. cbn [c_request c_response]. destruct (steps _ _) as [[y c]| | | |]; try discriminate. cbn [bind app]. intros H. injection H as <-. exists c. reflexivity. Qed.
  Lemma run_of_steps v ss l bs : wt v -> encode_bytes E utf8_ok maxd qt v = Ok bs -> run_of v ss = Ok l -> exists b c, carr v b /\ steps ss (Client true b NoBuffer) = Ok (l, c).
  Proof.
    intros Hw Hb. unfold client_stream_of, c_open_with, new_client. cbn [c_request c_response c_bound]. destruct (wr_total v NoBuffer Hw) as [(bs' & l' & Hb' & Hl & Hx)|[(e & He) _]]; [|congruence].
    rewrite Hl. cbn [bind]. change (is_ok s_ok) with true. cbv iota. cbn [bind]. destruct (steps _ _) as [[y c]| | | |] eqn:S; try discriminate. cbn [bind app]. intros H. injection H as <-. exists (Slices l'), c. split; [exists l', bs'; auto|exact S].
  Qed.
  Lemma no_usable : usable NoBuffer.
  Proof. split; [constructor|reflexivity]. Qed.
  Lemma stream_follow ss l : safe_env E -> m_entry (desc_of E rt) = false -> Forall usable_step ss -> run ss = Ok l -> follow E utf8_ok maxd limit qt rt ss NoBuffer l.
  Proof. intros HS He Hf H. destruct (run_steps ss l H) as (c & S). exact (steps_follow ss HS He (Client true NoBuffer NoBuffer) _ _ no_usable Hf S). Qed.
  Lemma stream_of_follow v ss l bs : safe_env E -> m_entry (desc_of E rt) = false -> wt v -> encode_bytes E utf8_ok maxd qt v = Ok bs -> Forall usable_step ss -> run_of v ss = Ok l -> follow E utf8_ok maxd limit qt rt ss NoBuffer l.
  Proof. intros HS He Hw Hb Hf H. destruct (run_of_steps v ss l bs Hw Hb H) as (b & c & _ & S). exact (steps_follow ss HS He (Client true b NoBuffer) _ _ no_usable Hf S). Qed.
  Lemma stream_defined ss : safe_env E -> m_entry (desc_of E rt) = false -> Forall usable_step ss -> Forall (wt_step wt) ss -> exists l, run ss = Ok l.
  Proof. intros HS He Hf Hw. destruct (steps_total ss HS He (Client true NoBuffer NoBuffer) eq_refl no_usable Hf Hw) as ([l c] & S). exists l. unfold client_stream, c_open, new_client. cbn [c_request c_response]. rewrite S. reflexivity. Qed.
  Lemma stream_of_defined v ss bs : safe_env E -> m_entry (desc_of E rt) = false -> wt v -> encode_bytes E utf8_ok maxd qt v = Ok bs -> Forall usable_step ss -> Forall (wt_step wt) ss -> exists l, run_of v ss = Ok l.
  Proof.
    intros HS He Hv Hb Hf Hw. destruct (wr_total v NoBuffer Hv) as [(bs' & l' & Hb' & Hl & Hx)|[(e & He') _]]; [|congruence].
    destruct (steps_total ss HS He (Client true (Slices l') NoBuffer) eq_refl no_usable Hf Hw) as ([l c] & S). exists l. unfold client_stream_of, c_open_with, new_client. cbn [c_request c_response]. rewrite Hl. cbn [bind]. change (is_ok s_ok) with true. cbv iota. cbn [bind]. rewrite S. reflexivity.
  Qed.
  Lemma stream_rules rs ss l p : run ss = Ok l -> opine true rs l p = opine false rs l p.
  Proof. intros H. destruct (run_steps ss l H) as (c & S). exact (steps_rules rs ss _ _ _ S p). Qed.
  Lemma stream_taken rs ss l p : run ss = Ok l -> Forall (wt_step wt) ss -> opine true rs l at_first = Good p -> exists n, Forall2 carr (firstn n (some_of accepted l)) (some_of took l).
  Proof.
    intros H Hw O. destruct (run_steps ss l H) as (c & S). assert (I0 : inv [] [] at_first (Client true NoBuffer NoBuffer)) by (split; [exists 0%nat; constructor|intros _; constructor]).
    exact (proj1 (steps_inv rs ss _ _ _ [] [] at_first p I0 Hw S O)).
  Qed.
  Lemma stream_acknowledged rs ss l p : run (ss ++ [LWritten true]) = Ok l -> Forall (wt_step wt) ss -> opine true rs l at_first = Good p -> Forall2 carr (some_of accepted l) (some_of took l).
  Proof.
    intros H Hw O. destruct (run_steps _ l H) as (c & S). destruct (steps_app _ _ _ _ _ S) as (y & c1 & z & S1 & S2 & ->). cbn in S2. injection S2 as <- <-. rewrite opine_app in O.
    destruct (opine true rs y at_first) as [p1| |] eqn:O1; try discriminate. assert (I0 : inv [] [] at_first (Client true NoBuffer NoBuffer)) by (split; [exists 0%nat; constructor|intros _; constructor]).
    destruct (steps_inv rs ss _ _ _ [] [] at_first p1 I0 Hw S1 O1) as [_ K]. cbn [app] in K. rewrite !some_app. cbn [some_of accepted took]. rewrite !app_nil_r.
    destruct p1 as [st r u w t cl f d]. cbn [opine opined may_do] in O. cbn [p_failed p_writing p_taken] in K. destruct w, t, f; try discriminate. exact (K eq_refl).
  Qed.
  Lemma stream_of_taken rs v ss l p bs : wt v -> encode_bytes E utf8_ok maxd qt v = Ok bs -> run_of v ss = Ok l -> Forall (wt_step wt) ss -> opine true rs l with_request = Good p -> exists n, Forall2 carr (firstn n (v :: some_of accepted l)) (some_of took l).
  Proof.
    intros Hv Hb H Hw O. destruct (run_of_steps v ss l bs Hv Hb H) as (b & c & Hc & S). assert (I0 : inv [v] [] with_request (Client true b NoBuffer)).
    { split; [exists 0%nat; constructor|]. cbn. intros _. exists [], v. split; [reflexivity|]. split; [constructor|exact Hc]. }
    exact (proj1 (steps_inv rs ss _ _ _ [v] [] with_request p I0 Hw S O)).
  Qed.
  End Well.
  Lemma stream_of_unwritable v ss e s : encode_bytes E utf8_ok maxd qt v = Err e -> In s [CStart; CRead; CRelease] -> run_of v [] = Ok [Ends s_unwritten] /\ run_of v (s :: ss) = UB.
  Proof.
    intros He Hs. unfold client_stream_of, c_open_with, new_client. cbn [c_request c_response]. rewrite (write_err E utf8_ok maxd m chunk old qt v NoBuffer e He). split; [reflexivity|].
    destruct Hs as [<-|[<-|[<-|[]]]]; reflexivity.
  Qed.
End Client.

Lemma seen_empty E utf8_ok limit ty cur : m_entry (desc_of E ty) = false -> 0 <= limit -> seen E utf8_ok limit ty cur NoBuffer = (s_ok, Some (default_msg E ty)).
Proof.
  intros He Hl. unfold seen, content, decode_bytes, decode, dec_msg. rewrite He. cbn [andb]. unfold scope_ok. replace (0 <=? limit) with true by (symmetry; apply Z.leb_le; exact Hl). reflexivity.
Qed.
Lemma stream_early E utf8_ok maxd limit m chunk old big path qt rt ss l cur : legal_numbers E -> (0 < chunk)%nat -> safe_env E -> m_entry (desc_of E rt) = false -> 0 <= limit ->
  Forall (fun s => match s with LPut _ => False | _ => True end) ss -> client_stream E utf8_ok maxd limit m chunk old big path qt rt (ss ++ [CGet cur]) = Ok l ->
  exists l1, l = l1 ++ [Gets (s_ok, Some (default_msg E rt))].
Proof.
  intros HN HC HS He Hl Hn H. destruct (run_steps _ _ _ _ _ _ _ _ _ _ _ _ _ H) as (c & S). destruct (steps_app _ _ _ _ _ _ _ _ _ _ _ _ _ _ _ _ S) as (y & c1 & z & S1 & S2 & ->).
  assert (R : c_response c1 = NoBuffer).
  { clear -S1 Hn. change NoBuffer with (c_response (Client true NoBuffer NoBuffer)). revert S1. generalize (Client true NoBuffer NoBuffer) as c0. revert y. induction Hn as [|s t Hs Ht IH]; intros y c0 S; cbn [c_steps] in S; [injection S as <- <-; reflexivity|].
    destruct (c_step _ _ _ _ _ _ _ _ _ _ _ s c0) as [[x c2]| | | |] eqn:Y; try discriminate. cbn [bind] in S. destruct (c_steps _ _ _ _ _ _ _ _ _ _ _ t c2) as [[z c3]| | | |] eqn:Z; try discriminate. cbn [bind] in S. injection S as <- <-.
    rewrite (IH _ _ Z), (step_response _ _ _ _ _ _ _ _ _ _ _ _ _ _ _ Y). destruct s; [..|reflexivity|reflexivity|reflexivity]; try reflexivity. contradiction. }
  cbn [c_steps c_step] in S2. rewrite R, seen_is, seen_empty in S2; try assumption; [|exact no_usable]. cbn [bind] in S2. injection S2 as <- <-. exists (y ++ [Did (CGet cur)]). rewrite <- app_assoc. reflexivity.
Qed.
