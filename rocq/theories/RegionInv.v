(** The invariant of the region archive: how its positions relate to the whole
    input, and how moving to the next region keeps it. *)
Require Import Verif.Bits Verif.Varint Verif.VarintSpec Verif.VarintProofs Verif.VarintFacts.
Require Import Verif.Schema Verif.Archive Verif.Decode Verif.DecodeSafe Verif.DecodeSpec1.
Require Import Verif.SimLaws Verif.Region.
Local Open Scope nat_scope.

(** ** Parsers that look for a terminator in the first [N] bytes *)
Definition parser (N : nat) (P : bytes -> pres) : Prop := forall m, all_bytes m ->
  (match scan N m with Short => P m = PUB | TooLong => P m = PUnterm | Found n => exists v, P m = POk v n end) /\
  (forall e, P m <> PUB -> P (m ++ e) = P m).

Lemma parser_tag : parser 5 (shift_mix SMTAG).
Proof.
  intros m Hm. split; [|intros e; apply shift_mix_app].
  pose proof (shift_mix_spec SMTAG m Hm) as K. unfold pres_matches in K. cbn [sm_max] in K.
  destruct (scan 5 m); [exact K|exact K|]. destruct K as (v & K & _). eauto.
Qed.
Lemma parser_varint t : parser (sm_max (smtype_of t)) (parse_varint t).
Proof.
  intros m Hm. split; [|intros e; apply parse_varint_app].
  rewrite (parse_varint_spec t m Hm). destruct (scan _ m); eauto.
Qed.
Lemma parser_bool : parser 10 parse_bool.
Proof.
  intros m Hm. split; [|intros e; apply parse_bool_app].
  rewrite (parse_bool_spec m Hm). destruct (scan _ m); eauto.
Qed.
Lemma sm_max_le t : 1 <= sm_max (smtype_of t) <= 10.
Proof. destruct t; cbn; lia. Qed.

Lemma parser_long N P m : parser N P -> all_bytes m -> N <= length m -> P m <> PUB.
Proof.
  intros HP Hm Hl. destruct (HP m Hm) as [K _]. destruct (scan N m) eqn:E.
  - apply scan_short in E. lia.
  - congruence.
  - destruct K as (v & ->). discriminate.
Qed.

(** There is a terminator among the bytes. *)
Lemma parser_term N P m : parser N P -> all_bytes m -> (exists i, i < length m /\ (nth i m 0 < 128)%Z) -> P m <> PUB.
Proof.
  intros HP Hm (i & Hi & Hn). destruct (HP m Hm) as [K _]. destruct (scan N m) eqn:E.
  - apply scan_short in E. destruct E as [_ E]. rewrite Forall_forall in E.
    specialize (E (nth i m 0%Z) (nth_In _ _ Hi)). lia.
  - congruence.
  - destruct K as (v & ->). discriminate.
Qed.

Lemma scan_found_nth N m n : scan N m = Found n -> 1 <= n <= N /\ n <= length m /\ (nth (n - 1) m 0 < 128)%Z /\
  forall i, i < n - 1 -> (128 <= nth i m 0)%Z.
Proof.
  revert m n; induction N as [|N IH]; intros m n; cbn [scan]; [discriminate|].
  destruct m as [|b t]; [discriminate|]. destruct (Z.ltb_spec b 128).
  - intros [= <-]. cbn. repeat split; try lia.
  - destruct (scan N t) as [| |k] eqn:E; try discriminate. intros [= <-]. apply IH in E.
    destruct E as (A & B & C & D). cbn [length]. split; [lia|]. split; [lia|].
    replace (S k - 1) with (S (k - 1)) by lia. cbn [nth]. split; [exact C|].
    intros [|i] Hi; cbn [nth]; [lia|]. apply D. lia.
Qed.

Definition nok (r : pres) : Prop := match r with POk _ _ => False | _ => True end.

Lemma parser_cmp N P m d : parser N P -> all_bytes m -> all_bytes d -> P m <> PUB ->
  (exists e, m = d ++ e) \/ (exists e, d = m ++ e) ->
  match P m with
  | PUB => False
  | PUnterm => nok (P d)
  | POk v k => 1 <= k <= N /\ k <= length m /\ (k <= length d -> P d = POk v k) /\ (length d < k -> nok (P d))
  end.
Proof.
  intros HP Hm Hd Hn Hc. destruct (HP m Hm) as [Km Am]. destruct (HP d Hd) as [Kd Ad].
  assert (Eq : P d <> PUB -> P d = P m).
  { intros H. destruct Hc as [[e ->]|[e ->]]; [rewrite (Ad e H); reflexivity|apply Am, Hn]. }
  assert (Lp : forall v k, P d = POk v k -> k <= length d).
  { intros v k E. destruct (scan N d) eqn:Es; [congruence|congruence|].
    destruct Kd as (v' & Kd). rewrite Kd in E. injection E as <- <-. apply scan_found_nth in Es. lia. }
  destruct (P m) as [| |v k] eqn:E; [congruence| |].
  - destruct (P d) eqn:Ed; cbn; auto. specialize (Eq ltac:(discriminate)). discriminate.
  - destruct (scan N m) eqn:Es; [congruence|congruence|]. destruct Km as (v' & Km).
    injection Km as <- <-. apply scan_found_nth in Es. destruct Es as (A & B & C & _).
    split; [exact A|]. split; [exact B|]. split.
    + intros Hk. destruct Hc as [[e He]|[e He]].
      * apply Eq. apply (parser_term N P d HP Hd). exists (k - 1). split; [lia|].
        rewrite He, app_nth1 in C by lia. exact C.
      * rewrite He. apply Am. discriminate.
    + intros Hk. destruct (P d) eqn:Ed; cbn; auto. specialize (Eq ltac:(discriminate)).
      injection Eq as -> ->. specialize (Lp _ _ eq_refl). lia.
Qed.

(** ** The invariant *)
Section Inv.
  Context (T : bytes) (HT : all_bytes T) (cont padded : bool).

  (** The memory of a region that begins at [off] of the input and whose part
      before the overlap has [s0] bytes; [rest] are the regions after it. *)
  Definition cur_ok (off s0 : nat) (mem : bytes) (rest : list region) : Prop :=
    match rest with
    | [] => off + s0 = length T /\
            exists z, mem = skipn off T ++ z /\ 16 <= length z /\ all_bytes z /\ (padded = false -> z = zeros)
    | _ => mem = slice T off (off + s0 + 16) /\ off + s0 + 16 <= length T
    end.

  Fixpoint chain (off : nat) (l : list region) : Prop :=
    match l with
    | [] => True
    | r :: t => exists s0, r_s r = Z.of_nat s0 /\ cur_ok off s0 (r_mem r) t /\
        r_e r = Z.of_nat (match t with [] => s0 | _ => s0 + 16 end) /\ (t = [] -> 16 <= s0) /\ chain (off + s0) t
    end.

  Definition base (off s0 p : nat) (a : arch) : Prop :=
    cur_ok off s0 (c_mem a) (c_rest a) /\ chain (off + s0) (c_rest a) /\ off <= p /\ p <= length T /\
    c_b a = Z.of_nat (p - off) /\ (padded = true -> c_rest a = []).

  Definition exact (off s0 lim p : nat) (a : arch) : Prop :=
    p <= lim /\ lim <= length T /\ c_e a = Z.of_nat (lim - off) /\ c_s a = Z.of_nat (Nat.min s0 (lim - off)) /\
    c_sec a = (c_e a - c_s a)%Z /\ (c_rest a <> [] -> lim <= off + s0 + 16).

  (** A further region has to be entered before the limit is reached. *)
  Definition hop (off s0 lim : nat) (a : arch) : Prop :=
    c_rest a <> [] /\ c_s a = Z.of_nat s0 /\ c_sec a = (Z.of_nat lim - Z.of_nat (off + s0))%Z /\
    off + s0 < lim /\ lim <= length T.

  Definition slack (off s0 lim p : nat) (a : arch) : Prop :=
    hop off s0 lim a /\ c_e a = Z.of_nat (s0 + 16) /\ (lim < p -> p <= off + s0 + 16).

  Definition closed (off s0 lim : nat) (a : arch) : Prop := lim <= off + s0 \/ exists r, c_rest a = [r].

  Definition Sx (off s0 : nat) (x : bool) (lim p : nat) (a : arch) : Prop :=
    base off s0 p a /\ (exact off s0 lim p a \/ slack off s0 lim p a) /\
    (x = true \/ cont = true -> exact off s0 lim p a /\ closed off s0 lim a).

  Definition StC (x : bool) (lim p : nat) (a : arch) : Prop := exists off s0, Sx off s0 x lim p a.
  Definition TgC (x : bool) (tag : Z) (lim p : nat) (a : arch) : Prop := exists off s0, Sx off s0 x lim p a /\
    (c_b a <= c_e a)%Z /\ p <= off + s0 + 5 /\ Z.to_nat (varint_size_u tag) <= p - off.
  Definition LnC (x : bool) (lim p : nat) (a : arch) : Prop := exists off s0, Sx off s0 x lim p a /\
    (c_b a <= c_e a)%Z /\ p <= off + s0 + 15.

  Lemma cur_len off s0 mem rest : cur_ok off s0 mem rest -> off + s0 <= length T /\ s0 + 16 <= length mem /\
    (rest <> [] -> length mem = s0 + 16 /\ off + s0 + 16 <= length T).
  Proof.
    unfold cur_ok. destruct rest as [|r t].
    - intros (A & z & -> & B & _). rewrite app_length, skipn_length. repeat split; try lia; congruence.
    - intros [-> B]. rewrite (slice_len T) by lia. repeat split; lia.
  Qed.

  Lemma cur_bytes off s0 mem rest : cur_ok off s0 mem rest -> all_bytes mem.
  Proof.
    unfold cur_ok. destruct rest as [|r t].
    - intros (A & z & -> & B & C & _). apply Forall_app. split; [apply all_bytes_skipn, HT|exact C].
    - intros [-> B]. apply slice_bytes, HT.
  Qed.

  (** What can be read agrees with the input, as far as both reach. *)
  Lemma cur_agree off s0 mem rest p q : cur_ok off s0 mem rest -> off <= p -> p <= length T -> q <= length T ->
    (exists e, skipn (p - off) mem = slice T p q ++ e) \/ (exists e, slice T p q = skipn (p - off) mem ++ e).
  Proof.
    intros H Hp Hp2 Hq. destruct (le_lt_dec q p) as [Hqp|Hqp].
    { left. exists (skipn (p - off) mem). rewrite slice_nil by lia. reflexivity. }
    unfold cur_ok in H. destruct rest as [|r t].
    - destruct H as (A & z & -> & B & _). left.
      rewrite skipn_app, skipn_length. replace (p - off - (length T - off)) with 0 by lia. cbn [skipn].
      rewrite <- skipn_add. replace (off + (p - off)) with p by lia.
      exists (skipn (q - p) (skipn p T) ++ z). unfold slice. rewrite app_assoc, firstn_skipn. reflexivity.
    - destruct H as [-> B]. rewrite slice_skipn. replace (off + (p - off)) with p by lia.
      destruct (le_lt_dec q (off + s0 + 16)).
      + left. exists (slice T q (off + s0 + 16)). rewrite slice_app by lia. reflexivity.
      + destruct (le_lt_dec p (off + s0 + 16)).
        * right. exists (slice T (off + s0 + 16) q). rewrite slice_app by lia. reflexivity.
        * right. exists (slice T p q). rewrite (slice_nil T p (off + s0 + 16)) by lia. reflexivity.
  Qed.

  Lemma rd_base off s0 p a : base off s0 p a -> rd a = skipn (p - off) (c_mem a).
  Proof.
    intros (_ & _ & _ & _ & E & _). unfold rd. rewrite E. destruct (Z.ltb_spec (Z.of_nat (p - off)) 0); [lia|].
    rewrite Nat2Z.id. reflexivity.
  Qed.
  Lemma rd_len off s0 p a : base off s0 p a -> length (rd a) = length (c_mem a) - (p - off).
  Proof. intros H. rewrite (rd_base _ _ _ _ H), skipn_length. reflexivity. Qed.
  Lemma rd_bytes off s0 p a : base off s0 p a -> all_bytes (rd a).
  Proof. intros H. rewrite (rd_base _ _ _ _ H). apply all_bytes_skipn. eapply cur_bytes, H. Qed.
  Lemma rd_agree off s0 p q a : base off s0 p a -> q <= length T ->
    (exists e, rd a = slice T p q ++ e) \/ (exists e, slice T p q = rd a ++ e).
  Proof.
    intros H Hq. rewrite (rd_base _ _ _ _ H). destruct H as (A & _ & B & C & _). eapply cur_agree; eauto.
  Qed.
  Lemma rd_firstn off s0 p a n : base off s0 p a -> p + n <= length T -> n <= length (rd a) ->
    firstn n (rd a) = slice T p (p + n).
  Proof.
    intros H Hn Hl. destruct (rd_agree _ _ _ (p + n) _ H Hn) as [[e E]|[e E]].
    - rewrite E, firstn_app. rewrite (slice_len T) by lia. replace (n - (p + n - p)) with 0 by lia. cbn [firstn].
      rewrite app_nil_r. apply firstn_all2. rewrite (slice_len T) by lia. lia.
    - pose proof (f_equal (@length Z) E) as K. rewrite (slice_len T), app_length in K by lia.
      destruct e; [|cbn in K; lia]. rewrite app_nil_r in E. rewrite E. apply firstn_all2. cbn in K. lia.
  Qed.

  Lemma base_at off s0 p a n : base off s0 p a -> p + n <= length T ->
    base off s0 (p + n) (at_pos (c_b a + Z.of_nat n)%Z a).
  Proof.
    intros (A & B & C & D & E & F) H. unfold base. cbn [at_pos c_mem c_rest c_b]. rewrite E.
    repeat split; auto; lia.
  Qed.

  (** ** in_avail *)
  Lemma Sx_avail off s0 x lim p a : Sx off s0 x lim p a ->
    in_avail cont a = (Z.of_nat lim - Z.of_nat p)%Z /\ lim <= length T /\ p <= length T /\ off <= p /\ off <= lim.
  Proof.
    intros (B & M & C). destruct B as (B1 & B2 & B3 & B4 & B5 & B6). unfold in_avail, region_size.
    destruct cont eqn:Ec.
    - destruct (C (or_intror eq_refl)) as [(E1 & E2 & E3 & E4 & E5 & E6) _]. rewrite E3, B5. repeat split; lia.
    - destruct M as [(E1 & E2 & E3 & E4 & E5 & E6)|[(H1 & H2 & H3 & H4 & H5) H6]].
      + rewrite E5, E3, E4, B5. repeat split; lia.
      + rewrite H3, H2, B5. repeat split; lia.
  Qed.

  (** ** Entering the next region *)
  Definition past (k : nat) (a : arch) : Prop :=
    c_s a = c_e a /\ c_sec a = 0%Z /\ (c_b a - c_e a = Z.of_nat k)%Z /\ (0 <= c_e a)%Z /\
    (exists off s0, cur_ok off s0 (c_mem a) (c_rest a) /\ chain (off + s0) (c_rest a) /\
       (c_rest a = [] -> 16 <= s0 /\ (c_b a <= Z.of_nat s0)%Z)).

  Lemma enter_hop off s0 lim p a r t : base off s0 p a -> hop off s0 lim a -> c_rest a = r :: t -> off + s0 < p ->
    let a1 := enter r (c_b a - c_s a) a in
    exists s1, base (off + s0) s1 p a1 /\ c_rest a1 = t /\ (t = [] -> 16 <= s1) /\
      ((hop (off + s0) s1 lim a1 /\ c_e a1 = Z.of_nat (s1 + 16) /\ t <> []) \/
       (c_e a1 = Z.of_nat (lim - (off + s0)) /\ c_s a1 = c_e a1 /\ c_sec a1 = 0%Z /\ lim <= off + s0 + s1)).
  Proof.
    intros (B1 & B2 & B3 & B4 & B5 & B6) (H1 & H2 & H3 & H4 & H5) Hr Hp a1.
    rewrite Hr in B2. cbn [chain] in B2. destruct B2 as (s1 & R1 & R2 & R3 & R4 & R5). exists s1.
    assert (Hpad : padded = false) by (destruct padded; [specialize (B6 eq_refl); congruence|reflexivity]).
    assert (Hbase : forall e s d, base (off + s0) s1 p (Arch (r_mem r) (c_b a - c_s a)%Z e s t d)).
    { intros. unfold base. cbn [c_mem c_rest c_b]. rewrite B5, H2. repeat split; auto; try lia. congruence. }
    destruct (cur_len _ _ _ _ R2) as (L1 & L2 & L3).
    unfold a1, enter. rewrite Hr. cbn [tl]. rewrite R1, H3.
    destruct (Z.ltb_spec 0 (Z.of_nat lim - Z.of_nat (off + s0) - Z.of_nat s1)) as [Hd|Hd].
    - split; [apply Hbase|]. split; [reflexivity|]. split; [exact R4|]. left.
      destruct t as [|r2 t]. { destruct R2 as [R2 _]. lia. }
      unfold hop. cbn [c_rest c_s c_sec c_e]. rewrite R3. repeat split; try lia; try discriminate.
    - split; [apply Hbase|]. split; [reflexivity|]. split; [exact R4|]. right.
      cbn [c_rest c_s c_sec c_e]. repeat split; lia.
  Qed.

  Lemma enter_past k a r t : past k a -> c_rest a = r :: t -> 0 < k -> k <= 16 ->
    past k (enter r (c_b a - c_s a) a) /\ c_rest (enter r (c_b a - c_s a) a) = t.
  Proof.
    intros (P1 & P2 & P3 & P4 & off & s0 & Q1 & Q2 & Q3) Hr Hk Hk2.
    rewrite Hr in Q2. cbn [chain] in Q2. destruct Q2 as (s1 & R1 & R2 & R3 & R4 & R5).
    unfold enter. rewrite Hr, R1, P2. cbn [tl].
    destruct (Z.ltb_spec 0 (0 - Z.of_nat s1)) as [Hd|Hd]; [lia|]. split; [|reflexivity].
    unfold past. cbn [c_mem c_rest c_s c_e c_sec c_b]. repeat split; try lia.
    exists (off + s0), s1. split; [exact R2|]. split; [exact R5|]. intros Ht. specialize (R4 Ht). lia.
  Qed.

  Lemma advance_past l : forall k a, past k a -> c_rest a = l -> 0 < k -> k <= 16 ->
    past k (advance_loop l a) /\ c_rest (advance_loop l a) = [].
  Proof.
    induction l as [|r t IH]; intros k a P Hr Hk Hk2; cbn [advance_loop]; [auto|].
    destruct (Z.ltb_spec 0 (c_b a - c_s a)) as [Hb|Hb].
    - destruct (enter_past k a r t P Hr Hk Hk2) as [P' R']. apply IH; auto.
    - destruct P as (P1 & P2 & P3 & P4 & _). lia.
  Qed.

  Lemma advance_in l : forall off s0 x lim p a, Sx off s0 x lim p a -> p <= lim -> c_rest a = l ->
    exists off' s0', Sx off' s0' x lim p (advance_loop l a) /\ p <= off' + s0'.
  Proof.
    induction l as [|r t IH]; intros off s0 x lim p a HS Hp Hr; cbn [advance_loop].
    - exists off, s0. split; [exact HS|]. destruct HS as ((B1 & _) & M & _). rewrite Hr in B1. destruct B1 as [B1 _].
      destruct M as [(E1 & E2 & _)|[(H1 & _) _]]; [lia|congruence].
    - pose proof HS as ((B1 & B2 & B3 & B4 & B5 & B6) & M & C).
      destruct (Z.ltb_spec 0 (c_b a - c_s a)) as [Hb|Hb].
      + assert (Hh : hop off s0 lim a /\ off + s0 < p).
        { destruct M as [(E1 & E2 & E3 & E4 & E5 & E6)|[H _]].
          - unfold hop. rewrite Hr. repeat split; try lia. discriminate.
          - split; [exact H|]. destruct H as (H1 & H2 & _). lia. }
        destruct Hh as [Hh Ho].
        destruct (enter_hop off s0 lim p a r t ltac:(repeat split; auto) Hh Hr Ho) as (s1 & Ba & Hr1 & Hs1 & K).
        apply (IH (off + s0) s1); [|exact Hp|exact Hr1].
        destruct K as [(K1 & K2 & K3)|(K1 & K2 & K3 & K4)].
        * split; [exact Ba|]. split. { right. split; [exact K1|]. split; [exact K2|lia]. }
          intros X. destruct (C X) as [_ [Cl|[r' Cl]]].
          { destruct Hh as (_ & _ & _ & Hh & _). lia. }
          rewrite Hr in Cl. injection Cl as -> ->. congruence.
        * assert (Ex : exact (off + s0) s1 lim p (enter r (c_b a - c_s a) a)).
          { unfold exact. rewrite K3, K2, K1. destruct Hh as (_ & _ & _ & Hh & Hh2). repeat split; try lia. }
          split; [exact Ba|]. split; [left; exact Ex|]. intros _. split; [exact Ex|]. left. exact K4.
      + exists off, s0. split; [exact HS|].
        destruct M as [(E1 & E2 & E3 & E4 & E5 & E6)|[(H1 & H2 & _) _]]; lia.
  Qed.

  Lemma advance_over l : forall off s0 lim p a, base off s0 p a -> hop off s0 lim a -> lim < p -> p <= lim + 16 ->
    c_rest a = l -> past (p - lim) (advance_loop l a) /\ c_rest (advance_loop l a) = [].
  Proof.
    induction l as [|r t IH]; intros off s0 lim p a B H Hp Hk Hr; cbn [advance_loop].
    - destruct H as (H & _). congruence.
    - pose proof B as (B1 & B2 & B3 & B4 & B5 & B6). pose proof H as (H1 & H2 & H3 & H4 & H5).
      destruct (Z.ltb_spec 0 (c_b a - c_s a)) as [Hb|Hb]; [|lia].
      destruct (enter_hop off s0 lim p a r t B H Hr ltac:(lia)) as (s1 & Ba & Hr1 & Hs1 & K).
      destruct K as [(K1 & K2 & K3)|(K1 & K2 & K3 & K4)].
      + apply (IH (off + s0) s1 lim p); auto.
      + apply advance_past; auto; try lia.
        destruct Ba as (A1 & A2 & A3 & A4 & A5 & A6).
        unfold past. rewrite K3, K2, K1, A5. repeat split; try lia.
        exists (off + s0), s1. split; [exact A1|]. split; [exact A2|]. intros Ht. rewrite Ht in A1. destruct A1 as [A1 _].
        split; [apply Hs1; congruence|lia].
  Qed.

  Lemma past_avail k a : past k a -> cont = false -> in_avail cont a = (- Z.of_nat k)%Z.
  Proof. intros (P1 & P2 & P3 & P4 & _) E. unfold in_avail. rewrite E. lia. Qed.

  (** maybe_advance_region before the limit: afterwards the position is before the overlap. *)
  Lemma advance_ready x lim p a : StC x lim p a -> p <= lim ->
    exists off s0, Sx off s0 x lim p (advance padded a) /\ p <= off + s0.
  Proof.
    intros (off & s0 & HS) Hp. unfold advance. destruct padded eqn:Ep.
    - exists off, s0. split; [exact HS|]. destruct HS as ((B1 & B2 & B3 & B4 & B5 & B6) & M & _).
      specialize (B6 Ep). rewrite B6 in B1. destruct B1 as [B1 _].
      destruct M as [(E1 & E2 & _)|[(H1 & _) _]]; [lia|congruence].
    - eapply advance_in; eauto.
  Qed.

  (** Beyond the limit it ends in the last region, still beyond the limit. *)
  Lemma advance_beyond x lim p a : StC x lim p a -> lim < p -> cont = false /\ p <= lim + 16 /\ lim <= p /\
    past (p - lim) (advance padded a) /\ c_rest (advance padded a) = [].
  Proof.
    intros (off & s0 & B & M & C) Hp.
    destruct M as [(E1 & _)|[H [H2 H3]]]; [lia|]. specialize (H3 Hp).
    assert (Hc : cont = false). { destruct cont; [|reflexivity]. destruct (C (or_intror eq_refl)) as [(E & _) _]. lia. }
    pose proof H as (K1 & K2 & K3 & K4 & K5).
    split; [exact Hc|]. split; [lia|]. split; [lia|]. unfold advance. destruct padded eqn:Ep.
    - destruct B as (_ & _ & _ & _ & _ & B6). specialize (B6 Ep). congruence.
    - eapply advance_over; eauto. lia.
  Qed.

  Lemma past_rd k a : past k a -> c_rest a = [] -> 16 <= length (rd a) /\ all_bytes (rd a) /\
    (padded = false -> nth (length (rd a) - 1) (rd a) 0%Z = 0%Z) /\ ((c_e a < c_b a)%Z \/ k = 0).
  Proof.
    intros (P1 & P2 & P3 & P4 & off & s0 & Q1 & Q2 & Q3) Hr. destruct (Q3 Hr) as [Q4 Q5].
    unfold rd. destruct (Z.ltb_spec (c_b a) 0); [lia|]. destruct (cur_len _ _ _ _ Q1) as (L1 & L2 & _).
    rewrite skipn_length. split; [lia|]. split. { apply all_bytes_skipn. eapply cur_bytes, Q1. }
    split; [|lia]. intros Hpad. rewrite Hr in Q1. destruct Q1 as (A & z & E & _ & _ & Z0). rewrite (Z0 Hpad) in E.
    assert (Ln : length (c_mem a) = s0 + 16) by (rewrite E, app_length, skipn_length; cbn; lia).
    assert (N : forall (l : bytes) i j, nth j (skipn i l) 0%Z = nth (i + j) l 0%Z).
    { intros l i; revert l. induction i as [|i IH]; intros [|b l] j; cbn; auto. destruct j; reflexivity. }
    rewrite N. replace (Z.to_nat (c_b a) + _) with (s0 + 15) by lia.
    rewrite E, app_nth2; rewrite skipn_length; [|lia]. replace (s0 + 15 - (length T - off)) with 15 by lia. reflexivity.
  Qed.
End Inv.
