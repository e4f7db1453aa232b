(** The region archive satisfies the laws of SimLaws.v: tags, single values,
    skipping and splitting. *)
Require Import Verif.Bits Verif.Varint Verif.VarintSpec Verif.VarintProofs Verif.VarintFacts.
Require Import Verif.Schema Verif.Archive Verif.Decode Verif.DecodeSafe Verif.DecodeSpec1.
Require Import Verif.Wire Verif.WireFacts Verif.SimLaws Verif.Region Verif.RegionInv.
Local Open Scope nat_scope.

Lemma find_term_scan N m : find_term N m = match scan N m with Found n => Some n | _ => None end.
Proof.
  revert m; induction N as [|N IH]; intros m; cbn [find_term scan]; [reflexivity|].
  destruct m as [|b t]; [reflexivity|]. destruct (b <? 128)%Z; [reflexivity|].
  rewrite IH. destruct (scan N t); reflexivity.
Qed.

(** The size of a tag is not more than the bytes it was read from. *)
Lemma tag_bytes m v k : all_bytes m -> shift_mix SMTAG m = POk v k ->
  Z.to_nat (varint_size_u (wrapU 32 v)) <= k /\ Z.to_nat (varint_size_u v) <= k.
Proof.
  intros Hm E. destruct (parser_tag m Hm) as [K _]. destruct (scan 5 m) as [| |n] eqn:Es; [congruence|congruence|].
  destruct K as (v' & K). rewrite K in E. injection E as -> ->.
  destruct (shift_mix_tag m k Es Hm) as (v2 & K2 & Hw & Hs & Hl). rewrite K in K2. injection K2 as <-.
  pose proof (tag_value_range (firstn k m)) as R. apply scan_found_nth in Es. destruct Es as (A & B & _).
  rewrite Hw. destruct (le_lt_dec k 4) as [H4|H4].
  - rewrite (Hs H4). clear Hw Hl.
    assert (Hb : (0 <= tag_value (firstn k m) < 2 ^ (7 * Z.of_nat k))%Z).
    { rewrite tag_value_small by (rewrite firstn_length; lia). split; [apply b128_nonneg|].
      eapply Z.lt_le_trans; [apply b128_bound|]. apply Z.pow_le_mono_r; [lia|]. unfold zlen. rewrite firstn_length. lia. }
    pose proof (varint_size_u_bounds (Z.of_nat k) _ Hb ltac:(lia)). lia.
  - assert (k = 5) by lia. subst k.
    assert (Hb : (0 <= tag_value (firstn 5 m) < 2 ^ (7 * 5))%Z).
    { split; [lia|]. eapply Z.lt_trans; [apply R|reflexivity]. }
    pose proof (varint_size_u_bounds 5 _ Hb ltac:(lia)). split; [lia|].
    specialize (Hl H4). unfold varint_size_u, bit_width.
    assert (Hn : (Z.lor v 1 < 0)%Z) by (apply Z.lor_neg; auto).
    destruct (Z.leb_spec (Z.lor v 1) 0); [|lia]. cbn. lia.
Qed.

Section L.
  Context (T : bytes) (HT : all_bytes T) (Hlen : (zlen T < 2 ^ 62)%Z) (cont padded big : bool) (path : copy_path).
  Notation Sx := (Sx T cont padded). Notation StC := (StC T cont padded).
  Notation TgC := (TgC T cont padded). Notation LnC := (LnC T cont padded).

  Lemma exact_at off s0 lim p a n : exact T off s0 lim p a -> p + n <= lim ->
    exact T off s0 lim (p + n) (at_pos (c_b a + Z.of_nat n)%Z a).
  Proof. unfold exact. cbn [at_pos c_e c_s c_sec c_rest]. intros (A & B & C & D & E & F) H. repeat split; auto; lia. Qed.
  Lemma slack_at off s0 lim p a n : slack T off s0 lim p a -> p + n <= lim \/ p + n <= off + s0 + 16 ->
    slack T off s0 lim (p + n) (at_pos (c_b a + Z.of_nat n)%Z a).
  Proof.
    unfold slack, hop. cbn [at_pos c_e c_s c_sec c_rest]. intros ((A & B & C & D & E) & F & G) H. repeat split; auto; lia.
  Qed.

  (** Moving forward up to the limit. *)
  Lemma Sx_at off s0 x lim p a n : Sx off s0 x lim p a -> p + n <= lim ->
    Sx off s0 x lim (p + n) (at_pos (c_b a + Z.of_nat n)%Z a).
  Proof.
    intros (B & M & C) H.
    assert (Hl : lim <= length T) by (destruct M as [(_ & M & _)|((_ & _ & _ & _ & M) & _)]; exact M).
    split; [apply base_at; [exact B|lia]|]. split.
    - destruct M as [M|M]; [left; apply exact_at|right; apply slack_at]; auto.
    - intros X. destruct (C X) as [C1 C2]. split; [apply exact_at; auto|exact C2].
  Qed.

  (** Moving forward beyond the limit, inside the overlap. *)
  Lemma Sx_over off s0 x lim p a n : Sx off s0 x lim p a -> slack T off s0 lim p a -> lim < p + n -> cont = false ->
    p + n <= off + s0 + 16 -> Sx off s0 false lim (p + n) (at_pos (c_b a + Z.of_nat n)%Z a).
  Proof.
    intros (B & _ & C) M H Hc H2.
    assert (off + s0 + 16 <= length T).
    { destruct B as (B & _). destruct M as ((M & _) & _). apply (cur_len T padded) in B. apply B, M. }
    split; [apply base_at; [exact B|lia]|]. split; [right; apply slack_at; auto|].
    intros [X|X]; congruence.
  Qed.

  Lemma Sx_rd off s0 x lim p a n : Sx off s0 x lim p a -> p + n <= off + s0 + 16 -> n <= length (rd a).
  Proof.
    intros (B & _) H. rewrite (rd_len T padded _ _ _ _ B). destruct B as (B & _ & B3 & _).
    apply (cur_len T padded) in B. lia.
  Qed.

  Lemma parse_step N P off s0 x lim p a : parser N P -> Sx off s0 x lim p a ->
    P (rd a) <> PUB -> p + N <= off + s0 + 16 \/ cont = true ->
    match P (slice T p lim) with
    | POk w k => 1 <= k <= N /\ P (rd a) = POk w k /\ r_parse (P (rd a)) a = Ok (Some (w, at_pos (c_b a + Z.of_nat k)%Z a)) /\
        (c_b a + Z.of_nat k <= c_e a)%Z /\ Sx off s0 x lim (p + k) (at_pos (c_b a + Z.of_nat k)%Z a)
    | _ => r_parse (P (rd a)) a = Ok None \/
        (x = false /\ exists w k, 1 <= k <= N /\ P (rd a) = POk w k /\
           r_parse (P (rd a)) a = Ok (Some (w, at_pos (c_b a + Z.of_nat k)%Z a)) /\ lim < p + k /\
           (c_b a + Z.of_nat k <= c_e a)%Z /\ Sx off s0 false lim (p + k) (at_pos (c_b a + Z.of_nat k)%Z a))
    end.
  Proof.
    intros HP HS Hn Hr. pose proof HS as (B & M & C).
    assert (Hl : lim <= length T) by (destruct M as [(_ & M' & _)|((_ & _ & _ & _ & M') & _)]; exact M').
    pose proof (parser_cmp N P (rd a) (slice T p lim) HP (rd_bytes T HT padded _ _ _ _ B) (slice_bytes T _ _ HT) Hn
                  (rd_agree T padded _ _ _ _ _ B Hl)) as K.
    rewrite (slice_len T) in K by lia.
    destruct (P (rd a)) as [| |w k] eqn:E; [contradiction| |].
    { destruct (P (slice T p lim)); [left; reflexivity|left; reflexivity|contradiction K]. }
    destruct K as (K1 & K2 & K3 & K4). cbn [r_parse].
    pose proof B as (B1 & B2 & B3 & B4 & B5 & B6).
    destruct (le_lt_dec k (lim - p)) as [Hk|Hk].
    - rewrite (K3 Hk).
      assert (Hp : p + k <= lim) by lia.
      assert (Ha : (c_b a + Z.of_nat k <= c_e a)%Z).
      { destruct M as [(E1 & E2 & E3 & _)|(M1 & M2 & M3)]; [lia|].
        destruct Hr as [Hr|Hr]; [lia|]. destruct (C (or_intror Hr)) as [(E1 & E2 & E3 & _) _]. lia. }
      destruct (Z.leb_spec (c_b a + Z.of_nat k) (c_e a)); [|lia].
      split; [exact K1|]. split; [reflexivity|]. split; [reflexivity|]. split; [exact Ha|]. apply Sx_at; auto.
    - specialize (K4 Hk).
      destruct (Z.leb_spec (c_b a + Z.of_nat k) (c_e a)) as [Ha|Ha].
      2:{ destruct (P (slice T p lim)); [left; reflexivity|left; reflexivity|contradiction K4]. }
      assert (Hex : ~ exact T off s0 lim p a) by (intros (E1 & E2 & E3 & _); lia).
      assert (Hsl : slack T off s0 lim p a) by tauto.
      assert (Hx : x = false) by (destruct x; [destruct (C (or_introl eq_refl)); contradiction|reflexivity]).
      assert (Hc : cont = false) by (destruct cont; [destruct (C (or_intror eq_refl)); contradiction|reflexivity]).
      assert (G : x = false /\ exists w0 k0, 1 <= k0 <= N /\ POk w k = POk w0 k0 /\
           Ok (Some (w, at_pos (c_b a + Z.of_nat k)%Z a)) = Ok (Some (w0, at_pos (c_b a + Z.of_nat k0)%Z a)) /\ lim < p + k0 /\
           (c_b a + Z.of_nat k0 <= c_e a)%Z /\ Sx off s0 false lim (p + k0) (at_pos (c_b a + Z.of_nat k0)%Z a)).
      { split; [exact Hx|]. exists w, k. split; [exact K1|]. split; [reflexivity|]. split; [reflexivity|].
        split; [lia|]. split; [exact Ha|]. eapply Sx_over; eauto; [lia|]. destruct Hsl as (_ & Hsl & _). lia. }
      destruct (P (slice T p lim)); [right; exact G|right; exact G|contradiction K4].
  Qed.

  Lemma no_pub N P off s0 x lim p a : parser N P -> Sx off s0 x lim p a -> p + N <= off + s0 + 16 -> P (rd a) <> PUB.
  Proof.
    intros HP HS H. apply (parser_long N P _ HP). { eapply rd_bytes; [exact HT|apply HS]. } eapply Sx_rd; eauto.
  Qed.

  (** *** States *)
  Lemma c_st x lim p a : StC x lim p a ->
    in_avail cont a = (Z.of_nat lim - Z.of_nat p)%Z /\ lim <= length T /\ p <= length T.
  Proof. intros (off & s0 & H). apply Sx_avail in H. tauto. Qed.
  Lemma c_exact lim p a : StC true lim p a -> p <= lim.
  Proof. intros (off & s0 & _ & _ & C). destruct (C (or_introl eq_refl)) as [(E & _) _]. exact E. Qed.
  Lemma Sx_weak off s0 x lim p a : Sx off s0 x lim p a -> Sx off s0 false lim p a.
  Proof. intros (B & M & C). split; [exact B|]. split; [exact M|]. intros [X|X]; [discriminate|]. apply C. auto. Qed.
  Lemma c_weak x lim p a : StC x lim p a -> StC false lim p a.
  Proof. intros (off & s0 & H). exists off, s0. eapply Sx_weak; eauto. Qed.

  (** *** Tags *)
  Lemma empty_nok N P d : parser N P -> 1 <= N -> d = [] -> P d = PUB.
  Proof.
    intros HP HN ->. destruct (HP [] ltac:(constructor)) as [K _]. destruct N; [lia|]. exact K.
  Qed.

  Lemma tag_common x lim p a : StC x lim p a ->
    (lim < p /\ r_parse (shift_mix SMTAG (rd (advance padded a))) (advance padded a) = Ok None /\
       in_avail cont (advance padded a) = (Z.of_nat lim - Z.of_nat p)%Z) \/
    (p <= lim /\ exists off s0, Sx off s0 x lim p (advance padded a) /\ p <= off + s0).
  Proof.
    intros HS. destruct (le_lt_dec p lim) as [Hp|Hp].
    - right. split; [exact Hp|]. eapply advance_ready; eauto.
    - left. split; [exact Hp|]. destruct (advance_beyond T cont padded _ _ _ _ HS Hp) as (Hc & H1 & H2 & HP & Hr).
      rewrite (past_avail T cont padded _ _ HP Hc). split; [|lia].
      destruct (past_rd T HT padded _ _ HP Hr) as (R1 & R2 & _ & R3).
      pose proof (parser_long _ _ _ parser_tag R2 ltac:(lia)) as Hn.
      destruct (shift_mix SMTAG (rd (advance padded a))) as [| |w k]; [congruence|reflexivity|]. cbn [r_parse].
      destruct (Z.leb_spec (c_b (advance padded a) + Z.of_nat k) (c_e (advance padded a))); [lia|reflexivity].
  Qed.

  Lemma c_tag x lim p a : StC x lim p a ->
    exists v a', r_tag padded a = Ok (v, a') /\
      match shift_mix SMTAG (slice T p lim) with
      | POk w k => v = wrapU 32 w /\ TgC x v lim (p + k) a'
      | _ => (v = 0%Z /\ in_avail cont a' = (Z.of_nat lim - Z.of_nat p)%Z) \/
             (x = false /\ p <> lim /\ exists q, p < q /\ lim < q /\ TgC false v lim q a')
      end.
  Proof.
    intros HS. unfold r_tag. destruct (tag_common _ _ _ _ HS) as [(Hp & Hq & Ha)|(Hp & off & s0 & HX & Ho)].
    - rewrite Hq. cbn [bind]. exists 0%Z, (advance padded a). split; [reflexivity|].
      rewrite (empty_nok _ _ _ parser_tag ltac:(lia) (slice_nil T p lim ltac:(lia))). left. auto.
    - set (a1 := advance padded a) in *.
      pose proof (no_pub _ _ _ _ _ _ _ _ parser_tag HX ltac:(lia)) as Hn.
      pose proof (parse_step _ _ _ _ _ _ _ _ parser_tag HX Hn ltac:(left; lia)) as K.
      pose proof (rd_bytes T HT padded _ _ _ _ (proj1 HX)) as Hb.
      assert (Hoff : off <= p) by apply (proj1 HX).
      assert (D : forall w, exists v a', (o <- Ok (Some w);; Ok match o with Some (v, a2) => (wrapU 32 v, a2) | None => (0%Z, a1) end) = Ok (v, a')
                  /\ v = wrapU 32 (fst w) /\ a' = snd w).
      { intros [w1 w2]. cbn. eauto. }
      assert (E : match shift_mix SMTAG (slice T p lim) with
        | POk w k => exists v a', (o <- r_parse (shift_mix SMTAG (rd a1)) a1;;
            Ok match o with Some (v, a2) => (wrapU 32 v, a2) | None => (0%Z, a1) end) = Ok (v, a') /\ v = wrapU 32 w /\ TgC x v lim (p + k) a'
        | _ => exists v a', (o <- r_parse (shift_mix SMTAG (rd a1)) a1;;
            Ok match o with Some (v, a2) => (wrapU 32 v, a2) | None => (0%Z, a1) end) = Ok (v, a') /\
              ((v = 0%Z /\ in_avail cont a' = (Z.of_nat lim - Z.of_nat p)%Z) \/
             (x = false /\ p <> lim /\ exists q, p < q /\ lim < q /\ TgC false v lim q a'))
        end).
      { assert (F : r_parse (shift_mix SMTAG (rd a1)) a1 = Ok None \/
        (x = false /\ exists w k, 1 <= k <= 5 /\ shift_mix SMTAG (rd a1) = POk w k /\
           r_parse (shift_mix SMTAG (rd a1)) a1 = Ok (Some (w, at_pos (c_b a1 + Z.of_nat k)%Z a1)) /\ lim < p + k /\
           (c_b a1 + Z.of_nat k <= c_e a1)%Z /\ Sx off s0 false lim (p + k) (at_pos (c_b a1 + Z.of_nat k)%Z a1)) ->
           exists v a', (o <- r_parse (shift_mix SMTAG (rd a1)) a1;;
            Ok match o with Some (v, a2) => (wrapU 32 v, a2) | None => (0%Z, a1) end) = Ok (v, a') /\
              ((v = 0%Z /\ in_avail cont a' = (Z.of_nat lim - Z.of_nat p)%Z) \/
             (x = false /\ p <> lim /\ exists q, p < q /\ lim < q /\ TgC false v lim q a'))).
        { intros [F|(F1 & w & k & F2 & F3 & F4 & F5 & F6 & F7)].
          - rewrite F. exists 0%Z, a1. split; [reflexivity|]. left. split; [reflexivity|]. apply (Sx_avail _ _ _ _ _ _ _ _ _ HX).
          - rewrite F4. cbn [bind]. eexists _, _. split; [reflexivity|]. right. split; [exact F1|].
            split. { intros ->. destruct HX as (_ & [(E1 & E2 & E3 & _)|((_ & _ & _ & E4 & _) & _)] & _); [|lia].
                     destruct F7 as ((_ & _ & _ & _ & F8 & _) & _). cbn [at_pos c_b] in F8. lia. }
            exists (p + k). split; [lia|]. split; [exact F5|]. exists off, s0. split; [exact F7|]. split; [exact F6|].
            split; [lia|]. pose proof (tag_bytes _ _ _ Hb F3). lia. }
        destruct (shift_mix SMTAG (slice T p lim)) as [| |w k]; [exact (F K)|exact (F K)|].
        destruct K as (K1 & K2 & K3 & K4 & K5). rewrite K3. cbn [bind]. eexists _, _. split; [reflexivity|].
        split; [reflexivity|]. exists off, s0. split; [exact K5|]. split; [exact K4|].
        split; [lia|]. pose proof (tag_bytes _ _ _ Hb K2). lia. }
      clear K D. destruct (shift_mix SMTAG (slice T p lim)); exact E.
  Qed.

  Lemma c_match x tag lim p a : StC x lim p a ->
    exists m a', r_match padded tag a = Ok (m, a') /\
      match shift_mix SMTAG (slice T p lim) with
      | POk w k => if (w =? tag)%Z then m = true /\ TgC x tag lim (p + k) a' else m = false /\ StC x lim p a'
      | _ => (m = false /\ (p <= lim -> StC x lim p a') /\ in_avail cont a' = (Z.of_nat lim - Z.of_nat p)%Z) \/
             (m = true /\ x = false /\ p <> lim /\ exists q, p < q /\ lim < q /\ TgC false tag lim q a')
      end.
  Proof.
    intros HS. unfold r_match. destruct (tag_common _ _ _ _ HS) as [(Hp & Hq & Ha)|(Hp & off & s0 & HX & Ho)].
    - rewrite Hq. cbn [bind]. exists false, (advance padded a). split; [reflexivity|].
      rewrite (empty_nok _ _ _ parser_tag ltac:(lia) (slice_nil T p lim ltac:(lia))). left.
      split; [reflexivity|]. split; [lia|exact Ha].
    - set (a1 := advance padded a) in *.
      pose proof (no_pub _ _ _ _ _ _ _ _ parser_tag HX ltac:(lia)) as Hn.
      pose proof (parse_step _ _ _ _ _ _ _ _ parser_tag HX Hn ltac:(left; lia)) as K.
      pose proof (rd_bytes T HT padded _ _ _ _ (proj1 HX)) as Hb.
      assert (Hoff : off <= p) by apply (proj1 HX).
      assert (HS1 : StC x lim p a1) by (exists off, s0; exact HX).
      pose proof (proj1 (c_st _ _ _ _ HS1)) as Hav.
      set (Q := fun r => exists m a', (o <- r;; Ok match o with Some (v, a2) => if (v =? tag)%Z then (true, a2) else (false, a1) | None => (false, a1) end) = Ok (m, a') /\
        ((m = false /\ (p <= lim -> StC x lim p a') /\ in_avail cont a' = (Z.of_nat lim - Z.of_nat p)%Z) \/
             (m = true /\ x = false /\ p <> lim /\ exists q, p < q /\ lim < q /\ TgC false tag lim q a'))).
      assert (F : r_parse (shift_mix SMTAG (rd a1)) a1 = Ok None \/
        (x = false /\ exists w k, 1 <= k <= 5 /\ shift_mix SMTAG (rd a1) = POk w k /\
           r_parse (shift_mix SMTAG (rd a1)) a1 = Ok (Some (w, at_pos (c_b a1 + Z.of_nat k)%Z a1)) /\ lim < p + k /\
           (c_b a1 + Z.of_nat k <= c_e a1)%Z /\ Sx off s0 false lim (p + k) (at_pos (c_b a1 + Z.of_nat k)%Z a1)) ->
           Q (r_parse (shift_mix SMTAG (rd a1)) a1)).
      { unfold Q. intros [F|(F1 & w & k & F2 & F3 & F4 & F5 & F6 & F7)].
        - rewrite F. exists false, a1. split; [reflexivity|]. left. auto.
        - rewrite F4. cbn [bind]. destruct (Z.eqb_spec w tag) as [->|Hw].
          + eexists _, _. split; [reflexivity|]. right. split; [reflexivity|]. split; [exact F1|].
            split. { intros ->. destruct HX as (_ & [(E1 & E2 & E3 & _)|((_ & _ & _ & E4 & _) & _)] & _); [|lia].
                     destruct F7 as ((_ & _ & _ & _ & F8 & _) & _). cbn [at_pos c_b] in F8. lia. }
            exists (p + k). split; [lia|]. split; [exact F5|]. exists off, s0. split; [exact F7|]. split; [exact F6|].
            split; [lia|]. pose proof (tag_bytes _ _ _ Hb F3). lia.
          + eexists _, _. split; [reflexivity|]. left. auto. }
      destruct (shift_mix SMTAG (slice T p lim)) as [| |w k]; [exact (F K)|exact (F K)|].
      destruct K as (K1 & K2 & K3 & K4 & K5). rewrite K3. cbn [bind].
      destruct (Z.eqb_spec w tag) as [->|Hw]; eexists _, _; (split; [reflexivity|]); (split; [reflexivity|]); [|exact HS1].
      exists off, s0. split; [exact K5|]. split; [exact K4|].
      split; [lia|]. pose proof (tag_bytes _ _ _ Hb K2). lia.
  Qed.

  (** *** Single values *)
  Lemma c_varint x tag t lim p a : TgC x tag lim p a ->
    match parse_varint t (slice T p lim) with
    | POk w k => exists a', r_varint t a = Ok (w, a') /\ LnC x lim (p + k) a'
    | _ => r_varint t a = Err BadMessage \/
           (x = false /\ exists w q a', r_varint t a = Ok (w, a') /\ p < q /\ lim < q /\ LnC false lim q a')
    end.
  Proof.
    intros (off & s0 & HX & He & Ho & Hk). pose proof (sm_max_le t) as Hm.
    pose proof (no_pub _ _ _ _ _ _ _ _ (parser_varint t) HX ltac:(lia)) as Hn.
    pose proof (parse_step _ _ _ _ _ _ _ _ (parser_varint t) HX Hn ltac:(left; lia)) as K.
    unfold r_varint, r_checked.
    destruct (parse_varint t (slice T p lim)) as [| |w k].
    3:{ destruct K as (K1 & K2 & K3 & K4 & K5). rewrite K3. cbn [bind]. eexists. split; [reflexivity|].
        exists off, s0. split; [exact K5|]. split; [exact K4|]. lia. }
    all: destruct K as [K|(K0 & w & k & K1 & K2 & K3 & K4 & K5 & K6)]; [left; rewrite K; reflexivity|].
    all: right; split; [exact K0|]; rewrite K3; cbn [bind]; eexists _, (p + k), _; split; [reflexivity|].
    all: split; [lia|]; split; [exact K4|]; exists off, s0; split; [exact K6|]; split; [exact K5|]; lia.
  Qed.

  Lemma c_bool x tag lim p a : TgC x tag lim p a ->
    match parse_bool (slice T p lim) with
    | POk w k => exists a', r_bool a = Ok (w, a') /\ StC x lim (p + k) a'
    | _ => r_bool a = Err BadMessage \/
           (x = false /\ exists w q a', r_bool a = Ok (w, a') /\ p < q /\ lim < q /\ StC false lim q a')
    end.
  Proof.
    intros (off & s0 & HX & He & Ho & Hk).
    pose proof (no_pub _ _ _ _ _ _ _ _ parser_bool HX ltac:(lia)) as Hn.
    pose proof (parse_step _ _ _ _ _ _ _ _ parser_bool HX Hn ltac:(left; lia)) as K.
    unfold r_bool, r_checked.
    destruct (parse_bool (slice T p lim)) as [| |w k].
    3:{ destruct K as (K1 & K2 & K3 & K4 & K5). rewrite K3. cbn [bind]. eexists. split; [reflexivity|].
        exists off, s0. exact K5. }
    all: destruct K as [K|(K0 & w & k & K1 & K2 & K3 & K4 & K5 & K6)]; [left; rewrite K; reflexivity|].
    all: right; split; [exact K0|]; rewrite K3; cbn [bind]; eexists _, (p + k), _; split; [reflexivity|].
    all: split; [lia|]; split; [exact K4|]; exists off, s0; exact K6.
  Qed.

  Lemma r_checked_ok P a v a' : r_checked P a = Ok (v, a') ->
    exists k, P = POk v k /\ (c_b a + Z.of_nat k <= c_e a)%Z /\ a' = at_pos (c_b a + Z.of_nat k)%Z a.
  Proof.
    unfold r_checked. destruct P as [| |w k]; cbn [r_parse bind]; try discriminate.
    destruct (Z.leb_spec (c_b a + Z.of_nat k) (c_e a)); cbn [bind]; [|discriminate]. intros [= <- <-]. eauto.
  Qed.

  Lemma c_u32 x tag lim p a v a' : TgC x tag lim p a -> r_varint VU32 a = Ok (v, a') -> (0 <= v)%Z.
  Proof.
    intros (off & s0 & HX & _) H. apply r_checked_ok in H. destruct H as (k & H & _).
    pose proof (rd_bytes T HT padded _ _ _ _ (proj1 HX)) as Hb. rewrite (parse_varint_spec _ _ Hb) in H.
    destruct (scan _ (rd a)); try discriminate. injection H as <- _. cbn [meaning].
    apply Z.mod_pos_bound. reflexivity.
  Qed.

  Lemma c_u32_max x tag lim p a v a' : TgC x tag lim p a -> r_varint VU32 a = Ok (v, a') -> (v < 2 ^ 32)%Z.
  Proof.
    intros (off & s0 & HX & _) H. apply r_checked_ok in H. destruct H as (k & H & _).
    pose proof (rd_bytes T HT padded _ _ _ _ (proj1 HX)) as Hb. rewrite (parse_varint_spec _ _ Hb) in H.
    destruct (scan _ (rd a)); try discriminate. injection H as <- _. cbn [meaning].
    apply Z.mod_pos_bound. reflexivity.
  Qed.

  Lemma Sx_take off s0 x lim p a n : Sx off s0 x lim p a -> p + n <= off + s0 + 16 ->
    exists b, r_take n a = Ok (b, at_pos (c_b a + Z.of_nat n)%Z a) /\ (p + n <= length T -> b = slice T p (p + n)).
  Proof.
    intros HX H. pose proof (Sx_rd _ _ _ _ _ _ _ HX H) as Hr. unfold r_take.
    destruct (Nat.leb_spec n (length (rd a))); [|lia]. eexists. split; [reflexivity|].
    intros Hp. eapply (rd_firstn T); [apply HX|exact Hp|exact Hr].
  Qed.

  Lemma avail_at a n : in_avail cont (at_pos (c_b a + n)%Z a) = (in_avail cont a - n)%Z.
  Proof. unfold in_avail, region_size. cbn [at_pos c_e c_b c_sec c_s]. destruct cont; lia. Qed.

  Lemma c_fixed x tag n lim p a : TgC x tag lim p a -> n <= 8 ->
    exists b a', r_take n a = Ok (b, a') /\
      (if p + n <=? lim then b = slice T p (p + n) /\ StC x lim (p + n) a' else (in_avail cont a' < 0)%Z).
  Proof.
    intros (off & s0 & HX & He & Ho & Hk) Hn. destruct (Sx_take _ _ _ _ _ _ n HX ltac:(lia)) as (b & E & Hb).
    exists b. eexists. split; [exact E|]. pose proof (Sx_avail _ _ _ _ _ _ _ _ _ HX) as (A & B & C & _).
    destruct (Nat.leb_spec (p + n) lim).
    - split; [apply Hb; lia|]. exists off, s0. apply Sx_at; auto.
    - rewrite avail_at. lia.
  Qed.

  Lemma c_skip x n lim p a : StC x lim p a -> (0 <= n)%Z ->
    if (Z.of_nat p + n <=? Z.of_nat lim)%Z
    then exists a', r_skip cont n a = Ok a' /\ StC x lim (p + Z.to_nat n) a'
    else r_skip cont n a = Err BadMessage.
  Proof.
    intros HS Hn. pose proof (c_st _ _ _ _ HS) as (A & B & C). unfold r_skip. rewrite A.
    destruct (Z.leb_spec (Z.of_nat p + n) (Z.of_nat lim)); destruct (Z.ltb_spec (Z.of_nat lim - Z.of_nat p) n); try lia; [|reflexivity].
    eexists. split; [reflexivity|]. destruct HS as (off & s0 & HX). exists off, s0.
    rewrite <- (Z2Nat.id n) at 2 by lia. apply Sx_at; [exact HX|lia].
  Qed.

  (** The search for a terminator looks only at readable bytes. *)
  Lemma skip_varint_eq off s0 x lim p a : Sx off s0 x lim p a -> (c_b a <= c_e a)%Z -> p <= off + s0 + 5 ->
    r_skip_varint a = match find_term (Z.to_nat (Z.min 10 (region_size a))) (rd a) with
                      | Some k => Ok (at_pos (c_b a + Z.of_nat k)%Z a) | None => Err BadMessage end.
  Proof.
    intros HX He Ho. unfold r_skip_varint. destruct (Z.ltb_spec (region_size a) 0) as [H|H]; [unfold region_size in H; lia|].
    pose proof (Sx_rd _ _ _ _ _ _ 10 HX ltac:(lia)).
    destruct (Nat.leb_spec (Z.to_nat (Z.min 10 (region_size a))) (length (rd a))); [reflexivity|lia].
  Qed.

  Lemma find_term_le n m k : find_term n m = Some k -> 1 <= k <= n /\ k <= length m /\ (nth (k - 1) m 0 < 128)%Z /\
    forall i, i < k - 1 -> (128 <= nth i m 0)%Z.
  Proof. rewrite find_term_scan. destruct (scan n m) eqn:E; try discriminate. intros [= <-]. apply scan_found_nth, E. Qed.
  Lemma find_term_intro n m k : 1 <= k <= n -> k <= length m -> (nth (k - 1) m 0 < 128)%Z ->
    (forall i, i < k - 1 -> (128 <= nth i m 0)%Z) -> find_term n m = Some k.
  Proof.
    revert m k; induction n as [|n IH]; intros m k Hk Hl Ht Hi; [lia|]. destruct m as [|b t]; cbn in Hl; [lia|].
    cbn [find_term]. destruct (Z.ltb_spec b 128).
    - destruct k as [|[|k]]; [lia|reflexivity|]. specialize (Hi 0 ltac:(lia)). cbn in Hi. lia.
    - destruct k as [|[|k]]; [lia|cbn in Ht; lia|]. rewrite (IH t (S k)); [reflexivity|lia|lia| |].
      + replace (S (S k) - 1) with (S (S k - 1)) in Ht by lia. exact Ht.
      + intros i Hi'. specialize (Hi (S i) ltac:(lia)). exact Hi.
  Qed.

  Lemma checked_skip N P x tag lim p a v a' : parser N P -> N <= 10 -> TgC x tag lim p a ->
    r_checked (P (rd a)) a = Ok (v, a') -> r_skip_varint a = Ok a'.
  Proof.
    intros HP HN (off & s0 & HX & He & Ho & _) H. apply r_checked_ok in H. destruct H as (k & H & Hk & ->).
    rewrite (skip_varint_eq _ _ _ _ _ _ HX He Ho).
    destruct (HP (rd a) (rd_bytes T HT padded _ _ _ _ (proj1 HX))) as [K _].
    destruct (scan N (rd a)) eqn:E; [congruence|congruence|]. destruct K as (w & K). rewrite H in K. injection K as <- <-.
    apply scan_found_nth in E. destruct E as (E1 & E2 & E3 & E4).
    rewrite (find_term_intro _ _ k); auto. unfold region_size. lia.
  Qed.

  Lemma c_varint_skip x tag t lim p a v a' : TgC x tag lim p a -> r_varint t a = Ok (v, a') -> r_skip_varint a = Ok a'.
  Proof. intros H K. eapply (checked_skip _ _ _ _ _ _ _ _ _ (parser_varint t)); eauto. apply sm_max_le. Qed.
  Lemma c_bool_skip x tag lim p a v a' : TgC x tag lim p a -> r_bool a = Ok (v, a') -> r_skip_varint a = Ok a'.
  Proof. intros H K. eapply (checked_skip _ _ _ _ _ _ _ _ _ parser_bool); eauto. Qed.

  Lemma c_skip_varint x tag lim p a : TgC x tag lim p a ->
    match find_term 10 (slice T p lim) with
    | Some k => exists a', r_skip_varint a = Ok a' /\ StC x lim (p + k) a'
    | None => r_skip_varint a = Err BadMessage \/
              (x = false /\ exists q a', r_skip_varint a = Ok a' /\ p < q /\ lim < q /\ StC false lim q a')
    end.
  Proof.
    intros (off & s0 & HX & He & Ho & _). rewrite (skip_varint_eq _ _ _ _ _ _ HX He Ho).
    pose proof (no_pub _ _ _ _ _ _ _ _ parser_bool HX ltac:(lia)) as Hn.
    pose proof (parse_step _ _ _ _ _ _ _ _ parser_bool HX Hn ltac:(left; lia)) as K.
    pose proof (rd_bytes T HT padded _ _ _ _ (proj1 HX)) as Hb.
    destruct (parser_bool (rd a) Hb) as [Kr _].
    destruct (parser_bool (slice T p lim) (slice_bytes T _ _ HT)) as [Ks _].
    set (n := Z.to_nat (Z.min 10 (region_size a))).
    assert (Hin : forall v k, parse_bool (rd a) = POk v k -> (c_b a + Z.of_nat k <= c_e a)%Z -> find_term n (rd a) = Some k).
    { intros v k E Hk. destruct (scan 10 (rd a)) eqn:Es; [congruence|congruence|]. destruct Kr as (w & Kr).
      rewrite E in Kr. injection Kr as <- <-. apply scan_found_nth in Es. destruct Es as (E1 & E2 & E3 & E4).
      apply find_term_intro; auto. unfold n, region_size. lia. }
    assert (Hout : forall k, find_term n (rd a) = Some k -> exists v, parse_bool (rd a) = POk v k /\ (c_b a + Z.of_nat k <= c_e a)%Z).
    { intros k E. apply find_term_le in E. destruct E as (E1 & E2 & E3 & E4).
      assert (F : find_term 10 (rd a) = Some k) by (apply find_term_intro; auto; unfold n in E1; lia).
      rewrite find_term_scan in F. destruct (scan 10 (rd a)); try discriminate. injection F as ->.
      destruct Kr as (w & Kr). exists w. split; [exact Kr|]. unfold n, region_size in E1. lia. }
    rewrite find_term_scan. destruct (scan 10 (slice T p lim)) as [| |k] eqn:Es.
    3:{ destruct Ks as (w & Ks). rewrite Ks in K. destruct K as (K1 & K2 & K3 & K4 & K5).
        rewrite (Hin _ _ K2 K4). eexists. split; [reflexivity|]. exists off, s0. exact K5. }
    all: rewrite Ks in K; destruct K as [K|(K0 & w & k & K1 & K2 & K3 & K4 & K5 & K6)];
      [left|right; split; [exact K0|]; rewrite (Hin _ _ K2 K5); exists (p + k); eexists; split; [reflexivity|];
        split; [lia|]; split; [exact K4|]; exists off, s0; exact K6].
    all: destruct (find_term n (rd a)) as [k|] eqn:F; [|reflexivity];
      destruct (Hout _ eq_refl) as (v & F1 & F2); rewrite F1 in K; cbn [r_parse] in K;
      destruct (Z.leb_spec (c_b a + Z.of_nat k) (c_e a)); [discriminate|lia].
  Qed.

  (** *** split *)
  Lemma size_wrap off s0 x lim p a : Sx off s0 x lim p a -> (c_b a <= c_e a)%Z -> wrapU 64 (region_size a) = region_size a.
  Proof.
    intros (B & M & _) He. apply wrapU_id. unfold fits_u, region_size. unfold zlen in Hlen.
    destruct B as (B1 & _ & _ & B4 & B5 & _). apply (cur_len T padded) in B1.
    assert ((2 ^ 62 + 2 ^ 62 + 2 ^ 62 + 2 ^ 62 = 2 ^ 64)%Z) by reflexivity.
    assert ((16 < 2 ^ 62)%Z) by reflexivity.
    destruct M as [(E1 & E2 & E3 & _)|((H1 & _) & H2 & _)]; lia.
  Qed.

  (** The first part of a split, for a limit [q] that may lie beyond the old one
      when a further region follows. *)
  Lemma split_first off s0 x lim p a q : Sx off s0 x lim p a -> (c_b a <= c_e a)%Z -> p <= q -> q <= lim ->
    Sx off s0 x q p (fst (r_split (Z.of_nat (q - p)) a)).
  Proof.
    intros HX He Hq Hl. pose proof HX as (B & M & C). unfold r_split. cbn [fst].
    rewrite (size_wrap _ _ _ _ _ _ HX He). unfold region_size.
    pose proof B as (B1 & B2 & B3 & B4 & B5 & B6).
    pose proof (cur_len T padded _ _ _ _ B1) as (L1 & L2 & L3).
    destruct (Z.leb_spec (Z.of_nat (q - p)) (c_e a - c_b a)) as [H|H].
    - assert (Ex : exact T off s0 q p (Arch (c_mem a) (c_b a) (c_b a + Z.of_nat (q - p)) (Z.min (c_b a + Z.of_nat (q - p)) (c_s a))
          (c_rest a) (c_b a + Z.of_nat (q - p) - Z.min (c_b a + Z.of_nat (q - p)) (c_s a)))).
      { unfold exact. cbn [c_e c_s c_sec c_rest].
        destruct M as [(E1 & E2 & E3 & E4 & E5 & E6)|((H1 & H2 & H3 & H4 & H5) & H6 & H7)].
        - repeat split; try lia; intros R; specialize (E6 R); lia.
        - repeat split; try lia. }
      split; [repeat split; auto|]. split; [left; exact Ex|].
      intros X. split; [exact Ex|]. destruct (C X) as [_ [Cl|Cl]]; [left; lia|right; exact Cl].
    - destruct M as [(E1 & E2 & E3 & E4 & E5 & E6)|Sl]; [lia|].
      split; [repeat split; auto|]. pose proof Sl as ((H1 & H2 & H3 & H4 & H5) & H6 & H7). split.
      + right. unfold slack, hop. cbn [c_e c_s c_sec c_rest]. repeat split; auto; try lia.
      + intros X. destruct (C X) as [(E1 & E2 & E3 & E4 & E5 & E6) _]. lia.
  Qed.

  Lemma c_split x n lim p a : LnC x lim p a -> (0 <= n)%Z -> (Z.of_nat p + n <= Z.of_nat lim)%Z ->
    LnC x (p + Z.to_nat n) p (fst (r_split n a)) /\ StC x lim (p + Z.to_nat n) (snd (r_split n a)).
  Proof.
    intros (off & s0 & HX & He & Ho) Hn Hl. split.
    - exists off, s0. assert (En : n = Z.of_nat (p + Z.to_nat n - p)) by lia.
      split. { rewrite En at 2. apply (split_first _ _ _ lim); auto; lia. }
      split; [|exact Ho]. unfold r_split. cbn [fst].
      destruct (n <=? wrapU 64 (region_size a))%Z; cbn [c_b c_e]; lia.
    - exists off, s0. unfold r_split. cbn [snd]. rewrite <- (Z2Nat.id n) at 2 by lia. apply Sx_at; [exact HX|lia].
  Qed.

  Lemma c_byte0 x lim p a : LnC x lim p a -> p < lim -> r_byte0 a = Ok (nth p T 0%Z).
  Proof.
    intros (off & s0 & HX & He & Ho) Hp. pose proof (Sx_rd _ _ _ _ _ _ 1 HX ltac:(lia)) as Hr.
    pose proof (Sx_avail _ _ _ _ _ _ _ _ _ HX) as (A & B & C & _).
    pose proof (rd_firstn T padded _ _ _ _ 1 (proj1 HX) ltac:(lia) Hr) as K.
    unfold r_byte0. destruct (rd a) as [|b t]; [cbn in Hr; lia|]. cbn [firstn] in K. f_equal.
    pose proof (slice_nth T p (p + 1) 0 ltac:(lia) ltac:(lia)) as N. rewrite <- K in N. cbn [nth] in N.
    rewrite N. f_equal. lia.
  Qed.
End L.
