(** The region archive satisfies the laws of SimLaws.v: packed varints and booleans. *)
Require Import Verif.Bits Verif.Varint Verif.VarintSpec Verif.VarintProofs Verif.VarintFacts.
Require Import Verif.Schema Verif.Archive Verif.Decode Verif.DecodeSafe Verif.DecodeSpec1 Verif.DecodeSpec2.
Require Import Verif.Wire Verif.WireFacts Verif.SimLaws Verif.Region Verif.RegionInv Verif.RegionLaws1 Verif.RegionLaws2.
Local Open Scope nat_scope.

(** ** Parsing a run of varints *)
Definition ends (d : bytes) : Prop := d <> [] -> (nth (length d - 1) d 0 < 128)%Z.

Lemma nth_skipn_add (l : bytes) i j : nth j (skipn i l) 0%Z = nth (i + j) l 0%Z.
Proof. revert l; induction i as [|i IH]; intros [|b l]; cbn; auto. destruct j; reflexivity. Qed.
Lemma nth_firstn_lt (l : bytes) i n : i < n -> nth i (firstn n l) 0%Z = nth i l 0%Z.
Proof.
  revert l n; induction i as [|i IH]; intros [|b l] [|n] H; cbn; auto; try lia. apply IH. lia.
Qed.
Lemma ends_skipn d k : ends d -> ends (skipn k d).
Proof.
  intros H Hn. rewrite nth_skipn_add, skipn_length.
  assert (length (skipn k d) <> 0) by (destruct (skipn k d); [congruence|cbn; lia]). rewrite skipn_length in H0.
  replace (k + (length d - k - 1)) with (length d - 1) by lia. apply H. destruct d; [cbn in H0; lia|discriminate].
Qed.
Lemma ends_pub t d : all_bytes d -> ends d -> d <> [] -> parse_varint t d <> PUB.
Proof.
  intros Hb He Hd. apply (parser_term _ _ _ (parser_varint t) Hb). exists (length d - 1). split; [|apply He, Hd].
  destruct d; [congruence|cbn; lia].
Qed.

Lemma parse_region_cons t f room b d : parse_region (S f) t room (b :: d) =
  match room with
  | O => Err BadMessage
  | S r => match parse_varint t (b :: d) with
           | POk v n => vs <- parse_region f t r (skipn n (b :: d)) ;; Ok (v :: vs)
           | _ => Err BadMessage
           end
  end.
Proof. reflexivity. Qed.

Lemma parse_region_cases t f : forall room d, length d <= f ->
  (exists vs, parse_region f t room d = Ok vs) \/ parse_region f t room d = Err BadMessage.
Proof.
  induction f as [|f IH]; intros room d Hl; (destruct d as [|b d]; [cbn; eauto|]); cbn in Hl; [lia|].
  cbn [parse_region]. destruct room as [|r]; [auto|].
  destruct (parse_varint t (b :: d)) as [| |v n] eqn:E; auto. apply parse_varint_len in E.
  destruct (IH r (skipn n (b :: d))) as [[vs ->] | ->]; cbn [bind]; eauto. rewrite skipn_length. cbn [length] in *. lia.
Qed.

Lemma parse_region_fuel t f : forall f' room d, length d <= f -> length d <= f' ->
  parse_region f t room d = parse_region f' t room d.
Proof.
  induction f as [|f IH]; intros f' room d Hl Hl'; (destruct d as [|b d]; [destruct f'; reflexivity|]); cbn in Hl, Hl'; [lia|].
  destruct f' as [|f']; [lia|]. cbn [parse_region]. destruct room as [|r]; [reflexivity|].
  destruct (parse_varint t (b :: d)) as [| |v n] eqn:E; auto. apply parse_varint_len in E.
  rewrite (IH f'); [reflexivity| |]; rewrite skipn_length; cbn [length] in *; lia.
Qed.

Lemma parse_region_app t f : forall room d1 d2, all_bytes d1 -> ends d1 -> length d1 + length d2 <= f ->
  parse_region f t room (d1 ++ d2) =
  (vs <- parse_region f t room d1 ;; ws <- parse_region f t (room - length vs) d2 ;; Ok (vs ++ ws)).
Proof.
  induction f as [|f IH]; intros room d1 d2 Hb He Hl.
  - destruct d1; [|cbn in Hl; lia]. destruct d2; [reflexivity|cbn in Hl; lia].
  - destruct d1 as [|b d].
    { change (parse_region (S f) t room []) with (@Ok (list Z) []). cbn [app bind length]. rewrite Nat.sub_0_r. destruct (parse_region_cases t (S f) room d2 ltac:(cbn in Hl; lia)) as [[vs E]|E]; rewrite !E; reflexivity. }
    cbn [app]. rewrite !parse_region_cons. destruct room as [|r]; [reflexivity|].
    change (b :: d ++ d2) with ((b :: d) ++ d2).
    rewrite (parse_varint_app t (b :: d) d2) by (apply ends_pub; auto; discriminate).
    destruct (parse_varint t (b :: d)) as [| |v n] eqn:E; try reflexivity. apply parse_varint_len in E.
    rewrite skipn_app. replace (n - length (b :: d)) with 0 by lia. cbn [skipn].
    rewrite (IH r (skipn n (b :: d)) d2); [|apply all_bytes_skipn, Hb|apply ends_skipn, He|rewrite skipn_length; cbn [length] in *; lia].
    destruct (parse_region_cases t f r (skipn n (b :: d))) as [[vs K]|K].
    { rewrite skipn_length. cbn [length] in *. lia. }
    + rewrite K. cbn [bind length]. replace (S r - S (length vs)) with (r - length vs) by lia.
      rewrite (parse_region_fuel t f (S f)) by (cbn in Hl; lia).
      destruct (parse_region_cases t (S f) (r - length vs) d2 ltac:(cbn in Hl; lia)) as [[ws F]|F]; rewrite !F; reflexivity.
    + rewrite K. reflexivity.
Qed.

(** More than ten bytes without a terminator. *)
Lemma parse_region_stuck t f : forall room x u y, all_bytes (x ++ u ++ y) -> length u = 16 ->
  Forall (fun b => (128 <= b)%Z) u -> length (x ++ u ++ y) <= f -> parse_region f t room (x ++ u ++ y) = Err BadMessage.
Proof.
  induction f as [|f IH]; intros room x u y Hb Hu H Hl; [rewrite !app_length in Hl; lia|].
  destruct (parse_region_cases t (S f) room (x ++ u ++ y) Hl) as [[vs E]|E]; [|exact E]. exfalso.
  destruct (x ++ u ++ y) as [|b d] eqn:Ed. { apply (f_equal (@length Z)) in Ed. rewrite !app_length in Ed. cbn in Ed. lia. }
  cbn [parse_region] in E. destruct room as [|r]; [discriminate|]. rewrite <- Ed in *.
  destruct (parser_varint t _ Hb) as [K _]. pose proof (sm_max_le t) as Hm.
  destruct (scan (sm_max (smtype_of t)) (x ++ u ++ y)) as [| |n] eqn:Es; [rewrite K in E; discriminate|rewrite K in E; discriminate|].
  destruct K as (v & K). rewrite K in E. apply scan_found_nth in Es. destruct Es as (E1 & E2 & E3 & E4).
  destruct (le_lt_dec n (length x)) as [Hn|Hn].
  - rewrite skipn_app in E. replace (n - length x) with 0 in E by lia. cbn [skipn] in E.
    rewrite IH in E; [discriminate| |exact Hu|exact H|rewrite !app_length, skipn_length in *; lia].
    apply Forall_app in Hb. destruct Hb. apply Forall_app. split; [apply all_bytes_skipn|]; assumption.
  - rewrite app_nth2 in E3 by lia. rewrite app_nth1 in E3 by lia. rewrite Forall_forall in H.
    specialize (H _ (nth_In u 0%Z (ltac:(lia) : n - 1 - length x < length u))). lia.
Qed.

Lemma parse_piece_eq t f : forall room len m, all_bytes m -> len <= length m -> len <= f -> ends (firstn len m) ->
  parse_piece f t room len m = parse_region f t room (firstn len m).
Proof.
  induction f as [|f IH]; intros room len m Hb Hl Hf He.
  - assert (len = 0) by lia. subst len. reflexivity.
  - destruct len as [|len]; [reflexivity|]. destruct m as [|b m]; [cbn in Hl; lia|]. cbn [parse_piece].
    set (d := firstn (S len) (b :: m)) in *. assert (Ed : length d = S len) by (unfold d; rewrite firstn_length; lia).
    destruct room as [|r]; [destruct d; [discriminate|reflexivity]|].
    assert (Hd : parse_varint t d <> PUB).
    { apply ends_pub; auto; [apply all_bytes_firstn, Hb|destruct d; discriminate]. }
    assert (Ep : parse_varint t (b :: m) = parse_varint t d).
    { rewrite <- (firstn_skipn (S len) (b :: m)). apply parse_varint_app, Hd. }
    rewrite Ep. assert (Ec : exists b' d', d = b' :: d') by (destruct d; [discriminate|eauto]).
    destruct Ec as (b' & d' & Ec). rewrite Ec, parse_region_cons, <- Ec.
    destruct (parse_varint t d) as [| |v n] eqn:E; [congruence|reflexivity|]. apply parse_varint_len in E.
    destruct (Nat.leb_spec n (S len)); [|lia].
    assert (Es : firstn (S len - n) (skipn n (b :: m)) = skipn n d).
    { unfold d. rewrite skipn_firstn_comm. reflexivity. }
    rewrite IH; [|apply all_bytes_skipn, Hb|rewrite skipn_length; lia|lia|]; rewrite Es; [reflexivity|].
    apply ends_skipn, He.
Qed.

(** A terminator somewhere at the end of the memory is enough to read safely. *)
Lemma parse_piece_safe t f : forall room len m, all_bytes m -> len <= length m -> len <= f -> ends m ->
  (exists vs, parse_piece f t room len m = Ok vs) \/ parse_piece f t room len m = Err BadMessage.
Proof.
  induction f as [|f IH]; intros room len m Hb Hl Hf He.
  - assert (len = 0) by lia. subst len. cbn. eauto.
  - destruct len as [|len]; [cbn; eauto|]. cbn [parse_piece]. destruct room as [|r]; [auto|].
    assert (Hd : parse_varint t m <> PUB) by (apply ends_pub; auto; destruct m; [cbn in Hl; lia|discriminate]).
    destruct (parse_varint t m) as [| |v n] eqn:E; [congruence|auto|]. apply parse_varint_len in E.
    destruct (Nat.leb_spec n (S len)); [|auto].
    destruct (IH r (S len - n) (skipn n m)) as [[vs ->] | ->]; cbn [bind]; eauto; try lia.
    + apply all_bytes_skipn, Hb.
    + rewrite skipn_length. lia.
    + apply ends_skipn, He.
Qed.

Lemma after_term_spec l : match after_term l with
  | None => Forall (fun b => (128 <= b)%Z) l
  | Some k => k < length l /\ (nth k l 0 < 128)%Z
  end.
Proof.
  induction l as [|b t IH]; cbn [after_term]; [constructor|]. destruct (Z.ltb_spec b 128); [cbn; lia|].
  destruct (after_term t); [cbn; lia|]. constructor; auto.
Qed.

Lemma terminators_pos l : 0 < terminators l <-> exists i, i < length l /\ (nth i l 0 < 128)%Z.
Proof.
  induction l as [|b t IH]; cbn [terminators length].
  - split; [lia|]. intros (i & Hi & _). lia.
  - destruct (Z.ltb_spec b 128).
    + split; [|lia]. intros _. exists 0. cbn. split; [lia|auto].
    + rewrite IH. split; intros (i & Hi & K).
      * exists (S i). cbn. split; [lia|auto].
      * destruct i as [|i]; [cbn in K; lia|]. exists i. cbn in K. split; [lia|auto].
Qed.

Section L.
  Context (T : bytes) (HT : all_bytes T) (Hlen : (zlen T < 2 ^ 62)%Z) (cont padded big : bool) (path : copy_path).
  Notation Sx := (Sx T cont padded). Notation StC := (StC T cont padded).
  Notation TgC := (TgC T cont padded). Notation LnC := (LnC T cont padded).
  Notation adv := (advance padded).

  (** Moving on from a state that needs a further region. *)
  Lemma advance_slack l : forall off s0 x lim p a, base T false off s0 p a -> hop T off s0 lim a -> c_e a = Z.of_nat (s0 + 16) ->
    (x = true \/ cont = true -> exact T off s0 lim p a /\ closed off s0 lim a) -> p <= lim -> c_rest a = l ->
    exists off' s0', RegionInv.Sx T cont false off' s0' x lim p (advance_loop l a) /\ p <= off' + s0' /\ off + s0 <= off' + s0' /\
      (slack T off' s0' lim p (advance_loop l a) \/ (exact T off' s0' lim p (advance_loop l a) /\ lim <= off' + s0')).
  Proof.
    induction l as [|r t IH]; intros off s0 x lim p a B H He C Hp Hr; cbn [advance_loop].
    { destruct H as (H & _). congruence. }
    pose proof B as (B1 & B2 & B3 & B4 & B5 & B6). pose proof H as (H1 & H2 & H3 & H4 & H5).
    destruct (Z.ltb_spec 0 (c_b a - c_s a)) as [Hb|Hb].
    - destruct (enter_hop T false off s0 lim p a r t B H Hr ltac:(lia)) as (s1 & Ba & Hr1 & Hs1 & K).
      destruct K as [(K1 & K2 & K3)|(K1 & K2 & K3 & K4)].
      + destruct (IH (off + s0) s1 x lim p _ Ba K1 K2) as (o' & s' & R1 & R2 & R3 & R4); auto.
        { intros X. destruct (C X) as [_ [Cl|[r' Cl]]]; [lia|]. rewrite Hr in Cl. injection Cl as -> ->. congruence. }
        exists o', s'. split; [exact R1|]. split; [exact R2|]. split; [lia|exact R4].
      + assert (Ex : exact T (off + s0) s1 lim p (enter r (c_b a - c_s a) a)).
        { unfold exact. rewrite K3, K2, K1. repeat split; try lia. }
        assert (HS : RegionInv.Sx T cont false (off + s0) s1 x lim p (enter r (c_b a - c_s a) a)).
        { split; [exact Ba|]. split; [left; exact Ex|]. intros _. split; [exact Ex|left; exact K4]. }
        assert (Hst : advance_loop t (enter r (c_b a - c_s a) a) = enter r (c_b a - c_s a) a).
        { destruct t as [|r2 t]; [reflexivity|]. cbn [advance_loop]. destruct Ba as (_ & _ & _ & _ & A5 & _).
          destruct (Z.ltb_spec 0 (c_b (enter r (c_b a - c_s a) a) - c_s (enter r (c_b a - c_s a) a))); [lia|reflexivity]. }
        rewrite Hst. exists (off + s0), s1. split; [exact HS|]. split; [lia|]. split; [lia|]. right. auto.
    - assert (Sl : slack T off s0 lim p a) by (split; [exact H|split; [exact He|lia]]).
      exists off, s0. split; [split; [exact B|split; [right; exact Sl|exact C]]|]. split; [lia|]. split; [lia|]. left. exact Sl.
  Qed.

  Lemma slack_unpadded off s0 x lim p a : Sx off s0 x lim p a -> slack T off s0 lim p a -> padded = false.
  Proof.
    intros ((_ & _ & _ & _ & _ & B6) & _) ((H & _) & _). destruct padded; [|reflexivity]. specialize (B6 eq_refl). congruence.
  Qed.

  Lemma ends_slice p q : q <= length T -> (p < q -> (nth (q - 1) T 0 < 128)%Z) -> ends (slice T p q).
  Proof.
    intros Hq H Hn. rewrite (slice_len T) by lia.
    assert (p < q) by (destruct (le_lt_dec q p); [rewrite slice_nil in Hn by lia; congruence|lia]).
    rewrite (slice_nth T) by lia. replace (p + (q - p - 1)) with (q - 1) by lia. auto.
  Qed.

  Lemma cnt_some p n c : 0 < n -> p + n <= length T -> cnt T p n = Ok (Some c) ->
    (nth (p + n - 1) T 0 < 128)%Z /\ c = terminators (slice T p (p + n)).
  Proof.
    intros Hn Hp. unfold cnt. cbv zeta. rewrite last_nth, (slice_len T) by lia. rewrite (slice_nth T) by lia.
    replace (p + (p + n - p - 1)) with (p + n - 1) by lia. destruct (Z.ltb_spec (nth (p + n - 1) T 0%Z) 128); [|discriminate].
    intros [= <-]. auto.
  Qed.

  (** The regions before the limit. *)
  Lemma pvarint_ok t : forall f n room off s0 x lim p a, Sx off s0 x lim p a -> p + n <= lim -> n < f ->
    (0 < n -> (nth (p + n - 1) T 0 < 128)%Z) -> cont = false ->
    match parse_region n t room (slice T p (p + n)) with
    | Ok vs => exists a', pvarint_loop padded f t (Z.of_nat n) room a = Ok (vs, a') /\ StC x lim (p + n) a'
    | _ => pvarint_loop padded f t (Z.of_nat n) room a = Err BadMessage
    end.
  Proof.
    induction f as [|f IH]; intros n room off s0 x lim p a HX Hp Hf Hlast Hc; [lia|]. cbn [pvarint_loop].
    destruct (Z.eqb_spec (Z.of_nat n) 0) as [E0|E0].
    { assert (n = 0) by lia. subst n. rewrite slice_nil by lia. cbn [parse_region]. exists a. split; [reflexivity|].
      replace (p + 0) with p by lia. exists off, s0. exact HX. }
    pose proof (Sx_avail _ _ _ _ _ _ _ _ _ HX) as (_ & Hl & _). specialize (Hlast ltac:(lia)).
    destruct (advance_ready T cont padded x lim p a ltac:(exists off, s0; exact HX) ltac:(lia)) as (o1 & s1 & HX1 & Ho1).
    set (a1 := adv a) in *. pose proof (Sx_Rx _ _ _ _ _ _ _ _ _ HX1 ltac:(lia)) as HR1.
    destruct (Rx_size T Hlen cont padded _ _ _ _ _ _ _ HR1 Ho1 ltac:(lia)) as (Z1 & Z2 & Z3).
    pose proof (rd_bytes T HT padded _ _ _ _ (proj1 HX1)) as Hb.
    assert (H63 : (2 ^ 63 < 2 ^ 64)%Z) by reflexivity.
    unfold piece_len. rewrite (wrapU_id 64 (region_size a1)) by (unfold fits_u; lia).
    destruct (Z.leb_spec (Z.of_nat n) (region_size a1)) as [Hge|Hlt].
    - cbn [bind]. destruct (Z.eqb_spec (Z.of_nat n) 0); [lia|]. rewrite Nat2Z.id.
      rewrite parse_piece_eq; [|exact Hb|lia|lia|].
      2:{ rewrite (rd_firstn T padded _ _ _ _ n (proj1 HX1)) by lia. apply ends_slice; [lia|auto]. }
      rewrite (rd_firstn T padded _ _ _ _ n (proj1 HX1)) by lia.
      destruct (parse_region_cases t n room (slice T p (p + n))) as [[vs ->] | ->].
      { rewrite (slice_len T) by lia. lia. }
      + cbn [bind]. replace (Z.of_nat n - Z.of_nat n)%Z with 0%Z by lia.
        assert (E : forall r a', pvarint_loop padded f t 0 r a' = Ok ([], a')) by (destruct f; reflexivity).
        rewrite E. cbn [bind]. rewrite app_nil_r. eexists. split; [reflexivity|]. exists o1, s1. apply Sx_at; auto.
      + reflexivity.
    - destruct Z3 as [Z3|(Z3 & Z4 & Z5)]; [lia|]. specialize (Z5 eq_refl).
      destruct HX1 as (B & M & C). pose proof Z3 as (H1 & H2 & H3 & H4 & H5).
      pose proof B as (B1 & B2 & B3 & B4 & B5 & B6). pose proof (cur_len T padded _ _ _ _ B1) as (L1 & L2 & L3). specialize (L3 H1).
      assert (Hce : c_e a1 = Z.of_nat (s1 + 16)) by (unfold region_size in Z5; lia).
      rewrite H2, Hce. destruct (Z.ltb_spec (Z.of_nat s1) (Z.of_nat (s1 + 16))); [|lia].
      destruct (Z.ltb_spec (Z.of_nat s1) 0); [lia|]. unfold zlen.
      destruct (Z.ltb_spec (Z.of_nat (length (c_mem a1))) (Z.of_nat (s1 + 16))); [lia|]. cbn [orb].
      replace (Z.to_nat (Z.of_nat (s1 + 16) - Z.of_nat s1)) with 16 by lia. rewrite Nat2Z.id.
      assert (Hsl : firstn 16 (skipn s1 (c_mem a1)) = slice T (o1 + s1) (o1 + s1 + 16)).
      { destruct (c_rest a1) eqn:Hr; [congruence|]. destruct B1 as [-> _]. rewrite slice_skipn.
        apply firstn_all2. rewrite (slice_len T) by lia. lia. }
      rewrite Hsl. pose proof (after_term_spec (rev (slice T (o1 + s1) (o1 + s1 + 16)))) as Ht.
      rewrite rev_length, (slice_len T) in Ht by lia.
      assert (Ed : slice T p (p + n) = slice T p (o1 + s1) ++ slice T (o1 + s1) (o1 + s1 + 16) ++ slice T (o1 + s1 + 16) (p + n)).
      { rewrite !(slice_app T) by lia. reflexivity. }
      destruct (after_term _) as [j|].
      + destruct Ht as [Hj Hnth]. rewrite rev_nth in Hnth by (rewrite (slice_len T); lia).
        rewrite (slice_len T), (slice_nth T) in Hnth by lia.
        destruct (Z.ltb_spec (region_size a1) (Z.of_nat j)); [lia|]. cbn [bind].
        set (k := o1 + s1 + 16 - p - j). replace (region_size a1 - Z.of_nat j)%Z with (Z.of_nat k) by lia.
        destruct (Z.eqb_spec (Z.of_nat k) 0); [lia|]. rewrite Nat2Z.id.
        assert (Hk : k <= length (rd a1)) by lia.
        assert (Hek : ends (slice T p (p + k))).
        { apply ends_slice; [lia|]. intros _. replace (p + k - 1) with (o1 + s1 + (o1 + s1 + 16 - (o1 + s1) - S j)) by lia. exact Hnth. }
        rewrite parse_piece_eq; [|exact Hb|lia|lia|rewrite (rd_firstn T padded _ _ _ _ k B) by lia; exact Hek].
        rewrite (rd_firstn T padded _ _ _ _ k B) by lia.
        rewrite <- (slice_app T p (p + k) (p + n)) by lia.
        rewrite parse_region_app; [|apply slice_bytes, HT|exact Hek|rewrite !(slice_len T) by lia; lia].
        rewrite (parse_region_fuel t n k) by (rewrite (slice_len T) by lia; lia).
        destruct (parse_region_cases t k room (slice T p (p + k))) as [[vs ->] | ->].
        { rewrite (slice_len T) by lia. lia. }
        * cbn [bind]. replace (Z.of_nat n - Z.of_nat k)%Z with (Z.of_nat (n - k)) by lia.
          assert (HX2 : Sx o1 s1 x lim (p + k) (at_pos (c_b a1 + Z.of_nat k)%Z a1)).
          { apply Sx_at; [split; [exact B|split; [exact M|exact C]]|lia]. }
          assert (Epn : p + k + (n - k) = p + n) by lia.
          specialize (IH (n - k) (room - length vs) o1 s1 x lim (p + k) _ HX2 ltac:(lia) ltac:(lia)).
          rewrite Epn in IH. specialize (IH ltac:(auto) Hc).
          rewrite (parse_region_fuel t n (n - k)) by (rewrite (slice_len T) by lia; lia).
          destruct (parse_region (n - k) t (room - length vs) (slice T (p + k) (p + n))); cbn [bind].
          -- destruct IH as (a' & -> & HS). cbn [bind]. eauto.
          -- rewrite IH. reflexivity.
          -- rewrite IH. reflexivity.
          -- rewrite IH. reflexivity.
          -- rewrite IH. reflexivity.
        * reflexivity.
      + cbn [bind Z.eqb]. rewrite Ed. rewrite parse_region_stuck; [reflexivity| |rewrite (slice_len T) by lia; lia| |].
        * rewrite <- Ed. apply slice_bytes, HT.
        * rewrite <- (rev_involutive (slice T (o1 + s1) (o1 + s1 + 16))). apply Forall_rev. exact Ht.
        * rewrite <- Ed, (slice_len T) by lia. lia.
  Qed.

  Lemma z_pvarint_eq t n c lim p : (0 < n)%Z -> p + Z.to_nat n <= lim -> lim <= length T ->
    z_pvarint t n c (zz T lim p) =
    (vs <- parse_region (Z.to_nat n) t c (slice T p (p + Z.to_nat n)) ;; Ok (pad_room c vs, zz T lim (p + Z.to_nat n))).
  Proof.
    intros Hn Hp Hl. unfold z_pvarint, z_take. cbn [za SimLaws.zz]. rewrite (slice_len T) by lia.
    destruct (Nat.leb_spec (Z.to_nat n) (lim - p)); [|lia]. cbn [bind].
    fold (zz T lim p). rewrite zz_adv by lia. rewrite slice_firstn by lia. rewrite (slice_len T) by lia.
    replace (p + Z.to_nat n - p) with (Z.to_nat n) by lia. reflexivity.
  Qed.

  Lemma piece_avail a k : in_avail cont (at_pos (c_b a + k)%Z a) = (in_avail cont a - k)%Z.
  Proof. apply avail_at. Qed.

  Lemma c_pvarint x t n c lim p a : LnC x lim p a -> (0 < n)%Z -> (n < 2 ^ 32)%Z -> r_nvarints cont padded big n a = Ok (Some c) ->
    if p + Z.to_nat n <=? lim
    then match z_pvarint t n c (zz T lim p) with
         | Ok (vs, _) => exists a', r_pvarint cont padded t n c a = Ok (vs, a') /\ StC x lim (p + Z.to_nat n) a'
         | _ => r_pvarint cont padded t n c a = Err BadMessage
         end
    else r_pvarint cont padded t n c a = Err BadMessage \/
         exists vs a', r_pvarint cont padded t n c a = Ok (vs, a') /\ (in_avail cont a' < 0)%Z.
  Proof.
    intros HLn Hn Hm Hc. pose proof HLn as (off & s0 & HX & He & Ho).
    pose proof (Sx_avail _ _ _ _ _ _ _ _ _ HX) as (Av & Hl & _).
    pose proof (nvarints_cases T HT Hlen cont padded big _ _ _ _ _ HLn Hn Hm) as NC. rewrite Hc in NC.
    set (k := Z.to_nat n) in *. assert (Ek : n = Z.of_nat k) by lia.
    destruct NC as [(K1 & K2)|(K1 & [K2|(-> & Hcont & HkT & K2 & o & s & HXs & Sl & Hks)])]; [|discriminate|].
    - destruct (Nat.leb_spec (p + k) lim); [|lia]. unfold k. rewrite z_pvarint_eq by (auto; unfold k in *; lia). fold k.
      symmetry in K2. apply cnt_some in K2; [|lia|lia]. destruct K2 as [Hlast _]. unfold r_pvarint.
      destruct cont eqn:Econt.
      + fold k. destruct HX as (B & M & C). destruct (C (or_intror eq_refl)) as [Ex Cl].
        destruct (exact_take T padded _ _ _ _ _ k B Ex K1) as [_ Hr].
        rewrite parse_piece_eq; [|eapply rd_bytes; eauto|exact Hr|lia|].
        2:{ rewrite (rd_firstn T padded _ _ _ _ k B) by lia. apply ends_slice; [lia|auto]. }
        rewrite (rd_firstn T padded _ _ _ _ k B) by lia.
        destruct (parse_region k t c (slice T p (p + k))) eqn:Ep; cbn [bind].
        * eexists. split; [reflexivity|]. exists off, s0. rewrite Ek. apply Sx_at; [|lia]. split; [exact B|]. split; auto.
        * destruct (parse_region_cases t k c (slice T p (p + k))) as [[vs Q]|Q]; [rewrite (slice_len T) by lia; lia|congruence|congruence].
        * destruct (parse_region_cases t k c (slice T p (p + k))) as [[vs Q]|Q]; [rewrite (slice_len T) by lia; lia|congruence|congruence].
        * destruct (parse_region_cases t k c (slice T p (p + k))) as [[vs Q]|Q]; [rewrite (slice_len T) by lia; lia|congruence|congruence].
        * destruct (parse_region_cases t k c (slice T p (p + k))) as [[vs Q]|Q]; [rewrite (slice_len T) by lia; lia|congruence|congruence].
      + fold k. rewrite <- Econt in *. pose proof (pvarint_ok t (S k) k c off s0 x lim p a HX K1 ltac:(lia) ltac:(auto) Econt) as K. rewrite <- Ek in K.
        destruct (parse_region k t c (slice T p (p + k))); cbn [bind].
        * destruct K as (a' & -> & HS). cbn [bind]. eauto.
        * rewrite K. reflexivity.
        * rewrite K. reflexivity.
        * rewrite K. reflexivity.
        * rewrite K. reflexivity.
    - destruct (Nat.leb_spec (p + k) lim); [lia|].
      symmetry in K2. apply cnt_some in K2; [|lia|lia]. destruct K2 as [Hlast _].
      pose proof (slack_unpadded _ _ _ _ _ _ HXs Sl) as Hpad. unfold r_pvarint. rewrite Hcont. fold k.
      cbn [pvarint_loop]. destruct (Z.eqb_spec n 0); [lia|].
      (* one piece of all bytes, or nothing *)
      set (a1 := adv a) in *.
      assert (Hone : forall r, piece_len n a1 = Ok n -> (in_avail cont a1 < n)%Z ->
        ((exists vs, parse_piece k t c k (rd a1) = Ok vs) \/ parse_piece k t c k (rd a1) = Err BadMessage) ->
        r = ('(vs, a') <- (k0 <- piece_len n a1;; (if (k0 =? 0)%Z then Err BadMessage else
               vs <- parse_piece (Z.to_nat k0) t c (Z.to_nat k0) (rd a1) ;;
               '(ws, a2) <- pvarint_loop padded k t (n - k0) (c - length vs) (at_pos (c_b a1 + k0)%Z a1) ;; Ok (vs ++ ws, a2)));;
             Ok (pad_room c vs, a')) ->
        r = Err BadMessage \/ exists vs a', r = Ok (vs, a') /\ (in_avail false a' < 0)%Z).
      { intros r P1 P2 P3 ->. rewrite P1. cbn [bind]. destruct (Z.eqb_spec n 0); [lia|]. fold k.
        destruct P3 as [[vs ->] | ->]; [|left; reflexivity]. cbn [bind]. replace (n - n)%Z with 0%Z by lia.
        assert (E : forall r a', pvarint_loop padded k t 0 r a' = Ok ([], a')) by (destruct k; reflexivity).
        rewrite E. cbn [bind]. right. eexists _, _. split; [reflexivity|]. rewrite <- Hcont, piece_avail. lia. }
      pose proof HXs as (B & M & C). pose proof Sl as (Hh & Hce & Hov).
      destruct (le_lt_dec p lim) as [Hpl|Hpl].
      + destruct (advance_slack (c_rest a) o s false lim p a) as (o1 & s1 & HX1 & Ho1 & Hmono & Hk); auto.
        { rewrite <- Hpad. exact B. }
        assert (Ea : advance_loop (c_rest a) a = a1) by (unfold a1, advance; rewrite Hpad; reflexivity).
        rewrite Ea in *. rewrite <- Hpad in HX1.
        pose proof (Sx_avail _ _ _ _ _ _ _ _ _ HX1) as (Av1 & _).
        pose proof (Sx_Rx _ _ _ _ _ _ _ _ _ HX1 Hpl) as HR1.
        destruct (Rx_size T Hlen cont padded _ _ _ _ _ _ _ HR1 Ho1 ltac:(lia)) as (Z1 & Z2 & Z3).
        assert (H63 : (2 ^ 63 < 2 ^ 64)%Z) by reflexivity.
        destruct Hk as [Sl1|(Ex1 & Hlim1)].
        * pose proof Sl1 as ((Hr1 & _) & Hce1 & _). pose proof (proj1 HX1) as (B1 & _ & B3 & _ & B5 & _).
          pose proof (cur_len T padded _ _ _ _ B1) as (_ & _ & L3). specialize (L3 Hr1).
          assert (Hrs : (n <= region_size a1)%Z) by (unfold region_size; lia).
          eapply Hone; [|rewrite Av1; lia| |reflexivity].
          { unfold piece_len. rewrite wrapU_id by (unfold fits_u; lia). destruct (Z.leb_spec n (region_size a1)); [reflexivity|lia]. }
          rewrite parse_piece_eq; [|eapply rd_bytes; [exact HT|apply HX1]|lia|lia|].
          2:{ rewrite (rd_firstn T padded _ _ _ _ k (proj1 HX1)) by lia. apply ends_slice; [lia|auto]. }
          apply parse_region_cases. rewrite (rd_firstn T padded _ _ _ _ k (proj1 HX1)) by lia. rewrite (slice_len T) by lia. lia.
        * left. destruct Ex1 as (E1 & E2 & E3 & E4 & E5 & E6). unfold piece_len.
          rewrite wrapU_id by (unfold fits_u; lia).
          pose proof (proj1 HX1) as (B1 & _ & B3 & _ & B5 & _).
          destruct (Z.leb_spec n (region_size a1)) as [Hx|Hx]; [unfold region_size in Hx; lia|].
          destruct (Z.ltb_spec (c_s a1) (c_e a1)); [lia|]. reflexivity.
      + destruct (advance_beyond T cont padded _ _ _ _ (ex_intro _ o (ex_intro _ s HXs)) Hpl) as (_ & Hp16 & _ & HP & Hr). fold a1 in HP, Hr.
        destruct (past_rd T HT padded _ _ HP Hr) as (R1 & R2 & R3 & _). specialize (R3 Hpad).
        pose proof HP as (P1 & P2 & P3 & P4 & _). destruct Hh as (_ & _ & _ & Hh & _).
        eapply Hone; [|rewrite (past_avail T cont padded _ _ HP Hcont); lia| |reflexivity].
        * unfold piece_len. assert (Hw : (n <= wrapU 64 (region_size a1))%Z).
          { unfold wrapU. replace (region_size a1) with (2 ^ 64 - Z.of_nat (p - lim) + (-1) * 2 ^ 64)%Z by (unfold region_size; lia).
            rewrite Z.mod_add by discriminate.
            assert (H64 : (100 < 2 ^ 64)%Z) by reflexivity. rewrite Z.mod_small by lia. lia. }
          destruct (Z.leb_spec n (wrapU 64 (region_size a1))); [reflexivity|lia].
        * apply parse_piece_safe; [exact R2|lia|lia|]. intros _. rewrite R3. lia.
  Qed.

  (** ** Booleans *)
  Lemma bool_next off s0 p a e c w k : base T padded off s0 p a -> e <= length T ->
    terminators (slice T p e) = S c -> parse_bool (rd a) = POk w k -> p + k <= e /\ 1 <= k <= 10 /\ terminators (slice T (p + k) e) = c.
  Proof.
    intros B He Ht E.
    assert (Hd : parse_bool (slice T p e) <> PUB).
    { apply (parser_term _ _ _ parser_bool (slice_bytes T _ _ HT)). apply terminators_pos. lia. }
    pose proof (parser_cmp _ _ _ _ parser_bool (rd_bytes T HT padded _ _ _ _ B) (slice_bytes T p e HT) ltac:(rewrite E; discriminate)
                  (rd_agree T padded _ _ _ _ _ B He)) as K. rewrite E in K. destruct K as (K1 & K2 & K3 & K4).
    destruct (le_lt_dec k (length (slice T p e))) as [Hk|Hk].
    - specialize (K3 Hk). rewrite (slice_len T) in Hk by lia. split; [lia|]. split; [lia|].
      destruct (parser_bool _ (slice_bytes T p e HT)) as [F _]. destruct (scan 10 (slice T p e)) eqn:Es; [congruence|congruence|].
      destruct F as (v & F). rewrite K3 in F. injection F as <- <-. apply scan_terminators in Es. rewrite slice_skipn in Es. lia.
    - specialize (K4 Hk).
      destruct (rd_agree T padded _ _ _ _ _ B He) as [[u Hu]|[u Hu]].
      + rewrite Hu, parse_bool_app in E by exact Hd. rewrite E in K4. contradiction.
      + rewrite Hu, parse_bool_app in K4 by (rewrite E; discriminate). rewrite E in K4. contradiction.
  Qed.

  Lemma bool_safe off s0 x lim p a e : Sx off s0 x lim p a -> e <= lim -> 0 < terminators (slice T p e) -> cont = true ->
    parse_bool (rd a) <> PUB.
  Proof.
    intros (B & M & C) He Ht Hc. destruct (C (or_intror Hc)) as [Ex _]. pose proof Ex as (E1 & E2 & _).
    apply terminators_pos in Ht. destruct Ht as (i & Hi & Hn). rewrite (slice_len T) in Hi by lia.
    destruct (exact_take T padded _ _ _ _ _ (e - p) B Ex ltac:(lia)) as [_ Hr].
    apply (parser_term _ _ _ parser_bool (rd_bytes T HT padded _ _ _ _ B)). exists i. split; [lia|].
    pose proof (rd_firstn T padded _ _ _ _ (e - p) B ltac:(lia) Hr) as K. replace (p + (e - p)) with e in K by lia.
    rewrite <- K, nth_firstn_lt in Hn by lia. exact Hn.
  Qed.

  Lemma pbool_in e lim : e <= lim -> forall c x p a, StC x lim p a -> p <= e -> terminators (slice T p e) = c ->
    match z_pbool c (zz T lim p) with
    | Ok (vs, z') => exists a' q, p <= q /\ q <= lim /\ r_pbool cont padded c a = Ok (vs, a') /\ z' = zz T lim q /\ StC x lim q a'
    | _ => r_pbool cont padded c a = Err BadMessage
    end.
  Proof.
    intros He. induction c as [|c IH]; intros x p a HS Hp Ht.
    - cbn [z_pbool r_pbool]. exists a, p. repeat split; auto; lia.
    - pose proof (c_st T cont padded _ _ _ _ HS) as (_ & Hl & _). cbn [z_pbool r_pbool].
      set (a1 := if cont then a else adv a).
      assert (Hst : exists o s, Sx o s x lim p a1 /\ parse_bool (rd a1) <> PUB /\ (p + 10 <= o + s + 16 \/ cont = true)).
      { unfold a1. destruct cont eqn:Ec.
        - destruct HS as (o & s & HX). exists o, s. split; [exact HX|]. split; [|auto]. rewrite <- Ec in HX.
          eapply (bool_safe _ _ _ _ _ _ e); eauto. lia.
        - rewrite <- Ec in *. destruct (advance_ready T cont padded x lim p a HS ltac:(lia)) as (o & s & HX & Ho).
          exists o, s. split; [exact HX|]. split; [|left; lia].
          eapply (no_pub T HT cont padded _ _ _ _ _ _ _ _ parser_bool HX). lia. }
      destruct Hst as (o & s & HX & Hn & Hr).
      pose proof (parse_step T HT cont padded _ _ _ _ _ _ _ _ parser_bool HX Hn Hr) as K.
      unfold z_bool, r_bool, r_checked. cbn [za SimLaws.zz].
      assert (Hd : parse_bool (slice T p lim) <> PUB).
      { apply (parser_term _ _ _ parser_bool (slice_bytes T _ _ HT)). apply terminators_pos.
        rewrite <- (slice_app T p e lim), terminators_app by lia. lia. }
      destruct (parse_bool (slice T p lim)) as [| |w k] eqn:E; [congruence| |].
      + cbn [z_parse bind].
        assert (Er : parse_bool (rd a1) = PUnterm).
        { destruct (rd_agree T padded _ _ _ _ _ (proj1 HX) Hl) as [[u Hu]|[u Hu]].
          - rewrite Hu, parse_bool_app; rewrite E; [reflexivity|discriminate].
          - rewrite Hu, parse_bool_app in E by exact Hn. exact E. }
        rewrite Er. reflexivity.
      + destruct K as (K1 & K2 & K3 & K4 & K5). rewrite K3. cbn [z_parse bind].
        destruct (bool_next _ _ _ _ e c _ _ (proj1 HX) ltac:(lia) Ht K2) as (N1 & N2 & N3).
        fold (zz T lim p). rewrite zz_adv by lia.
        specialize (IH x (p + k) _ (ex_intro _ o (ex_intro _ s K5)) N1 N3).
        destruct (z_pbool c (zz T lim (p + k))) as [[vs z']| | | |]; cbn [bind].
        * destruct IH as (a' & q & Q1 & Q2 & -> & Q4 & Q5). cbn [bind]. exists a', q. repeat split; auto; lia.
        * rewrite IH. reflexivity.
        * rewrite IH. reflexivity.
        * rewrite IH. reflexivity.
        * rewrite IH. reflexivity.
  Qed.

  Lemma pbool_over e lim : lim < e -> e <= length T -> (nth (e - 1) T 0 < 128)%Z -> cont = false -> forall c p a,
    StC false lim p a -> p <= e -> terminators (slice T p e) = c ->
    r_pbool cont padded c a = Err BadMessage \/ exists vs a', r_pbool cont padded c a = Ok (vs, a') /\ (in_avail cont a' < 0)%Z.
  Proof.
    intros He HeT Hlast Hc. induction c as [|c IH]; intros p a HS Hp Ht.
    - right. cbn [r_pbool]. eexists _, _. split; [reflexivity|].
      assert (p = e).
      { destruct (Nat.eq_dec p e); [assumption|]. exfalso.
        assert (0 < terminators (slice T p e)); [|lia]. apply terminators_pos. exists (e - 1 - p).
        rewrite (slice_len T), (slice_nth T) by lia. split; [lia|]. replace (p + (e - 1 - p)) with (e - 1) by lia. exact Hlast. }
      subst p. rewrite (proj1 (c_st T cont padded _ _ _ _ HS)). lia.
    - cbn [r_pbool]. rewrite Hc. rewrite <- Hc. unfold r_bool, r_checked.
      destruct (le_lt_dec p lim) as [Hpl|Hpl].
      + destruct (advance_ready T cont padded false lim p a HS Hpl) as (o & s & HX & Ho).
        set (a1 := adv a) in *. pose proof (no_pub T HT cont padded _ _ _ _ _ _ _ _ parser_bool HX ltac:(lia)) as Hn.
        pose proof (parse_step T HT cont padded _ _ _ _ _ _ _ _ parser_bool HX Hn ltac:(left; lia)) as K.
        assert (Step : forall w k, parse_bool (rd a1) = POk w k -> StC false lim (p + k) (at_pos (c_b a1 + Z.of_nat k)%Z a1) ->
          forall r, r = ('(v, a1) <- Ok (w, at_pos (c_b a1 + Z.of_nat k)%Z a1);; '(vs, a2) <- r_pbool cont padded c a1;; Ok (v :: vs, a2)) ->
          r = Err BadMessage \/ exists vs a', r = Ok (vs, a') /\ (in_avail cont a' < 0)%Z).
        { intros w k E HS' r ->. destruct (bool_next _ _ _ _ e c _ _ (proj1 HX) HeT Ht E) as (N1 & N2 & N3).
          cbn [bind]. destruct (IH _ _ HS' N1 N3) as [->|(vs & a' & -> & Ha)]; [left; reflexivity|].
          right. cbn [bind]. eexists _, _. split; [reflexivity|exact Ha]. }
        destruct (parse_bool (slice T p lim)) as [| |w k].
        * destruct K as [K|(_ & w & k & K1 & K2 & K3 & K4 & K5 & K6)]; [left; rewrite K; reflexivity|].
          rewrite K3. cbn [bind]. eapply Step; [exact K2|exists o, s; exact K6|reflexivity].
        * destruct K as [K|(_ & w & k & K1 & K2 & K3 & K4 & K5 & K6)]; [left; rewrite K; reflexivity|].
          rewrite K3. cbn [bind]. eapply Step; [exact K2|exists o, s; exact K6|reflexivity].
        * destruct K as (K1 & K2 & K3 & K4 & K5). rewrite K3. cbn [bind]. eapply Step; [exact K2|exists o, s; exact K5|reflexivity].
      + left. destruct (advance_beyond T cont padded _ _ _ _ HS Hpl) as (_ & Hp16 & _ & HP & Hr). set (a1 := adv a) in *.
        destruct (past_rd T HT padded _ _ HP Hr) as (R1 & R2 & _ & R3).
        pose proof (parser_long _ _ _ parser_bool R2 ltac:(lia)) as Hn.
        destruct (parse_bool (rd a1)) as [| |w k]; [congruence|reflexivity|]. cbn [r_parse].
        destruct (Z.leb_spec (c_b a1 + Z.of_nat k) (c_e a1)); [lia|]. reflexivity.
  Qed.

  Lemma c_pbool x n c lim p a : LnC x lim p a -> (0 < n)%Z -> (n < 2 ^ 32)%Z -> r_nvarints cont padded big n a = Ok (Some c) ->
    if p + Z.to_nat n <=? lim
    then match z_pbool c (zz T lim p) with
         | Ok (vs, z') => exists a' q, p <= q /\ q <= lim /\ r_pbool cont padded c a = Ok (vs, a') /\ z' = zz T lim q /\ StC x lim q a'
         | _ => r_pbool cont padded c a = Err BadMessage \/
                (x = false /\ exists vs a', r_pbool cont padded c a = Ok (vs, a') /\ (in_avail cont a' < 0)%Z)
         end
    else r_pbool cont padded c a = Err BadMessage \/
         exists vs a', r_pbool cont padded c a = Ok (vs, a') /\ (in_avail cont a' < 0)%Z.
  Proof.
    intros HLn Hn Hm Hc. pose proof HLn as (off & s0 & HX & He & Ho).
    pose proof (Sx_avail _ _ _ _ _ _ _ _ _ HX) as (Av & Hl & _).
    pose proof (nvarints_cases T HT Hlen cont padded big _ _ _ _ _ HLn Hn Hm) as NC. rewrite Hc in NC.
    set (k := Z.to_nat n) in *.
    destruct NC as [(K1 & K2)|(K1 & [K2|(-> & Hcont & HkT & K2 & o & s & HXs & Sl & Hks)])]; [|discriminate|].
    - destruct (Nat.leb_spec (p + k) lim); [|lia]. symmetry in K2. apply cnt_some in K2; [|lia|lia]. destruct K2 as [_ K2].
      pose proof (pbool_in (p + k) lim K1 c x p a ltac:(exists off, s0; exact HX) ltac:(lia) ltac:(auto)) as K.
      destruct (z_pbool c (zz T lim p)) as [[vs z']| | | |]; auto.
    - destruct (Nat.leb_spec (p + k) lim); [lia|].
      symmetry in K2. apply cnt_some in K2; [|lia|lia]. destruct K2 as [Hlast K2].
      apply (pbool_over (p + k) lim) with (p := p); auto; try lia. exists o, s. exact HXs.
  Qed.
End L.
