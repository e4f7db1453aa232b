(** The region archive satisfies the laws of SimLaws.v: copying, views, counting
    varints and taking back a tag. *)
Require Import Verif.Bits Verif.Varint Verif.VarintSpec Verif.VarintProofs Verif.VarintFacts.
Require Import Verif.Schema Verif.Archive Verif.Decode Verif.DecodeSafe Verif.DecodeSpec1.
Require Import Verif.Wire Verif.WireFacts Verif.SimLaws Verif.Region Verif.RegionInv Verif.RegionLaws1.
Local Open Scope nat_scope.

Lemma last_nth (l : bytes) : last l 0%Z = nth (length l - 1) l 0%Z.
Proof.
  induction l as [|a t IH]; [reflexivity|]. cbn [last length]. destruct t as [|b t]; [reflexivity|].
  rewrite IH. cbn [length]. replace (S (S (length t)) - 1) with (S (S (length t) - 1)) by lia. reflexivity.
Qed.

Section L.
  Context (T : bytes) (HT : all_bytes T) (Hlen : (zlen T < 2 ^ 62)%Z) (cont padded big : bool) (path : copy_path).
  Notation Sx := (Sx T cont padded). Notation StC := (StC T cont padded).
  Notation TgC := (TgC T cont padded). Notation LnC := (LnC T cont padded).
  Notation adv := (advance padded).

  (** Like [Sx] before the limit; without [full] the region may end early. *)
  Definition Rx (full : bool) (off s0 : nat) (x : bool) (lim p : nat) (a : arch) : Prop :=
    base T padded off s0 p a /\
    (exact T off s0 lim p a \/
     (hop T off s0 lim a /\ (Z.of_nat s0 < c_e a <= Z.of_nat (s0 + 16))%Z /\ (full = true -> c_e a = Z.of_nat (s0 + 16)))) /\
    (x = true \/ cont = true -> exact T off s0 lim p a /\ closed off s0 lim a).

  Lemma Sx_Rx off s0 x lim p a : Sx off s0 x lim p a -> p <= lim -> Rx true off s0 x lim p a.
  Proof.
    intros (B & M & C) H. split; [exact B|]. split; [|exact C].
    destruct M as [M|(M1 & M2 & M3)]; [left; exact M|right]. split; [exact M1|]. split; [lia|auto].
  Qed.
  Lemma Rx_Sx off s0 x lim p a : Rx true off s0 x lim p a -> p <= lim -> Sx off s0 x lim p a.
  Proof.
    intros (B & M & C) H. split; [exact B|]. split; [|exact C].
    destruct M as [M|(M1 & M2 & M3)]; [left; exact M|right]. split; [exact M1|]. split; [auto|lia].
  Qed.
  Lemma Rx_true full off s0 x lim p a : Rx true off s0 x lim p a -> Rx full off s0 x lim p a.
  Proof.
    intros (B & M & C). split; [exact B|]. split; [|exact C].
    destruct M as [M|(M1 & M2 & M3)]; [left; exact M|right]. split; [exact M1|]. split; auto.
  Qed.
  Lemma Rx_at full off s0 x lim p a n : Rx full off s0 x lim p a -> p + n <= lim ->
    Rx full off s0 x lim (p + n) (at_pos (c_b a + Z.of_nat n)%Z a).
  Proof.
    intros (B & M & C) H.
    assert (Hl : lim <= length T) by (destruct M as [(_ & M & _)|((_ & _ & _ & _ & M) & _)]; exact M).
    split; [apply base_at; [exact B|lia]|]. split.
    - destruct M as [M|(M1 & M2 & M3)]; [left; apply exact_at; auto|right]. split; [exact M1|]. split; [exact M2|exact M3].
    - intros X. destruct (C X) as [C1 C2]. split; [apply exact_at; auto|exact C2].
  Qed.
  Lemma Rx_lim full off s0 x lim p a : Rx full off s0 x lim p a -> lim <= length T.
  Proof. intros (B & M & C). destruct M as [(_ & M & _)|((_ & _ & _ & _ & M) & _)]; exact M. Qed.

  Lemma advance_Rx full off s0 x lim p a : Rx full off s0 x lim p a -> p <= lim ->
    exists off' s0', Rx full off' s0' x lim p (adv a) /\ p <= off' + s0'.
  Proof.
    intros HR Hp. pose proof HR as (B & M & C). pose proof B as (B1 & B2 & B3 & B4 & B5 & B6).
    assert (Hx : c_rest a = [] -> p <= off + s0).
    { intros E. rewrite E in B1. destruct B1 as [B1 _]. lia. }
    unfold advance. destruct padded eqn:Ep.
    { exists off, s0. split; [exact HR|]. apply Hx, B6. reflexivity. }
    destruct (c_rest a) as [|r t] eqn:Hr. { cbn [advance_loop]. exists off, s0. split; [exact HR|]. apply Hx. reflexivity. }
    cbn [advance_loop]. destruct (Z.ltb_spec 0 (c_b a - c_s a)) as [Hb|Hb].
    - assert (Hh : hop T off s0 lim a /\ off + s0 < p).
      { destruct M as [(E1 & E2 & E3 & E4 & E5 & E6)|[H _]].
        - unfold hop. rewrite Hr. repeat split; try lia. discriminate.
        - split; [exact H|]. destruct H as (H1 & H2 & _). lia. }
      destruct Hh as [Hh Ho].
      destruct (enter_hop T false off s0 lim p a r t B Hh Hr Ho) as (s1 & Ba & Hr1 & Hs1 & K).
      assert (HS : RegionInv.Sx T cont false (off + s0) s1 x lim p (enter r (c_b a - c_s a) a)).
      { destruct K as [(K1 & K2 & K3)|(K1 & K2 & K3 & K4)].
        - split; [exact Ba|]. split. { right. split; [exact K1|]. split; [exact K2|lia]. }
          intros X. destruct (C X) as [_ [Cl|[r' Cl]]].
          { destruct Hh as (_ & _ & _ & Hh & _). lia. }
          rewrite Hr in Cl. injection Cl as -> ->. congruence.
        - assert (Ex : exact T (off + s0) s1 lim p (enter r (c_b a - c_s a) a)).
          { unfold exact. rewrite K3, K2, K1. destruct Hh as (_ & _ & _ & Hh & Hh2). repeat split; try lia. }
          split; [exact Ba|]. split; [left; exact Ex|]. intros _. split; [exact Ex|]. left. exact K4. }
      destruct (advance_in T cont false t _ _ _ _ _ _ HS Hp Hr1) as (o' & s' & HS' & Ho').
      exists o', s'. split; [|exact Ho']. destruct HS' as (B' & M' & C'). split; [rewrite Ep; exact B'|]. split; [|exact C'].
      destruct M' as [M'|(M1 & M2 & M3)]; [left; exact M'|right]. split; [exact M1|]. split; [lia|auto].
    - exists off, s0. split; [exact HR|].
      destruct M as [(E1 & E2 & E3 & E4 & E5 & E6)|[(H1 & H2 & _) _]]; lia.
  Qed.

  (** The size of the current region, at a position before the overlap. *)
  Lemma Rx_size full off s0 x lim p a : Rx full off s0 x lim p a -> p <= off + s0 -> p <= lim ->
    (0 <= region_size a < 2 ^ 63)%Z /\ Z.to_nat (region_size a) <= length (rd a) /\
    (region_size a = Z.of_nat (lim - p) \/
     (hop T off s0 lim a /\ (1 <= region_size a)%Z /\ (full = true -> region_size a = Z.of_nat (off + s0 + 16 - p)))).
  Proof.
    intros (B & M & C) Ho Hp. rewrite (rd_len T padded _ _ _ _ B). unfold region_size.
    pose proof B as (B1 & B2 & B3 & B4 & B5 & B6). pose proof (cur_len T padded _ _ _ _ B1) as (L1 & L2 & L3).
    unfold zlen in Hlen.
    assert ((2 ^ 62 + 2 ^ 62 = 2 ^ 63)%Z) by reflexivity. assert ((16 < 2 ^ 62)%Z) by reflexivity.
    destruct M as [(E1 & E2 & E3 & E4 & E5 & E6)|(H1 & H2 & H3)].
    - split; [lia|]. split; [|left; lia].
      destruct (c_rest a) as [|r t] eqn:Hr; [destruct B1 as [B1 _]; lia|].
      specialize (E6 ltac:(discriminate)). lia.
    - split; [lia|]. split; [lia|]. right. split; [exact H1|]. split; [lia|]. intros F. specialize (H3 F). lia.
  Qed.

  Lemma copy_step_ok sz m n : 0 < sz -> (0 < m)%Z -> (0 < n < 2 ^ 63)%Z ->
    path = CopyBytes \/ (Z.of_nat sz | m)%Z -> (m <= n)%Z \/ (Z.of_nat sz <= n)%Z ->
    let k := copy_step path sz m n in
    (0 < k <= m)%Z /\ (k <= n)%Z /\ (path = CopyBytes \/ (Z.of_nat sz | m - k)%Z).
  Proof.
    intros Hs Hm Hn Hd Hr k.
    assert (Hsm : (Z.of_nat sz | m)%Z -> (Z.of_nat sz <= m)%Z) by (intros H; apply Z.divide_pos_le in H; lia).
    unfold k, copy_step. destruct path.
    - destruct Hd as [Hd|Hd]; [discriminate|]. specialize (Hsm Hd).
      assert (Hsn : (Z.of_nat sz <= n)%Z) by lia. set (s := Z.of_nat sz) in *. assert (0 < s)%Z by lia.
      rewrite Z.quot_div_nonneg by lia.
      assert (H1 : (1 <= m / s)%Z) by (apply Z.div_le_lower_bound; lia).
      assert (H2 : (1 <= n / s)%Z) by (apply Z.div_le_lower_bound; lia).
      pose proof (Z.mul_div_le m s ltac:(lia)). pose proof (Z.mul_div_le n s ltac:(lia)).
      assert ((Z.min (m / s) (n / s) * s <= m / s * s)%Z) by (apply Z.mul_le_mono_nonneg_r; lia).
      assert ((Z.min (m / s) (n / s) * s <= n / s * s)%Z) by (apply Z.mul_le_mono_nonneg_r; lia).
      assert ((1 * s <= Z.min (m / s) (n / s) * s)%Z) by (apply Z.mul_le_mono_nonneg_r; lia).
      split; [lia|]. split; [lia|]. right. apply Z.divide_sub_r; [exact Hd|]. apply Z.divide_factor_r.
    - rewrite wrapU_id by (unfold fits_u; assert ((2 ^ 63 < 2 ^ 64)%Z) by reflexivity; lia).
      split; [lia|]. split; [lia|]. left; reflexivity.
    - destruct Hd as [Hd|Hd]; [discriminate|]. specialize (Hsm Hd). split; [lia|]. split; [lia|].
      right. apply Z.divide_sub_r; [exact Hd|apply Z.divide_refl].
  Qed.

  Lemma copy_ok full sz : 0 < sz -> sz <= 8 -> (full = true \/ sz = 1) -> forall f m off s0 x lim p a,
    Rx full off s0 x lim p a -> p + m <= lim -> m < f -> path = CopyBytes \/ (Z.of_nat sz | Z.of_nat m)%Z ->
    exists a' off' s0', copy_loop padded path f sz (Z.of_nat m) a = Ok (slice T p (p + m), a') /\
      Rx full off' s0' x lim (p + m) a'.
  Proof.
    intros Hs Hs8 Hfull. induction f as [|f IH]; intros m off s0 x lim p a HR Hm Hf Hd; [lia|].
    cbn [copy_loop]. destruct (Z.eqb_spec (Z.of_nat m) 0) as [E|E].
    { assert (m = 0) by lia. subst m. exists a, off, s0. rewrite slice_nil by lia. split; [reflexivity|].
      replace (p + 0) with p by lia. exact HR. }
    pose proof (Rx_lim _ _ _ _ _ _ _ HR) as Hlim.
    destruct (advance_Rx _ _ _ _ _ _ _ HR ltac:(lia)) as (o1 & s1 & HR1 & Ho1).
    set (a1 := adv a) in *. destruct (Rx_size _ _ _ _ _ _ _ HR1 Ho1 ltac:(lia)) as (Z1 & Z2 & Z3).
    assert (Hn : (0 < region_size a1)%Z /\ ((Z.of_nat m <= region_size a1)%Z \/ (Z.of_nat sz <= region_size a1)%Z)).
    { destruct Z3 as [Z3|(Z3 & Z4 & Z5)]; [lia|]. split; [lia|]. right.
      destruct Hfull as [Hfull|Hfull]; [specialize (Z5 Hfull); lia|lia]. }
    destruct (copy_step_ok sz (Z.of_nat m) (region_size a1) Hs ltac:(lia) ltac:(lia) Hd (proj2 Hn)) as (K1 & K2 & K3).
    set (k := copy_step path sz (Z.of_nat m) (region_size a1)) in *.
    destruct (Z.ltb_spec k 0) as [|_]; [lia|].
    unfold r_take. destruct (Nat.leb_spec (Z.to_nat k) (length (rd a1))) as [_|]; [|lia]. cbn [bind].
    rewrite (rd_firstn T padded _ _ _ _ (Z.to_nat k) (proj1 HR1)) by lia.
    pose proof (Rx_at _ _ _ _ _ _ _ (Z.to_nat k) HR1 ltac:(lia)) as HR2.
    replace (Z.of_nat m - k)%Z with (Z.of_nat (m - Z.to_nat k)) in * by lia.
    destruct (IH (m - Z.to_nat k) _ _ _ _ _ _ HR2 ltac:(lia) ltac:(lia) K3) as (a' & o' & s' & K & HR').
    rewrite K. cbn [bind]. exists a', o', s'.
    replace (p + Z.to_nat k + (m - Z.to_nat k)) with (p + m) in * by lia.
    rewrite slice_app by lia. split; [reflexivity|exact HR'].
  Qed.

  Lemma exact_take off s0 lim p a n : base T padded off s0 p a -> exact T off s0 lim p a -> p + n <= lim ->
    r_take n a = Ok (slice T p (p + n), at_pos (c_b a + Z.of_nat n)%Z a) /\ n <= length (rd a).
  Proof.
    intros B (E1 & E2 & E3 & E4 & E5 & E6) H. unfold r_take.
    assert (Hr : n <= length (rd a)).
    { rewrite (rd_len T padded _ _ _ _ B). destruct B as (B1 & B2 & B3 & B4 & B5 & B6).
      pose proof (cur_len T padded _ _ _ _ B1) as (L1 & L2 & L3).
      destruct (c_rest a) as [|r t] eqn:Hr; [destruct B1 as [B1 _]; lia|]. specialize (E6 ltac:(discriminate)). lia. }
    destruct (Nat.leb_spec n (length (rd a))); [|lia]. split; [|lia].
    rewrite (rd_firstn T padded _ _ _ _ n B) by lia. reflexivity.
  Qed.

  Lemma c_packed x n sz lim p a : StC x lim p a -> (0 <= n)%Z -> 0 < sz -> sz <= 8 ->
    if p + Z.to_nat n * sz <=? lim
    then exists a', r_packed cont padded path n sz a = Ok (slice T p (p + Z.to_nat n * sz), a') /\ StC x lim (p + Z.to_nat n * sz) a'
    else r_packed cont padded path n sz a = Err BadMessage.
  Proof.
    intros HS Hn Hs Hs8. pose proof (c_st T cont padded _ _ _ _ HS) as (A & B & C). unfold r_packed. rewrite A.
    assert (Em : (n * Z.of_nat sz = Z.of_nat (Z.to_nat n * sz))%Z) by lia. rewrite Em.
    set (m := Z.to_nat n * sz) in *.
    destruct (Nat.leb_spec (p + m) lim) as [H|H]; destruct (Z.ltb_spec (Z.of_nat lim - Z.of_nat p) (Z.of_nat m)); try lia; [|reflexivity].
    rewrite !Nat2Z.id. destruct HS as (off & s0 & HX).
    destruct (cont && negb match path with CopyEach => true | _ => false end) eqn:Ec.
    - apply andb_true_iff in Ec. destruct Ec as [Ec _]. destruct HX as (HB & HM & HC).
      destruct (HC (or_intror Ec)) as [Ex Cl]. destruct (exact_take _ _ _ _ _ _ HB Ex H) as [-> _].
      eexists. split; [reflexivity|]. exists off, s0. apply Sx_at; [|exact H]. split; [exact HB|]. split; auto.
    - assert (Hd : (Z.of_nat sz | Z.of_nat m)%Z) by (rewrite <- Em; apply Z.divide_factor_r).
      destruct (copy_ok true sz Hs Hs8 (or_introl eq_refl) (S m) m off s0 x lim p a (Sx_Rx _ _ _ _ _ _ HX ltac:(lia)) H ltac:(lia) (or_intror Hd))
        as (a' & o' & s' & K & HR). exists a'. split; [exact K|]. exists o', s'. apply Rx_Sx; auto.
  Qed.

  Lemma c_view x n lim p a : (padded = true -> cont = true) -> padded = true -> StC x lim p a -> (0 <= n)%Z ->
    if p + Z.to_nat n <=? lim
    then exists a', r_view n a = (Some (slice T p (p + Z.to_nat n)), a') /\ StC x lim (p + Z.to_nat n) a'
    else (in_avail cont (snd (r_view n a)) < 0)%Z.
  Proof.
    intros Hpc Hp HS Hn. pose proof (c_st T cont padded _ _ _ _ HS) as (A & B & C). destruct HS as (off & s0 & HX).
    destruct (Nat.leb_spec (p + Z.to_nat n) lim) as [H|H].
    - pose proof HX as (HB & HM & HC). destruct (HC (or_intror (Hpc Hp))) as [Ex Cl].
      destruct (exact_take _ _ _ _ _ _ HB Ex H) as [_ Hr]. unfold r_view.
      destruct (Nat.leb_spec (Z.to_nat n) (length (rd a))); [|lia].
      rewrite (rd_firstn T padded _ _ _ _ _ HB) by lia. eexists. split; [reflexivity|]. exists off, s0.
      rewrite <- (Z2Nat.id n) at 2 by lia. apply Sx_at; auto.
    - unfold r_view. cbn [snd]. rewrite (avail_at cont). lia.
  Qed.

  (** ** Counting varints *)
  Definition cnt (p n : nat) : res (option nat) :=
    let d := slice T p (p + n) in if (last d 0 <? 128)%Z then Ok (Some (terminators d)) else Ok None.

  Lemma count_last_eq off s0 p a n : base T padded off s0 p a -> 0 < n -> p + n <= length T -> n <= length (rd a) ->
    r_count_last big n a = cnt p n.
  Proof.
    intros B Hn Hp Hr. unfold r_count_last, r_count, cnt. cbv zeta.
    pose proof (rd_firstn T padded _ _ _ _ n B Hp Hr) as K.
    destruct (nth_error (rd a) (n - 1)) as [b|] eqn:E.
    2:{ apply nth_error_None in E. lia. }
    assert (Hl : last (slice T p (p + n)) 0%Z = b).
    { rewrite last_nth, (slice_len T) by lia. replace (p + n - p - 1) with (n - 1) by lia.
      rewrite <- K. apply nth_error_nth. rewrite <- E.
      rewrite <- (firstn_skipn n (rd a)) at 2. rewrite nth_error_app1; [reflexivity|]. rewrite firstn_length. lia. }
    rewrite Hl. destruct (b <? 128)%Z; [|reflexivity].
    destruct (Nat.leb_spec n (length (rd a))); [|lia]. cbn [bind]. rewrite K.
    rewrite count_region_terminators by (apply slice_bytes, HT). reflexivity.
  Qed.

  Lemma last_slice_app p q r : p <= q -> q < r -> r <= length T -> last (slice T p r) 0%Z = last (slice T q r) 0%Z.
  Proof.
    intros H K L. rewrite !last_nth, !(slice_len T) by lia. rewrite !(slice_nth T) by lia. f_equal. lia.
  Qed.

  Lemma nvarints_ok : forall f acc n off s0 x lim p a, Sx off s0 x lim p a -> 0 < n -> p + n <= lim -> n < f ->
    (Z.of_nat n < 2 ^ 32)%Z ->
    nvarints_loop cont padded big f acc (Z.of_nat n) a =
      match cnt p n with Ok (Some c) => Ok (Some (acc + c)) | r => r end.
  Proof.
    induction f as [|f IH]; intros acc n off s0 x lim p a HX Hn Hp Hf Hm; [lia|]. cbn [nvarints_loop].
    pose proof (Sx_avail _ _ _ _ _ _ _ _ _ HX) as (A & B & C & D & E). rewrite A.
    destruct (Z.ltb_spec 0 (Z.of_nat n)); [|lia]. destruct (Z.ltb_spec 0 (Z.of_nat lim - Z.of_nat p)); [|lia]. cbn [andb].
    destruct (advance_ready T cont padded x lim p a ltac:(exists off, s0; exact HX) ltac:(lia)) as (o1 & s1 & HX1 & Ho1).
    set (a1 := adv a) in *. pose proof (Sx_Rx _ _ _ _ _ _ HX1 ltac:(lia)) as HR1.
    destruct (Rx_size _ _ _ _ _ _ _ HR1 Ho1 ltac:(lia)) as (Z1 & Z2 & Z3).
    destruct (Z.ltb_spec (region_size a1) (Z.of_nat n)) as [Hlt|Hge].
    - destruct (Z.ltb_spec (region_size a1) 0); [lia|]. destruct Z3 as [Z3|(Z3 & Z4 & Z5)]; [lia|]. specialize (Z5 eq_refl).
      unfold r_count. destruct (Nat.leb_spec (Z.to_nat (region_size a1)) (length (rd a1))); [|lia]. cbn [bind].
      set (k := Z.to_nat (region_size a1)) in *. assert (Ek : region_size a1 = Z.of_nat k) by lia.
      rewrite (rd_firstn T padded _ _ _ _ k (proj1 HX1)) by lia.
      rewrite count_region_terminators by (apply slice_bytes, HT).
      rewrite Ek. rewrite wrapU_id by (unfold fits_u; lia).
      replace (Z.of_nat n - Z.of_nat k)%Z with (Z.of_nat (n - k)) by lia.
      assert (Ep : at_pos (c_e a1) a1 = at_pos (c_b a1 + Z.of_nat k)%Z a1) by (f_equal; rewrite <- Ek; unfold region_size; lia).
      rewrite Ep. rewrite (IH _ (n - k) o1 s1 x lim (p + k) _ (Sx_at T cont padded _ _ _ _ _ _ k HX1 ltac:(lia))) by lia.
      unfold cnt. cbv zeta. replace (p + k + (n - k)) with (p + n) by lia.
      rewrite (last_slice_app p (p + k) (p + n)) by lia.
      destruct (_ <? 128)%Z; [|reflexivity]. rewrite <- (slice_app T p (p + k) (p + n)), terminators_app by lia.
      rewrite Nat.add_assoc. reflexivity.
    - rewrite Nat2Z.id. rewrite (count_last_eq _ _ _ _ _ (proj1 HX1)) by lia. unfold cnt. cbv zeta.
      destruct (_ <? 128)%Z; reflexivity.
  Qed.

  Lemma cnt_z n lim p : (0 < n)%Z -> p + Z.to_nat n <= lim -> lim <= length T -> z_nvarints n (zz T lim p) = cnt p (Z.to_nat n).
  Proof.
    intros Hn Hp Hl. unfold z_nvarints, cnt. cbn [za SimLaws.zz]. rewrite (slice_len T) by lia.
    destruct (Nat.leb_spec (Z.to_nat n) (lim - p)); [|lia]. cbv zeta. rewrite slice_firstn by lia. reflexivity.
  Qed.

  (** What is known after a successful count. *)
  Lemma nvarints_cases x n lim p a : LnC x lim p a -> (0 < n)%Z -> (n < 2 ^ 32)%Z ->
    (p + Z.to_nat n <= lim /\ r_nvarints cont padded big n a = cnt p (Z.to_nat n)) \/
    (lim < p + Z.to_nat n /\ (r_nvarints cont padded big n a = Ok None \/
       (x = false /\ cont = false /\ p + Z.to_nat n <= length T /\ r_nvarints cont padded big n a = cnt p (Z.to_nat n) /\
        exists off s0, Sx off s0 x lim p a /\ slack T off s0 lim p a /\ (p + Z.to_nat n <= off + s0 + 16)))).
  Proof.
    intros (off & s0 & HX & He & Ho) Hn Hm. pose proof HX as (B & M & C).
    pose proof (Sx_avail _ _ _ _ _ _ _ _ _ HX) as (A & Hl & Hp & D & E).
    pose proof B as (B1 & B2 & B3 & B4 & B5 & B6). pose proof (cur_len T padded _ _ _ _ B1) as (L1 & L2 & L3).
    unfold r_nvarints. rewrite A. set (k := Z.to_nat n) in *. assert (Ek : n = Z.of_nat k) by lia. rewrite Ek.
    destruct (le_lt_dec (p + k) lim) as [Hin|Hout].
    - left. split; [exact Hin|]. destruct (Z.leb_spec (Z.of_nat k) (region_size a)) as [H|H].
      + rewrite ?Nat2Z.id. apply (count_last_eq off s0); [exact B|lia|lia|]. rewrite (rd_len T padded _ _ _ _ B).
        unfold region_size in H. destruct M as [(E1 & E2 & E3 & E4 & E5 & E6)|((H1 & _) & H2 & _)].
        * destruct (c_rest a) as [|r t] eqn:Hr; [destruct B1 as [B1 _]; lia|]. specialize (E6 ltac:(discriminate)). lia.
        * specialize (L3 H1). lia.
      + destruct (Z.leb_spec (Z.of_nat k) (Z.of_nat lim - Z.of_nat p)); [|lia].
        assert (Hc : cont = false).
        { destruct cont; [|reflexivity]. unfold in_avail in A. rewrite A in H. lia. }
        rewrite Hc. cbn [andb negb]. rewrite <- Hc. rewrite ?Nat2Z.id. rewrite (nvarints_ok _ _ _ off s0 x lim p) by (auto; lia).
        unfold cnt. cbv zeta. destruct (_ <? 128)%Z; reflexivity.
    - right. split; [exact Hout|]. destruct (Z.leb_spec (Z.of_nat k) (region_size a)) as [H|H].
      + assert (Sl : slack T off s0 lim p a).
        { destruct M as [(E1 & E2 & E3 & _)|Sl]; [unfold region_size in H; lia|exact Sl]. }
        pose proof Sl as ((H1 & _) & H2 & _). specialize (L3 H1). unfold region_size in H. right.
        assert (Hex : ~ exact T off s0 lim p a) by (intros (E1 & E2 & E3 & _); lia).
        split; [destruct x; [destruct (C (or_introl eq_refl)); contradiction|reflexivity]|].
        split; [destruct cont; [destruct (C (or_intror eq_refl)); contradiction|reflexivity]|].
        split; [lia|]. split.
        * rewrite ?Nat2Z.id. apply (count_last_eq off s0); [exact B|lia|lia|]. rewrite (rd_len T padded _ _ _ _ B). lia.
        * exists off, s0. split; [exact HX|]. split; [exact Sl|lia].
      + left. destruct (Z.leb_spec (Z.of_nat k) (Z.of_nat lim - Z.of_nat p)); [lia|]. reflexivity.
  Qed.

  Lemma c_nvarints x n lim p a : LnC x lim p a -> (0 < n)%Z -> (n < 2 ^ 32)%Z ->
    if p + Z.to_nat n <=? lim
    then r_nvarints cont padded big n a = z_nvarints n (zz T lim p)
    else r_nvarints cont padded big n a = Ok None \/ (x = false /\ exists c, r_nvarints cont padded big n a = Ok (Some c)).
  Proof.
    intros H Hn Hm. pose proof H as (off & s0 & HX & _). pose proof (Sx_avail _ _ _ _ _ _ _ _ _ HX) as (_ & Hl & _).
    destruct (nvarints_cases _ _ _ _ _ H Hn Hm) as [(K1 & K2)|(K1 & K2)].
    - destruct (Nat.leb_spec (p + Z.to_nat n) lim); [|lia]. rewrite K2, cnt_z by lia. reflexivity.
    - destruct (Nat.leb_spec (p + Z.to_nat n) lim); [lia|]. destruct K2 as [K2|(K2 & _ & _ & K3 & _)]; [left; exact K2|].
      rewrite K3. unfold cnt. cbv zeta. destruct (_ <? 128)%Z; [right; eauto|left; reflexivity].
  Qed.

  (** ** Taking back a tag *)
  Lemma Sx_unique off s0 x lim p a off' s0' x' lim' : Sx off s0 x lim p a -> Sx off' s0' x' lim' p a -> off = off' /\ s0 = s0'.
  Proof.
    intros ((B1 & _ & B3 & _ & B5 & _) & _) ((B1' & _ & B3' & _ & B5' & _) & _).
    assert (off = off') by lia. subst off'. split; [reflexivity|].
    pose proof (cur_len T padded _ _ _ _ B1) as (_ & _ & L). pose proof (cur_len T padded _ _ _ _ B1') as (_ & _ & L').
    destruct (c_rest a) as [|r t].
    - destruct B1 as [B1 _], B1' as [B1' _]. lia.
    - specialize (L ltac:(discriminate)). specialize (L' ltac:(discriminate)). lia.
  Qed.

  Lemma c_dec x tag lim p a : TgC x tag lim p a -> TgC true tag lim p a \/ ~ TgC true tag lim p a.
  Proof.
    intros (off & s0 & HX & H). pose proof HX as (B & M & C).
    assert (D : {exact T off s0 lim p a} + {~ exact T off s0 lim p a}).
    { unfold exact. destruct (le_dec p lim); [|right; tauto]. destruct (le_dec lim (length T)); [|right; tauto].
      destruct (Z.eq_dec (c_e a) (Z.of_nat (lim - off))); [|right; tauto].
      destruct (Z.eq_dec (c_s a) (Z.of_nat (Nat.min s0 (lim - off)))); [|right; tauto].
      destruct (Z.eq_dec (c_sec a) (c_e a - c_s a)); [|right; tauto].
      destruct (c_rest a) as [|r t]; [left; repeat split; auto; congruence|].
      destruct (le_dec lim (off + s0 + 16)); [left; repeat split; auto|right]. intros (_ & _ & _ & _ & _ & K). apply n, K. discriminate. }
    assert (D2 : {closed off s0 lim a} + {~ closed off s0 lim a}).
    { unfold closed. destruct (le_dec lim (off + s0)); [left; auto|].
      destruct (c_rest a) as [|r [|r2 t]]; [right; intros [K|[r K]]; [lia|discriminate]|left; eauto|right; intros [K|[r' K]]; [lia|discriminate]]. }
    destruct D as [D|D]; [destruct D2 as [D2|D2]|].
    - left. exists off, s0. split; [|exact H]. split; [exact B|]. split; auto.
    - right. intros (o & s & HX' & _). destruct (Sx_unique _ _ _ _ _ _ _ _ _ _ HX HX') as [<- <-].
      destruct HX' as (_ & _ & C'). destruct (C' (or_introl eq_refl)). contradiction.
    - right. intros (o & s & HX' & _). destruct (Sx_unique _ _ _ _ _ _ _ _ _ _ HX HX') as [<- <-].
      destruct HX' as (_ & _ & C'). destruct (C' (or_introl eq_refl)). contradiction.
  Qed.

  (** Copying everything that was split off, even beyond the old limit. *)
  Lemma split_copy off s0 a p q x : base T padded off s0 p a -> (c_b a <= c_e a)%Z -> p <= q -> q <= length T ->
    Rx false off s0 x q p (fst (r_split (Z.of_nat (q - p)) a)) ->
    exists a', r_packed cont padded path (Z.of_nat (q - p)) 1 (fst (r_split (Z.of_nat (q - p)) a)) = Ok (slice T p q, a').
  Proof.
    intros B He Hq Hl HR. set (a1 := fst (r_split (Z.of_nat (q - p)) a)) in *.
    unfold r_packed. replace (Z.of_nat (q - p) * Z.of_nat 1)%Z with (Z.of_nat (q - p)) by lia.
    pose proof HR as (B1 & M & C). pose proof B1 as (_ & _ & B3 & _ & B5 & _).
    assert (Av : in_avail cont a1 = (Z.of_nat q - Z.of_nat p)%Z).
    { unfold in_avail, region_size. destruct cont eqn:Ec.
      - destruct (C (or_intror eq_refl)) as [(E1 & E2 & E3 & _) _]. lia.
      - destruct M as [(E1 & E2 & E3 & E4 & E5 & E6)|((H1 & H2 & H3 & H4 & H5) & _)]; lia. }
    rewrite Av. destruct (Z.ltb_spec (Z.of_nat q - Z.of_nat p) (Z.of_nat (q - p))); [lia|]. rewrite Nat2Z.id.
    destruct (cont && negb match path with CopyEach => true | _ => false end) eqn:Ec.
    - apply andb_true_iff in Ec. destruct Ec as [Ec _]. destruct (C (or_intror Ec)) as [Ex _].
      destruct (exact_take _ _ _ _ _ (q - p) B1 Ex ltac:(lia)) as [-> _]. replace (p + (q - p)) with q by lia. eauto.
    - destruct (copy_ok false 1 ltac:(lia) ltac:(lia) (or_intror eq_refl) (S (q - p)) (q - p) off s0 x q p a1 HR ltac:(lia) ltac:(lia)
        (or_intror (Z.divide_1_l _))) as (a' & o' & s' & K & _).
      replace (p + (q - p)) with q in K by lia. eauto.
  Qed.

  Lemma c_unwind x tag lim p a : TgC x tag lim p a -> tag <> 0%Z ->
    let k := Z.to_nat (varint_size_u tag) in
    k <= p /\ in_avail cont (r_unwind tag a) = (Z.of_nat lim - Z.of_nat (p - k))%Z /\
    forall q, p <= q -> q <= length T -> q <= lim \/ ~ TgC true tag lim p a ->
      exists a', r_packed cont padded path (Z.of_nat (q - (p - k))) 1
                   (fst (r_split (Z.of_nat (q - (p - k))) (r_unwind tag a))) = Ok (slice T (p - k) q, a').
  Proof.
    intros (off & s0 & HX & He & Ho & Hk) Htag k. fold k in Hk.
    pose proof HX as (B & M & C). pose proof B as (B1 & B2 & B3 & B4 & B5 & B6).
    pose proof (Sx_avail _ _ _ _ _ _ _ _ _ HX) as (A & Hl & Hp & D & E).
    assert (Hv : (0 <= varint_size_u tag)%Z).
    { unfold varint_size_u, bit_width. destruct (Z.leb_spec (Z.lor tag 1) 0); [cbn; lia|].
      apply Z.div_pos; [|lia]. pose proof (Z.log2_nonneg (Z.lor tag 1)). lia. }
    assert (Ek : varint_size_u tag = Z.of_nat k) by (unfold k; lia).
    assert (Eu : r_unwind tag a = at_pos (c_b a + - Z.of_nat k)%Z a) by (unfold r_unwind; rewrite Ek; f_equal; lia).
    rewrite Eu. set (u := at_pos (c_b a + - Z.of_nat k)%Z a).
    assert (Bu : base T padded off s0 (p - k) u).
    { unfold base, u. cbn [at_pos c_mem c_rest c_b]. repeat split; auto; lia. }
    split; [lia|]. split. { unfold u. rewrite (avail_at cont), A. lia. }
    intros q Hpq HqT Hq. set (p' := p - k) in *.
    assert (Heu : (c_b u <= c_e u)%Z) by (unfold u; cbn [at_pos c_b c_e]; lia).
    destruct (le_lt_dec q lim) as [Hin|Hout].
    - assert (HXu : Sx off s0 x lim p' u).
      { split; [exact Bu|]. split.
        - destruct M as [(E1 & E2 & E3 & E4 & E5 & E6)|((H1 & H2 & H3 & H4 & H5) & H6 & H7)].
          + left. unfold exact, u. cbn [at_pos c_e c_s c_sec c_rest]. repeat split; auto; lia.
          + right. unfold slack, hop, u. cbn [at_pos c_e c_s c_sec c_rest]. repeat split; auto; lia.
        - intros X. destruct (C X) as [(E1 & E2 & E3 & E4 & E5 & E6) Cl]. split; [|exact Cl].
          unfold exact, u. cbn [at_pos c_e c_s c_sec c_rest]. repeat split; auto; lia. }
      apply (split_copy off s0 u p' q x); auto; [lia|]. apply Rx_true, Sx_Rx; [|lia].
      apply (split_first T Hlen cont padded _ _ _ lim); auto; lia.
    - assert (Hn : ~ (exact T off s0 lim p a /\ closed off s0 lim a)).
      { intros K. destruct Hq as [Hq|Hq]; [lia|]. apply Hq. exists off, s0. split; [|auto].
        split; [exact B|]. split; auto. }
      assert (Hc : cont = false) by (destruct cont; [destruct Hn; apply C; auto|reflexivity]).
      apply (split_copy off s0 u p' q false); auto; [lia|].
      (* both kinds of state have s = s0 and something to follow *)
      assert (Hs : c_rest a <> [] /\ c_s a = Z.of_nat s0 /\ (Z.of_nat s0 < c_e a <= Z.of_nat (s0 + 16))%Z /\ off + s0 < lim).
      { destruct M as [Ex|((H1 & H2 & H3 & H4 & H5) & H6 & H7)]; [|repeat split; auto; lia].
        assert (Ncl : ~ closed off s0 lim a) by tauto. destruct Ex as (E1 & E2 & E3 & E4 & E5 & E6).
        assert (off + s0 < lim) by (unfold closed in Ncl; lia).
        assert (Hr : c_rest a <> []). { intros Hr. rewrite Hr in B1. destruct B1 as [B1 _]. lia. }
        specialize (E6 Hr). repeat split; auto; lia. }
      destruct Hs as (Hr & Hs & Hce & Hsl).
      unfold zlen in Hlen.
      assert (Hw : wrapU 64 (region_size u) = region_size u).
      { apply wrapU_id. unfold fits_u, region_size, u. cbn [at_pos c_b c_e].
        pose proof (cur_len T padded _ _ _ _ B1) as (_ & _ & L3). specialize (L3 Hr).
        assert ((2 ^ 62 < 2 ^ 64)%Z) by reflexivity. lia. }
      unfold r_split. cbn [fst]. rewrite Hw. unfold region_size, u. cbn [at_pos c_b c_e c_mem c_s c_rest].
      assert (Bs : forall e s d, base T padded off s0 p' (Arch (c_mem a) (c_b a + - Z.of_nat k) e s (c_rest a) d)).
      { intros. unfold base. cbn [c_mem c_rest c_b]. repeat split; auto; lia. }
      destruct (Z.leb_spec (Z.of_nat (q - p')) (c_e a - (c_b a + - Z.of_nat k))).
      + split; [apply Bs|]. split; [left|intros [X|X]; congruence].
        unfold exact. cbn [c_e c_s c_sec c_rest]. repeat split; lia.
      + split; [apply Bs|]. split; [right|intros [X|X]; congruence].
        unfold hop. cbn [c_e c_s c_sec c_rest]. repeat split; auto; lia.
  Qed.
End L.
