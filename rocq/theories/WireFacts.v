(** Facts about the record specification: consumption, fuel, locality. *)
Require Import Verif.Bits Verif.Varint Verif.VarintSpec Verif.VarintProofs Verif.VarintFacts Verif.VarintMain.
Require Import Verif.Schema Verif.Archive Verif.Decode Verif.Wire Verif.DecodeSafe.

Lemma tbind_ok {A B} (r : tres A) (k : A -> tres B) y :
  tbind r k = TOk y -> exists x, r = TOk x /\ k x = TOk y.
Proof. destruct r; cbn; try discriminate. eauto. Qed.

Lemma scan_len max m n : scan max m = Found n -> (1 <= n <= length m)%nat /\ (n <= max)%nat.
Proof.
  revert m n; induction max as [|k IH]; intros m n; cbn [scan]; [discriminate|].
  destruct m as [|b t]; [discriminate|]. destruct (b <? 128); [intros [= <-]; cbn; lia|].
  destruct (scan k t) eqn:K; try discriminate. intros [= <-]. apply IH in K. cbn. lia.
Qed.

Lemma scan_firstn max m n : scan max m = Found n -> scan max (firstn n m) = Found n.
Proof.
  revert m n; induction max as [|k IH]; intros m n; cbn [scan]; [discriminate|].
  destruct m as [|b t]; [discriminate|]. destruct (Z.ltb_spec b 128) as [H|H].
  - intros [= <-]. cbn. destruct (Z.ltb_spec b 128); [reflexivity|lia].
  - destruct (scan k t) eqn:K; try discriminate. intros [= <-]. cbn [firstn].
    destruct (Z.ltb_spec b 128); [lia|]. rewrite (IH _ _ K). reflexivity.
Qed.

Lemma scan_mono k k' m n : (k <= k')%nat -> scan k m = Found n -> scan k' m = Found n.
Proof.
  revert k' m n; induction k as [|k IH]; intros k' m n Hk; cbn [scan]; [discriminate|].
  destruct k' as [|k']; [lia|]. cbn [scan]. destruct m as [|b t]; [discriminate|].
  destruct (b <? 128); [auto|]. destruct (scan k t) eqn:K; try discriminate.
  intros [= <-]. rewrite (IH k' _ _ ltac:(lia) K). reflexivity.
Qed.

Lemma scan_mono_inv k k' m n : (k <= k')%nat -> scan k' m = Found n -> (n <= k)%nat -> scan k m = Found n.
Proof.
  revert k' m n; induction k as [|k IH]; intros k' m n Hk H Hn.
  { apply scan_len in H. lia. }
  destruct k' as [|k']; [lia|]. cbn [scan] in *. destruct m as [|b t]; [discriminate|].
  destruct (b <? 128); [auto|]. destruct (scan k' t) eqn:K; try discriminate.
  injection H as <-. rewrite (IH k' _ _ ltac:(lia) K ltac:(lia)). reflexivity.
Qed.

Lemma find_term_scan k m : find_term k m = match scan k m with Found n => Some n | _ => None end.
Proof.
  revert m; induction k as [|k IH]; intros m; [reflexivity|]. cbn [find_term scan].
  destruct m as [|b t]; [reflexivity|]. destruct (b <? 128); [reflexivity|].
  rewrite IH. destruct (scan k t); reflexivity.
Qed.

Lemma tok_tag_ok bs tb tag rest : tok_tag bs = TOk (tb, tag, rest) ->
  exists n, scan 5 bs = Found n /\ (1 <= n <= 5)%nat /\ (n <= length bs)%nat /\
    tb = firstn n bs /\ tag = tag_value tb /\ rest = skipn n bs /\ bs = tb ++ rest.
Proof.
  unfold tok_tag. destruct (scan 5 bs) as [| |n] eqn:K; try discriminate.
  intros [= <- <- <-].
  exists n. pose proof (scan_len _ _ _ K). repeat split; auto; try lia. symmetry; apply firstn_skipn.
Qed.

Lemma b128_firstn_bound k (bs : bytes) : 0 <= b128 (firstn k bs) < 2 ^ (7 * Z.of_nat k).
Proof.
  split; [apply b128_nonneg|]. eapply Z.lt_le_trans; [apply b128_bound|].
  apply Z.pow_le_mono_r; [lia|]. unfold zlen. rewrite firstn_length. lia.
Qed.

Lemma tag_value_range bs : 0 <= tag_value bs < 2 ^ 32.
Proof.
  unfold tag_value. destruct (Nat.leb_spec (length bs) 4).
  - pose proof (b128_firstn_bound 4 bs) as Hb. rewrite firstn_all2 in Hb by lia. lia.
  - pose proof (b128_firstn_bound 4 bs) as Hb. lia.
Qed.

Lemma tag_value_small bs : (length bs <= 4)%nat -> tag_value bs = b128 bs.
Proof. intros H. unfold tag_value. destruct (Nat.leb_spec (length bs) 4); [reflexivity|lia]. Qed.

Lemma tok_tag_range bs tb tag rest : tok_tag bs = TOk (tb, tag, rest) -> 0 <= tag < 2 ^ 32.
Proof.
  intros H. apply tok_tag_ok in H. destruct H as (n & _ & H1 & H2 & Htb & -> & _). apply tag_value_range.
Qed.

Lemma tok_tag_app bs tb tag rest y : tok_tag bs = TOk (tb, tag, rest) ->
  tok_tag (bs ++ y) = TOk (tb, tag, rest ++ y).
Proof.
  intros H. destruct (tok_tag_ok _ _ _ _ H) as (n & K & H1 & H2 & -> & -> & -> & _).
  unfold tok_tag. rewrite scan_app, K by congruence.
  rewrite firstn_app, skipn_app. replace (n - length bs)%nat with 0%nat by lia.
  cbn [firstn skipn]. rewrite app_nil_r. reflexivity.
Qed.

Lemma tok_take_ok n bs p rest : tok_take n bs = TOk (p, rest) ->
  bs = p ++ rest /\ length p = n.
Proof.
  unfold tok_take. destruct (Nat.leb_spec n (length bs)); [|discriminate]. intros [= <- <-].
  split; [symmetry; apply firstn_skipn|]. rewrite firstn_length. lia.
Qed.

Lemma tok_take_app n bs p rest y : tok_take n bs = TOk (p, rest) -> tok_take n (bs ++ y) = TOk (p, rest ++ y).
Proof.
  intros H. destruct (tok_take_ok _ _ _ _ H) as [-> <-]. unfold tok_take.
  rewrite <- app_assoc, app_length. destruct (Nat.leb_spec (length p) (length p + length (rest ++ y))); [|lia].
  rewrite firstn_app, skipn_app, firstn_all, skipn_all, Nat.sub_diag. cbn. rewrite app_nil_r. reflexivity.
Qed.

Lemma used_app p rest : used (p ++ rest) rest = p.
Proof.
  unfold used. rewrite app_length. replace (length p + length rest - length rest)%nat with (length p) by lia.
  rewrite firstn_app, Nat.sub_diag, firstn_all. cbn. apply app_nil_r.
Qed.

(** The payload tokenizer with the group tokenizer as a parameter. *)
Lemma tok_pay_ok grp tag bs p sub rest :
  (forall num rs r, grp num bs = TOk (rs, r) -> exists c, bs = c ++ r) ->
  tok_pay grp tag bs = TOk (p, sub, rest) ->
  exists c, bs = c ++ rest /\ (length p <= length c)%nat /\
    (tag_type tag = WT_LEN -> (length p < length c)%nat).
Proof.
  intros Hg. unfold tok_pay. destruct (tag =? 0); [discriminate|].
  destruct (Z.eqb_spec (tag_type tag) WT_VARINT) as [Ew|NwVARINT].
  { destruct (scan 10 bs) as [| |n] eqn:K; try discriminate. intros [= <- <- <-].
    exists (firstn n bs). split; [symmetry; apply firstn_skipn|]. split; [lia|]. rewrite Ew; discriminate. }
  destruct (Z.eqb_spec (tag_type tag) WT_LEN) as [Ew|NwLEN].
  { destruct (scan 6 bs) as [| |n] eqn:K; try discriminate. intros H.
    apply tbind_ok in H. destruct H as [[q r] [H1 [= <- <- <-]]]. apply tok_take_ok in H1. destruct H1 as [H1 H2].
    exists (firstn n bs ++ q). rewrite <- app_assoc, <- H1. split; [symmetry; apply firstn_skipn|].
    apply scan_len in K. rewrite app_length, firstn_length. lia. }
  destruct (Z.eqb_spec (tag_type tag) WT_I64) as [Ew|NwI64].
  { intros H. apply tbind_ok in H. destruct H as [[q r] [H1 [= <- <- <-]]]. apply tok_take_ok in H1.
    destruct H1 as [H1 H2]. exists q. (split; [assumption|split; [cbn; lia|congruence]]). }
  destruct (Z.eqb_spec (tag_type tag) WT_SGROUP) as [Ew|NwSGROUP].
  { intros H. apply tbind_ok in H. destruct H as [[q r] [H1 [= <- <- <-]]].
    destruct (Hg _ _ _ H1) as [c Hc]. exists c. (split; [assumption|split; [cbn; lia|congruence]]). }
  destruct (Z.eqb_spec (tag_type tag) WT_I32) as [Ew|Nw32]; [|discriminate].
  { intros H. apply tbind_ok in H. destruct H as [[q r] [H1 [= <- <- <-]]]. apply tok_take_ok in H1.
    destruct H1 as [H1 H2]. exists q. (split; [assumption|split; [cbn; lia|congruence]]). }
Qed.

Lemma tok_pay_ext grp grp' tag bs :
  (forall num, grp num bs = grp' num bs) -> tok_pay grp tag bs = tok_pay grp' tag bs.
Proof. intros H. unfold tok_pay. rewrite H. reflexivity. Qed.

Lemma tok_pay_app grp grp' tag bs p sub rest y :
  (forall num rs r, grp num bs = TOk (rs, r) -> grp' num (bs ++ y) = TOk (rs, r ++ y)) ->
  tok_pay grp tag bs = TOk (p, sub, rest) -> tok_pay grp' tag (bs ++ y) = TOk (p, sub, rest ++ y).
Proof.
  intros Hg. unfold tok_pay. destruct (tag =? 0); [discriminate|].
  destruct (tag_type tag =? WT_VARINT).
  { destruct (scan 10 bs) as [| |n] eqn:K; try discriminate. intros [= <- <- <-].
    rewrite scan_app, K by congruence. apply scan_len in K.
    rewrite firstn_app, skipn_app. replace (n - length bs)%nat with 0%nat by lia.
    cbn [firstn skipn]. rewrite app_nil_r. reflexivity. }
  destruct (tag_type tag =? WT_LEN).
  { destruct (scan 6 bs) as [| |n] eqn:K; try discriminate. intros H.
    apply tbind_ok in H. destruct H as [[q r] [H1 [= <- <- <-]]].
    rewrite scan_app, K by congruence. apply scan_len in K.
    rewrite firstn_app, skipn_app. replace (n - length bs)%nat with 0%nat by lia.
    cbn [firstn skipn]. rewrite app_nil_r. rewrite (tok_take_app _ _ _ _ y H1). reflexivity. }
  destruct (tag_type tag =? WT_I64).
  { intros H. apply tbind_ok in H. destruct H as [[q r] [H1 [= <- <- <-]]].
    rewrite (tok_take_app _ _ _ _ y H1). reflexivity. }
  destruct (tag_type tag =? WT_SGROUP).
  { intros H. apply tbind_ok in H. destruct H as [[q r] [H1 [= <- <- <-]]].
    rewrite (Hg _ _ _ H1). reflexivity. }
  destruct (tag_type tag =? WT_I32); [|discriminate].
  { intros H. apply tbind_ok in H. destruct H as [[q r] [H1 [= <- <- <-]]].
    rewrite (tok_take_app _ _ _ _ y H1). reflexivity. }
Qed.

Definition raws (rs : list rec) : bytes := concat (map r_raw rs).

Section WireFacts.
  Context (maxd : Z).
  Notation tok := (tok maxd).
  Notation tokB := (tokB maxd).

  Definition grp (f : nat) (depth : Z) : Z -> bytes -> tres (list rec * bytes) :=
    fun num x => if scope_ok maxd depth then tok f (Some num) (depth + 1) x else TErr.

  (** One more record or the end: the unfolding of [tok]. *)
  Lemma tok_S f mode depth bs : tok (S f) mode depth bs =
    match bs with
    | [] => match mode with None => TOk ([], []) | Some _ => TErr end
    | _ =>
        '(tb, tag, bs1) <~ tok_tag bs ;;
        if match mode with
           | Some num => (tag_type tag =? WT_EGROUP) && (tag_number tag =? num)
           | None => false
           end
        then TOk ([], bs1)
        else
          '(p, sub, bs2) <~ tok_pay (grp f depth) tag bs1 ;;
          '(rs, rest) <~ tok f mode depth bs2 ;;
          TOk (Rec tb tag (used bs1 bs2) p sub :: rs, rest)
    end.
  Proof. reflexivity. Qed.

  (** What was consumed: the records, then the end-group tag in a group. *)
  Lemma tok_raws f : forall mode depth bs rs rest, tok f mode depth bs = TOk (rs, rest) ->
    exists e, bs = raws rs ++ e ++ rest /\
      match mode with
      | None => e = [] /\ rest = []
      | Some num => exists tag, tok_tag (e ++ rest) = TOk (e, tag, rest) /\
          tag_type tag = WT_EGROUP /\ tag_number tag = num
      end.
  Proof.
    induction f as [|f IH]; intros mode depth bs rs rest; [discriminate|].
    rewrite tok_S. destruct bs as [|b bs].
    { destruct mode; [discriminate|]. intros [= <- <-]. exists []. auto. }
    intros H. apply tbind_ok in H. destruct H as [[[tb tag] bs1] [H1 H]].
    destruct (tok_tag_ok _ _ _ _ H1) as (n & _ & _ & _ & _ & _ & _ & Hbs). rewrite Hbs in *.
    destruct (match mode with Some num => _ | None => _ end) eqn:K.
    - injection H as <- <-. destruct mode as [num|]; [|discriminate]. apply andb_prop in K.
      exists tb. cbn [raws map concat app]. split; [reflexivity|]. exists tag. intuition lia.
    - apply tbind_ok in H. destruct H as [[[p sub] bs2] [H2 H]].
      apply tbind_ok in H. destruct H as [[rs' rest'] [H3 [= <- <-]]].
      assert (Hg : forall num0 rs0 r, grp f depth num0 bs1 = TOk (rs0, r) -> exists c, bs1 = c ++ r).
      { intros num0 rs0 r. unfold grp. destruct (scope_ok maxd depth); [|discriminate]. intros Hg.
        apply IH in Hg. destruct Hg as (e & -> & _). rewrite app_assoc; eauto. }
      destruct (tok_pay_ok _ _ _ _ _ _ Hg H2) as (c & -> & _).
      destruct (IH _ _ _ _ _ H3) as (e & -> & He). exists e. split; [|exact He].
      unfold raws. cbn [map concat]. unfold r_raw at 1. cbn [r_tb r_pb].
      rewrite used_app. rewrite !app_assoc. reflexivity.
  Qed.

  Lemma grp_consumes f depth num bs rs rest : grp f depth num bs = TOk (rs, rest) ->
    exists c, bs = c ++ rest /\ (length (raws rs) < length c)%nat.
  Proof.
    unfold grp. destruct (scope_ok maxd depth); [|discriminate]. intros H.
    apply tok_raws in H. destruct H as (e & -> & tag & H & _). rewrite app_assoc.
    apply tok_tag_ok in H. destruct H as (n & _ & H1 & H2 & He & _). eexists; split; [reflexivity|].
    rewrite app_length. rewrite He, firstn_length. lia.
  Qed.

  Lemma grp_consumes' f depth num bs rs rest : grp f depth num bs = TOk (rs, rest) -> exists c, bs = c ++ rest.
  Proof. intros H. apply grp_consumes in H. destruct H as (c & H & _); eauto. Qed.

  (** Fuel above the number of bytes is enough and does not matter. *)
  Lemma tok_fuel f : forall f' mode depth bs, (length bs < f)%nat -> (length bs < f')%nat ->
    tok f mode depth bs = tok f' mode depth bs.
  Proof.
    induction f as [|f IH]; intros f' mode depth bs H1 H2; [lia|].
    destruct f' as [|f']; [lia|]. rewrite !tok_S. destruct bs as [|b bs]; [reflexivity|].
    destruct (tok_tag (b :: bs)) as [[[tb tag] bs1]| | |] eqn:K; try reflexivity. cbn [tbind].
    destruct (tok_tag_ok _ _ _ _ K) as (n & _ & Hn & Hl & _ & _ & -> & _).
    assert (Hlen : (length (skipn n (b :: bs)) < length (b :: bs))%nat) by (rewrite skipn_length; lia).
    set (bs1 := skipn n (b :: bs)) in *. clearbody bs1.
    destruct (match mode with Some num => _ | None => _ end); [reflexivity|].
    assert (Hg : tok_pay (grp f depth) tag bs1 = tok_pay (grp f' depth) tag bs1).
    { apply tok_pay_ext. intros num. unfold grp. destruct (scope_ok maxd depth); [|reflexivity]. apply IH; lia. }
    rewrite <- Hg. destruct (tok_pay (grp f depth) tag bs1) as [[[p sub] bs2]| | |] eqn:Kp; try reflexivity.
    cbn [tbind]. destruct (tok_pay_ok _ _ _ _ _ _ (fun num rs r => grp_consumes' _ _ num _ rs r) Kp) as (c & -> & _).
    rewrite app_length in *. rewrite (IH f') by lia. reflexivity.
  Qed.

  Lemma tok_tokB f mode depth bs : (length bs < f)%nat -> tok f mode depth bs = tokB mode depth bs.
  Proof. intros. apply tok_fuel; lia. Qed.

  Definition grpB (depth : Z) : Z -> bytes -> tres (list rec * bytes) :=
    fun num x => if scope_ok maxd depth then tokB (Some num) (depth + 1) x else TErr.

  (** The fuel-free unfolding. *)
  Lemma tokB_eq mode depth bs : tokB mode depth bs =
    match bs with
    | [] => match mode with None => TOk ([], []) | Some _ => TErr end
    | _ =>
        '(tb, tag, bs1) <~ tok_tag bs ;;
        if match mode with
           | Some num => (tag_type tag =? WT_EGROUP) && (tag_number tag =? num)
           | None => false
           end
        then TOk ([], bs1)
        else
          '(p, sub, bs2) <~ tok_pay (grpB depth) tag bs1 ;;
          '(rs, rest) <~ tokB mode depth bs2 ;;
          TOk (Rec tb tag (used bs1 bs2) p sub :: rs, rest)
    end.
  Proof.
    unfold Wire.tokB at 1. rewrite tok_S. destruct bs as [|b bs]; [reflexivity|].
    destruct (tok_tag (b :: bs)) as [[[tb tag] bs1]| | |] eqn:K; try reflexivity. cbn [tbind].
    destruct (tok_tag_ok _ _ _ _ K) as (n & _ & Hn & Hl & _ & _ & -> & _).
    assert (Hlen : (length (skipn n (b :: bs)) < length (b :: bs))%nat) by (rewrite skipn_length; lia).
    set (bs1 := skipn n (b :: bs)) in *. clearbody bs1.
    destruct (match mode with Some num => _ | None => _ end); [reflexivity|].
    assert (Hg : tok_pay (grp (length (b :: bs)) depth) tag bs1 = tok_pay (grpB depth) tag bs1).
    { apply tok_pay_ext. intros num. unfold grp, grpB. destruct (scope_ok maxd depth); [|reflexivity].
      apply tok_tokB; lia. }
    rewrite <- Hg. destruct (tok_pay _ tag bs1) as [[[p sub] bs2]| | |] eqn:Kp; try reflexivity.
    cbn [tbind]. destruct (tok_pay_ok _ _ _ _ _ _ (fun num rs r => grp_consumes' _ _ num _ rs r) Kp) as (c & -> & _).
    rewrite app_length in *. rewrite tok_tokB by lia. reflexivity.
  Qed.

  Lemma tokB_no_fuel mode depth bs : tokB mode depth bs <> TFuel.
  Proof.
    unfold Wire.tokB. assert (Hf : (length bs < S (length bs))%nat) by lia.
    revert Hf. generalize (S (length bs)). intros f. revert mode depth bs. induction f as [|f IH]; intros mode depth bs Hf; [lia|].
    rewrite tok_S. destruct bs as [|b bs]; [destruct mode; discriminate|].
    destruct (tok_tag (b :: bs)) as [[[tb tag] bs1]| | |] eqn:K; cbn [tbind]; try discriminate.
    2: { unfold tok_tag in K. destruct (scan 5 (b :: bs)); discriminate. }
    destruct (tok_tag_ok _ _ _ _ K) as (n & _ & Hn & Hl & _ & _ & -> & _).
    assert (Hlen : (length (skipn n (b :: bs)) < length (b :: bs))%nat) by (rewrite skipn_length; lia).
    set (bs1 := skipn n (b :: bs)) in *. clearbody bs1.
    destruct (match mode with Some num => _ | None => _ end); [discriminate|].
    assert (Hp : tok_pay (grp f depth) tag bs1 <> TFuel).
    { unfold tok_pay. destruct (tag =? 0); [discriminate|].
      destruct (_ =? WT_VARINT); [destruct (scan 10 bs1); discriminate|].
      destruct (_ =? WT_LEN).
      { destruct (scan 6 bs1); try discriminate. unfold tok_take. destruct (_ <=? _)%nat; discriminate. }
      destruct (_ =? WT_I64); [unfold tok_take; destruct (_ <=? _)%nat; discriminate|].
      destruct (_ =? WT_SGROUP).
      { unfold grp. destruct (scope_ok maxd depth); [|discriminate].
        specialize (IH (Some (tag_number tag)) (depth + 1) bs1 ltac:(lia)).
        destruct (tok f (Some (tag_number tag)) (depth + 1) bs1) as [[? ?]| | |]; cbn; congruence. }
      destruct (_ =? WT_I32); [unfold tok_take; destruct (_ <=? _)%nat; discriminate|discriminate]. }
    destruct (tok_pay (grp f depth) tag bs1) as [[[p sub] bs2]| | |] eqn:Kp; cbn [tbind]; try congruence.
    destruct (tok_pay_ok _ _ _ _ _ _ (fun num rs r => grp_consumes' _ _ num _ rs r) Kp) as (c & -> & _).
    rewrite app_length in *. specialize (IH mode depth bs2 ltac:(lia)).
    destruct (tok f mode depth bs2) as [[? ?]| | |]; cbn; congruence.
  Qed.

  (** A group ends at its end-group tag whatever follows. *)
  Lemma tokB_app_group : forall n num depth bs rs rest y, (length bs < n)%nat ->
    tokB (Some num) depth bs = TOk (rs, rest) -> tokB (Some num) depth (bs ++ y) = TOk (rs, rest ++ y).
  Proof.
    induction n as [|n IH]; intros num depth bs rs rest y Hn H; [lia|].
    rewrite tokB_eq in H |- *. destruct bs as [|b bs]; [discriminate|]. cbn [app].
    apply tbind_ok in H. destruct H as [[[tb tag] bs1] [H1 H]].
    change (b :: bs ++ y) with ((b :: bs) ++ y). rewrite (tok_tag_app _ _ _ _ y H1). cbn [tbind].
    destruct (tok_tag_ok _ _ _ _ H1) as (k & _ & Hk & Hl & _ & _ & -> & _).
    assert (Hlen : (length (skipn k (b :: bs)) < length (b :: bs))%nat) by (rewrite skipn_length; lia).
    set (bs1 := skipn k (b :: bs)) in *. clearbody bs1.
    destruct (_ && _); [injection H as <- <-; reflexivity|].
    apply tbind_ok in H. destruct H as [[[p sub] bs2] [H2 H]].
    apply tbind_ok in H. destruct H as [[rs' rest'] [H3 [= <- <-]]].
    rewrite (tok_pay_app _ (grpB depth) _ _ _ _ _ y) with (2 := H2).
    2: { intros m rs0 r0. unfold grpB. destruct (scope_ok maxd depth); [|discriminate]. apply IH. lia. }
    cbn [tbind]. assert (Hg : forall num0 rs0 r, grpB depth num0 bs1 = TOk (rs0, r) -> exists c, bs1 = c ++ r).
    { intros num0 rs0 r. unfold grpB. destruct (scope_ok maxd depth); [|discriminate]. intros Hg.
      apply tok_raws in Hg. destruct Hg as (e & -> & _). rewrite app_assoc; eauto. }
    destruct (tok_pay_ok _ _ _ _ _ _ Hg H2) as (c & -> & _).
    assert (Hl2 : (length bs2 < n)%nat) by (rewrite app_length in Hlen; cbn [length] in *; lia).
    rewrite (IH _ _ _ _ _ y Hl2 H3). cbn [tbind].
    rewrite <- app_assoc, !used_app. reflexivity.
  Qed.

  Lemma grpB_app depth num bs rs r y : grpB depth num bs = TOk (rs, r) -> grpB depth num (bs ++ y) = TOk (rs, r ++ y).
  Proof. unfold grpB. destruct (scope_ok maxd depth); [|discriminate]. apply (tokB_app_group (S (length bs))). lia. Qed.

  Lemma grpB_consumes depth num bs rs r : grpB depth num bs = TOk (rs, r) ->
    exists c, bs = c ++ r /\ (length (raws rs) < length c)%nat.
  Proof.
    intros H. eapply (grp_consumes (S (length bs)) depth). unfold grp. unfold grpB, Wire.tokB in H. exact H.
  Qed.
  Lemma grpB_consumes' depth num bs rs r : grpB depth num bs = TOk (rs, r) -> exists c, bs = c ++ r.
  Proof. intros H. apply grpB_consumes in H. destruct H as (c & H & _); eauto. Qed.

  (** Concatenated messages: their records one after the other. *)
  Lemma tokB_app_none : forall n depth bs rs rest y, (length bs < n)%nat ->
    tokB None depth bs = TOk (rs, rest) ->
    tokB None depth (bs ++ y) = ('(rs', rest') <~ tokB None depth y ;; TOk (rs ++ rs', rest')).
  Proof.
    induction n as [|n IH]; intros depth bs rs rest y Hn H; [lia|].
    rewrite tokB_eq in H. destruct bs as [|b bs].
    { injection H as <- <-. cbn [app]. destruct (tokB None depth y) as [[? ?]| | |]; reflexivity. }
    rewrite tokB_eq. cbn [app].
    apply tbind_ok in H. destruct H as [[[tb tag] bs1] [H1 H]].
    change (b :: bs ++ y) with ((b :: bs) ++ y). rewrite (tok_tag_app _ _ _ _ y H1). cbn [tbind].
    destruct (tok_tag_ok _ _ _ _ H1) as (k & _ & Hk & Hl & _ & _ & -> & _).
    assert (Hlen : (length (skipn k (b :: bs)) < length (b :: bs))%nat) by (rewrite skipn_length; lia).
    set (bs1 := skipn k (b :: bs)) in *. clearbody bs1.
    apply tbind_ok in H. destruct H as [[[p sub] bs2] [H2 H]].
    apply tbind_ok in H. destruct H as [[rs' rest'] [H3 [= <- <-]]].
    rewrite (tok_pay_app _ (grpB depth) _ _ _ _ _ y) with (2 := H2) by (intros; apply grpB_app; auto).
    cbn [tbind]. destruct (tok_pay_ok _ _ _ _ _ _ (fun num rs r => grpB_consumes' _ num _ rs r) H2) as (c & -> & _).
    assert (Hl2 : (length bs2 < n)%nat) by (rewrite app_length in Hlen; cbn [length] in *; lia).
    rewrite (IH _ _ _ _ y Hl2 H3).
    rewrite <- app_assoc, !used_app. destruct (tokB None depth y) as [[? ?]| | |]; reflexivity.
  Qed.

  Lemma tokB_rest mode depth bs rs rest : tokB mode depth bs = TOk (rs, rest) ->
    exists c, bs = c ++ rest.
  Proof. intros H. apply tok_raws in H. destruct H as (e & -> & _). rewrite app_assoc; eauto. Qed.
  (** ** Field boundaries *)
  Lemma tokB_no_dev : forall n mode depth bs, (length bs < n)%nat -> tokB mode depth bs <> TDev.
  Proof.
    induction n as [|n IH]; intros mode depth bs Hn; [lia|].
    rewrite tokB_eq. destruct bs as [|b t]; [destruct mode; discriminate|].
    destruct (tok_tag (b :: t)) as [[[tb tag] bs1]| | |] eqn:Kt; cbn [tbind]; try discriminate.
    2: { unfold tok_tag in Kt. destruct (scan 5 (b :: t)); discriminate. }
    destruct (match mode with Some num => _ | None => _ end); [discriminate|].
    destruct (tok_tag_ok _ _ _ _ Kt) as (m & _ & Hm & Hl & _ & _ & Hbs & _).
    assert (Hl1 : (length bs1 < n)%nat) by (rewrite Hbs, skipn_length; cbn [length] in *; lia).
    destruct (tok_pay (grpB depth) tag bs1) as [[[p sub] bs2]| | |] eqn:Kp; cbn [tbind]; try discriminate.
    - destruct (tok_pay_ok _ _ _ _ _ _ (fun num rs r => grpB_consumes' depth num _ rs r) Kp) as (c & Hc & _).
      destruct (tokB mode depth bs2) as [[rs rest]| | |] eqn:K2; cbn [tbind]; try discriminate.
      intros _. eapply IH; [|exact K2]. rewrite Hc, app_length in Hl1. lia.
    - intros _. revert Kp. unfold tok_pay. destruct (tag =? 0); [discriminate|].
      destruct (_ =? WT_VARINT); [destruct (scan 10 bs1); discriminate|].
      destruct (_ =? WT_LEN). { destruct (scan 6 bs1); try discriminate. unfold tok_take. destruct (_ <=? _)%nat; discriminate. }
      destruct (_ =? WT_I64). { unfold tok_take. destruct (_ <=? _)%nat; discriminate. }
      destruct (_ =? WT_SGROUP).
      { unfold grpB. destruct (scope_ok _ _); [|discriminate].
        destruct (tokB (Some (tag_number tag)) (depth + 1) bs1) as [[? ?]| | |] eqn:K; cbn [tbind]; try discriminate.
        intros _. eapply IH; [|exact K]. exact Hl1. }
      destruct (_ =? WT_I32). { unfold tok_take. destruct (_ <=? _)%nat; discriminate. }
      discriminate.
  Qed.

  Lemma tokB_prefix depth p q rs rest : tokB None depth (p ++ q) = TOk (rs, rest) ->
    match tokB None depth p with
    | TOk (rs1, _) => exists rs2, rs = rs1 ++ rs2 /\ tokB None depth q = TOk (rs2, rest)
    | TErr => True
    | _ => False
    end.
  Proof.
    intros H.
    destruct (tokB None depth p) as [[rs1 r1]| | |] eqn:K.
    - rewrite (tokB_app_none (S (length p)) _ _ _ _ _ (Nat.lt_succ_diag_r _) K) in H.
      apply tbind_ok in H. destruct H as [[rs2 r2] [H2 H]]. injection H as <- <-. eauto.
    - exact I.
    - eapply tokB_no_dev; [|exact K]. apply Nat.lt_succ_diag_r.
    - eapply tokB_no_fuel; eauto.
  Qed.
End WireFacts.
