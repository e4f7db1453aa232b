(** Facts about the slot layout of dynamic messages. *)
Require Import Verif.Bits Verif.DynSlots.

(** ** Specification *)
Definition oneof_at (fs : list dfield) (i : nat) : option nat := match nth_error fs i with Some f => d_oneof f | None => None end.
(** Two fields are alternatives of one oneof. *)
Definition alternatives (fs : list dfield) (i j : nat) : Prop := exists o, oneof_at fs i = Some o /\ oneof_at fs j = Some o.
(** The fields of every oneof are consecutive. *)
Definition contiguous (fs : list dfield) : Prop := forall i j k o, (i < j < k)%nat -> oneof_at fs i = Some o -> oneof_at fs k = Some o -> oneof_at fs j = Some o.
Definition members (fs : list dfield) (o : nat) : nat := length (filter (fun f => match d_oneof f with Some x => (x =? o)%nat | None => false end) fs).
(** What the descriptor pool checks (descriptor_pool.hpp:1230-1239). *)
Definition oneofs_valid (count : nat) (fs : list dfield) : Prop := Forall (fun f => forall o, d_oneof f = Some o -> (o < count)%nat /\ d_repeated f = false) fs.

Lemma oneof_at_app_l fs f i : (i < length fs)%nat -> oneof_at (fs ++ [f]) i = oneof_at fs i.
Proof. intros H. unfold oneof_at. rewrite nth_error_app1 by exact H. reflexivity. Qed.
Lemma oneof_at_app_r fs f : oneof_at (fs ++ [f]) (length fs) = d_oneof f.
Proof. unfold oneof_at. rewrite nth_error_app2, Nat.sub_diag by lia. reflexivity. Qed.
Lemma oneof_at_lt fs i o : oneof_at fs i = Some o -> (i < length fs)%nat.
Proof. unfold oneof_at. intros H. apply nth_error_Some. intros K. rewrite K in H. discriminate. Qed.
Lemma members_app fs f o : members (fs ++ [f]) o = (members fs o + match d_oneof f with Some x => if (x =? o)%nat then 1 else 0 | None => 0 end)%nat.
Proof. unfold members. rewrite filter_app, app_length. cbn [filter]. destruct (d_oneof f) as [x|]; [destruct (x =? o)%nat|]; reflexivity. Qed.

(** What holds after the fields [pre] have been laid out. *)
Record laid (count : nat) (pre : list dfield) (ls : list layout) (st : slot_state) : Prop := {
  la_len : length ls = length pre;
  la_range : forall i l, nth_error ls i = Some l -> (l_slot l < ss_cur st)%nat;
  la_onto : forall s, (s < ss_cur st)%nat -> exists i l, nth_error ls i = Some l /\ l_slot l = s;
  la_share : forall i j l m, nth_error ls i = Some l -> nth_error ls j = Some m -> (l_slot l = l_slot m <-> i = j \/ alternatives pre i j);
  la_started : forall o, In o (ss_started st) <-> exists i, oneof_at pre i = Some o;
  la_prev : forall o, (o < count)%nat -> (ss_prev st = o <-> pre <> [] /\ oneof_at pre (length pre - 1) = Some o);
  la_run : forall o i l, (o < count)%nat -> ss_prev st = o -> oneof_at pre i = Some o -> nth_error ls i = Some l ->
    l_slot l = (ss_cur st - 1)%nat /\ l_bias l = Z.of_nat (length pre) - 1 - ss_next st;
  la_next : forall o, (o < count)%nat -> ss_prev st = o -> ss_next st = 1 + Z.of_nat (members pre o);
  la_cur : pre <> [] -> (0 < ss_cur st)%nat;
  la_oneof : forall i o l, oneof_at pre i = Some o -> nth_error ls i = Some l ->
    l_ordinal l + l_bias l = Z.of_nat i /\ l_mask l = 2 ^ 32 - 1 /\ 2 <= l_ordinal l <= 65535;
  la_bias : forall i j l m, alternatives pre i j -> nth_error ls i = Some l -> nth_error ls j = Some m -> l_bias l = l_bias m;
  la_plain : forall i f l, nth_error pre i = Some f -> d_oneof f = None -> nth_error ls i = Some l ->
    l_ordinal l = (if d_repeated f then 0 else 1) /\ l_mask l = 0 /\ l_bias l = Z.of_nat i;
  la_contiguous : contiguous pre;
  la_members : forall o, (Z.of_nat (members pre o) <= 65534)
}.

Lemma laid_start count : laid count [] [] (SlotState 0 [] count 1).
Proof.
  constructor; cbn [length ss_cur ss_started ss_prev ss_next].
  - reflexivity.
  - intros i l H. destruct i; discriminate.
  - intros s H. lia.
  - intros i j l m H. destruct i; discriminate.
  - intros o. split; [intros []|]. intros [i H]. destruct i; discriminate.
  - intros o H. split; [lia|]. intros [K _]. congruence.
  - intros o i l _ _ H. destruct i; discriminate.
  - intros o H K. lia.
  - congruence.
  - intros i o l H. destruct i; discriminate.
  - intros i j l m (o & H & _). destruct i; discriminate.
  - intros i f l H. destruct i; discriminate.
  - intros i j k o _ H. destruct i; discriminate.
  - intros o. cbn. lia.
Qed.

Lemma nth_snoc {A} (l : list A) x i y : nth_error (l ++ [x]) i = Some y -> (i < length l)%nat /\ nth_error l i = Some y \/ i = length l /\ y = x.
Proof.
  intros H. destruct (Nat.lt_ge_cases i (length l)) as [K|K]; [left; split; [exact K|]; rewrite nth_error_app1 in H by exact K; exact H|].
  right. rewrite nth_error_app2 in H by exact K. destruct (i - length l)%nat as [|n] eqn:Hn; cbn in H; [|destruct n; discriminate]. injection H as ->. split; [lia|reflexivity].
Qed.

Lemma oneof_snoc fs f i o : oneof_at (fs ++ [f]) i = Some o -> (i < length fs)%nat /\ oneof_at fs i = Some o \/ i = length fs /\ d_oneof f = Some o.
Proof.
  intros H. pose proof (oneof_at_lt _ _ _ H) as K. rewrite app_length in K. cbn [length] in K.
  destruct (Nat.eq_dec i (length fs)) as [->|Hne]; [right; rewrite oneof_at_app_r in H; auto|]. left. split; [lia|]. rewrite oneof_at_app_l in H by lia. exact H.
Qed.

Lemma sym_iff (a b : nat) : a = b <-> b = a.
Proof. split; auto. Qed.

(** A field outside oneofs. *)
Lemma laid_plain count pre ls st f : laid count pre ls st -> d_oneof f = None ->
  laid count (pre ++ [f]) (ls ++ [fst (setup_non_oneof_field count (d_repeated f) st (length pre))]) (snd (setup_non_oneof_field count (d_repeated f) st (length pre))).
Proof.
  intros L Hf. pose proof (la_len _ _ _ _ L) as Hlen. unfold setup_non_oneof_field. cbn [fst snd].
  assert (Hno : forall i o, oneof_at (pre ++ [f]) i = Some o -> (i < length pre)%nat /\ oneof_at pre i = Some o).
  { intros i o H. apply oneof_snoc in H. destruct H as [H|[_ H]]; [exact H|congruence]. }
  assert (Halt : forall i j, alternatives (pre ++ [f]) i j -> (i < length pre)%nat /\ (j < length pre)%nat /\ alternatives pre i j).
  { intros i j (o & H1 & H2). apply Hno in H1, H2. split; [tauto|]. split; [tauto|]. exists o. tauto. }
  constructor; cbn [ss_cur ss_started ss_prev ss_next].
  - rewrite !app_length. cbn. lia.
  - intros i l H. apply nth_snoc in H. destruct H as [[_ H]|[_ ->]]; [apply (la_range _ _ _ _ L) in H; lia|cbn; lia].
  - intros s H. destruct (Nat.eq_dec s (ss_cur st)) as [->|Hne].
    + exists (length ls). eexists. split; [rewrite nth_error_app2, Nat.sub_diag by lia; reflexivity|reflexivity].
    + destruct (la_onto _ _ _ _ L s ltac:(lia)) as (i & l & H1 & H2). exists i, l. split; [rewrite nth_error_app1; [exact H1|apply nth_error_Some; congruence]|exact H2].
  - intros i j l m Hi Hj. apply nth_snoc in Hi, Hj. destruct Hi as [[Ci Hi]|[-> ->]], Hj as [[Cj Hj]|[-> ->]]; cbn [l_slot].
    + rewrite (la_share _ _ _ _ L i j l m Hi Hj). split; (intros [H|H]; [left; exact H|right]).
      * destruct H as (o & H1 & H2). exists o. rewrite !oneof_at_app_l by lia. auto.
      * apply Halt in H. tauto.
    + pose proof (la_range _ _ _ _ L i l Hi) as R. split; [lia|]. intros [H|H]; [lia|]. apply Halt in H. lia.
    + pose proof (la_range _ _ _ _ L j m Hj) as R. split; [lia|]. intros [H|H]; [lia|]. apply Halt in H. lia.
    + tauto.
  - intros o. rewrite (la_started _ _ _ _ L o). split; intros [i H].
    + exists i. rewrite oneof_at_app_l by (eapply oneof_at_lt; eauto). exact H.
    + exists i. apply Hno in H. tauto.
  - intros o Ho. split; [lia|]. intros [_ H]. rewrite app_length in H. cbn [length] in H. replace (length pre + 1 - 1)%nat with (length pre) in H by lia.
    rewrite oneof_at_app_r in H. congruence.
  - intros o i l Ho Hp. lia.
  - intros o Ho Hp. lia.
  - lia.
  - intros i o l Ho Hl. apply Hno in Ho. destruct Ho as [Hi Ho]. apply nth_snoc in Hl. destruct Hl as [[_ Hl]|[-> _]]; [|lia]. eapply (la_oneof _ _ _ _ L); eauto.
  - intros i j l m Ha Hi Hj. apply Halt in Ha. destruct Ha as (C1 & C2 & Ha). apply nth_snoc in Hi, Hj.
    destruct Hi as [[_ Hi]|[-> _]]; [|lia]. destruct Hj as [[_ Hj]|[-> _]]; [|lia]. eapply (la_bias _ _ _ _ L); eauto.
  - intros i g l Hg Hn Hl. apply nth_snoc in Hg, Hl. destruct Hg as [[C1 Hg]|[-> ->]], Hl as [[C2 Hl]|[-> ->]]; try lia.
    + eapply (la_plain _ _ _ _ L); eauto.
    + cbn [l_ordinal l_mask l_bias]. auto.
  - intros i j k o Hij Hi Hk. apply Hno in Hi, Hk. rewrite oneof_at_app_l by lia. eapply (la_contiguous _ _ _ _ L); [exact Hij| |]; tauto.
  - intros o. rewrite members_app, Hf, Nat.add_0_r. apply (la_members _ _ _ _ L).
Qed.

(** A field of a oneof. *)
Lemma laid_oneof count pre ls st f o l st' : laid count pre ls st -> d_oneof f = Some o -> (o < count)%nat ->
  setup_oneof_field o st (length pre) = Some (l, st') -> laid count (pre ++ [f]) (ls ++ [l]) st'.
Proof.
  intros L Hf Ho Q. pose proof (la_len _ _ _ _ L) as Hlen. unfold setup_oneof_field in Q.
  assert (Hmem : forall x, members (pre ++ [f]) x = (members pre x + if (o =? x)%nat then 1 else 0)%nat) by (intros x; rewrite members_app, Hf; reflexivity).
  assert (Hlast : oneof_at (pre ++ [f]) (length pre) = Some o) by (rewrite oneof_at_app_r; exact Hf).
  assert (Hne : pre ++ [f] <> []) by (destruct pre; discriminate).
  assert (Hll : (length (pre ++ [f]) - 1)%nat = length pre) by (rewrite app_length; cbn; lia).
  destruct (Nat.eqb_spec (ss_prev st) o) as [Hp|Hp]; cbn [negb] in Q.
  - (* the oneof goes on *)
    destruct (Z.eqb_spec (ss_next st) 65535) as [|Hn]; [discriminate|]. injection Q as <- <-.
    destruct (proj1 (la_prev _ _ _ _ L o Ho) Hp) as [Hpne Hplast]. pose proof (la_cur _ _ _ _ L Hpne) as Hc.
    pose proof (la_next _ _ _ _ L o Ho Hp) as Hnext. pose proof (la_members _ _ _ _ L o) as Hmo.
    assert (Hm1 : (1 <= members pre o)%nat).
    { unfold members. unfold oneof_at in Hplast. destruct (nth_error pre (length pre - 1)) as [g|] eqn:Hg; [|discriminate].
      assert (In g (filter (fun f => match d_oneof f with Some x => (x =? o)%nat | None => false end) pre)).
      { apply filter_In. split; [eapply nth_error_In; eauto|]. rewrite Hplast. apply Nat.eqb_refl. }
      destruct (filter _ pre); [contradiction|cbn; lia]. }
    assert (Hrun : forall i m, oneof_at pre i = Some o -> nth_error ls i = Some m -> l_slot m = (ss_cur st - 1)%nat /\ l_bias m = Z.of_nat (length pre) - 1 - ss_next st)
      by (intros i m A B; eapply (la_run _ _ _ _ L); eauto).
    assert (Hslot : forall i m, nth_error ls i = Some m -> (l_slot m = (ss_cur st - 1)%nat <-> oneof_at pre i = Some o)).
    { intros i m Hi. split; [|intros K; apply (Hrun i m K Hi)].
      assert (Hex : exists m0, nth_error ls (length pre - 1) = Some m0).
      { destruct (nth_error ls (length pre - 1)) eqn:Q; eauto. apply nth_error_None in Q. destruct pre; [congruence|]. cbn [length] in *. lia. }
      destruct Hex as [m0 Hm0]. destruct (Hrun _ _ Hplast Hm0) as [Hs0 _]. intros K.
      assert (K2 : l_slot m = l_slot m0) by congruence. apply (la_share _ _ _ _ L i _ m m0 Hi Hm0) in K2.
      destruct K2 as [->|(x & A & B)]; [exact Hplast|]. congruence. }
    constructor; cbn [ss_cur ss_started ss_prev ss_next].
    + rewrite !app_length. cbn. lia.
    + intros i m H. apply nth_snoc in H. destruct H as [[_ H]|[_ ->]]; [apply (la_range _ _ _ _ L) in H; lia|cbn; lia].
    + intros s H. destruct (la_onto _ _ _ _ L s H) as (i & m & H1 & H2). exists i, m. split; [rewrite nth_error_app1; [exact H1|apply nth_error_Some; congruence]|exact H2].
    + intros i j a b Hi Hj. apply nth_snoc in Hi, Hj. destruct Hi as [[Ci Hi]|[-> ->]], Hj as [[Cj Hj]|[-> ->]]; cbn [l_slot].
      * rewrite (la_share _ _ _ _ L i j a b Hi Hj). unfold alternatives. rewrite !oneof_at_app_l by lia. tauto.
      * rewrite (Hslot i a Hi). unfold alternatives. rewrite Hlen, Hlast, oneof_at_app_l by lia. split; [intros K; right; eauto|]. intros [K|(x & K & [= <-])]; [lia|exact K].
      * rewrite (sym_iff (ss_cur st - 1)%nat (l_slot b)), (Hslot j b Hj). unfold alternatives. rewrite Hlen, Hlast, oneof_at_app_l by lia. split; [intros K; right; eauto|]. intros [K|(x & [= <-] & K)]; [lia|exact K].
      * tauto.
    + intros x. rewrite (la_started _ _ _ _ L x). split; intros [i H].
      * exists i. rewrite oneof_at_app_l by (eapply oneof_at_lt; eauto). exact H.
      * apply oneof_snoc in H. destruct H as [[_ H]|[-> H]]; [eauto|]. exists (length pre - 1)%nat. congruence.
    + intros x Hx. rewrite Hll, Hlast. split; [intros ->; auto|]. intros [_ [= <-]]. reflexivity.
    + intros x i m Hx <- Hi Hm. rewrite app_length. cbn [length]. apply nth_snoc in Hm. destruct Hm as [[Ci Hm]|[-> ->]]; cbn [l_slot l_bias].
      * rewrite oneof_at_app_l in Hi by lia. destruct (Hrun i m Hi Hm) as [A B]. split; [exact A|]. rewrite B. lia.
      * split; [reflexivity|lia].
    + intros x Hx <-. rewrite Hmem, Nat.eqb_refl. lia.
    + lia.
    + intros i x m Hi Hm. apply nth_snoc in Hm. destruct Hm as [[Ci Hm]|[-> ->]]; cbn [l_ordinal l_mask l_bias].
      * rewrite oneof_at_app_l in Hi by lia. eapply (la_oneof _ _ _ _ L); eauto.
      * split; [lia|]. split; [reflexivity|]. lia.
    + intros i j a b (x & A & B) Hi Hj. apply nth_snoc in Hi, Hj. destruct Hi as [[Ci Hi]|[-> ->]], Hj as [[Cj Hj]|[-> ->]]; cbn [l_bias].
      * rewrite oneof_at_app_l in A, B by lia. eapply (la_bias _ _ _ _ L i j); eauto. exists x. auto.
      * rewrite Hlen in B. rewrite Hlast in B. injection B as <-. rewrite oneof_at_app_l in A by lia. destruct (Hrun i a A Hi) as [_ K]. rewrite K. lia.
      * rewrite Hlen in A. rewrite Hlast in A. injection A as <-. rewrite oneof_at_app_l in B by lia. destruct (Hrun j b B Hj) as [_ K]. rewrite K. lia.
      * reflexivity.
    + intros i g m Hg Hn' Hm. apply nth_snoc in Hg, Hm. destruct Hg as [[C1 Hg]|[-> ->]]; [|congruence]. destruct Hm as [[C2 Hm]|[-> ->]]; [|lia].
      eapply (la_plain _ _ _ _ L); eauto.
    + intros i j k x Hij Hi Hk. assert (Hlt := oneof_at_lt _ _ _ Hk). rewrite app_length in Hlt. cbn [length] in Hlt.
      destruct (Nat.eq_dec k (length pre)) as [->|Hk'].
      * rewrite Hlast in Hk. injection Hk as <-. rewrite oneof_at_app_l in Hi |- * by lia.
        destruct (Nat.eq_dec j (length pre - 1)) as [->|]; [exact Hplast|]. eapply (la_contiguous _ _ _ _ L i j (length pre - 1)%nat); eauto. lia.
      * rewrite oneof_at_app_l in Hi, Hk |- * by lia. eapply (la_contiguous _ _ _ _ L); eauto.
    + intros x. rewrite Hmem. pose proof (la_members _ _ _ _ L x). destruct (Nat.eqb_spec o x) as [<-|]; lia.
  - (* a oneof starts *)
    destruct (existsb (Nat.eqb o) (ss_started st)) eqn:He; [discriminate|]. cbn [ss_next ss_cur ss_started] in Q.
    destruct (1 =? 65535); [discriminate|]. injection Q as <- <-.
    assert (Hnew : forall i, oneof_at pre i <> Some o).
    { intros i K. assert (In o (ss_started st)) by (apply (la_started _ _ _ _ L); eauto).
      assert (existsb (Nat.eqb o) (ss_started st) = true) by (apply existsb_exists; exists o; split; [assumption|apply Nat.eqb_refl]). congruence. }
    assert (Hm0 : members pre o = 0%nat).
    { unfold members. destruct (filter _ pre) as [|g t] eqn:Hg; [reflexivity|]. exfalso. assert (Hin : In g (g :: t)) by (left; reflexivity). rewrite <- Hg in Hin.
      apply filter_In in Hin. destruct Hin as [Hin K]. apply In_nth_error in Hin. destruct Hin as [i Hi]. apply (Hnew i). unfold oneof_at. rewrite Hi.
      destruct (d_oneof g) as [x|]; [|discriminate]. apply Nat.eqb_eq in K. congruence. }
    constructor; cbn [ss_cur ss_started ss_prev ss_next].
    + rewrite !app_length. cbn. lia.
    + intros i m H. apply nth_snoc in H. destruct H as [[_ H]|[_ ->]]; [apply (la_range _ _ _ _ L) in H; lia|cbn; lia].
    + intros s H. destruct (Nat.eq_dec s (ss_cur st)) as [->|Hns].
      * exists (length ls). eexists. split; [rewrite nth_error_app2, Nat.sub_diag by lia; reflexivity|reflexivity].
      * destruct (la_onto _ _ _ _ L s ltac:(lia)) as (i & m & H1 & H2). exists i, m. split; [rewrite nth_error_app1; [exact H1|apply nth_error_Some; congruence]|exact H2].
    + intros i j a b Hi Hj. apply nth_snoc in Hi, Hj. destruct Hi as [[Ci Hi]|[-> ->]], Hj as [[Cj Hj]|[-> ->]]; cbn [l_slot].
      * rewrite (la_share _ _ _ _ L i j a b Hi Hj). unfold alternatives. rewrite !oneof_at_app_l by lia. tauto.
      * pose proof (la_range _ _ _ _ L i a Hi). unfold alternatives. rewrite Hlen, Hlast, oneof_at_app_l by lia. split; [lia|]. intros [K|(x & K & [= <-])]; [lia|]. exfalso. eapply Hnew; eauto.
      * pose proof (la_range _ _ _ _ L j b Hj). unfold alternatives. rewrite Hlen, Hlast, oneof_at_app_l by lia. split; [lia|]. intros [K|(x & [= <-] & K)]; [lia|]. exfalso. eapply Hnew; eauto.
      * tauto.
    + intros x. cbn [In]. rewrite (la_started _ _ _ _ L x). split.
      * intros [<-|[i H]]; [eauto|]. exists i. rewrite oneof_at_app_l by (eapply oneof_at_lt; eauto). exact H.
      * intros [i H]. apply oneof_snoc in H. destruct H as [[_ H]|[-> H]]; [eauto|]. left. congruence.
    + intros x Hx. rewrite Hll, Hlast. split; [intros ->; auto|]. intros [_ [= <-]]. reflexivity.
    + intros x i m Hx <- Hi Hm. rewrite app_length. cbn [length]. apply nth_snoc in Hm. destruct Hm as [[Ci Hm]|[-> ->]]; cbn [l_slot l_bias].
      * rewrite oneof_at_app_l in Hi by lia. exfalso. eapply Hnew; eauto.
      * split; [lia|lia].
    + intros x Hx <-. rewrite Hmem, Nat.eqb_refl, Hm0. lia.
    + lia.
    + intros i x m Hi Hm. apply nth_snoc in Hm. destruct Hm as [[Ci Hm]|[-> ->]]; cbn [l_ordinal l_mask l_bias].
      * rewrite oneof_at_app_l in Hi by lia. eapply (la_oneof _ _ _ _ L); eauto.
      * split; [lia|]. split; [reflexivity|]. lia.
    + intros i j a b (x & A & B) Hi Hj. apply nth_snoc in Hi, Hj. destruct Hi as [[Ci Hi]|[-> ->]], Hj as [[Cj Hj]|[-> ->]]; cbn [l_bias].
      * rewrite oneof_at_app_l in A, B by lia. eapply (la_bias _ _ _ _ L i j); eauto. exists x. auto.
      * exfalso. rewrite Hlen in B. rewrite Hlast in B. injection B as <-. rewrite oneof_at_app_l in A by lia. eapply Hnew; eauto.
      * exfalso. rewrite Hlen in A. rewrite Hlast in A. injection A as <-. rewrite oneof_at_app_l in B by lia. eapply Hnew; eauto.
      * reflexivity.
    + intros i g m Hg Hn' Hm. apply nth_snoc in Hg, Hm. destruct Hg as [[C1 Hg]|[-> ->]]; [|congruence]. destruct Hm as [[C2 Hm]|[-> ->]]; [|lia].
      eapply (la_plain _ _ _ _ L); eauto.
    + intros i j k x Hij Hi Hk. assert (Hlt := oneof_at_lt _ _ _ Hk). rewrite app_length in Hlt. cbn [length] in Hlt.
      destruct (Nat.eq_dec k (length pre)) as [->|Hk'].
      * rewrite Hlast in Hk. injection Hk as <-. rewrite oneof_at_app_l in Hi by lia. exfalso. eapply Hnew; eauto.
      * rewrite oneof_at_app_l in Hi, Hk |- * by lia. eapply (la_contiguous _ _ _ _ L); eauto.
    + intros x. rewrite Hmem. pose proof (la_members _ _ _ _ L x). destruct (Nat.eqb_spec o x) as [<-|]; lia.
Qed.

(** A field of a oneof is refused only if the oneof is interrupted or too large. *)
Lemma setup_refused count pre ls st f o : laid count pre ls st -> d_oneof f = Some o -> (o < count)%nat ->
  setup_oneof_field o st (length pre) = None -> ~ contiguous (pre ++ [f]) \/ 65534 < Z.of_nat (members (pre ++ [f]) o).
Proof.
  intros L Hf Ho Q. unfold setup_oneof_field in Q. destruct (Nat.eqb_spec (ss_prev st) o) as [Hp|Hp]; cbn [negb] in Q.
  - right. destruct (Z.eqb_spec (ss_next st) 65535) as [Hn|Hn]; [|discriminate]. pose proof (la_next _ _ _ _ L o Ho Hp).
    rewrite members_app, Hf, Nat.eqb_refl. lia.
  - left. destruct (existsb (Nat.eqb o) (ss_started st)) eqn:He; [|discriminate]. apply existsb_exists in He. destruct He as (x & Hx & K). apply Nat.eqb_eq in K. subst x.
    apply (la_started _ _ _ _ L) in Hx. destruct Hx as [i Hi]. pose proof (oneof_at_lt _ _ _ Hi) as Hlt. intros C. apply Hp. apply (la_prev _ _ _ _ L o Ho).
    split; [destruct pre; [cbn in Hlt; lia|discriminate]|]. destruct (Nat.eq_dec i (length pre - 1)) as [<-|Hne]; [exact Hi|].
    specialize (C i (length pre - 1)%nat (length pre) o ltac:(lia)). rewrite (oneof_at_app_l _ _ i), (oneof_at_app_l _ _ (length pre - 1)%nat) in C by lia. apply C; [exact Hi|]. rewrite oneof_at_app_r. exact Hf.
Qed.

Lemma contiguous_app_l a b : contiguous (a ++ b) -> contiguous a.
Proof.
  intros C i j k o H Hi Hk. pose proof (oneof_at_lt _ _ _ Hk). specialize (C i j k o H). unfold oneof_at in *. rewrite !nth_error_app1 in C by lia. auto.
Qed.
Lemma members_app_l a b o : (members a o <= members (a ++ b) o)%nat.
Proof. unfold members. rewrite filter_app, app_length. lia. Qed.

Lemma lay_out_laid count fs : forall pre ls st, oneofs_valid count fs -> laid count pre ls st ->
  match lay_out count fs (length pre) st with
  | Some (ls', st') => laid count (pre ++ fs) (ls ++ ls') st'
  | None => ~ contiguous (pre ++ fs) \/ exists o, 65534 < Z.of_nat (members (pre ++ fs) o)
  end.
Proof.
  induction fs as [|f t IH]; intros pre ls st V L; cbn [lay_out].
  - rewrite !app_nil_r. exact L.
  - apply Forall_cons_iff in V. destruct V as [Vf V].
    assert (E1 : pre ++ f :: t = (pre ++ [f]) ++ t) by (rewrite <- app_assoc; reflexivity).
    assert (E2 : S (length pre) = length (pre ++ [f])) by (rewrite app_length; cbn; lia).
    destruct (d_oneof f) as [o|] eqn:Ho.
    + destruct (Vf o eq_refl) as [Vo _]. destruct (setup_oneof_field o st (length pre)) as [[l st1]|] eqn:Q.
      * specialize (IH (pre ++ [f]) (ls ++ [l]) st1 V (laid_oneof _ _ _ _ _ _ _ _ L Ho Vo Q)). rewrite <- E2, <- E1 in IH.
        destruct (lay_out count t (S (length pre)) st1) as [[ls' st']|]; [|exact IH]. rewrite <- app_assoc in IH. exact IH.
      * rewrite E1. destruct (setup_refused _ _ _ _ _ _ L Ho Vo Q) as [C|C]; [left; intros K; apply C; eapply contiguous_app_l; exact K|].
        right. exists o. pose proof (members_app_l (pre ++ [f]) t o). lia.
    + pose proof (laid_plain _ _ _ _ _ L Ho) as L1. destruct (setup_non_oneof_field count (d_repeated f) st (length pre)) as [l st1] eqn:Q. cbn [fst snd] in L1.
      specialize (IH (pre ++ [f]) (ls ++ [l]) st1 V L1). rewrite <- E2, <- E1 in IH.
      destruct (lay_out count t (S (length pre)) st1) as [[ls' st']|]; [|exact IH]. rewrite <- app_assoc in IH. exact IH.
Qed.

Lemma slot_layout_laid count fs : oneofs_valid count fs ->
  match lay_out count fs 0 (SlotState 0 [] count 1) with
  | Some (ls, st) => laid count fs ls st
  | None => ~ contiguous fs \/ exists o, 65534 < Z.of_nat (members fs o)
  end.
Proof. intros V. exact (lay_out_laid count fs [] [] _ V (laid_start count)). Qed.

Definition laid_as (count : nat) (fs : list dfield) (ls : list layout) (slots : nat) : Prop := slot_layout count fs = Some (ls, slots).

Lemma laid_of count fs ls slots : oneofs_valid count fs -> laid_as count fs ls slots -> exists st, ss_cur st = slots /\ laid count fs ls st.
Proof.
  intros V H. pose proof (slot_layout_laid count fs V) as L. unfold laid_as, slot_layout in H. destruct (lay_out count fs 0 _) as [[l st]|]; [|discriminate].
  injection H as <- <-. exists st. split; [reflexivity|exact L].
Qed.

Lemma accepted_iff count fs : oneofs_valid count fs ->
  ((exists ls slots, slot_layout count fs = Some (ls, slots)) <-> contiguous fs /\ forall o, Z.of_nat (members fs o) <= 65534).
Proof.
  intros V. pose proof (slot_layout_laid count fs V) as L. unfold slot_layout. destruct (lay_out count fs 0 _) as [[l st]|].
  - split; [|eauto]. intros _. split; [apply (la_contiguous _ _ _ _ L)|]. intros o. pose proof (la_members _ _ _ _ L o). lia.
  - split; [intros (ls & s & K); discriminate|]. intros [C M]. exfalso. destruct L as [L|[o L]]; [exact (L C)|]. specialize (M o). lia.
Qed.

Lemma share_iff count fs ls slots i j l m : oneofs_valid count fs -> slot_layout count fs = Some (ls, slots) ->
  nth_error ls i = Some l -> nth_error ls j = Some m -> (l_slot l = l_slot m <-> i = j \/ alternatives fs i j).
Proof. intros V H Hi Hj. destruct (laid_of _ _ _ _ V H) as (st & _ & L). exact (la_share _ _ _ _ L i j l m Hi Hj). Qed.

Lemma slots_used count fs ls slots : oneofs_valid count fs -> slot_layout count fs = Some (ls, slots) ->
  length ls = length fs /\ forall s, (s < slots)%nat <-> exists i l, nth_error ls i = Some l /\ l_slot l = s.
Proof.
  intros V H. destruct (laid_of _ _ _ _ V H) as (st & <- & L). split; [apply (la_len _ _ _ _ L)|]. intros s. split.
  - apply (la_onto _ _ _ _ L).
  - intros (i & l & Hi & <-). exact (la_range _ _ _ _ L i l Hi).
Qed.

(** The words stored for present fields, read through the layout of an alternative. *)
Lemma active_of count fs ls slots i j l m : oneofs_valid count fs -> slot_layout count fs = Some (ls, slots) -> Z.of_nat (length fs) <= 2 ^ 31 ->
  alternatives fs i j -> nth_error ls i = Some l -> nth_error ls j = Some m ->
  active_oneof_index m (l_ordinal l) = Z.of_nat i /\ (has_word false m (l_ordinal l) = true <-> j = i) /\ active_oneof_index m 0 = -1 /\ has_word false m 0 = false.
Proof.
  intros V H Hf Ha Hi Hj. destruct (laid_of _ _ _ _ V H) as (st & _ & L). pose proof (la_bias _ _ _ _ L i j l m Ha Hi Hj) as Hb.
  destruct Ha as (o & Oi & Oj). destruct (la_oneof _ _ _ _ L i o l Oi Hi) as (A & B & C). destruct (la_oneof _ _ _ _ L j o m Oj Hj) as (A' & B' & C').
  pose proof (oneof_at_lt _ _ _ Oi). change (2 ^ 31) with 2147483648 in *.
  split; [|split; [|split]].
  - unfold active_oneof_index. destruct (Z.eqb_spec (l_ordinal l) 0); [lia|]. rewrite B'. replace (2 ^ 32 - 1) with (Z.ones 32) by reflexivity.
    rewrite Z.land_ones by lia. change (2 ^ 32) with 4294967296. change (2 ^ 31) with 2147483648. rewrite Z.mod_small by lia. rewrite <- Hb, A.
    change (- (2147483648)) with (-2147483648); destruct (Z.ltb_spec (Z.of_nat i) (-2147483648)); [lia|]. destruct (Z.ltb_spec (2147483648 - 1) (Z.of_nat i)); [lia|reflexivity].
  - unfold has_word. rewrite Z.eqb_eq. split; [intros K; lia|intros ->]. assert (l = m) by congruence. congruence.
  - reflexivity.
  - unfold has_word. apply Z.eqb_neq. lia.
Qed.

Lemma active_plain count fs ls slots i f l w : oneofs_valid count fs -> slot_layout count fs = Some (ls, slots) -> Z.of_nat (length fs) <= 2 ^ 31 ->
  nth_error fs i = Some f -> d_oneof f = None -> nth_error ls i = Some l -> 0 <= w ->
  active_oneof_index l w = (if w =? 0 then -1 else Z.of_nat i) /\ (d_repeated f = false -> l_ordinal l = 1) /\ has_word (d_repeated f) l w = (if d_repeated f then 0 <? w else w =? 1).
Proof.
  intros V H Hf Hn Ho Hl Hw. destruct (laid_of _ _ _ _ V H) as (st & _ & L). destruct (la_plain _ _ _ _ L i f l Hn Ho Hl) as (A & B & C).
  assert (Hi : (i < length fs)%nat) by (apply nth_error_Some; congruence). change (2 ^ 31) with 2147483648 in *.
  split; [|split].
  - unfold active_oneof_index. destruct (w =? 0); [reflexivity|]. rewrite B, C, Z.land_0_r, Z.add_0_l. change (2 ^ 31) with 2147483648.
    change (- (2147483648)) with (-2147483648); destruct (Z.ltb_spec (Z.of_nat i) (-2147483648)); [lia|]. destruct (Z.ltb_spec (2147483648 - 1) (Z.of_nat i)); [lia|reflexivity].
  - intros K. rewrite A, K. reflexivity.
  - unfold has_word. rewrite A. destruct (d_repeated f); reflexivity.
Qed.
