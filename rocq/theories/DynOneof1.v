(** Proofs about the oneofs of dynamic messages. *)
Require Import Verif.Bits Verif.Archive Verif.Schema Verif.Decode Verif.DynJson Verif.DynSlots Verif.DynSlotsProofs Verif.Dyn Verif.DynMain Verif.DynWire Verif.DynDecode Verif.DynAccess Verif.FactoryAccess Verif.DynAccessSpec Verif.DynAccess1 Verif.DynAccess2 Verif.DynOneof Verif.DynOneofSpec.
Local Open Scope list_scope.
Local Open Scope Z_scope.

Lemma firstn_in {A} n (l : list A) x : In x (firstn n l) -> In x l.
Proof. intros H. rewrite <- (firstn_skipn n l). apply in_or_app. left. exact H. Qed.
Lemma members_in n fs o i : In i (members_from n fs o) <-> exists f l, (n <= i)%nat /\ nth_error fs (i - n) = Some (f, l) /\ y_oneof f = Some o.
Proof.
  revert n. induction fs as [|[g k] fs IH]; intros n; cbn [members_from].
  - split; [intros []|]. intros (f & l & _ & H & _). destruct (i - n)%nat; discriminate H.
  - assert (S : forall P : Prop, (P <-> (i = n /\ y_oneof g = Some o) \/ In i (members_from (S n) fs o)) -> (P <-> exists f l, (n <= i)%nat /\ nth_error ((g, k) :: fs) (i - n) = Some (f, l) /\ y_oneof f = Some o)).
    { intros P HP. rewrite HP, IH. split.
      - intros [[-> H]|(f & l & L & H & O)]; [exists g, k; rewrite Nat.sub_diag; cbn; auto|]. exists f, l. split; [lia|]. replace (i - n)%nat with (S (i - S n)) by lia. cbn. auto.
      - intros (f & l & L & H & O). destruct (i - n)%nat as [|d] eqn:D; cbn in H; [injection H as <- <-; left; split; [lia|exact O]|]. right. exists f, l. replace (i - S n)%nat with d by lia. split; [lia|auto]. }
    apply S. destruct (y_oneof g) as [x|] eqn:X.
    + destruct (x =? o)%nat eqn:Q; cbn [In].
      * apply Nat.eqb_eq in Q. subst x. split; [intros [<-|H]; auto|]. intros [[-> _]|H]; auto.
      * apply Nat.eqb_neq in Q. split; [auto|]. intros [[_ [= ->]]|H]; [congruence|exact H].
    + split; [auto|]. intros [[_ [=]]|H]; exact H.
Qed.
Lemma members_are t o i : In i (members_from 0 (t_fields t) o) <-> member t i o.
Proof.
  rewrite members_in. unfold member, field. rewrite Nat.sub_0_r. split; intros (f & l & H); exists f, l; [tauto|]. split; [lia|exact H].
Qed.

Section Oneof.
  Variables (count : nat) (fs : list dynf) (t : dtype).
  Hypothesis M : made count fs t.

  Lemma alt_iff i j f l g k : field t i = Some (f, l) -> field t j = Some (g, k) -> alternatives (dfields fs) i j <-> exists o, y_oneof f = Some o /\ y_oneof g = Some o.
  Proof.
    intros Hi Hj. destruct (made_field _ _ _ _ _ _ M Hi) as (_ & _ & _ & Hf & _). destruct (made_field _ _ _ _ _ _ M Hj) as (_ & _ & _ & Hg & _). unfold alternatives.
    rewrite (oneof_dfields _ _ _ Hf), (oneof_dfields _ _ _ Hg). tauto.
  Qed.
  Lemma member_alt i j o : member t i o -> member t j o -> alternatives (dfields fs) i j.
  Proof. intros (f & l & Hi & Ho) (g & k & Hj & Ho'). apply (alt_iff i j f l g k Hi Hj). eauto. Qed.
  Lemma singular i f l o : field t i = Some (f, l) -> y_oneof f = Some o -> repeated f = false.
  Proof. intros H Ho. apply (alt_singular count fs t i i f l M H). apply (alt_iff i i f l f l H H). eauto. Qed.
  Lemma member_count i o : member t i o -> (o < count)%nat.
  Proof.
    intros (f & l & H & Ho). destruct (made_field _ _ _ _ _ _ M H) as (_ & _ & _ & Hf & _). destruct M as (V & _ & _). unfold oneofs_valid in V. rewrite Forall_forall in V.
    destruct (V (DField (y_oneof f) (repeated f)) (nth_error_In _ _ (nth_dfields _ _ _ Hf)) o Ho) as [K _]. exact K.
  Qed.
  Lemma share_slot i j f l g k o : field t i = Some (f, l) -> field t j = Some (g, k) -> y_oneof f = Some o -> y_oneof g = Some o -> l_slot l = l_slot k.
  Proof. intros Hi Hj A B. apply (made_share _ _ _ _ _ _ _ _ _ M Hi Hj). right. apply (alt_iff i j f l g k Hi Hj). eauto. Qed.

  Lemma slot_is o i f l : field t i = Some (f, l) -> y_oneof f = Some o -> exists i0 f0 l0, field t i0 = Some (f0, l0) /\ y_oneof f0 = Some o /\ oneof_slot count t (Some o) = Some (l_slot l0) /\ l_slot l0 = l_slot l.
  Proof.
    intros H Ho. assert (Hm : member t i o) by (exists f, l; auto). unfold oneof_slot. pose proof (member_count i o Hm) as C. apply Nat.ltb_lt in C. rewrite C.
    pose proof (proj2 (members_are t o i) Hm) as Hin. destruct (members_from 0 (t_fields t) o) as [|i0 r] eqn:E; [destruct Hin|].
    assert (H0 : member t i0 o) by (apply members_are; rewrite E; left; reflexivity). destruct H0 as (f0 & l0 & F0 & O0). exists i0, f0, l0. rewrite F0. split; [reflexivity|]. split; [exact O0|]. split; [reflexivity|]. eapply share_slot; eassumption.
  Qed.
  Lemma slot_none o : (forall i, ~ member t i o) -> oneof_slot count t (Some o) = None.
  Proof.
    intros N. unfold oneof_slot. destruct (o <? count)%nat; [|reflexivity]. destruct (members_from 0 (t_fields t) o) as [|i0 r] eqn:E; [reflexivity|]. exfalso. apply (N i0), members_are. rewrite E. left. reflexivity.
  Qed.

  (** The selection word of a field that is not repeated is zero or that of a field with its slot: itself or one in the same oneof.  That of a
      repeated one is a size. *)
  Definition fits (l : layout) (w : Z) : Prop := w = 0 \/ exists j g k, field t j = Some (g, k) /\ l_slot k = l_slot l /\ w = l_ordinal k.
  Definition chosen (m : list slot) : Prop := length m = t_slots t /\ forall i f l, field t i = Some (f, l) -> if repeated f then 0 <= fst (slot_at m l) else fits l (fst (slot_at m l)).
  Lemma chosen_fits m i f l : chosen m -> field t i = Some (f, l) -> repeated f = false -> fits l (fst (slot_at m l)).
  Proof. intros [_ C] H R. specialize (C i f l H). rewrite R in C. exact C. Qed.
  Lemma chosen_size m i f l : chosen m -> field t i = Some (f, l) -> repeated f = true -> 0 <= fst (slot_at m l).
  Proof. intros [_ C] H R. specialize (C i f l H). rewrite R in C. exact C. Qed.
  Lemma ordinal_size i f l : field t i = Some (f, l) -> 0 <= l_ordinal l.
  Proof.
    intros H. destruct (repeated f) eqn:R; [|pose proof (ordinal_pos _ _ _ _ _ _ M H R); lia]. destruct (made_field _ _ _ _ _ _ M H) as (ls & Hl & _ & Hf & Hll). pose proof M as (V & _ & _).
    destruct (laid_of _ _ _ _ V Hl) as (st & _ & L). destruct (y_oneof f) as [o|] eqn:Ho; [rewrite (singular i f l o H Ho) in R; discriminate R|].
    destruct (la_plain _ _ _ _ L i _ l (nth_dfields _ _ _ Hf) Ho Hll) as (E & _). cbn [d_repeated] in E. rewrite R in E. lia.
  Qed.
  Lemma chosen_in m i f l o : chosen m -> field t i = Some (f, l) -> y_oneof f = Some o -> fst (slot_at m l) = 0 \/ exists j g k, field t j = Some (g, k) /\ y_oneof g = Some o /\ fst (slot_at m l) = l_ordinal k.
  Proof.
    intros C Hi Ho. destruct (chosen_fits m i f l C Hi (singular i f l o Hi Ho)) as [Z|(j & g & k & Hj & Q & Wd)]; [left; exact Z|]. right. exists j, g, k. split; [exact Hj|]. split; [|exact Wd].
    apply (made_share _ _ _ _ _ _ _ _ _ M Hj Hi) in Q. destruct Q as [->|A]; [congruence|]. apply (alt_iff j i g k f l Hj Hi) in A. destruct A as (o' & A & B). congruence.
  Qed.
  Lemma chosen_own m i f l : chosen m -> field t i = Some (f, l) -> repeated f = false -> y_oneof f = None -> fst (slot_at m l) = 0 \/ fst (slot_at m l) = l_ordinal l.
  Proof.
    intros C Hi R Ho. destruct (chosen_fits m i f l C Hi R) as [Z|(j & g & k & Hj & Q & Wd)]; [left; exact Z|]. right. rewrite Wd. apply (made_share _ _ _ _ _ _ _ _ _ M Hj Hi) in Q. destruct Q as [->|A]; [congruence|].
    apply (alt_iff j i g k f l Hj Hi) in A. destruct A as (o' & _ & B). congruence.
  Qed.
  Lemma new_chosen : chosen (new_message t).
  Proof. split; [apply repeat_length|]. intros i f l _. unfold slot_at, new_message. rewrite nth_repeat_zero. destruct (repeated f); [apply Z.le_refl|left; reflexivity]. Qed.
  Lemma put_fits m i f l s : chosen m -> field t i = Some (f, l) -> (repeated f = false -> fits l (fst s)) -> (repeated f = true -> 0 <= fst s) -> chosen (put m (l_slot l) s).
  Proof.
    intros [L C] Hi Hs Hz. split; [rewrite put_length; exact L|]. intros j g k Hj. unfold slot_at. destruct (Nat.eq_dec (l_slot l) (l_slot k)) as [Q|Q].
    - rewrite <- Q, put_same by (rewrite L; eapply slot_bound; eauto). assert (Rf : repeated g = repeated f).
      { apply (made_share _ _ _ _ _ _ _ _ _ M Hi Hj) in Q. destruct Q as [->|A]; [congruence|]. apply (alt_iff i j f l g k Hi Hj) in A. destruct A as (o' & A & B). rewrite (singular i f l o' Hi A), (singular j g k o' Hj B). reflexivity. }
      rewrite Rf. unfold fits. rewrite <- Q. destruct (repeated f); [exact (Hz eq_refl)|exact (Hs eq_refl)].
    - rewrite put_other by exact Q. exact (C j g k Hj).
  Qed.
  Lemma put_chosen m i f l s : chosen m -> field t i = Some (f, l) -> (repeated f = false -> fst s = 0 \/ fst s = l_ordinal l \/ fst s = fst (slot_at m l)) -> (repeated f = true -> 0 <= fst s) -> chosen (put m (l_slot l) s).
  Proof.
    intros C Hi Hs. apply (put_fits m i f l s C Hi). intros R. destruct (Hs R) as [Z|[Z|Z]]; [left; exact Z|right; exists i, f, l; auto|]. rewrite Z. exact (chosen_fits m i f l C Hi R).
  Qed.
  Lemma set_slot_size f l v s s' : set_slot f l v s = Some s' -> repeated f = true -> 0 <= fst s'.
  Proof. intros H R. unfold set_slot in H. unfold repeated in R. destruct (y_kind f); try discriminate R; destruct v; try discriminate H; injection H as <-; cbn [fst]; lia. Qed.
  Lemma chosen_set i v m m' : chosen m -> set_field t i v m = Some m' -> chosen m'.
  Proof.
    unfold set_field. intros C H. destruct (field t i) as [[f l]|] eqn:Hi; [|discriminate]. destruct (set_slot f l v (slot_at m l)) as [s|] eqn:Hs; [|discriminate]. injection H as <-.
    apply (put_chosen m i f l s C Hi). - intros R. right. left. eapply set_slot_word; [exact Hs|exact R].
    - exact (set_slot_size f l v _ s Hs).
  Qed.
  Lemma chosen_emplace i n m : chosen m -> chosen (emplace_field n t i m).
  Proof. unfold emplace_field. intros C. destruct (field t i) as [[f l]|] eqn:Hi; [|exact C]. apply (put_chosen m i f l _ C Hi); intros _; [right; left; reflexivity|]. exact (ordinal_size i f l Hi). Qed.
  Lemma chosen_clear i m : chosen m -> chosen (clear_field t i m).
  Proof. unfold clear_field. intros C. destruct (field t i) as [[f l]|] eqn:Hi; [|exact C]. apply (put_chosen m i f l _ C Hi); intros _; [left; reflexivity|apply Z.le_refl]. Qed.
  Lemma chosen_peek i m : chosen m -> chosen (peek_enum t i m).
  Proof.
    unfold peek_enum. intros C. destruct (field t i) as [[f l]|] eqn:Hi; [|exact C]. apply (put_chosen m i f l _ C Hi); intros R; unfold enum_mref_value; [right; right; destruct (_ && _); reflexivity|].
    pose proof (chosen_size m i f l C Hi R) as P. destruct (_ && _); exact P.
  Qed.
  (** Clearing a oneof is clearing one of its members. *)
  Lemma clear_is o m i : member t i o -> exists i0, member t i0 o /\ clear_oneof count t (Some o) m = clear_field t i0 m.
  Proof.
    intros (f & l & H & Ho). destruct (slot_is o i f l H Ho) as (i0 & f0 & l0 & F0 & O0 & E & _). exists i0. split; [exists f0, l0; auto|]. unfold clear_oneof, clear_field. rewrite E, F0. reflexivity.
  Qed.
  Lemma clear_cases d m : clear_oneof count t d m = m \/ exists i, clear_oneof count t d m = clear_field t i m.
  Proof.
    destruct d as [o|]; [|left; reflexivity]. unfold clear_oneof, oneof_slot. destruct (o <? count)%nat; [|left; reflexivity]. destruct (members_from 0 (t_fields t) o) as [|i r]; [left; reflexivity|].
    destruct (field t i) as [[f l]|] eqn:E; [|left; reflexivity]. right. exists i. unfold clear_field. rewrite E. reflexivity.
  Qed.

  Lemma has_iff o m : chosen m -> has_oneof count t (Some o) m = true <-> exists i, member t i o /\ present t i m.
  Proof.
    intros C0. pose proof (fun i f l o => chosen_in m i f l o C0) as C. unfold has_oneof. split.
    - destruct (oneof_slot count t (Some o)) as [s|] eqn:E; [|discriminate]. intros H.
      assert (K : exists i, member t i o).
      { unfold oneof_slot in E. destruct (o <? count)%nat; [|discriminate]. destruct (members_from 0 (t_fields t) o) as [|i r] eqn:Q; [discriminate|]. exists i. apply members_are. rewrite Q. left. reflexivity. }
      destruct K as (i & f & l & Hi & Ho). destruct (slot_is o i f l Hi Ho) as (i0 & f0 & l0 & F0 & O0 & E' & _). rewrite E in E'. injection E' as ->. fold (slot_at m l0) in H.
      destruct (C i0 f0 l0 o F0 O0) as [Z|(j & g & k & Hj & Oj & W)]; [rewrite Z in H; discriminate H|]. exists j. split; [exists g, k; auto|].
      assert (Q : slot_at m k = slot_at m l0) by (unfold slot_at; rewrite (share_slot j i0 g k f0 l0 o Hj F0 Oj O0); reflexivity).
      exists (value g k (slot_at m k)). unfold look. rewrite Hj. assert (V : has_value g k (slot_at m k) = true) by (unfold has_value, has_word; rewrite (singular j g k o Hj Oj), Q, W; apply Z.eqb_refl). rewrite V. reflexivity.
    - intros (i & (f & l & Hi & Ho) & v & Hl). destruct (slot_is o i f l Hi Ho) as (i0 & f0 & l0 & _ & _ & E & Q). rewrite E, Q. fold (slot_at m l). unfold look in Hl. rewrite Hi in Hl. injection Hl as Hv _.
      pose proof (singular i f l o Hi Ho) as R. unfold has_value, has_word in Hv. rewrite R in Hv. pose proof (ordinal_pos _ _ _ _ _ _ M Hi R) as P. lia.
  Qed.
  Lemma only_one o i j m : member t i o -> member t j o -> present t i m -> present t j m -> i = j.
  Proof.
    intros Hi Hj (v & Pi) (w & Pj). destruct (Nat.eq_dec i j) as [E|N]; [exact E|exfalso]. pose proof (member_alt i j o Hi Hj) as A. destruct Hi as (f & l & Hi & Oi), Hj as (g & k & Hj & Oj).
    destruct (made_alt _ _ _ _ _ _ _ _ _ M Hi Hj A N) as (D & _ & R). unfold look in Pi, Pj. rewrite Hi in Pi. rewrite Hj in Pj. injection Pi as Pi _. injection Pj as Pj _.
    unfold has_value, has_word in Pi, Pj. rewrite (singular i f l o Hi Oi) in Pi. rewrite R in Pj. unfold slot_at in Pi, Pj. rewrite (share_slot i j f l g k o Hi Hj Oi Oj) in Pi. lia.
  Qed.
  Lemma active_at i f l o m : Z.of_nat (length fs) <= 2 ^ 31 -> chosen m -> field t i = Some (f, l) -> y_oneof f = Some o ->
    (exists j, member t j o /\ present t j m /\ active_index t i m = Some (Z.of_nat j)) \/ ((forall j, member t j o -> ~ present t j m) /\ active_index t i m = Some (-1)).
  Proof.
    intros B C0 Hi Ho. pose proof (fun i f l o => chosen_in m i f l o C0) as C. unfold active_index. rewrite Hi. cbn [option_map fst snd]. destruct (made_field _ _ _ _ _ _ M Hi) as (ls & Hl & _ & Hf & Hll).
    destruct (C i f l o Hi Ho) as [Z|(j & g & k & Hj & Oj & W)].
    - right. rewrite Z. split; [|reflexivity]. intros j (g & k & Hj & Oj) (v & P). unfold look in P. rewrite Hj in P. injection P as P _. unfold has_value, has_word in P. pose proof (singular j g k o Hj Oj) as R. rewrite R in P.
      pose proof (ordinal_pos _ _ _ _ _ _ M Hj R) as Q. unfold slot_at in P, Z. rewrite (share_slot j i g k f l o Hj Hi Oj Ho), Z in P. lia.
    - left. exists j. split; [exists g, k; auto|]. split.
      + assert (Q : slot_at m k = slot_at m l) by (unfold slot_at; rewrite (share_slot j i g k f l o Hj Hi Oj Ho); reflexivity).
        exists (value g k (slot_at m k)). unfold look. rewrite Hj. assert (V : has_value g k (slot_at m k) = true) by (unfold has_value, has_word; rewrite (singular j g k o Hj Oj), Q, W; apply Z.eqb_refl). rewrite V. reflexivity.
      + rewrite W. destruct (made_field _ _ _ _ _ _ M Hj) as (ls' & Hl' & _ & Hg & Hkk). assert (ls' = ls) as -> by congruence. destruct M as (V & _ & _).
        assert (B' : Z.of_nat (length (dfields fs)) <= 2 ^ 31) by (unfold dfields; rewrite map_length; exact B).
        assert (A : alternatives (dfields fs) j i) by (apply (alt_iff j i g k f l Hj Hi); eauto).
        destruct (active_of count (dfields fs) ls (t_slots t) j i k l V Hl B' A Hkk Hll) as (E & _). rewrite E. reflexivity.
  Qed.
  Lemma active_iff i o m : Z.of_nat (length fs) <= 2 ^ 31 -> chosen m -> member t i o ->
    (forall j, active_index t i m = Some (Z.of_nat j) <-> member t j o /\ present t j m) /\
    (active_index t i m = Some (-1) <-> forall j, member t j o -> ~ present t j m).
  Proof.
    intros B C (f & l & Hi & Ho). destruct (active_at i f l o m B C Hi Ho) as [(j & A & P & E)|(N & E)]; rewrite E; split.
    - intros x. split; [intros [= K]; replace x with j by lia; auto|]. intros [A' P']. f_equal. f_equal. exact (only_one o j x m A A' P P').
    - split; [intros [= K]; lia|]. intros K. exfalso. exact (K j A P).
    - intros x. split; [intros [= K]; lia|]. intros [A' P']. exfalso. exact (N x A' P').
    - split; [intros _; exact N|reflexivity].
  Qed.
  Lemma active_own i f l m : Z.of_nat (length fs) <= 2 ^ 31 -> field t i = Some (f, l) -> y_oneof f = None -> present t i m -> active_index t i m = Some (Z.of_nat i).
  Proof.
    intros B Hi Ho (v & P). unfold active_index. rewrite Hi. cbn [option_map fst snd]. destruct (made_field _ _ _ _ _ _ M Hi) as (ls & Hl & _ & Hf & Hll). unfold look in P. rewrite Hi in P. injection P as P _.
    assert (B' : Z.of_nat (length (dfields fs)) <= 2 ^ 31) by (unfold dfields; rewrite map_length; exact B). destruct M as (V & _ & _).
    pose proof (fun w => active_plain count (dfields fs) ls (t_slots t) i _ l w V Hl B' (nth_dfields _ _ _ Hf) Ho Hll) as K. cbn [d_repeated] in K. unfold has_value in P.
    assert (W : 0 < fst (slot_at m l)).
    { destruct (K 0 ltac:(lia)) as (_ & O & _). unfold has_word in P. destruct (repeated f); [lia|]. rewrite (O eq_refl) in P. lia. }
    destruct (K (fst (slot_at m l)) ltac:(lia)) as (E & _). rewrite E. destruct (Z.eqb_spec (fst (slot_at m l)) 0); [lia|reflexivity].
  Qed.
  Lemma active_none i f l m : chosen m -> field t i = Some (f, l) -> y_oneof f = None -> ~ present t i m -> active_index t i m = Some (-1).
  Proof.
    intros C Hi Ho N. unfold active_index. rewrite Hi. cbn [option_map fst snd]. assert (Z : fst (slot_at m l) = 0); [|rewrite Z; reflexivity].
    assert (V : has_value f l (slot_at m l) = false) by (destruct (has_value f l (slot_at m l)) eqn:V; [exfalso; apply N; exists (value f l (slot_at m l)); unfold look; rewrite Hi, V|]; reflexivity).
    unfold has_value, has_word in V. destruct (repeated f) eqn:R; [pose proof (chosen_size m i f l C Hi R); lia|]. destruct (chosen_own m i f l C Hi R Ho); lia.
  Qed.
  Lemma cleared o i m : length m = t_slots t -> member t i o -> exists f l, field t i = Some (f, l) /\ look t i (clear_oneof count t (Some o) m) = Some (false, default_value f).
  Proof.
    intros L Hm. destruct (clear_is o m i Hm) as (i0 & H0 & ->). pose proof (member_alt i0 i o H0 Hm) as A. destruct Hm as (f & l & Hi & Oi). exists f, l. split; [exact Hi|].
    destruct (Nat.eq_dec i i0) as [->|N].
    - destruct (clear_same count fs t i0 f l m M L Hi) as (v & Hl & K). rewrite Hl, K; [reflexivity|]. left. destruct (made_field _ _ _ _ _ _ M Hi) as (_ & _ & _ & Hf & _). destruct M as (_ & F & _). unfold fields_valid in F. rewrite Forall_forall in F. exact (proj1 (F f (nth_error_In _ _ Hf)) o Oi).
    - destruct H0 as (f0 & l0 & F0 & _). unfold clear_field. rewrite F0. eapply put_look_alt; [exact M|exact F0|exact Hi|exact N|exact A|exact L|right; reflexivity].
  Qed.
  Lemma others_stay d j m : (forall o, d = Some o -> ~ member t j o) -> look t j (clear_oneof count t d m) = look t j m.
  Proof.
    intros N. destruct d as [o|]; [|reflexivity]. specialize (N o eq_refl). unfold clear_oneof. destruct (oneof_slot count t (Some o)) as [s|] eqn:E; [|reflexivity]. unfold look. destruct (field t j) as [[g k]|] eqn:Hj; [|reflexivity].
    unfold oneof_slot in E. destruct (o <? count)%nat; [|discriminate]. destruct (members_from 0 (t_fields t) o) as [|i r] eqn:Q; [discriminate|]. assert (Hi : member t i o) by (apply members_are; rewrite Q; left; reflexivity).
    destruct Hi as (f & l & Hi & Oi). rewrite Hi in E. cbn in E. injection E as <-. assert (Z : l_slot l <> l_slot k); [|unfold slot_at; rewrite put_other by exact Z; reflexivity]. intros K. apply (made_share _ _ _ _ _ _ _ _ _ M Hi Hj) in K.
    apply N. destruct K as [<-|A]; [exists f, l; auto|]. apply (alt_iff i j f l g k Hi Hj) in A. destruct A as (o' & A & B). exists g, k. split; [exact Hj|congruence].
  Qed.
End Oneof.

Section Reached.
  Variables (count : nat) (W : list wtype) (ty : nat) (fs : list tfield).
  Notation t := (types_of W ty).
  Hypothesis M : made count (map dynf_of fs) t.
  Lemma set_value_size E fuel f l v s s' e : repeated (dynf_of f) = true -> 0 <= fst s -> set_value E fuel f l v s = Some (s', e) -> 0 <= fst s'.
  Proof.
    intros R P H. assert (S : forall x, stored f l x s = Some (s', e) -> 0 <= fst s').
    { intros x G. unfold stored in G. destruct (set_slot (dynf_of f) l x s) as [s1|] eqn:Q; injection G as <- _; [exact (set_slot_size _ l x s s1 Q R)|exact P]. }
    assert (U : forall d, Some (s, Some d) = Some (s', e) -> 0 <= fst s') by (intros d G; injection G as <- _; exact P).
    unfold set_value in H. rewrite <- rep_dynf, R in H. destruct (tf_type f), v; try (exact (S _ H)); try (exact (U _ H)); try (match type of H with context [is_num ?a ?b] => destruct (is_num a b) end; [exact (S _ H)|exact (U _ H)]).
    - destruct (set_elements _ _ _ _ _) as [[r e1]|]; [|discriminate H]. injection H as <- _. cbn [fst]. lia.
    - destruct (numbers_of _ _) as [zs ok]. destruct ok; [exact (S _ H)|]. injection H as <- _. cbn [fst]. lia.
  Qed.
  Lemma chosen_set_by E fuel k v m m' e : chosen t m -> set_by E fuel t fs k v m = Some (m', e) -> chosen t m'.
  Proof.
    intros C H. destruct (key_or fs k) as [(i & f & K)|N].
    2: { rewrite (proj1 (no_field E fuel t fs k N v RStr m)) in H. injection H as <- _. exact C. }
    destruct e as [e|].
    - destruct (tf_repeated f) eqn:R.
      + destruct (set_by_found E fuel count t fs M k i f v m K) as (l & Hi & Eq). rewrite Eq in H. destruct (set_value E fuel f l v (slot_at m l)) as [[s e']|] eqn:V; [|discriminate]. injection H as <- _.
        apply (put_chosen count (map dynf_of fs) t M m i (dynf_of f) l s C Hi); intros S; [exfalso; rewrite rep_dynf in S; congruence|]. exact (set_value_size E fuel f l v _ s e' S (chosen_size t m i _ l C Hi S) V).
      + assert (Q : m' = m); [|rewrite Q; exact C]. apply (set_unchanged E fuel count t fs M k v m m' e H). pose proof (set_verdict E fuel count t fs M k i f v m m' (Some e) K H) as V. rewrite R in V.
        destruct v; try (left; intros []; fail); right; destruct e; cbn in V; auto; try contradiction; destruct V as [[V _] _]; discriminate V.
    - destruct (set_by_found E fuel count t fs M k i f v m K) as (l & Hi & Eq). rewrite Eq in H. destruct (set_value E fuel f l v (slot_at m l)) as [[s e']|] eqn:V; [|discriminate]. injection H as <- ->.
      apply (put_chosen count (map dynf_of fs) t M m i (dynf_of f) l s C Hi); intros S; [|exact (set_value_size E fuel f l v _ s None S (chosen_size t m i _ l C Hi S) V)].
      right. left. eapply set_value_word; [|exact V]. rewrite <- rep_dynf. exact S.
  Qed.
  Lemma field_of f l : In (f, l) (w_fields (wty W ty)) -> exists i, field t i = Some (dyn_of f, l).
  Proof.
    intros H. apply (in_map (fun fl => (dyn_of (fst fl), snd fl))) in H. apply In_nth_error in H. destruct H as (i & H). exists i. exact H.
  Qed.
  Lemma dec_word {A} (AR : aops A) utf8_ok maxd rec fuel f l tag depth s a s' a' : is_rep f = false -> ddec_field AR W utf8_ok maxd rec fuel f l tag depth s a = Ok (s', a') -> fst s' = 0 \/ fst s' = l_ordinal l \/ fst s' = fst s.
  Proof.
    intros R H. unfold is_rep in R. unfold ddec_field in H. destruct (w_rep f); [discriminate R|].
    assert (K : forall v, fst (store f l v s) = 0 \/ fst (store f l v s) = l_ordinal l).
    { intros v. unfold store, reset_slot. destruct (w_explicit f || _); [right; reflexivity|left]. destruct (w_elem f); reflexivity. }
    assert (Sc : forall e, ('(v, a1) <- ddec_scalar AR utf8_ok e tag a ;; Ok (if valid e v then store f l v s else s, a1)) = Ok (s', a') -> fst s' = 0 \/ fst s' = l_ordinal l \/ fst s' = fst s).
    { intros e G. destruct (ddec_scalar AR utf8_ok e tag a) as [[v a1]| | | |]; cbn in G; try discriminate G. injection G as <- _. destruct (valid e v); [destruct (K v); auto|auto]. }
    destruct (w_elem f) eqn:We; try (exact (Sc _ H)).
    destruct (if has_value _ _ _ then _ else _) as [m| | | |]; cbn [bind] in H; try discriminate H. destruct (ddec_message _ _ _ _ _ _ m _ _ _) as [[m1 a1]| | | |]; cbn [bind] in H; try discriminate H. injection H as <- _. auto.
  Qed.
  Lemma dec_size {A} (AR : aops A) utf8_ok maxd rec fuel f l tag depth s a s' a' : is_rep f = true -> ddec_field AR W utf8_ok maxd rec fuel f l tag depth s a = Ok (s', a') -> 0 <= fst s'.
  Proof.
    intros R H. unfold is_rep in R. unfold ddec_field in H. destruct (w_rep f); [|discriminate R]. assert (Z : forall {B} (x : list B), 0 <= zlen x) by (intros; unfold zlen; lia).
    destruct (w_elem f); try (match type of H with context [several ?f0 ?l0 ?s0] => destruct (several f0 l0 s0) as [vs| | | |] end; cbn [bind] in H; try discriminate H;
      match type of H with (bind ?x _ = _) => destruct x as [[ws a1]| | | |] end; cbn [bind] in H; try discriminate H; injection H as <- _; apply Z).
    destruct (value _ _ _); try discriminate H. match type of H with (bind ?x _ = _) => destruct x as [[ws a1]| | | |] end; cbn [bind] in H; try discriminate H. injection H as <- _. apply Z.
  Qed.
  Lemma rep_dyn f : repeated (dyn_of f) = is_rep f.
  Proof. unfold repeated, dyn_of. cbn [y_kind]. destruct (is_rep f), (w_elem f); reflexivity. Qed.
  Lemma dec_chosen {A} (AR : aops A) utf8_ok maxd fuel mode m depth a m' a' : chosen t m -> ddec_loop AR W utf8_ok maxd fuel mode ty m depth a = Ok (m', a') -> chosen t m'.
  Proof.
    revert m depth a. induction fuel as [|n IH]; intros m depth a C H; [discriminate H|]. cbn [ddec_loop] in H. destruct (a_avail AR a <=? 0).
    - destruct mode; [discriminate H|]. destruct (a_avail AR a =? 0); [|discriminate H]. injection H as <- _. exact C.
    - destruct (a_tag AR a) as [[tag a1]| | | |]; cbn [bind] in H; try discriminate H. destruct (match mode with Some _ => _ | None => _ end); [injection H as <- _; exact C|].
      destruct (ddec_by_tag AR W utf8_ok maxd (ddec_loop AR W utf8_ok maxd n) n ty tag depth m a1) as [[m1 a2]| | | |] eqn:D; cbn [bind] in H; try discriminate H. refine (IH m1 depth a2 _ H).
      unfold ddec_by_tag in D. destruct (tag_number tag =? 0); [discriminate D|]. destruct (by_number (tag_number tag) (wty W ty)) as [[f l]|] eqn:F.
      + apply find_some in F. destruct F as [F _]. destruct (field_of f l F) as (i & Hi). destruct (ddec_field AR W utf8_ok maxd _ n f l tag depth (slot_at m l) a1) as [[s a3]| | | |] eqn:Df; cbn [bind] in D; try discriminate D. injection D as <- _.
        apply (put_chosen count _ t M m i (dyn_of f) l s C Hi); rewrite rep_dyn; intros R.
        * exact (dec_word AR utf8_ok maxd _ n f l tag depth _ a1 s a3 R Df).
        * exact (dec_size AR utf8_ok maxd _ n f l tag depth _ a1 s a3 R Df).
      + destruct (skip_one AR maxd n depth tag a1); cbn [bind] in D; try discriminate D. injection D as <- _. exact C.
  Qed.
  Section Json.
    Variables (J : list jtype) (utf8_ok : bytes -> bool) (fparse : bool -> bytes -> option Z) (strict : bool) (rec : nat -> list slot -> list tok -> res (list slot * list tok)).
    Lemma null_word f l s s' : is_rep f = false -> set_null W J f l s = Ok s' -> fst s' = 0 \/ fst s' = l_ordinal l.
    Proof.
      intros R H. unfold set_null in H. rewrite R in H. destruct (w_elem f); try (injection H as <-; left; reflexivity). destruct (known_of J _); try (injection H as <-; left; reflexivity).
      destruct (w_fields _) as [|[? l0] ?]; [discriminate H|]. injection H as <-. right. reflexivity.
    Qed.
    Lemma into_word q jf f l s ts s' r : is_rep f = false -> read_into W utf8_ok fparse rec q jf f l s ts = Ok (s', r) -> fst s' = l_ordinal l.
    Proof.
      intros R H. unfold is_rep in R. unfold read_into in H. destruct (w_rep f); [discriminate R|].
      assert (Sc : forall e, ('(v, r0) <- read_scalar utf8_ok fparse q jf e ts ;; Ok ((l_ordinal l, content_of v), r0)) = Ok (s', r) -> fst s' = l_ordinal l).
      { intros e G. destruct (read_scalar utf8_ok fparse q jf e ts) as [[v r1]| | | |]; cbn in G; try discriminate G. injection G as <- _. reflexivity. }
      destruct (w_elem f); try (exact (Sc _ H)). destruct (if has_value _ _ _ then _ else _) as [m| | | |]; cbn [bind] in H; try discriminate H. destruct (rec _ m ts) as [[m1 a1]| | | |]; cbn [bind] in H; try discriminate H. injection H as <- _. reflexivity.
    Qed.
    Lemma null_size f l s s' : set_null W J f l s = Ok s' -> fst s' = l_ordinal l \/ 0 <= fst s'.
    Proof.
      intros H. unfold set_null in H. destruct (w_elem f); try (injection H as <-; right; apply Z.le_refl). destruct (known_of J _); try (injection H as <-; right; apply Z.le_refl).
      destruct (is_rep f); [destruct (fst s =? l_ordinal l); [discriminate H|injection H as <-; left; reflexivity]|]. destruct (w_fields _) as [|[? l0] ?]; [discriminate H|]. injection H as <-. left. reflexivity.
    Qed.
    Lemma into_size q jf f l s ts s' r : is_rep f = true -> read_into W utf8_ok fparse rec q jf f l s ts = Ok (s', r) -> fst s' = l_ordinal l \/ 0 <= fst s'.
    Proof.
      intros R H. right. unfold is_rep in R. unfold read_into in H. destruct (w_rep f); [|discriminate R]. assert (Z : forall {B} (x : list B), 0 <= zlen x) by (intros; unfold zlen; lia).
      destruct (w_elem f); try (match type of H with context [several ?f0 ?l0 ?s0] => destruct (several f0 l0 s0) as [vs| | | |] end; cbn [bind] in H; try discriminate H;
        match type of H with (bind ?x _ = _) => destruct x as [[ws a1]| | | |] end; cbn [bind] in H; try discriminate H; injection H as <- _; apply Z).
      destruct (value _ _ _); try discriminate H. match type of H with (bind ?x _ = _) => destruct x as [[ws a1]| | | |] end; cbn [bind] in H; try discriminate H. injection H as <- _. apply Z.
    Qed.
    Lemma put_word m f l s : chosen t m -> In (f, l) (w_fields (wty W ty)) -> (is_rep f = false -> fst s = 0 \/ fst s = l_ordinal l) -> (is_rep f = true -> fst s = l_ordinal l \/ 0 <= fst s) -> chosen t (put m (l_slot l) s).
    Proof.
      intros C H Hs Hz. destruct (field_of f l H) as (i & Hi). apply (put_chosen count _ t M m i (dyn_of f) l s C Hi); rewrite rep_dyn; intros S; [destruct (Hs S); auto|]. destruct (Hz S) as [Z|Z]; [rewrite Z; exact (ordinal_size count _ t M i _ l Hi)|exact Z].
    Qed.
    Lemma jfields_in x : In x (jfields W J ty) -> In (snd x) (w_fields (wty W ty)).
    Proof. destruct x as [a b]. apply in_combine_r. Qed.
    Lemma at_chosen x m ts m' r : chosen t m -> In x (jfields W J ty) -> read_at W J utf8_ok fparse rec x m ts = Ok (m', r) -> chosen t m'.
    Proof.
      intros C Hx H. apply jfields_in in Hx. destruct x as [jf [f l]]. cbn [snd] in Hx. unfold read_at in H. destruct (read_field W J utf8_ok fparse rec jf f l (slot_at m l) ts) as [[s r1]| | | |] eqn:E; cbn [bind] in H; try discriminate H. injection H as <- _.
      unfold read_field in E. apply (put_word m f l s C Hx); intros R.
      2: { destruct ts as [|[] ts]; try (exact (into_size _ _ _ _ _ _ _ _ R E)). destruct (set_null W J f l (slot_at m l)) as [s1| | | |] eqn:N; cbn [bind] in E; try discriminate E. injection E as <- _. exact (null_size f l _ _ N). }
      assert (K : read_into W utf8_ok fparse rec false jf f l (slot_at m l) ts = Ok (s, r1) -> fst s = 0 \/ fst s = l_ordinal l) by (intros E'; right; exact (into_word _ _ _ _ _ _ _ _ R E')).
      destruct ts as [|[] ts]; try (exact (K E)). destruct (set_null W J f l (slot_at m l)) as [s1| | | |] eqn:N; cbn [bind] in E; try discriminate E. injection E as <- _. exact (null_word f l _ _ R N).
    Qed.
    Lemma members_chosen k first m ts m' r : chosen t m -> read_members W J utf8_ok fparse strict rec k first ty m ts = Ok (m', r) -> chosen t m'.
    Proof.
      revert first m ts. induction k as [|k IH]; intros first m ts C H; [discriminate H|]. cbn [read_members] in H.
      assert (K : (ts1 <- (if first then Ok ts else match ts with Comma :: r => Ok r | _ => Err BadMessage end) ;;
              match ts1 with
              | Str key :: Colon :: r =>
                  '(m1, r1) <- (match find_field W J ty key with
                                | Some x => read_at W J utf8_ok fparse rec x m r
                                | None => if strict then Err BadMessage else r1 <- skip_value r ;; Ok (m, r1)
                                end) ;;
                  read_members W J utf8_ok fparse strict rec k false ty m1 r1
              | _ => Err BadMessage
              end) = Ok (m', r) -> chosen t m').
      { clear H. intros H. destruct (if first then _ else _) as [ts1| | | |]; cbn [bind] in H; try discriminate H. destruct ts1 as [|[] [|[] ts2]]; try discriminate H.
        match type of H with (bind ?x _ = _) => destruct x as [[m1 r1]| | | |] eqn:E end; cbn [bind] in H; try discriminate H. refine (IH false m1 r1 _ H).
        destruct (find_field W J ty _) as [x|] eqn:F.
        - refine (at_chosen x m ts2 m1 r1 C _ E). unfold find_field in F. destruct (find _ (jfields W J ty)) as [y|] eqn:F1; [injection F as <-; exact (proj1 (find_some _ _ F1))|exact (proj1 (find_some _ _ F))].
        - destruct strict; [discriminate E|]. destruct (skip_value ts2); cbn [bind] in E; try discriminate E. injection E as <- _. exact C. }
      destruct ts as [|[] ts]; try (exact (K H)). injection H as <- _. exact C.
    Qed.
    Lemma nth_chosen i m ts m' r : chosen t m -> read_nth W J utf8_ok fparse rec i ty m ts = Ok (m', r) -> chosen t m'.
    Proof. intros C H. unfold read_nth in H. destruct (nth_error (jfields W J ty) i) as [x|] eqn:E; [|discriminate H]. exact (at_chosen x m ts m' r C (nth_error_In _ _ E) H). Qed.
    Lemma time_chosen d m ts m' r : chosen t m -> read_time W d ty m ts = Ok (m', r) -> chosen t m'.
    Proof.
      intros C H. unfold read_time in H. destruct ts as [|[] ts]; try discriminate H. destruct (d _) as [[x1 x2]|]; [|discriminate H]. destruct (w_fields (wty W ty)) as [|[f0 l0] [|[f1 l1] [|]]] eqn:F; try discriminate H. injection H as <- _.
      apply (put_word _ f1 l1); [|rewrite F; right; left; reflexivity|right; reflexivity|left; reflexivity]. apply (put_word _ f0 l0); [exact C|rewrite F; left; reflexivity|right; reflexivity|left; reflexivity].
    Qed.
    Lemma body_chosen m ts m' r : known_of J ty <> KFieldMask -> chosen t m -> read_body W J utf8_ok fparse strict rec ty m ts = Ok (m', r) -> chosen t m'.
    Proof.
      intros N C H. unfold read_body in H. destruct (w_entry (wty W ty)).
      - unfold read_entry in H. destruct (jfields W J ty) as [|[kj [kf kl]] [|[vj [vf vl]] rest]] eqn:F; try discriminate H. destruct (key_elem kj kf); [|discriminate H].
        assert (Ik : In (kf, kl) (w_fields (wty W ty))) by (apply (jfields_in (kj, (kf, kl))); rewrite F; left; reflexivity). assert (Iv : In (vf, vl) (w_fields (wty W ty))) by (apply (jfields_in (vj, (vf, vl))); rewrite F; right; left; reflexivity).
        destruct (read_scalar utf8_ok fparse true kj (w_elem kf) ts) as [[k r1]| | | |]; cbn [bind] in H; try discriminate H. pose proof (put_word m kf kl (l_ordinal kl, content_of k) C Ik (fun _ => or_intror eq_refl) (fun _ => or_introl eq_refl)) as C1.
        destruct r1 as [|[] r1]; try discriminate H. destruct (read_mapped W J utf8_ok fparse rec vj vf vl (slot_at (put m (l_slot kl) (l_ordinal kl, content_of k)) vl) r1) as [[s r2]| | | |] eqn:E; cbn [bind] in H; try discriminate H. injection H as <- _.
        unfold read_mapped in E. apply (put_word _ vf vl s C1 Iv); intros R.
        2: { destruct r1 as [|[] r1]; try (exact (into_size _ _ _ _ _ _ _ _ R E)). destruct (set_null W J vf vl _) as [s1| | | |] eqn:Q; cbn [bind] in E; try discriminate E. destruct (w_elem vf); try discriminate E. match type of E with context [known_of J ?x] => destruct (known_of J x); try discriminate E end. injection E as <- _. exact (null_size vf vl _ _ Q). }
        assert (K : forall s0 ts0, read_into W utf8_ok fparse rec false vj vf vl s0 ts0 = Ok (s, r2) -> fst s = 0 \/ fst s = l_ordinal vl) by (intros s0 ts0 E'; right; exact (into_word _ _ _ _ _ _ _ _ R E')).
        destruct r1 as [|[] r1]; try (exact (K _ _ E)). destruct (set_null W J vf vl _) as [s1| | | |] eqn:Q; cbn [bind] in E; try discriminate E. destruct (w_elem vf); try discriminate E. match type of E with context [known_of J ?x] => destruct (known_of J x); try discriminate E end. injection E as <- _. exact (null_word vf vl _ _ R Q).
      - destruct (known_of J ty); try discriminate H; try congruence; try (exact (time_chosen _ _ _ _ _ C H)); try (exact (nth_chosen _ _ _ _ _ C H)).
        + destruct ts as [|[] ts]; try discriminate H. exact (members_chosen _ _ _ _ _ _ C H).
        + unfold read_value in H. destruct ts as [|[] ts]; try discriminate H; try (exact (nth_chosen _ _ _ _ _ C H)). destruct (nth_error (w_fields (wty W ty)) 0) as [[f0 l0]|] eqn:F; [|discriminate H]. injection H as <- _.
          apply (put_word m f0 l0 _ C (nth_error_In _ _ F)); [right; reflexivity|left; reflexivity].
    Qed.
  End Json.
  Lemma json_chosen J utf8_ok maxd fparse strict fuel m ts m' : known_of J ty <> KFieldMask -> chosen t m -> read_json W J utf8_ok maxd fparse strict fuel ty m ts = Ok m' -> chosen t m'.
  Proof.
    intros N C H. unfold read_json in H. destruct fuel as [|n]; [discriminate H|]. cbn [read_msg] in H. destruct (scope_ok maxd 0); [|discriminate H].
    destruct (read_body W J utf8_ok fparse strict _ ty m ts) as [[m1 r]| | | |] eqn:E; cbn [bind] in H; try discriminate H. destruct r; [|discriminate H]. injection H as <-. exact (body_chosen J utf8_ok fparse strict _ m ts m1 [] N C E).
  Qed.
  Lemma clone_chosen fuel m src m' : chosen t m -> chosen t src -> clone_message (types_of W) fuel ty m src = Some m' -> chosen t m'.
  Proof.
    intros C S H. destruct fuel as [|n]; [discriminate H|]. cbn [clone_message] in H. assert (I' : incl (firstn (t_slots t) (t_fields t)) (t_fields t)) by (intros x; apply firstn_in).
    revert m C H. induction (firstn (t_slots t) (t_fields t)) as [|[f l] r IH]; intros m C H; cbn [clone_fields] in H; [injection H as <-; exact C|].
    destruct (clone_field (types_of W) (clone_message (types_of W) n) f l (slot_at m l) (slot_at src l)) as [s|] eqn:Q; [|discriminate H].
    refine (IH (fun x Hx => I' x (or_intror Hx)) _ _ H). assert (F : In (f, l) (t_fields t)) by (apply I'; left; reflexivity). apply In_nth_error in F. destruct F as (i & Hi).
    unfold clone_field in Q. apply (put_fits count _ t M m i f l s C Hi); intros R0; pose proof R0 as R; unfold repeated in R.
    - assert (Own : forall c, fits t l (fst (l_ordinal l, c : content))) by (intros c; right; exists i, f, l; auto). destruct (y_kind f); try discriminate R.
      + injection Q as <-. apply Own.
      + injection Q as <-. exact (chosen_fits t src i f l S Hi R0).
      + destruct (has_value f l (slot_at src l)); injection Q as <-; [apply Own|left; reflexivity].
      + destruct (has_value f l (slot_at src l)); [|injection Q as <-; left; reflexivity]. destruct (value f l (slot_at src l)); try (injection Q as <-; apply Own). destruct (clone_message _ _ _ _ _); [|discriminate Q]. injection Q as <-. apply Own.
    - pose proof (chosen_size t src i f l S Hi R0) as P. destruct (y_kind f); try discriminate R.
      + injection Q as <-. destruct (value f l (slot_at src l)); try exact P. destruct (_ =? 0); cbn [fst clear_slot]; lia.
      + injection Q as <-. destruct (value f l (slot_at src l)); try exact P. destruct (_ =? 0); cbn [fst clear_slot]; lia.
      + destruct (value f l (slot_at src l)); try (injection Q as <-; exact P). destruct (clone_list _ _ _ _); [|discriminate Q]. injection Q as <-. cbn [fst]. lia.
  Qed.
  Theorem reached_chosen m : reached count W ty fs m -> chosen t m.
  Proof.
    induction 1 as [|utf8_ok maxd bs m H|J utf8_ok maxd fparse strict fuel ts m m' _ IH N H|E fuel k v m m' e _ IH H|i v m m' _ IH H|i n m _ IH|i m _ IH|d m _ IH|i m _ IH|fuel m src m' _ IH _ IS H].
    - apply new_chosen.
    - unfold dyn_read, ddecode, ddec_msg in H. destruct (scope_ok maxd 0); [|discriminate H]. destruct (ddec_loop zops W utf8_ok maxd (S (length bs)) None ty (new_slots W ty) (0 + 1) (Zip [] bs)) as [[m1 a1]| | | |] eqn:D; cbn [bind] in H; try discriminate H. injection H as <-.
      exact (dec_chosen zops utf8_ok maxd _ None (new_slots W ty) _ _ m1 a1 (new_chosen t) D).
    - exact (json_chosen J utf8_ok maxd fparse strict fuel m ts m' N IH H).
    - eapply chosen_set_by; eassumption.
    - exact (chosen_set count _ t M i v m m' IH H).
    - exact (chosen_emplace count _ t M i n m IH).
    - exact (chosen_clear count _ t M i m IH).
    - destruct (clear_cases count t d m) as [->|[i ->]]; [exact IH|exact (chosen_clear count _ t M i m IH)].
    - exact (chosen_peek count _ t M i m IH).
    - exact (clone_chosen fuel m src m' IH IS H).
  Qed.
  Theorem reached_has o m : reached count W ty fs m -> has_oneof count t (Some o) m = true <-> exists i, member t i o /\ present t i m /\ forall j, member t j o -> present t j m -> j = i.
  Proof.
    intros H. rewrite (has_iff count _ t M o m (reached_chosen m H)). split.
    - intros (i & A & B). exists i. split; [exact A|]. split; [exact B|]. intros j A' B'. exact (only_one count _ t M o j i m A' A B' B).
    - intros (i & A & B & _). eauto.
  Qed.
  Theorem reached_clear o m : reached count W ty fs m -> has_oneof count t (Some o) (clear_oneof count t (Some o) m) = false.
  Proof.
    intros H. destruct (has_oneof count t (Some o) (clear_oneof count t (Some o) m)) eqn:E; [exfalso|reflexivity]. apply reached_has in E; [|constructor; exact H]. destruct E as (i & A & (v & B) & _).
    destruct (cleared count _ t M o i m (proj1 (reached_chosen m H)) A) as (f & l & _ & K). rewrite K in B. discriminate B.
  Qed.
  Theorem reached_length m : reached count W ty fs m -> length m = t_slots t.
  Proof. intros H. exact (proj1 (reached_chosen m H)). Qed.
  Theorem reached_active i o m : Z.of_nat (length fs) <= 2 ^ 31 -> reached count W ty fs m -> member t i o ->
    (forall j, active_index t i m = Some (Z.of_nat j) <-> member t j o /\ present t j m) /\
    (active_index t i m = Some (-1) <-> forall j, member t j o -> ~ present t j m).
  Proof. intros B H. apply (active_iff count _ t M i o m); [rewrite map_length; exact B|exact (reached_chosen m H)]. Qed.
  Theorem reached_active_own i f l m : Z.of_nat (length fs) <= 2 ^ 31 -> field t i = Some (f, l) -> y_oneof f = None -> present t i m -> active_index t i m = Some (Z.of_nat i).
  Proof. intros B. apply (active_own count _ t M i f l m). rewrite map_length. exact B. Qed.
  Theorem reached_active_none i f l m : reached count W ty fs m -> field t i = Some (f, l) -> y_oneof f = None -> ~ present t i m -> active_index t i m = Some (-1).
  Proof. intros H. exact (active_none count _ t M i f l m (reached_chosen m H)). Qed.
End Reached.
