(** Proofs about the factory: types and default values of fields. *)
From Coq Require Import Ascii String.
Require Import Verif.Bits Verif.Varint Verif.CppText Verif.CppSpec Verif.Defaults Verif.Pool Verif.PoolSpec Verif.PoolProofs Verif.PoolMain Verif.PoolAttrs.
Require Import Verif.DynSlots Verif.DynSlotsProofs Verif.Dyn Verif.Schema Verif.DynWire Verif.Factory Verif.FactorySpec.
Local Open Scope list_scope.
Local Open Scope Z_scope.

(** ** Lists *)
Lemma all_some_iff {A} (l : list (option A)) r : all_some l = Some r <-> l = map Some r.
Proof.
  revert r. induction l as [|[x|] t IH]; intros r; cbn [all_some].
  - destruct r; cbn; split; congruence.
  - destruct (all_some t) as [u|]; cbn [option_map]; destruct r as [|y r]; cbn [map]; split; intros H; try discriminate.
    + injection H as <- <-. f_equal. apply IH. reflexivity.
    + injection H as <- H. apply IH in H. injection H as <-. reflexivity.
    + injection H as <- H. apply IH in H. discriminate.
  - destruct r; cbn; split; intros H; discriminate.
Qed.
Lemma all_some_forall {A} (l : list (option A)) : (exists r, all_some l = Some r) <-> Forall (fun o => exists x, o = Some x) l.
Proof.
  split.
  - intros (r & H). apply all_some_iff in H. subst l. apply Forall_forall. intros o Ho. apply in_map_iff in Ho. destruct Ho as (x & <- & _). eauto.
  - induction 1 as [|o t [x ->] _ [r IH]]; cbn [all_some]; [eauto|]. rewrite IH. cbn. eauto.
Qed.
Lemma all_some_map {A B} (g : A -> option B) l r : all_some (map g l) = Some r <-> Forall2 (fun a b => g a = Some b) l r.
Proof.
  rewrite all_some_iff. revert r. induction l as [|a t IH]; intros [|b r]; cbn [map]; split; intros H; try discriminate; try (inversion H; fail); [constructor|reflexivity| |].
  - injection H as H1 H2. constructor; [exact H1|]. apply IH. exact H2.
  - inversion H; subst. f_equal; [assumption|]. apply IH. assumption.
Qed.
Lemma index_of_spec n l i : NoDup l -> (index_of n l = Some i <-> nth_error l i = Some n).
Proof.
  intros Hn. revert i. induction Hn as [|x t Hx Hn IH]; intros i; cbn [index_of].
  - destruct i; cbn; split; discriminate.
  - destruct (name_eqb x n) eqn:E.
    + apply name_eqb_eq in E. subst x. destruct i as [|i]; cbn; split; intros H; try reflexivity; try discriminate. exfalso. apply Hx. eapply nth_error_In; eauto.
    + destruct i as [|i]; cbn.
      * split; intros H; [destruct (index_of n t); discriminate|]. injection H as ->. rewrite (proj2 (name_eqb_eq n n) eq_refl) in E. discriminate.
      * rewrite <- IH. destruct (index_of n t); cbn; split; intros H; try discriminate; injection H as ->; reflexivity.
Qed.
Lemma index_of_none n l : index_of n l = None <-> ~ In n l.
Proof.
  induction l as [|x t IH]; cbn [index_of In]; [split; auto|]. destruct (name_eqb x n) eqn:E.
  - apply name_eqb_eq in E. split; [discriminate|]. tauto.
  - assert (x <> n) by (intros ->; rewrite (proj2 (name_eqb_eq n n) eq_refl) in E; discriminate). destruct (index_of n t); cbn; split; intros K; try discriminate; try reflexivity; try tauto.
    exfalso. assert (~ In n t) by tauto. apply IH in H0. discriminate.
Qed.

(** ** The types *)
Lemma legal_types t : 1 <= t <= 18 -> In t [1; 2; 3; 4; 5; 6; 7; 8; 9; 10; 11; 12; 13; 14; 15; 16; 17; 18].
Proof. intros H. cbn [In]. lia. Qed.
Ltac types H := apply legal_types in H; cbn [In] in H; repeat (destruct H as [H|H]; [|]); [..|contradiction].

(** ** Integers *)
Lemma parse_integer sg w t z : parse_default sg w t = Some z <-> denotes_integer sg w t z.
Proof.
  unfold denotes_integer. destruct t as [|c t].
  - cbn [parse_default]. split; [intros H; injection H as <-; left; auto|]. intros [[_ ->]|(l & ds & [Hl _] & _ & [[E _]|(_ & E & _)])]; [reflexivity|congruence|discriminate].
  - rewrite parse_exact by discriminate. unfold in_type. split; [intros H; right; exact H|]. intros [[E _]|H]; [discriminate|exact H].
Qed.
Lemma number_ge ds : Forall (fun d => 0 <= d) ds -> 0 <= number 10 ds.
Proof. apply number_nonneg. lia. Qed.
Lemma digits_ge l ds : digits_of 10 l ds -> 0 <= number 10 ds.
Proof.
  intros [_ H]. apply number_ge. induction H as [|c d l ds [<- _] _ IH]; constructor; [apply hex_nonneg|exact IH].
Qed.
Lemma integer_range sg w t z : 1 <= w -> denotes_integer sg w t z -> if sg then - 2 ^ (w - 1) <= z < 2 ^ (w - 1) else 0 <= z < 2 ^ w.
Proof.
  intros Hw [[_ ->]|(l & ds & D & R & E)].
  - pose proof (Z.pow_pos_nonneg 2 (w - 1) ltac:(lia) ltac:(lia)). pose proof (Z.pow_pos_nonneg 2 w ltac:(lia) ltac:(lia)). destruct sg; lia.
  - apply digits_ge in D. destruct sg; [exact R|]. destruct E as [[_ ->]|(K & _)]; [lia|discriminate].
Qed.

(** ** Enums *)
Lemma first_named_iff vs n z : option_map snd (find (fun v => name_eqb (fst v) n) vs) = Some z <-> first_named n vs z.
Proof.
  unfold first_named. induction vs as [|[m y] t IH]; cbn [find fst].
  - split; [discriminate|]. intros ([|a l] & b & E & _); discriminate.
  - destruct (name_eqb m n) eqn:E.
    + apply name_eqb_eq in E. subst m. cbn [option_map snd]. split.
      * intros H. injection H as <-. exists [], t. split; [reflexivity|]. intros [].
      * intros ([|a l] & b & H & K); cbn [app] in H; injection H as H1 H2; [congruence|]. subst a. exfalso. apply K. cbn. auto.
    + assert (Hne : m <> n) by (intros ->; rewrite (proj2 (name_eqb_eq n n) eq_refl) in E; discriminate). rewrite IH. split.
      * intros (a & b & -> & K). exists ((m, y) :: a), b. split; [reflexivity|]. cbn. intros [H|H]; auto.
      * intros ([|a l] & b & H & K); cbn [app] in H; injection H as H1 H2; [congruence|]. subst a. exists l, b. split; [exact H2|]. intros Hi. apply K. cbn. auto.
Qed.

Section Pool.
  Variable fc : bool -> bytes -> option Z.
  Variable fs : list fileproto.
  Variable pl : pool.
  Hypothesis Hrep : representable fs.
  Hypothesis Hpl : init fs = Done pl.

  Lemma valid : valid_files fs.
  Proof. apply pool_accepts; [exact Hrep|]. eauto. Qed.
  Lemma enum_names : NoDup (map ed_full (s_emap (p_state pl))).
  Proof. destruct (pool_contents fs pl Hrep Hpl) as (_ & _ & C & _). destruct (vf_enums _ valid) as [_ Hn]. rewrite <- C, <- edscs_full in Hn. exact Hn. Qed.
  Lemma message_names : map md_full (s_mmap (p_state pl)) = map fst (all_messages fs) /\ NoDup (map fst (all_messages fs)).
  Proof. destruct (pool_contents fs pl Hrep Hpl) as (_ & B & _ & _). destruct (vf_messages _ valid) as [_ Hn]. rewrite dscs_full, B. auto. Qed.

  (** The enum of a field. *)
  Lemma enum_of_spec p : enum_of pl p <> None -> exists d sc, enum_of pl p = Some d /\ (ed_closed d = true <-> feature ft_enum sc = ENUM_CLOSED) /\ In (tl (fp_type_name p), ed_proto d, sc) (scoped_enums fs).
  Proof.
    intros H. destruct (enum_of pl p) as [d|] eqn:E; [|congruence]. unfold enum_of, get_enum in E. apply (find_unique _ _ _ enum_names) in E. destruct E as [Hi Hd].
    destruct (Forall2_in_l _ _ _ _ (pool_enums fs pl Hrep Hpl) Hi) as ([[full e] sc] & Hx & A & B & C). exists d, sc. split; [reflexivity|]. split; [exact C|]. rewrite <- Hd, A, B. exact Hx.
  Qed.
  Lemma of_enum_spec p e sc : of_enum fs p e sc -> exists d, enum_of pl p = Some d /\ ed_proto d = e.
  Proof.
    intros (n & Hn & Hi). destruct (Forall2_in_r _ _ _ _ (pool_enums fs pl Hrep Hpl) Hi) as (d & Hd & A & B & C).
    exists d. split; [|exact B]. unfold enum_of, get_enum. rewrite Hn. cbn [tl]. apply (find_unique _ _ _ enum_names). auto.
  Qed.

  (** ** Default values *)
  Lemma bool_text t : name_eqb t (txt "true") = true <-> t = txt "true". Proof. apply name_eqb_eq. Qed.
  Lemma enum_default_iff P f z : fp_type (fd_proto f) = TYPE_ENUM -> (forall n, enum_of pl (fd_proto f) <> None -> fp_type_name (fd_proto f) = n -> exists m, n = 46 :: m) ->
    (P <-> fa_explicit (fd_attrs f) || fa_required (fd_attrs f) = true) ->
    (enum_default_value pl f = Some z <-> default_number fc fs P (fd_proto f) z).
  Proof.
    intros Ht Hq HP. set (p := fd_proto f) in *. unfold enum_default_value. split.
    - intros H. destruct (enum_of pl (fd_proto f)) as [d|] eqn:E; [|discriminate]. fold p in E. destruct (enum_of_spec p) as (d' & sc & E' & _ & Hi); [congruence|]. assert (d' = d) as -> by congruence.
      destruct (Hq _ ltac:(congruence) eq_refl) as (n & Hn). assert (O : of_enum fs p (ed_proto d) sc) by (exists n; split; [exact Hn|]; rewrite Hn in Hi; exact Hi).
      destruct (ep_values (ed_proto d)) as [|[vn vz] vs] eqn:Ev; [discriminate|]. fold p in H. destruct (fp_default p) as [|c t] eqn:Ed.
      + destruct (fa_explicit (fd_attrs f) || fa_required (fd_attrs f)) eqn:Ep; injection H as <-.
        * eapply DnFirst; eauto. apply HP. reflexivity.
        * eapply DnZero; eauto; [congruence|]. intros K. apply HP in K. discriminate.
      + unfold value_of in H. rewrite Ev in H. eapply DnNamed; [exact Ht|exact O|congruence|]. rewrite Ed, Ev. apply first_named_iff. exact H.
    - intros H. fold p.
      inversion H as [y T|y T|y T|y T|y T|y T|y T|y T|y T|y T|T|T|T|e sc y T O Hd F|e sc n y vs T O Hd F K|e sc T O Hd F K]; clear H; subst;
        try (rewrite Ht in T; unfold TYPE_ENUM, TYPE_STRING, TYPE_GROUP, TYPE_MESSAGE, TYPE_BYTES in T; cbn [In] in T; exfalso; clear -T; lia);
        destruct (of_enum_spec _ _ _ O) as (d & E & <-); rewrite E.
      + destruct (ep_values (ed_proto d)) as [|v vs] eqn:Ev; [destruct F as ([|] & b & F & _); discriminate|]. destruct (fp_default p) as [|c t]; [congruence|]. unfold value_of. rewrite Ev. apply first_named_iff. exact F.
      + rewrite F, Hd. apply HP in K. rewrite K. reflexivity.
      + rewrite Hd. destruct (ep_values (ed_proto d)) as [|v vs] eqn:Ev; [congruence|]. destruct (fa_explicit (fd_attrs f) || fa_required (fd_attrs f)); [exfalso; apply K, HP; reflexivity|reflexivity].
  Qed.

  Lemma inv_default P p z : default_number fc fs P p z ->
    (In (fp_type p) [5; 17] /\ denotes_integer true 32 (fp_default p) z) \/ (In (fp_type p) [3; 18] /\ denotes_integer true 64 (fp_default p) z) \/
    (In (fp_type p) [7; 13] /\ denotes_integer false 32 (fp_default p) z) \/ (In (fp_type p) [4; 6] /\ denotes_integer false 64 (fp_default p) z) \/
    (fp_type p = 15 /\ exists y, denotes_integer true 32 (fp_default p) y /\ z = y mod 2 ^ 32) \/ (fp_type p = 16 /\ exists y, denotes_integer true 64 (fp_default p) y /\ z = y mod 2 ^ 64) \/
    (fp_type p = 2 /\ (fp_default p = [] /\ z = 0 \/ fp_default p <> [] /\ fc false (fp_default p) = Some z)) \/
    (fp_type p = 1 /\ (fp_default p = [] /\ z = 0 \/ fp_default p <> [] /\ fc true (fp_default p) = Some z)) \/
    (fp_type p = 8 /\ (fp_default p = txt "true" /\ z = 1 \/ fp_default p <> txt "true" /\ z = 0)) \/
    (In (fp_type p) [9; 10; 11; 12] /\ z = 0) \/ fp_type p = 14.
  Proof.
    intros H. destruct H; unfold TYPE_ENUM, TYPE_STRING, TYPE_GROUP, TYPE_MESSAGE, TYPE_BYTES in *; cbn [In] in *;
      try solve [do 10 right; assumption].
    - left. auto.
    - right. left. auto.
    - right. right. left. split; [lia|assumption].
    - do 3 right. left. split; [lia|assumption].
    - right. right. left. split; [lia|assumption].
    - do 3 right. left. split; [lia|assumption].
    - do 4 right. left. eauto.
    - do 5 right. left. eauto.
    - do 6 right. left. auto.
    - do 7 right. left. auto.
    - do 8 right. left. auto.
    - do 8 right. left. auto.
    - do 9 right. left. split; [lia|reflexivity].
  Qed.
  Lemma signed_fixed w t z : 1 <= w -> (option_map (wrapU w) (parse_default true w t) = Some z <-> exists y, denotes_integer true w t y /\ z = y mod 2 ^ w).
  Proof.
    intros Hw. split.
    - destruct (parse_default true w t) as [y|] eqn:E; [|discriminate]. cbn. intros H. injection H as <-. exists y. split; [apply parse_integer, E|reflexivity].
    - intros (y & H & ->). apply parse_integer in H. rewrite H. reflexivity.
  Qed.
  Lemma unsigned_fixed w t z : 1 <= w -> (option_map (wrapU w) (parse_default false w t) = Some z <-> denotes_integer false w t z).
  Proof.
    intros Hw. split.
    - destruct (parse_default false w t) as [y|] eqn:E; [|discriminate]. cbn. intros H. injection H as <-. apply parse_integer in E. pose proof (integer_range _ _ _ _ Hw E) as R. cbn in R.
      unfold wrapU. rewrite Z.mod_small by exact R. exact E.
    - intros H. pose proof (integer_range _ _ _ _ Hw H) as R. cbn in R. apply parse_integer in H. rewrite H. cbn. unfold wrapU. rewrite Z.mod_small by exact R. reflexivity.
  Qed.
  Lemma set_default_iff P p z : 1 <= fp_type p <= 18 -> fp_type p <> TYPE_ENUM -> (set_default_value fc p = Some z <-> default_number fc fs P p z).
  Proof.
    intros Hl Hne. unfold set_default_value, shape_of, runtime_traits_for.
    types Hl; symmetry in Hl; rewrite Hl in *; try (exfalso; apply Hne; reflexivity);
      match goal with |- context [nth (Z.to_nat (?a - 1)) runtime_type_traits ?d] => let v := eval vm_compute in (nth (Z.to_nat (a - 1)) runtime_type_traits d) in change (nth (Z.to_nat (a - 1)) runtime_type_traits d) with v end;
      cbn [fst]; cbn [vbits].
    all: try (rewrite ?parse_integer).
    all: try (rewrite (signed_fixed 32) by lia); try (rewrite (signed_fixed 64) by lia); try (rewrite (unsigned_fixed 32) by lia); try (rewrite (unsigned_fixed 64) by lia).
    all: split; intros H.
    all: try (apply inv_default in H; rewrite Hl in H; cbn [In] in H;
      repeat (destruct H as [H|H]; [try (exfalso; destruct H as [H _]; clear - H; lia)|]; try (exfalso; clear - H; lia)); destruct H as [_ H]).
    all: try exact H.
    all: try solve [apply DnSigned; [rewrite Hl; cbn; auto|exact H]].
    all: try solve [apply DnSigned64; [rewrite Hl; cbn; auto|exact H]].
    all: try solve [apply DnUnsigned; [exact Hl|exact H]].
    all: try solve [apply DnUnsigned64; [exact Hl|exact H]].
    all: try solve [apply DnFixed; [exact Hl|exact H]].
    all: try solve [apply DnFixed64; [exact Hl|exact H]].
    all: try solve [destruct H as (y & H & ->); apply DnSFixed; [exact Hl|exact H]].
    all: try solve [destruct H as (y & H & ->); apply DnSFixed64; [exact Hl|exact H]].
    all: try solve [injection H as <-; apply DnOther; rewrite Hl; cbn; auto].
    all: try solve [subst z; reflexivity].
    - apply DnDouble; [exact Hl|]. destruct (fp_default p); [left; split; congruence|right; split; [discriminate|exact H]].
    - destruct H as [[-> ->]|[Hd H]]; [reflexivity|]. destruct (fp_default p); [congruence|exact H].
    - apply DnFloat; [exact Hl|]. destruct (fp_default p); [left; split; congruence|right; split; [discriminate|exact H]].
    - destruct H as [[-> ->]|[Hd H]]; [reflexivity|]. destruct (fp_default p); [congruence|exact H].
    - destruct (name_eqb (fp_default p) (txt "true")) eqn:E; injection H as <-.
      + apply DnTrue; [exact Hl|]. apply bool_text, E.
      + apply DnFalse; [exact Hl|]. intros K. apply bool_text in K. congruence.
    - destruct H as [[H ->]|[H ->]]; [apply bool_text in H; rewrite H; reflexivity|].
      destruct (name_eqb (fp_default p) (txt "true")) eqn:E; [apply bool_text in E; contradiction|reflexivity].
  Qed.
  Lemma shape_enum p : 1 <= fp_type p <= 18 -> (shape_of p = SEnum <-> fp_type p = TYPE_ENUM).
  Proof. intros Hl. unfold shape_of, runtime_traits_for, TYPE_ENUM. types Hl; rewrite <- Hl; vm_compute; split; intros H; congruence. Qed.
  Lemma default_value_iff P f z : 1 <= fp_type (fd_proto f) <= 18 ->
    (forall n, fp_type (fd_proto f) = TYPE_ENUM -> fp_type_name (fd_proto f) = n -> exists m, n = 46 :: m) ->
    (P <-> fa_explicit (fd_attrs f) || fa_required (fd_attrs f) = true) ->
    (default_value fc pl f = Some z <-> default_number fc fs P (fd_proto f) z).
  Proof.
    intros Hl Hq HP. pose proof (shape_enum _ Hl) as Hs. unfold default_value. destruct (shape_of (fd_proto f)) eqn:Es; try (apply set_default_iff; [exact Hl|]; intros K; apply Hs in K; discriminate).
    apply enum_default_iff; [apply Hs; reflexivity| |exact HP]. intros n _ Hn. eapply Hq; [apply Hs; reflexivity|exact Hn].
  Qed.
End Pool.
