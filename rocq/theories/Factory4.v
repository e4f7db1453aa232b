(** Proofs about the factory: the whole. *)
From Coq Require Import Ascii String.
Require Import Verif.Bits Verif.Varint Verif.CppText Verif.CppSpec Verif.Defaults Verif.Pool Verif.PoolSpec Verif.PoolProofs Verif.PoolMain Verif.PoolAttrs.
Require Import Verif.DynSlots Verif.DynSlotsProofs Verif.Dyn Verif.Schema Verif.DynWire Verif.Factory Verif.FactorySpec Verif.Factory1 Verif.Factory2 Verif.Factory3 Verif.DynMain Verif.DynView Verif.WellTyped Verif.DynAgree.
Local Open Scope list_scope.
Local Open Scope Z_scope.

Section Whole.
  Variable fc : bool -> bytes -> option Z.
  Variable fs : list fileproto.
  Hypothesis Hrep : representable fs.
  Let scoped := concat (map scoped_messages fs).

  Notation usable := (usable fc fs).
  Lemma initialize_verdict : verdict (initialize fc fs) usable
    (fun r => init fs = Done (fst r) /\ Forall2 (fun x t => message_type fc (fst r) (dsc_of x) = Some t) scoped (snd r)).
  Proof.
    unfold initialize. pose proof (init_verdict fs Hrep) as V. destruct (init fs) as [pl| | |] eqn:E; cbn [verdict bind] in *; try contradiction; [|intros (K & _); contradiction].
    destruct V as [V _]. unfold finish_initialize, require, usable.
    pose proof (all_checked fc fs pl Hrep E) as C. pose proof (mmap_scoped fs pl Hrep E) as M. fold scoped in M. pose proof (scoped_all fs pl Hrep E) as S. fold scoped in S.
    assert (T : (exists W, all_some (map (message_type fc pl) (s_mmap (p_state pl))) = Some W) <-> Forall (fun d => oneofs_together (snd d)) (all_messages fs)).
    { rewrite all_some_forall, M, map_map, !Forall_forall. split.
      - intros H d Hd. rewrite <- S in Hd. apply in_map_iff in Hd. destruct Hd as ([[a m] s] & <- & Hx). cbn [fst snd]. eapply (message_type_iff fc fs pl Hrep E); [exact Hx|]. apply H. apply in_map_iff. exists (a, m, s). auto.
      - intros H o Ho. apply in_map_iff in Ho. destruct Ho as ([[a m] s] & <- & Hx). apply (message_type_iff fc fs pl Hrep E); [exact Hx|]. apply (H (a, m)). rewrite <- S. apply in_map_iff. exists (a, m, s). auto. }
    destruct (forallb (valid_default fc) (p_fields pl)); cbn [bind].
    - destruct (all_some _) as [W|] eqn:EW.
      + destruct (forallb (enum_ready pl) (p_fields pl)); cbn [bind].
        * split; [split; [exact V|]; split; [apply T; eauto|apply C; auto]|]. cbn [fst snd]. split; [reflexivity|]. rewrite M, map_map in EW. apply all_some_map in EW. exact EW.
        * intros (_ & _ & K). apply C in K. destruct K. discriminate.
      + intros (_ & K & _). apply T in K. destruct K. discriminate.
    - intros (_ & _ & K). apply C in K. destruct K. discriminate.
  Qed.
  Theorem factory_accepts : (exists r, initialize fc fs = Done r) <-> usable.
  Proof.
    pose proof initialize_verdict as V. destruct (initialize fc fs) as [r| | |]; cbn [verdict] in V; try contradiction.
    - split; [intros _; apply V|eauto].
    - split; [intros (r & K); discriminate|intros K; contradiction].
  Qed.
  Theorem factory_rejects : initialize fc fs = Invalid \/ exists r, initialize fc fs = Done r.
  Proof. pose proof initialize_verdict as V. destruct (initialize fc fs) as [r| | |]; cbn [verdict] in V; try contradiction; eauto. Qed.

  Section Made.
    Variable pl : pool.
    Variable W : list wtype.
    Hypothesis Hinit : initialize fc fs = Done (pl, W).
    Lemma made_pool : init fs = Done pl /\ usable /\ Forall2 (fun x t => message_type fc pl (dsc_of x) = Some t) scoped W.
    Proof. pose proof initialize_verdict as V. rewrite Hinit in V. destruct V as [U [A B]]. auto. Qed.
    Lemma Hpl : init fs = Done pl. Proof. exact (proj1 made_pool). Qed.

    (** A message type and the fields it is made of. *)
    Record built (m : mproto) (s : list features) (t : wtype) (ws : list wfield) : Prop := {
      bt_infos : Forall2 (fun p w => field_info fc pl (FDsc p (field_attrs (eff s) (mp_entry m) p)) = Some w) (mp_fields m) ws;
      bt_fields : map fst (w_fields t) = ws;
      bt_entry : w_entry t = mp_entry m;
      bt_valid : oneofs_valid (mp_oneofs m) (map (fun f => DField (w_oneof f) (is_rep f)) ws);
      bt_type : wtype_of (mp_oneofs m) (mp_entry m) ws = Some t }.
    Lemma built_of full m s t : In (full, m, s) scoped -> message_type fc pl (dsc_of (full, m, s)) = Some t -> exists ws, built m s t ws.
    Proof.
      intros Hx H. destruct (infos fc fs pl Hrep Hpl _ _ _ Hx) as (ws & E & I & D). unfold message_type in H. rewrite E in H. cbn [dsc_of md_proto] in H. exists ws.
      destruct (scoped_valid fs pl Hrep Hpl _ _ _ Hx) as (_ & V & _). pose proof (oneofs_valid_of _ _ (vm_oneof _ V)) as O. rewrite <- D in O. destruct (wtype_fields _ _ _ _ O H) as [F1 F2].
      constructor; assumption.
    Qed.
    Lemma info_means full m s p w : In (full, m, s) scoped -> In p (mp_fields m) -> field_info fc pl (FDsc p (field_attrs (eff s) (mp_entry m) p)) = Some w ->
      field_means fc fs p (mp_entry m) (s ++ [fp_feat p]) w.
    Proof.
      intros Hx Hp H. destruct (scoped_field fs pl Hrep Hpl _ _ _ _ Hx Hp) as (G & At & Hin & _). destruct (scoped_valid fs pl Hrep Hpl _ _ _ Hx) as (_ & V & _).
      refine (field_info_means fc fs pl Hrep Hpl (FDsc p (field_attrs (eff s) (mp_entry m) p)) _ _ w G At _ _ H).
      - destruct made_pool as (_ & (_ & _ & K) & _). rewrite Forall_forall in K. apply K, Hin.
      - cbn [fd_proto]. intros i Hi. pose proof (vm_oneof _ V) as O. rewrite Forall_forall in O. apply (O p Hp i Hi).
    Qed.
    Lemma forall2_map {A B} (R S : A -> B -> Prop) l k : (forall a b, In a l -> In b k -> R a b -> S a b) -> Forall2 R l k -> Forall2 S l k.
    Proof. intros H F. induction F; constructor; [apply H; cbn; auto|]. apply IHF. intros. apply H; cbn; auto. Qed.
    Lemma forall2_fst {A B C} (R : A -> B -> Prop) l (k : list (B * C)) : Forall2 R l (map fst k) -> Forall2 (fun a b => R a (fst b)) l k.
    Proof. revert l. induction k as [|b k IH]; intros l H; cbn [map] in H; inversion H; subst; constructor; auto. Qed.
    Theorem factory_types : Forall2 (type_means fc fs) scoped W.
    Proof.
      destruct made_pool as (_ & _ & F). revert F. apply forall2_map. intros [[full m] s] t Hx _ H. destruct (built_of _ _ _ _ Hx H) as (ws & B). split; [apply (bt_entry _ _ _ _ B)|].
      pose proof (bt_infos _ _ _ _ B) as I. rewrite <- (bt_fields _ _ _ _ B) in I. apply forall2_fst with (R := fun p w => field_means fc fs p (mp_entry m) (s ++ [fp_feat p]) w). revert I. apply forall2_map.
      intros p w Hp _ K. eapply info_means; eassumption.
    Qed.

    (** ** Well-formed types *)
    Lemma implicit_zero P p z : ~ P -> fp_default p = [] -> default_number fc fs P p z -> z = 0.
    Proof.
      intros N E H. assert (D : forall sg w y, denotes_integer sg w (fp_default p) y -> y = 0).
      { rewrite E. intros sg w y [[_ ->]|(l & ds & [Hl _] & _ & [[K _]|(_ & K & _)])]; [reflexivity|congruence|discriminate]. }
      destruct H; try reflexivity; try contradiction; try (eapply D; eassumption).
      - apply D in H0. rewrite H0. reflexivity.
      - apply D in H0. rewrite H0. reflexivity.
      - destruct H0 as [[_ K]|[K _]]; [exact K|contradiction].
      - destruct H0 as [[_ K]|[K _]]; [exact K|contradiction].
      - rewrite E in H0. discriminate.
    Qed.
    Lemma repeated_zero f w : field_info fc pl f = Some w -> is_rep w = true -> w_dint w = 0 /\ w_dbytes w = [].
    Proof. unfold field_info. destruct (elem_of pl f); [|discriminate]. intros H. injection H as <-. unfold is_rep. cbn. destruct (fa_repeated (fd_attrs f)); [auto|discriminate]. Qed.
    Lemma has_presence_dec p entry s : has_presence p entry s \/ ~ has_presence p entry s.
    Proof.
      unfold has_presence. cbn [In]. destruct (Z.eq_dec (fp_label p) LABEL_REPEATED); [right; tauto|]. destruct (fp_oneof p) as [o|]; [left; split; [assumption|right; left; discriminate]|].
      destruct (Bool.bool_dec entry true), (Bool.bool_dec (fp_opt3 p) true), (Z.eq_dec (fp_type p) TYPE_GROUP), (Z.eq_dec (fp_type p) TYPE_MESSAGE), (Z.eq_dec (fp_label p) LABEL_REQUIRED),
        (Z.eq_dec EXPLICIT (feature ft_presence s)), (Z.eq_dec LEGACY_REQUIRED (feature ft_presence s)); try (left; tauto). right. tauto.
    Qed.
    Lemma wfield_good full m s p w : no_implicit_defaults fs -> In (full, m, s) scoped -> In p (mp_fields m) -> field_info fc pl (FDsc p (field_attrs (eff s) (mp_entry m) p)) = Some w -> wfield_ok w.
    Proof.
      intros ND Hx Hp H. pose proof (info_means _ _ _ _ _ Hx Hp H) as M. destruct (scoped_field fs pl Hrep Hpl _ _ _ _ Hx Hp) as ([(_ & Hlab & Hnum & _) _] & _ & _ & Hs). destruct (scoped_valid fs pl Hrep Hpl _ _ _ Hx) as (_ & V & _).
      pose proof (vm_oneof _ V) as O. rewrite Forall_forall in O. unfold wfield_ok. rewrite (fm_number _ _ _ _ _ _ M).
      assert (R : w_rep w = None -> fp_label p <> LABEL_REPEATED). { intros Hr K. apply (fm_repeated _ _ _ _ _ _ M) in K. unfold is_rep in K. rewrite Hr in K. discriminate. }
      split; [lia|]. split; [|split].
      - intros o Ho. apply (fm_presence _ _ _ _ _ _ M). assert (Hi : fp_oneof p = Some (Z.of_nat o)) by (apply (fm_oneof _ _ _ _ _ _ M); eauto).
        split; [apply (O p Hp _ Hi)|]. right. left. congruence.
      - intros ty d Ht Hr. apply (fm_presence _ _ _ _ _ _ M). split; [apply R, Hr|]. pose proof (fm_type _ _ _ _ _ _ M) as T. rewrite Ht in T. inversion T as [| | | | | |n ty' d' K| |]; subst. cbn in K. destruct K as [K|[K|[]]]; auto.
      - intros Hne. assert (NP : ~ has_presence p (mp_entry m) (s ++ [fp_feat p])) by (intros K; apply (fm_presence _ _ _ _ _ _ M) in K; congruence).
        destruct (is_rep w) eqn:Er; [eapply repeated_zero; eauto|]. assert (Hr : fp_label p <> LABEL_REPEATED) by (intros K; apply (fm_repeated _ _ _ _ _ _ M) in K; congruence).
        unfold no_implicit_defaults in ND. rewrite Forall_forall in ND. destruct (ND _ Hs Hr) as [K|K]; [contradiction|]. destruct (fm_default _ _ _ _ _ _ M Hr) as [D1 D2].
        split; [exact (implicit_zero _ p _ NP K D1)|]. rewrite D2, K. destruct (_ || _); reflexivity.
    Qed.
    Lemma in_types t : In t W -> exists full m s ws, In (full, m, s) scoped /\ built m s t ws.
    Proof.
      intros Ht. destruct made_pool as (_ & _ & F). destruct (Forall2_in_r _ _ _ _ F Ht) as ([[full m] s] & Hx & H). destruct (built_of _ _ _ _ Hx H) as (ws & B). exists full, m, s, ws. auto.
    Qed.
    Lemma built_good full m s t ws : no_implicit_defaults fs -> In (full, m, s) scoped -> built m s t ws -> Forall wfield_ok ws.
    Proof.
      intros ND Hx B. apply Forall_forall. intros w Hw. destruct (Forall2_in_r _ _ _ _ (bt_infos _ _ _ _ B) Hw) as (p & Hp & H). eapply wfield_good; eauto.
    Qed.
    Theorem factory_wellformed : no_implicit_defaults fs -> wtypes_ok W.
    Proof.
      intros ND. apply Forall_forall. intros t Ht. destruct (in_types t Ht) as (full & m & s & ws & Hx & B). exists (mp_oneofs m), ws. split; [apply (bt_valid _ _ _ _ B)|].
      split; [eapply built_good; eauto|]. rewrite (bt_entry _ _ _ _ B). apply (bt_type _ _ _ _ B).
    Qed.
    Lemma forall2_length {A B} (R : A -> B -> Prop) l k : Forall2 R l k -> length l = length k.
    Proof. induction 1; cbn; congruence. Qed.
    Theorem factory_closed t f l ty d : In t W -> In (f, l) (w_fields t) -> w_elem f = EMsg ty d -> (ty < length W)%nat.
    Proof.
      intros Ht Hf He. destruct (in_types t Ht) as (full & m & s & ws & Hx & B). assert (Hw : In f ws) by (rewrite <- (bt_fields _ _ _ _ B); apply in_map_iff; exists (f, l); auto).
      destruct (Forall2_in_r _ _ _ _ (bt_infos _ _ _ _ B) Hw) as (p & Hp & H). pose proof (fm_type _ _ _ _ _ _ (info_means _ _ _ _ _ Hx Hp H)) as T. rewrite He in T. inversion T as [| | | | | |n ty' d' K1 K2 K3 K4| |]; subst.
      destruct made_pool as (_ & _ & F). apply forall2_length in F. rewrite <- F. assert (Hn : nth_error (map fst (all_messages fs)) ty <> None) by congruence. apply nth_error_Some in Hn.
      rewrite map_length, <- (scoped_all fs pl Hrep Hpl), map_length in Hn. exact Hn.
    Qed.
    Theorem factory_numbers t : In t W -> NoDup (map (fun fl => w_num (fst fl)) (w_fields t)).
    Proof.
      intros Ht. destruct (in_types t Ht) as (full & m & s & ws & Hx & B). rewrite <- (map_map fst w_num), (bt_fields _ _ _ _ B). destruct (scoped_valid fs pl Hrep Hpl _ _ _ Hx) as (_ & V & _).
      pose proof (vm_distinct _ V) as D. pose proof (bt_infos _ _ _ _ B) as I. assert (E : map w_num ws = map fp_number (mp_fields m)).
      { clear - I. induction I as [|p w ps ws H _ IH]; [reflexivity|]. cbn [map]. f_equal; [|exact IH]. unfold field_info in H. destruct (elem_of pl _); [|discriminate]. injection H as <-. reflexivity. }
      rewrite E. clear - D. induction D as [|p l Hp _ IH]; [constructor|]. cbn [map]. constructor; [|exact IH]. intros K. apply in_map_iff in K. destruct K as (q & Hq & Hi). rewrite Forall_forall in Hp. destruct (Hp q Hi) as (N & _). congruence.
    Qed.

    (** ** Types that can be read *)
    Theorem factory_readable : maps_plain fs -> closed_plain fs -> readable W.
    Proof.
      intros [MP1 MP2] CP. apply Forall_forall. intros t Ht. destruct (in_types t Ht) as (full & m & s & ws & Hx & B). split.
      - apply Forall_forall. intros [f l] Hf. cbn [fst]. assert (Hw : In f ws) by (rewrite <- (bt_fields _ _ _ _ B); apply in_map_iff; exists (f, l); auto).
        destruct (Forall2_in_r _ _ _ _ (bt_infos _ _ _ _ B) Hw) as (p & Hp & H). pose proof (info_means _ _ _ _ _ Hx Hp H) as M. destruct (scoped_field fs pl Hrep Hpl _ _ _ _ Hx Hp) as (_ & _ & _ & Hs).
        pose proof (fm_type _ _ _ _ _ _ M) as T. split.
        + intros Hc. unfold closed_plain in CP. rewrite Forall_forall in CP. specialize (CP _ Hs). destruct T as [| | | | | | |e es T1 T2 T3|]; try discriminate Hc. destruct (CP e es T1 T2 T3) as [C1 C2]. split.
          * destruct (w_oneof f) as [o|] eqn:Eo; [|reflexivity]. assert (K : fp_oneof p = Some (Z.of_nat o)) by (apply (fm_oneof _ _ _ _ _ _ M); eauto). congruence.
          * intros Hr. apply (fm_presence _ _ _ _ _ _ M). apply C2. intros K. apply (fm_repeated _ _ _ _ _ _ M) in K. unfold is_rep in K. rewrite Hr in K. discriminate.
        + intros ty d He Hentry. rewrite He in T. inversion T as [| | | | | |n ty' d' K1 K2 K3 K4| |]; subst. rewrite Forall_forall in MP1. specialize (MP1 _ Hs).
          assert (Hn : exists k, In (n, k) (all_messages fs) /\ mp_entry k = true).
          { rewrite <- (scoped_all fs pl Hrep Hpl), map_map, nth_error_map in K3. destruct (nth_error (concat (map scoped_messages fs)) ty) as [[[a k] sk]|] eqn:Ek; [|discriminate]. cbn in K3. injection K3 as ->. exists k.
            split; [apply (scoped_valid fs pl Hrep Hpl n k sk); eapply nth_error_In; eauto|].
            pose proof factory_types as FT. assert (Hty : exists t', nth_error W ty = Some t') by (destruct (nth_error W ty) eqn:E; [eauto|]; apply nth_error_None in E; apply forall2_length in FT; assert (Q : nth_error scoped ty <> None) by (unfold scoped; congruence); apply nth_error_Some in Q; lia).
            destruct Hty as (t' & Et). pose proof (Forall2_at _ _ _ FT ty (n, k, sk) t' Ek Et) as [Q _]. unfold wty in Hentry. rewrite (nth_error_nth _ _ _ Et) in Hentry. congruence. }
          destruct Hn as (k & Hk & Hke). destruct (MP1 n k K1 K2 Hk Hke) as (L1 & L2 & L3). split.
          * intros Hr. apply (fm_repeated _ _ _ _ _ _ M) in L1. unfold is_rep in L1. rewrite Hr in L1. discriminate.
          * destruct d; [|reflexivity]. destruct (proj1 K4 eq_refl); contradiction.
      - rewrite (bt_entry _ _ _ _ B). intros He. destruct (scoped_valid fs pl Hrep Hpl _ _ _ Hx) as (Hi & _ & _). rewrite Forall_forall in MP2. destruct (MP2 _ Hi He) as (p & Hp & L). cbn [snd] in Hp.
        pose proof (bt_infos _ _ _ _ B) as I. destruct (nth_error ws 1) as [w|] eqn:Ew; [|apply nth_error_None in Ew; apply forall2_length in I; assert (Q : nth_error (mp_fields m) 1 <> None) by congruence; apply nth_error_Some in Q; lia].
        pose proof (Forall2_at _ _ _ I 1%nat p w Hp Ew) as H. pose proof (info_means _ _ _ _ _ Hx (nth_error_In _ _ Hp) H) as M. rewrite <- (bt_fields _ _ _ _ B), nth_error_map in Ew.
        destruct (nth_error (w_fields t) 1) as [[f l]|] eqn:Ef; [|discriminate]. injection Ew as ->. exists w, l. split; [reflexivity|]. destruct (w_rep w) eqn:Er; [|reflexivity]. exfalso. apply L, (fm_repeated _ _ _ _ _ _ M). unfold is_rep. rewrite Er. reflexivity.
    Qed.

    (** ** Lookups and tags *)
    Theorem factory_lookup n ty : get_message_type pl n = Some ty <-> nth_error (map fst (all_messages fs)) ty = Some n.
    Proof. apply (message_index_iff fs pl Hrep Hpl). Qed.
    Theorem factory_unknown n : get_message_type pl n = None <-> ~ In n (map fst (all_messages fs)).
    Proof. destruct (message_names fs pl Hrep Hpl) as [A _]. unfold get_message_type, message_index. rewrite A. apply index_of_none. Qed.
    Lemma elem_wire f e : 1 <= fp_type (fd_proto f) <= 18 -> (fp_type (fd_proto f) = TYPE_GROUP -> fa_delimited (fd_attrs f) = true) ->
      (fa_delimited (fd_attrs f) = true -> fp_type (fd_proto f) = TYPE_GROUP \/ fp_type (fd_proto f) = TYPE_MESSAGE) -> elem_of pl f = Some e ->
      elem_wt e = if fa_delimited (fd_attrs f) then WT_SGROUP else snd (runtime_traits_for (fp_type (fd_proto f))).
    Proof.
      intros Hl Hg Hd. unfold TYPE_GROUP, TYPE_MESSAGE in *. unfold elem_of, shape_of, runtime_traits_for.
      assert (N : fp_type (fd_proto f) <> 10 -> fp_type (fd_proto f) <> 11 -> fa_delimited (fd_attrs f) = false) by (intros A B; destruct (fa_delimited (fd_attrs f)); [destruct (Hd eq_refl); contradiction|reflexivity]).
      types Hl; symmetry in Hl; rewrite Hl in *;
        match goal with |- context [nth (Z.to_nat (?a - 1)) runtime_type_traits ?d] => let v := eval vm_compute in (nth (Z.to_nat (a - 1)) runtime_type_traits d) in change (nth (Z.to_nat (a - 1)) runtime_type_traits d) with v end; cbn [fst snd].
      all: try (intros H; injection H as <-; rewrite N by discriminate; reflexivity).
      - destruct (message_index pl _); cbn [option_map]; [|discriminate]. intros H. injection H as <-. rewrite (Hg eq_refl). reflexivity.
      - destruct (message_index pl _); cbn [option_map]; [|discriminate]. intros H. injection H as <-. cbn. destruct (fa_delimited (fd_attrs f)); reflexivity.
      - destruct (enum_of pl _); cbn [option_map]; [|discriminate]. intros H. injection H as <-. rewrite N by discriminate. reflexivity.
    Qed.
    Lemma info_tag full m s p w : In (full, m, s) scoped -> In p (mp_fields m) -> field_info fc pl (FDsc p (field_attrs (eff s) (mp_entry m) p)) = Some w ->
      serialized_tag (FDsc p (field_attrs (eff s) (mp_entry m) p)) = stag w.
    Proof.
      intros Hx Hp H. set (f := FDsc p _) in *. destruct (scoped_field fs pl Hrep Hpl _ _ _ _ Hx Hp) as (G & At & _ & _). pose proof (info_means _ _ _ _ _ Hx Hp H) as M.
      unfold serialized_tag, stag, make_tag, wire_of. rewrite (fm_number _ _ _ _ _ _ M). unfold serialized_wire_type. change (fd_proto f) with p. f_equal.
      assert (Pk : packed w = fa_packed (fd_attrs f)).
      { pose proof (fm_packed _ _ _ _ _ _ M) as A. pose proof (at_packed _ _ _ _ At) as B. change (field_attrs (eff s) (mp_entry m) p) with (fd_attrs f) in B. rewrite <- B in A. destruct (packed w), (fa_packed (fd_attrs f)); try reflexivity; [symmetry|]; apply A; reflexivity. }
      rewrite Pk. destruct (fa_packed (fd_attrs f)); [reflexivity|]. symmetry. unfold field_info in H. destruct (elem_of pl f) as [e|] eqn:Ee; [|discriminate]. injection H as <-. cbn [w_elem].
      pose proof (at_delimited _ _ _ _ At) as D. change (field_attrs (eff s) (mp_entry m) p) with (fd_attrs f) in D.
      apply elem_wire; [apply (good_type fs p G)| | |exact Ee]; change (fd_proto f) with p; intros K; [apply D; auto|apply D in K; tauto].
    Qed.
    (** The tags the factory stores, beside the fields. *)
    Theorem factory_tags : Forall2 (fun x t => map serialized_tag (fields_of (dsc_of x)) = map (fun fl => stag (fst fl)) (w_fields t)) scoped W.
    Proof.
      destruct made_pool as (_ & _ & F). revert F. apply forall2_map. intros [[full m] s] t Hx _ H. destruct (built_of _ _ _ _ Hx H) as (ws & B).
      rewrite <- (map_map fst stag), (bt_fields _ _ _ _ B). unfold fields_of, dsc_of. cbn [md_feat md_proto]. rewrite map_map. pose proof (bt_infos _ _ _ _ B) as I.
      assert (J : Forall2 (fun p w => serialized_tag (FDsc p (field_attrs (eff s) (mp_entry m) p)) = stag w) (mp_fields m) ws) by (revert I; apply forall2_map; intros p w Hp _ K; eapply info_tag; eassumption).
      clear - J. induction J; cbn [map]; congruence.
    Qed.

    (** ** New messages *)
    Lemma dyn_layout ws : dfields (map dyn_of ws) = map (fun f => DField (w_oneof f) (is_rep f)) ws.
    Proof.
      unfold dfields. rewrite map_map. apply map_ext. intros w. unfold dyn_of. cbn [y_oneof]. f_equal. unfold repeated. cbn [y_kind]. unfold kind_of. destruct (w_elem w), (is_rep w); reflexivity.
    Qed.
    Lemma made_of full m s t ws : no_implicit_defaults fs -> In (full, m, s) scoped -> built m s t ws ->
      made (mp_oneofs m) (map dyn_of ws) (DType (map (fun fl => (dyn_of (fst fl), snd fl)) (w_fields t)) (w_slots t)).
    Proof.
      intros ND Hx B. split; [rewrite dyn_layout; apply (bt_valid _ _ _ _ B)|]. split.
      - pose proof (built_good _ _ _ _ _ ND Hx B) as G. unfold fields_valid. apply Forall_forall. intros y Hy. apply in_map_iff in Hy. destruct Hy as (w & <- & Hw). rewrite Forall_forall in G. destruct (G w Hw) as (_ & G2 & _ & G4). split; [exact G2|exact G4].
      - unfold dtype_of. pose proof (bt_type _ _ _ _ B) as T. unfold wtype_of in T. fold (dfields (map dyn_of ws)). rewrite dyn_layout. destruct (slot_layout _ _) as [[ls k]|]; [|discriminate]. injection T as <-. cbn. f_equal. f_equal.
        clear. revert ls. induction ws as [|w ws IH]; intros [|l ls]; cbn; try reflexivity. f_equal. apply IH.
    Qed.
    Notation new_value := (new_value fc fs).
    Lemma default_new p entry sc f : field_means fc fs p entry sc f -> new_value (has_presence p entry sc) p (DynMain.default_value (dyn_of f)).
    Proof.
      intros M. pose proof (fm_type _ _ _ _ _ _ M) as T. pose proof (fm_repeated _ _ _ _ _ _ M) as R. pose proof (fm_default _ _ _ _ _ _ M) as D.
      unfold DynMain.default_value, dyn_of. cbn [y_kind y_dint y_dbytes].
      assert (Sc : forall e, w_elem f = e -> Schema.packable e = true -> ~ In (fp_type p) [TYPE_STRING; TYPE_BYTES; TYPE_MESSAGE; TYPE_GROUP]).
      { intros e He Hp. rewrite He in T. apply (packable_type fc fs p e sc T) in Hp. unfold PoolSpec.packable in Hp. cbn [In]. intuition. }
      destruct (is_rep f) eqn:Er.
      - assert (L : fp_label p = LABEL_REPEATED) by (apply R; reflexivity). destruct (w_elem f) as [vt| |b1 b2|c|u v|ty dl] eqn:Ee; cbn [kind_of];
          try (apply NvNumbers; [exact L|eapply Sc; [reflexivity|reflexivity]]).
        + apply NvTexts; [exact L|]. inversion T as [| | | |u' K|K| | |]; subst; rewrite K; cbn; auto.
        + apply NvMessages; [exact L|]. inversion T as [| | | | | |n ty' d' K| |]; subst. cbn in K |- *. tauto.
      - assert (L : fp_label p <> LABEL_REPEATED) by (intros K; apply R in K; discriminate). destruct (D L) as [D1 D2]. destruct (w_elem f) as [vt| |b1 b2|c|u v|ty dl] eqn:Ee; cbn [kind_of];
          try (apply NvNumber; [exact L|eapply Sc; [reflexivity|reflexivity]|exact D1]).
        + rewrite D2. assert (K : In (fp_type p) [TYPE_STRING; TYPE_BYTES]) by (inversion T as [| | | |u' K|K| | |]; subst; rewrite K; cbn; auto).
          replace ((fp_type p =? TYPE_STRING) || (fp_type p =? TYPE_BYTES)) with true by (cbn in K; destruct K as [<-|[<-|[]]]; reflexivity). apply NvText; [exact L|exact K].
        + apply NvMessage; [exact L|]. inversion T as [| | | | | |n ty' d' K| |]; subst. cbn in K |- *. tauto.
    Qed.
    Notation new_reads := (new_reads fc fs).
    Theorem factory_new : no_implicit_defaults fs -> Forall2 new_reads scoped W.
    Proof.
      intros ND. destruct made_pool as (_ & _ & F). revert F. apply forall2_map. intros [[full m] s] t Hx _ H. destruct (built_of _ _ _ _ Hx H) as (ws & B). intros j p f l Hp Hf slot.
      pose proof (made_of _ _ _ _ _ ND Hx B) as Mk. set (dt := DType _ _) in Mk.
      assert (Hfd : Dyn.field dt j = Some (dyn_of f, l)) by (unfold Dyn.field, dt; cbn [t_fields]; rewrite nth_error_map, Hf; reflexivity).
      pose proof (new_look _ _ _ _ _ _ Mk Hfd) as Lk. unfold look in Lk. rewrite Hfd in Lk. unfold slot_at, Dyn.new_message, dt in Lk. cbn [t_slots] in Lk. fold slot in Lk. injection Lk as L1 L2. split; [exact L1|]. rewrite L2.
      apply default_new. pose proof (bt_infos _ _ _ _ B) as I. assert (Hw : nth_error ws j = Some f) by (rewrite <- (bt_fields _ _ _ _ B), nth_error_map, Hf; reflexivity).
      pose proof (Forall2_at _ _ _ I j p f Hp Hw) as K. eapply info_means; [exact Hx|eapply nth_error_In; eauto|exact K].
    Qed.

    (** ** Default values fit *)
    Hypothesis fc_fits : forall is64 t z, fc is64 t = Some z -> 0 <= z < 2 ^ (if is64 then 64 else 32).
    Hypothesis enums_fit : Forall (fun e => Forall (fun v => fits_s 32 (snd v)) (ep_values (snd e))) (all_enums fs).
    Hypothesis texts_fit : Forall (fun p => all_bytes (fp_default p)) (message_fields fs).
    Lemma enum_fits p e sc n z : of_enum fs p e sc -> In (n, z) (ep_values e) -> fits_s 32 z.
    Proof.
      intros O Hi. destruct (of_enum_spec fs pl Hrep Hpl p e sc O) as (d & E & <-). assert (K : In (tl (fp_type_name p), ed_proto d) (all_enums fs)) by (apply (pool_enum_lookup fs pl Hrep Hpl); exists d; auto).
      rewrite Forall_forall in enums_fit. specialize (enums_fit _ K). cbn [snd] in enums_fit. rewrite Forall_forall in enums_fit. apply (enums_fit _ Hi).
    Qed.
    Lemma default_fits p entry sc f : In p (message_fields fs) -> field_means fc fs p entry sc f -> (is_rep f = true -> w_dint f = 0 /\ w_dbytes f = []) -> scalar (w_elem f) = true -> DynView.fits (w_elem f) (w_default f).
    Proof.
      intros Hp M Z Hs. pose proof (fm_type _ _ _ _ _ _ M) as T. pose proof (fm_default _ _ _ _ _ _ M) as D. unfold w_default.
      destruct (is_rep f) eqn:Er.
      - destruct (Z eq_refl) as [Z1 Z2]. rewrite Z1, Z2. destruct (w_elem f) as [[]| |[] b2|c|u v|ty dl]; cbn in Hs |- *; try discriminate; try (constructor; fail); try (unfold fits_s, fits_u; lia); auto.
      - assert (L : fp_label p <> LABEL_REPEATED) by (intros K; apply (fm_repeated _ _ _ _ _ _ M) in K; congruence). destruct (D L) as [D1 D2].
        assert (EN : fp_type p = TYPE_ENUM -> fits_s 32 (w_dint f)).
        { intros Ht. inversion D1 as [y K|y K|y K|y K|y K|y K|y K E1|y K E1|y K|y K|K|K|K|e es y K O N1 (a & b & N2 & _) N3|e es n y vs K O N1 N2 N3|e es K O N1 N2 N3]; try (rewrite Ht in K; cbn in K; exfalso; unfold TYPE_ENUM, TYPE_STRING, TYPE_GROUP, TYPE_MESSAGE, TYPE_BYTES in K; clear - K; lia).
          - eapply enum_fits; [exact O|]. rewrite N2. apply in_or_app. right. left. reflexivity.
          - eapply enum_fits; [exact O|]. rewrite N2. left. reflexivity.
          - unfold fits_s. lia. }
        apply inv_default in D1.
        assert (I : forall sg w y, 1 <= w -> denotes_integer sg w (fp_default p) y -> if sg then - 2 ^ (w - 1) <= y < 2 ^ (w - 1) else 0 <= y < 2 ^ w) by (intros; eapply integer_range; eauto).
        destruct T as [vt K|K|b K|b K|u K|K|n ty d K|e s K|e s K]; cbn [fits]; try discriminate Hs; try (apply EN; exact K); cbn [In] in K.
        all: try (rewrite D2; rewrite Forall_forall in texts_fit; specialize (texts_fit p Hp); destruct (_ || _); [exact texts_fit|constructor]).
        all: repeat (destruct K as [K|K]; [injection K as K <-|]); try contradiction; try (match type of K with _ = fp_type _ => symmetry in K end); rewrite K in D1; cbn [In] in D1;
          repeat (destruct D1 as [D1|D1]; [try (exfalso; destruct D1 as [D1 _]; clear - D1; lia)|]; try (exfalso; clear - D1; lia)); destruct D1 as [_ D1].
        all: try (apply I in D1; [|lia]; cbn in *; unfold fits_s, fits_u; exact D1).
        all: try (destruct D1 as (y & _ & ->); apply Z.mod_pos_bound; reflexivity).
        all: try (destruct D1 as [[_ ->]|[_ D1]]; [cbn; lia|]; apply fc_fits in D1; exact D1).
        destruct D1 as [[_ ->]|[_ ->]]; auto.
    Qed.
    Theorem factory_defaults_fit : defaults_fit W.
    Proof.
      apply Forall_forall. intros t Ht. destruct (in_types t Ht) as (full & m & s & ws & Hx & B). apply Forall_forall. intros [f l] Hf. cbn [fst].
      assert (Hw : In f ws) by (rewrite <- (bt_fields _ _ _ _ B); apply in_map_iff; exists (f, l); auto). destruct (Forall2_in_r _ _ _ _ (bt_infos _ _ _ _ B) Hw) as (p & Hp & H).
      eapply default_fits; [|eapply info_means; eassumption|intros K; eapply repeated_zero; eassumption].
      destruct (scoped_valid fs pl Hrep Hpl _ _ _ Hx) as (Hi & _). unfold message_fields. apply in_concat. exists (mp_fields m). split; [apply in_map_iff; exists (full, m); auto|exact Hp].
    Qed.
  End Made.
End Whole.
