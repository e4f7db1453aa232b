(** Proofs about the factory: which descriptors it accepts and the types it makes. *)
From Coq Require Import Ascii String.
Require Import Verif.Bits Verif.Varint Verif.CppText Verif.CppSpec Verif.Defaults Verif.Pool Verif.PoolSpec Verif.PoolProofs Verif.PoolMain Verif.PoolAttrs.
Require Import Verif.DynSlots Verif.DynSlotsProofs Verif.Dyn Verif.Schema Verif.DynWire Verif.Factory Verif.FactorySpec Verif.Factory1.
Local Open Scope list_scope.
Local Open Scope Z_scope.

Section Pool.
  Variable fc : bool -> bytes -> option Z.
  Variable fs : list fileproto.
  Variable pl : pool.
  Hypothesis Hrep : representable fs.
  Hypothesis Hpl : init fs = Done pl.

  Definition good_field (p : fproto) : Prop := legal_field p /\ resolved (map fst (all_messages fs)) (map fst (all_enums fs)) p.
  Lemma good_fields p : In p (message_fields fs ++ extensions fs) -> good_field p.
  Proof.
    intros H. pose proof (valid fs pl Hrep Hpl) as V. split; [|pose proof (vf_types _ V) as T; rewrite Forall_forall in T; auto].
    apply in_app_or in H. destruct H as [H|H]; [|pose proof (vf_extensions _ V) as T; rewrite Forall_forall in T; auto].
    unfold message_fields in H. apply in_concat in H. destruct H as (l & Hl & Hp). apply in_map_iff in Hl. destruct Hl as (d & <- & Hd).
    pose proof (vf_fields _ V) as T. rewrite Forall_forall in T. pose proof (vm_legal _ (T d Hd)) as L. rewrite Forall_forall in L. auto.
  Qed.
  Lemma pool_good f : In f (p_fields pl) -> good_field (fd_proto f).
  Proof. intros H. apply good_fields. destruct (pool_contents fs pl Hrep Hpl) as (_ & _ & _ & C). apply C, in_map, H. Qed.
  Lemma good_type p : good_field p -> 1 <= fp_type p <= 18. Proof. intros [[H _] _]. exact H. Qed.
  Lemma good_dotted p n : good_field p -> fp_type p = TYPE_ENUM -> fp_type_name p = n -> exists m, n = 46 :: m.
  Proof. intros [_ (_ & R & _)] H <-. destruct (R H) as (m & -> & _). eauto. Qed.

  Lemma default_known_iff (P : Prop) p : P \/ ~ P -> ((exists z, default_number fc fs P p z) <-> default_known fc fs p).
  Proof.
    assert (G : forall (A B : Prop), B \/ ~ B -> (exists z, default_number fc fs A p z) -> exists z, default_number fc fs B p z).
    { intros A B D (z & H). destruct H; try solve [eexists; econstructor; eassumption].
      - destruct D as [D|D]; [eexists; eapply DnFirst; eassumption|eexists; eapply DnZero; try eassumption; congruence].
      - destruct D as [D|D]; [|eexists; eapply DnZero; eassumption]. destruct (ep_values e) as [|[n z] vs] eqn:Ev; [congruence|]. eexists. eapply DnFirst; eassumption. }
    intros D. split; apply G; auto.
  Qed.
  Definition prefers (f : fdsc) : Prop := fa_explicit (fd_attrs f) || fa_required (fd_attrs f) = true.
  Lemma prefers_dec f : prefers f \/ ~ prefers f. Proof. unfold prefers. destruct (_ || _); auto. Qed.
  Lemma default_iff f z : good_field (fd_proto f) -> (default_value fc pl f = Some z <-> default_number fc fs (prefers f) (fd_proto f) z).
  Proof. intros G. apply (default_value_iff fc fs pl Hrep Hpl); [apply good_type, G|intros n; apply good_dotted, G|reflexivity]. Qed.
  Lemma checked_iff f : good_field (fd_proto f) -> (valid_default fc f = true /\ enum_ready pl f = true <-> default_known fc fs (fd_proto f)).
  Proof.
    intros G. rewrite <- (default_known_iff (prefers f)) by apply prefers_dec. transitivity (exists z, default_value fc pl f = Some z).
    - unfold valid_default, enum_ready, default_value. assert (K : forall (o : option Z), is_some o = true /\ true = true <-> exists z, o = Some z).
      { intros [z|]; cbn; split; [eauto|auto|intros [H _]; discriminate|intros (z & H); discriminate]. }
      destruct (shape_of (fd_proto f)) eqn:Es; try apply K. unfold set_default_value. rewrite Es. rewrite <- K. cbn [is_some]. tauto.
    - split; intros (z & H); exists z; apply default_iff; assumption.
  Qed.
  Lemma all_checked : (forallb (valid_default fc) (p_fields pl) = true /\ forallb (enum_ready pl) (p_fields pl) = true) <-> Forall (default_known fc fs) (message_fields fs ++ extensions fs).
  Proof.
    destruct (pool_contents fs pl Hrep Hpl) as (_ & _ & _ & C). rewrite !forallb_forall, Forall_forall. split.
    - intros [A B] p Hp. apply C in Hp. apply in_map_iff in Hp. destruct Hp as (f & <- & Hf). apply checked_iff; [apply pool_good, Hf|]. auto.
    - intros H. assert (K : forall f, In f (p_fields pl) -> valid_default fc f = true /\ enum_ready pl f = true) by (intros f Hf; apply checked_iff; [apply pool_good, Hf|]; apply H, C, in_map, Hf).
      split; intros f Hf; apply K, Hf.
  Qed.

  (** ** Types of fields *)
  Lemma message_index_iff n ty : message_index pl n = Some ty <-> nth_error (map fst (all_messages fs)) ty = Some n.
  Proof. destruct (message_names fs pl Hrep Hpl) as [A B]. unfold message_index. rewrite A. apply index_of_spec, B. Qed.
  Lemma elem_means f entry sc : good_field (fd_proto f) -> attributes (fd_proto f) entry sc (fd_attrs f) -> exists e, elem_of pl f = Some e /\ has_type fs (fd_proto f) sc e.
  Proof.
    intros [[Hl _] (Rm & Re & _)] At. unfold elem_of, shape_of, runtime_traits_for.
    assert (Hm : fp_type (fd_proto f) = TYPE_MESSAGE \/ fp_type (fd_proto f) = TYPE_GROUP -> exists e, option_map (fun ty => EMsg ty (fa_delimited (fd_attrs f))) (message_index pl (tl (fp_type_name (fd_proto f)))) = Some e /\ has_type fs (fd_proto f) sc e).
    { intros Ht. destruct (Rm Ht) as (n & Hn & Hi). apply In_nth_error in Hi. destruct Hi as (ty & Hty). rewrite Hn. cbn [tl]. rewrite (proj2 (message_index_iff n ty) Hty). eexists. split; [reflexivity|].
      eapply HtMessage; [cbn; destruct Ht as [-> | ->]; auto|exact Hn|exact Hty|]. rewrite (at_delimited _ _ _ _ At). destruct Ht as [Ht|Ht]; rewrite Ht; unfold TYPE_MESSAGE, TYPE_GROUP; split.
      - intros [K|[_ K]]; auto.
      - intros [K|K]; auto.
      - intros _. auto.
      - intros _. auto. }
    types Hl; symmetry in Hl;
      match goal with |- context [nth ?k runtime_type_traits ?d] => rewrite Hl; let v := eval vm_compute in (nth (Z.to_nat (ltac:(match type of Hl with _ = ?a => exact a end) - 1)) runtime_type_traits d) in
        change (nth (Z.to_nat (ltac:(match type of Hl with _ = ?a => exact a end) - 1)) runtime_type_traits d) with v end; cbn [fst].
    all: try solve [apply Hm; auto].
    all: try solve [eexists; split; [reflexivity|]; constructor; rewrite ?Hl; cbn; auto 10].
    - eexists. split; [reflexivity|]. apply HtString; [exact Hl|]. rewrite (at_utf8 _ _ _ _ At). rewrite Hl. unfold TYPE_STRING. tauto.
    - destruct (Re Hl) as (n & Hn & Hi). assert (Hne : enum_of pl (fd_proto f) <> None).
      { apply in_map_iff in Hi. destruct Hi as ([m e] & <- & Hi). apply (pool_enum_lookup fs pl Hrep Hpl) in Hi. destruct Hi as (d & Hd & _). unfold enum_of. rewrite Hn. cbn [tl fst]. cbn [fst] in Hd. congruence. }
      destruct (enum_of_spec fs pl Hrep Hpl _ Hne) as (d & es & E & Hc & Hx). rewrite E. cbn [option_map]. eexists. split; [reflexivity|].
      assert (O : of_enum fs (fd_proto f) (ed_proto d) es) by (exists n; split; [exact Hn|]; rewrite Hn in Hx; exact Hx).
      destruct (ed_closed d); [eapply HtClosed|eapply HtOpen]; eauto; [apply Hc; reflexivity|]. intros K. apply Hc in K. discriminate.
  Qed.

  (** ** Fields *)
  Lemma presence_iff f entry sc : good_field (fd_proto f) -> attributes (fd_proto f) entry sc (fd_attrs f) -> (explicit_presence f = true <-> has_presence (fd_proto f) entry sc).
  Proof.
    intros [[_ [Hl _]] _] At. unfold explicit_presence, has_presence. pose proof (at_repeated _ _ _ _ At) as A1. pose proof (at_required _ _ _ _ At) as A2. pose proof (at_explicit _ _ _ _ At) as A3.
    unfold LABEL_REPEATED, LABEL_REQUIRED, LABEL_OPTIONAL in *. cbn [In].
    destruct (fa_repeated (fd_attrs f)); [split; [discriminate|]; intros [K _]; exfalso; apply K, A1; reflexivity|].
    assert (Hr : fp_label (fd_proto f) <> 3) by (intros K; apply A1 in K; discriminate).
    destruct (fp_oneof (fd_proto f)) as [o|] eqn:Eo; cbn [is_some]; [split; auto; intros _; split; [exact Hr|]; right; left; discriminate|].
    destruct (fa_required (fd_attrs f)).
    - split; auto. intros _. split; [exact Hr|]. destruct (proj1 A2 eq_refl) as [K|K]; [auto 10|]. do 6 right. right. left. symmetry. exact K.
    - rewrite A3. split.
      + intros [K|[K1 K2]]; (split; [exact Hr|]); [auto|]. destruct K2 as [K|[K|[K|[K|K]]]]; auto 10.
      + intros [_ K]. assert (Hq : fp_label (fd_proto f) <> 2) by (intros J; assert (false = true) by (apply A2; auto); discriminate). destruct K as [K|[K|[K|[K|[K|[K|K]]]]]]; auto; try contradiction; right; (split; [lia|]); auto 10.
        destruct K as [K|[K|[]]]; [auto 10|]. exfalso. assert (false = true) by (apply A2; auto). discriminate.
  Qed.
  Lemma prefers_iff f entry sc : good_field (fd_proto f) -> attributes (fd_proto f) entry sc (fd_attrs f) -> fp_label (fd_proto f) <> LABEL_REPEATED -> (prefers f <-> has_presence (fd_proto f) entry sc).
  Proof.
    intros G At Hr. rewrite <- (presence_iff f entry sc G At). unfold prefers, explicit_presence. pose proof (at_repeated _ _ _ _ At) as A1. pose proof (at_required _ _ _ _ At) as A2. pose proof (at_explicit _ _ _ _ At) as A3.
    destruct (fa_repeated (fd_attrs f)); [exfalso; apply Hr, A1; reflexivity|]. destruct G as [[_ [Hl _]] _]. unfold LABEL_REPEATED, LABEL_REQUIRED, LABEL_OPTIONAL in *.
    destruct (fp_oneof (fd_proto f)) as [o|] eqn:Eo; cbn [is_some].
    - split; auto. intros _. destruct (fa_required (fd_attrs f)) eqn:E; [apply orb_true_r|]. rewrite orb_false_r. apply A3. right. split; [|do 3 right; left; discriminate].
      assert (fp_label (fd_proto f) <> 2) by (intros J; assert (false = true) by (apply A2; auto); discriminate). lia.
    - destruct (fa_required (fd_attrs f)), (fa_explicit (fd_attrs f)); cbn; tauto.
  Qed.
  Lemma packable_type p e sc : has_type fs p sc e -> (Schema.packable e = true <-> PoolSpec.packable (fp_type p)).
  Proof.
    intros H. unfold PoolSpec.packable, TYPE_STRING, TYPE_GROUP, TYPE_MESSAGE, TYPE_BYTES. destruct H as [t K|K|b K|b K|u K|K|n ty d K|e s K|e s K]; cbn [Schema.packable]; unfold TYPE_STRING, TYPE_GROUP, TYPE_MESSAGE, TYPE_BYTES, TYPE_ENUM in *; cbn [In] in K.
    - split; [|reflexivity]. intros _. repeat (destruct K as [K|K]; [injection K as K _; rewrite <- K; lia|]). contradiction.
    - split; [lia|reflexivity].
    - split; [|reflexivity]. intros _. repeat (destruct K as [K|K]; [injection K as K _; rewrite <- K; lia|]). contradiction.
    - split; [|reflexivity]. intros _. repeat (destruct K as [K|K]; [injection K as K _; rewrite <- K; lia|]). contradiction.
    - split; [discriminate|lia].
    - split; [discriminate|lia].
    - split; [discriminate|lia].
    - split; [lia|reflexivity].
    - split; [lia|reflexivity].
  Qed.
  Lemma text_type p : 1 <= fp_type p <= 18 -> is_text (shape_of p) = (fp_type p =? TYPE_STRING) || (fp_type p =? TYPE_BYTES).
  Proof. intros Hl. unfold shape_of, runtime_traits_for. types Hl; rewrite <- Hl; reflexivity. Qed.

  Lemma field_info_some f entry sc : good_field (fd_proto f) -> attributes (fd_proto f) entry sc (fd_attrs f) -> exists w, field_info fc pl f = Some w.
  Proof. intros G At. destruct (elem_means f entry sc G At) as (e & He & _). unfold field_info. rewrite He. eauto. Qed.
  Lemma field_info_means f entry sc w : good_field (fd_proto f) -> attributes (fd_proto f) entry sc (fd_attrs f) -> default_known fc fs (fd_proto f) ->
    (forall i, fp_oneof (fd_proto f) = Some i -> 0 <= i) -> field_info fc pl f = Some w -> field_means fc fs (fd_proto f) entry sc w.
  Proof.
    intros G At Hk Ho H. destruct (elem_means f entry sc G At) as (e & He & Ht). unfold field_info in H. rewrite He in H. injection H as <-.
    pose proof (at_repeated _ _ _ _ At) as A1. pose proof (at_packed _ _ _ _ At) as A2. constructor; cbn [w_num w_elem w_rep w_oneof w_explicit w_dint w_dbytes]; unfold is_rep, packed; cbn [w_rep w_elem].
    - reflexivity.
    - exact Ht.
    - rewrite <- A1. destruct (fa_repeated (fd_attrs f)); tauto.
    - rewrite <- A2. destruct (fa_repeated (fd_attrs f)) eqn:Er.
      + rewrite andb_true_iff. split; [tauto|]. intros K. split; [exact K|]. apply (packable_type _ _ _ Ht). apply A2, K.
      + split; [discriminate|]. intros K. apply A2 in K. destruct K as [K _]. apply A1 in K. discriminate.
    - intros i. destruct (fp_oneof (fd_proto f)) as [j|] eqn:Eo; cbn [option_map].
      + specialize (Ho j eq_refl). split.
        * intros K. injection K as <-. exists (Z.to_nat j). split; [reflexivity|lia].
        * intros (o & K & <-). injection K as <-. f_equal. lia.
      + split; [discriminate|]. intros (o & K & _). discriminate.
    - apply presence_iff; assumption.
    - intros Hr. assert (Er : fa_repeated (fd_attrs f) = false) by (destruct (fa_repeated (fd_attrs f)); [exfalso; apply Hr, A1; reflexivity|reflexivity]). rewrite Er. split.
      + destruct (proj2 (default_known_iff (prefers f) (fd_proto f) (prefers_dec f)) Hk) as (z & Hz). pose proof (proj2 (default_iff f z G) Hz) as E. rewrite E.
        pose proof (prefers_iff f entry sc G At Hr) as Q. apply (default_value_iff fc fs pl Hrep Hpl); [apply good_type, G|intros n; apply good_dotted, G|symmetry; exact Q|exact E].
      + rewrite text_type by apply good_type, G. reflexivity.
  Qed.
End Pool.
