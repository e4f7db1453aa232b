(** Proofs about the factory: message types. *)
From Coq Require Import Ascii String.
Require Import Verif.Bits Verif.Varint Verif.CppText Verif.CppSpec Verif.Defaults Verif.Pool Verif.PoolSpec Verif.PoolProofs Verif.PoolMain Verif.PoolAttrs.
Require Import Verif.DynSlots Verif.DynSlotsProofs Verif.Dyn Verif.Schema Verif.DynWire Verif.Factory Verif.FactorySpec Verif.Factory1 Verif.Factory2 Verif.DynMain Verif.DynView Verif.DynAgree.
Local Open Scope list_scope.
Local Open Scope Z_scope.

(** ** Oneofs *)
Definition dfield_of (p : fproto) : dfield := DField (option_map Z.to_nat (fp_oneof p)) (fp_label p =? LABEL_REPEATED).
Definition in_oneof (o : Z) (p : fproto) : bool := match fp_oneof p with Some i => i =? o | None => false end.
Section Oneofs.
  Variable l : list fproto.
  Variable n : nat.
  Hypothesis Hm : Forall (oneof_member n) l.
  Lemma nonneg p i : In p l -> fp_oneof p = Some i -> 0 <= i < Z.of_nat n.
  Proof. intros Hp Hi. rewrite Forall_forall in Hm. apply (Hm p Hp i Hi). Qed.
  Lemma oneofs_valid_of : oneofs_valid n (map dfield_of l).
  Proof.
    apply Forall_forall. intros f Hf. apply in_map_iff in Hf. destruct Hf as (p & <- & Hp). cbn. intros o. destruct (fp_oneof p) as [i|] eqn:E; cbn; [|discriminate]. intros K. injection K as <-.
    rewrite Forall_forall in Hm. destruct (Hm p Hp i E) as [R1 R2]. split; [lia|]. apply Z.eqb_neq, R2.
  Qed.
  Lemma at_of i o : oneof_at (map dfield_of l) i = Some o <-> exists p, nth_error l i = Some p /\ fp_oneof p = Some (Z.of_nat o).
  Proof.
    unfold oneof_at. rewrite nth_error_map. destruct (nth_error l i) as [p|] eqn:E; cbn [option_map].
    - cbn. destruct (fp_oneof p) as [z|] eqn:Eo; cbn.
      + pose proof (nonneg p z (nth_error_In _ _ E) Eo). split; [intros K; injection K as <-; exists p; split; [reflexivity|]; rewrite Eo; f_equal; lia|].
        intros (q & K & Kq). injection K as <-. rewrite Eo in Kq. injection Kq as ->. f_equal. lia.
      + split; [discriminate|]. intros (q & K & Kq). injection K as <-. congruence.
    - split; [discriminate|]. intros (q & K & _). discriminate.
  Qed.
  Lemma members_of o : members (map dfield_of l) o = length (filter (in_oneof (Z.of_nat o)) l).
  Proof.
    unfold members. induction l as [|p t IH]; [reflexivity|]. apply Forall_cons_iff in Hm. destruct Hm as [Hp Ht]. specialize (IH Ht). cbn [map filter]. unfold in_oneof at 1. cbn [dfield_of d_oneof]. destruct (fp_oneof p) as [i|] eqn:E; cbn [option_map]; [|exact IH].
    destruct (Hp i E) as [R _]. replace (Z.to_nat i =? o)%nat with (i =? Z.of_nat o); [destruct (i =? Z.of_nat o); cbn [length]; congruence|].
    destruct (Z.eqb_spec i (Z.of_nat o)), (Nat.eqb_spec (Z.to_nat i) o); lia.
  Qed.
  Lemma together_iff : contiguous (map dfield_of l) /\ (forall o, Z.of_nat (members (map dfield_of l) o) <= 65534) <->
    (forall i j k p q r o, (i < j < k)%nat -> nth_error l i = Some p -> nth_error l j = Some q -> nth_error l k = Some r -> fp_oneof p = Some o -> fp_oneof r = Some o -> fp_oneof q = Some o) /\
    (forall o, Z.of_nat (length (filter (in_oneof o) l)) <= 65534).
  Proof.
    split; intros [A B]; split.
    - intros i j k p q r o Hi Ei Ej Ek Op Or. pose proof (nonneg p o (nth_error_In _ _ Ei) Op). specialize (A i j k (Z.to_nat o) Hi). rewrite !at_of, Z2Nat.id in A by lia.
      destruct A as (q' & Eq & Oq); [eauto|eauto|]. rewrite Ej in Eq. injection Eq as <-. exact Oq.
    - intros o. destruct (Z_lt_ge_dec o 0) as [Ho|Ho].
      + assert (filter (in_oneof o) l = []) as ->; [|cbn; lia]. clear A B. assert (G : forall p, In p l -> in_oneof o p = false).
        { intros p Hp. unfold in_oneof. destruct (fp_oneof p) as [i|] eqn:E; [|reflexivity]. pose proof (nonneg p i Hp E). apply Z.eqb_neq. lia. }
        clear Hm. induction l as [|p t IH]; [reflexivity|]. cbn [filter]. rewrite (G p) by (left; reflexivity). apply IH. intros q Hq. apply G. right. exact Hq.
      + specialize (B (Z.to_nat o)). rewrite members_of, Z2Nat.id in B by lia. exact B.
    - intros i j k o Hi. rewrite !at_of. intros (p & Ep & Op) (r & Er & Or). assert (Hj : (j < length l)%nat) by (assert (nth_error l k <> None) by congruence; apply nth_error_Some in H; lia).
      destruct (nth_error l j) as [q|] eqn:Ej; [|apply nth_error_None in Ej; lia]. exists q. split; [reflexivity|]. eapply A; eauto.
    - intros o. rewrite members_of. apply B.
  Qed.
End Oneofs.

Lemma combine_fst {A B} (a : list A) (b : list B) : length b = length a -> map fst (combine a b) = a.
Proof. revert b. induction a as [|x t IH]; intros [|y b] H; cbn in *; try discriminate; try reflexivity. f_equal. apply IH. lia. Qed.
Lemma wtype_fields count entry ws t : oneofs_valid count (map (fun f => DField (w_oneof f) (is_rep f)) ws) -> wtype_of count entry ws = Some t -> map fst (w_fields t) = ws /\ w_entry t = entry.
Proof.
  intros V H. unfold wtype_of in H. destruct (slot_layout count _) as [[ls k]|] eqn:E; [|discriminate]. injection H as <-. cbn. split; [|reflexivity].
  destruct (laid_of _ _ _ _ V E) as (st & _ & L). apply combine_fst. pose proof (la_len _ _ _ _ L) as K. rewrite map_length in K. exact K.
Qed.

Section Pool.
  Variable fc : bool -> bytes -> option Z.
  Variable fs : list fileproto.
  Variable pl : pool.
  Hypothesis Hrep : representable fs.
  Hypothesis Hpl : init fs = Done pl.
  Let scoped := concat (map scoped_messages fs).

  Lemma mmap_scoped : s_mmap (p_state pl) = map dsc_of scoped.
  Proof. pose proof (init_verdict fs Hrep) as V. rewrite Hpl in V. destruct V as [Va (_ & _ & _ & D & _)]. rewrite D. apply all_scoped, (vf_edition _ Va). Qed.
  Lemma scoped_all : map (fun x => (fst (fst x), snd (fst x))) scoped = all_messages fs.
  Proof.
    destruct (pool_contents fs pl Hrep Hpl) as (_ & B & _). rewrite mmap_scoped, map_map in B. rewrite <- B. apply map_ext. intros [[a m] s]. reflexivity.
  Qed.
  Lemma scoped_valid full m s : In (full, m, s) scoped -> In (full, m) (all_messages fs) /\ valid_message m /\ based s.
  Proof.
    intros H. assert (Hi : In (full, m) (all_messages fs)) by (rewrite <- scoped_all; apply in_map_iff; exists (full, m, s); auto). split; [exact Hi|]. split.
    - pose proof (vf_fields _ (valid fs pl Hrep Hpl)) as V. rewrite Forall_forall in V. apply (V _ Hi).
    - pose proof (messages_based fs) as B. rewrite Forall_forall in B. apply (B _ H).
  Qed.
  Lemma scoped_field full m s p : In (full, m, s) scoped -> In p (mp_fields m) ->
    good_field fs p /\ attributes p (mp_entry m) (s ++ [fp_feat p]) (field_attrs (eff s) (mp_entry m) p) /\ In p (message_fields fs ++ extensions fs) /\
    In (p, mp_entry m, s ++ [fp_feat p]) (scoped_fields fs).
  Proof.
    intros H Hp. destruct (scoped_valid _ _ _ H) as (Hi & _ & B).
    assert (Hin : In p (message_fields fs ++ extensions fs)) by (apply in_or_app; left; unfold message_fields; apply in_concat; exists (mp_fields m); split; [apply in_map_iff; exists (full, m); auto|exact Hp]).
    split; [apply (good_fields fs pl Hrep Hpl), Hin|]. split; [apply attrs_spec, B|]. split; [exact Hin|].
    unfold scoped_fields. apply in_or_app. left. apply in_concat. eexists. split; [apply in_map_iff; exists (full, m, s); split; [reflexivity|exact H]|]. apply in_or_app. left. unfold PoolSpec.scoped. apply in_map_iff. exists p. auto.
  Qed.

  (** The fields of a message. *)
  Lemma infos full m s : In (full, m, s) scoped -> exists ws, all_some (map (field_info fc pl) (fields_of (dsc_of (full, m, s)))) = Some ws /\
    Forall2 (fun p w => field_info fc pl (FDsc p (field_attrs (eff s) (mp_entry m) p)) = Some w) (mp_fields m) ws /\
    map (fun f => DField (w_oneof f) (is_rep f)) ws = map dfield_of (mp_fields m).
  Proof.
    intros H. unfold fields_of, dsc_of. cbn [md_feat md_proto].
    assert (E : exists ws, all_some (map (field_info fc pl) (map (fun p => FDsc p (field_attrs (eff s) (mp_entry m) p)) (mp_fields m))) = Some ws).
    { apply all_some_forall. rewrite map_map. apply Forall_forall. intros o Ho. apply in_map_iff in Ho. destruct Ho as (p & <- & Hp).
      destruct (scoped_field _ _ _ _ H Hp) as (G & At & _). eapply (field_info_some fc fs pl Hrep Hpl (FDsc p _)); [exact G|exact At]. }
    destruct E as (ws & E). exists ws. split; [exact E|]. rewrite map_map in E. apply all_some_map in E. split; [exact E|].
    clear H. induction E as [|p w t ws Hw _ IH]; [reflexivity|]. cbn [map]. f_equal; [|exact IH].
    unfold field_info in Hw. destruct (elem_of pl _) as [e|]; [|discriminate]. injection Hw as <-. unfold dfield_of, is_rep. cbn [w_oneof w_rep fd_proto fd_attrs field_attrs fa_repeated]. destruct (fp_label p =? LABEL_REPEATED); reflexivity.
  Qed.
  Lemma message_type_iff full m s : In (full, m, s) scoped -> ((exists t, message_type fc pl (dsc_of (full, m, s)) = Some t) <-> oneofs_together m).
  Proof.
    intros H. destruct (infos _ _ _ H) as (ws & E & _ & D). unfold message_type. rewrite E. cbn [dsc_of md_proto]. destruct (scoped_valid _ _ _ H) as (_ & V & _).
    pose proof (together_iff (mp_fields m) _ (vm_oneof _ V)) as T. unfold oneofs_together.
    unfold in_oneof in T. rewrite <- T. rewrite <- (accepted_iff _ _ (oneofs_valid_of _ _ (vm_oneof _ V))). unfold wtype_of. rewrite D. split.
    - intros (t & K). destruct (slot_layout _ _) as [[ls k]|]; [eauto|discriminate].
    - intros (ls & k & K). rewrite K. eauto.
  Qed.
End Pool.
