(** The oneofs of messages of the factory. *)
Require Import Verif.Bits Verif.Pool Verif.PoolSpec Verif.PoolAttrs Verif.DynSlots Verif.Dyn Verif.DynMain Verif.DynWire Verif.DynAccess Verif.DynAccess1 Verif.DynAccess2 Verif.DynOneof Verif.DynOneofSpec Verif.DynOneof1.
Require Import Verif.Factory Verif.FactorySpec Verif.FactoryAccess Verif.FactoryAccessSpec Verif.Factory4 Verif.Factory6 Verif.Factory8.
Local Open Scope list_scope.
Local Open Scope Z_scope.

Section Made.
  Variables (fc : bool -> bytes -> option Z) (fs : list fileproto) (pl : pool) (W : list wtype) (ty : nat) (name : bytes) (m : mproto).
  Hypothesis Hrep : representable fs.
  Hypothesis Hinit : initialize fc fs = Done (pl, W).
  Hypothesis ND : no_implicit_defaults fs.
  Hypothesis Hty : nth_error (all_messages fs) ty = Some (name, m).
  Let M := access_made fc fs Hrep pl W Hinit ty name m Hty ND.

  Theorem member_proto i o : member (types_of W ty) i o <-> exists p, nth_error (mp_fields m) i = Some p /\ fp_oneof p = Some (Z.of_nat o).
  Proof.
    pose proof (access_shown fc fs Hrep pl W Hinit ty name m Hty) as S. split.
    - intros (f & l & H & O). destruct (made_field _ _ _ _ _ _ M H) as (_ & _ & _ & Hf & _). rewrite nth_error_map in Hf. destruct (nth_error (access_fields fc pl ty) i) as [a|] eqn:A; [|discriminate Hf]. injection Hf as <-.
      destruct (forall2_nth_r _ _ _ _ _ S A) as (p & Hp & Sp). exists p. split; [exact Hp|]. apply (sh_oneof _ _ _ Sp). exists o. split; [exact O|reflexivity].
    - intros (p & Hp & O). destruct (forall2_nth _ _ _ _ _ S Hp) as (a & A & Sp). apply (sh_oneof _ _ _ Sp) in O. destruct O as (o' & O & Q). apply Nat2Z.inj in Q. subst o'.
      destruct (field_is _ _ _ M i a A) as (l & H). exists (dynf_of a), l. split; [exact H|exact O].
  Qed.
  Theorem proto_has o x : reached (mp_oneofs m) W ty (access_fields fc pl ty) x ->
    has_oneof (mp_oneofs m) (types_of W ty) (Some o) x = true <->
    exists i p, nth_error (mp_fields m) i = Some p /\ fp_oneof p = Some (Z.of_nat o) /\ present (types_of W ty) i x /\
      forall j q, nth_error (mp_fields m) j = Some q -> fp_oneof q = Some (Z.of_nat o) -> present (types_of W ty) j x -> j = i.
  Proof.
    intros R. rewrite (reached_has _ _ _ _ M o x R). split.
    - intros (i & A & P & U). apply member_proto in A. destruct A as (p & Hp & O). exists i, p. split; [exact Hp|]. split; [exact O|]. split; [exact P|]. intros j q Hq Oq. apply U. apply member_proto. eauto.
    - intros (i & p & Hp & O & P & U). exists i. split; [apply member_proto; eauto|]. split; [exact P|]. intros j A. apply member_proto in A. destruct A as (q & Hq & Oq). exact (U j q Hq Oq).
  Qed.
  Theorem proto_cleared o i p x : reached (mp_oneofs m) W ty (access_fields fc pl ty) x -> nth_error (mp_fields m) i = Some p ->
    (fp_oneof p = Some (Z.of_nat o) -> look (types_of W ty) i (clear_oneof (mp_oneofs m) (types_of W ty) (Some o) x) = look (types_of W ty) i (new_message (types_of W ty))) /\
    (fp_oneof p <> Some (Z.of_nat o) -> look (types_of W ty) i (clear_oneof (mp_oneofs m) (types_of W ty) (Some o) x) = look (types_of W ty) i x).
  Proof.
    intros R Hp. split; intros O.
    - assert (A : member (types_of W ty) i o) by (apply member_proto; eauto). destruct (cleared _ _ _ M o i x (reached_length _ _ _ _ M x R) A) as (f & l & H & ->).
      pose proof (new_look _ _ _ _ _ _ M H) as N. rewrite N. reflexivity.
    - apply (others_stay _ _ _ M). intros o' [= <-] A. apply member_proto in A. destruct A as (q & Hq & Oq). congruence.
  Qed.
  Theorem proto_active i p x : Z.of_nat (length (mp_fields m)) <= 2 ^ 31 -> reached (mp_oneofs m) W ty (access_fields fc pl ty) x -> nth_error (mp_fields m) i = Some p ->
    (forall j, active_index (types_of W ty) i x = Some (Z.of_nat j) <->
       present (types_of W ty) j x /\ exists q, nth_error (mp_fields m) j = Some q /\ (j = i \/ fp_oneof p <> None /\ fp_oneof q = fp_oneof p)) /\
    (active_index (types_of W ty) i x = Some (-1) <->
       forall j q, nth_error (mp_fields m) j = Some q -> j = i \/ fp_oneof p <> None /\ fp_oneof q = fp_oneof p -> ~ present (types_of W ty) j x).
  Proof.
    intros B R Hp. pose proof (access_shown fc fs Hrep pl W Hinit ty name m Hty) as S. destruct (forall2_nth _ _ _ _ _ S Hp) as (a & A & Sp). destruct (field_is _ _ _ M i a A) as (l & H).
    assert (B' : Z.of_nat (length (access_fields fc pl ty)) <= 2 ^ 31) by (replace (length (access_fields fc pl ty)) with (length (mp_fields m)) by (clear - S; induction S; cbn [length]; congruence); exact B).
    destruct (y_oneof (dynf_of a)) as [o|] eqn:O.
    - assert (Op : fp_oneof p = Some (Z.of_nat o)) by (apply (sh_oneof _ _ _ Sp); exists o; split; [exact O|reflexivity]). assert (Hm : member (types_of W ty) i o) by (apply member_proto; eauto).
      assert (K : forall j q, nth_error (mp_fields m) j = Some q -> (j = i \/ fp_oneof p <> None /\ fp_oneof q = fp_oneof p) <-> member (types_of W ty) j o).
      { intros j q Hq. rewrite member_proto, Op. split; [intros [->|[_ E]]; eauto|]. intros (q' & Hq' & E). right. split; [discriminate|congruence]. }
      destruct (reached_active _ _ _ _ M i o x B' R Hm) as (F & G). split.
      + intros j. rewrite F. split.
        * intros [Mj P]. split; [exact P|]. pose proof (proj1 (member_proto j o) Mj) as (q & Hq & _). exists q. split; [exact Hq|apply (K j q Hq); exact Mj].
        * intros [P (q & Hq & E)]. split; [apply (K j q Hq); exact E|exact P].
      + rewrite G. split.
        * intros N j q Hq E. apply N. apply (K j q Hq). exact E.
        * intros N j Mj. pose proof (proj1 (member_proto j o) Mj) as (q & Hq & _). apply (N j q Hq). apply (K j q Hq). exact Mj.
    - assert (Op : fp_oneof p = None).
      { destruct (fp_oneof p) as [z|] eqn:Op; [|reflexivity]. apply (sh_oneof _ _ _ Sp) in Op. destruct Op as (o & O' & _). unfold dynf_of in O. cbn [y_oneof] in O. congruence. }
      pose proof (reached_active_own _ _ _ _ M i _ l x B' H O) as F. pose proof (reached_active_none _ _ _ _ M i _ l x R H O) as G.
      assert (D : present (types_of W ty) i x \/ ~ present (types_of W ty) i x).
      { unfold present. destruct (look (types_of W ty) i x) as [[[|] v]|]; [left; eauto|right; intros (w & [=])|right; intros (w & [=])]. }
      rewrite Op. split.
      + intros j. split.
        * intros E. destruct D as [P|N]; [rewrite (F P) in E; injection E as E; replace j with i by lia; split; [exact P|]; exists p; auto|]. rewrite (G N) in E. injection E as E. lia.
        * intros [P (q & _ & [->|[[] _]])]; [exact (F P)|reflexivity].
      + split.
        * intros E j q _ [->|[[] _]]; [|reflexivity]. intros P. rewrite (F P) in E. injection E as E. lia.
        * intros N. apply G. apply (N i p Hp). left. reflexivity.
  Qed.
End Made.
