(** Proofs about the factory: google.protobuf.Any and its neighbours have the fields the theorems on Any in JSON ask for. *)
From Coq Require Import Ascii String.
Require Import Verif.Bits Verif.Varint Verif.CppText Verif.Pool Verif.PoolSpec Verif.PoolMain.
Require Import Verif.DynSlots Verif.Dyn Verif.Schema Verif.DynWire Verif.DynJson Verif.DynJsonSpec Verif.DynAnySpec Verif.DynAny Verif.DynAny2 Verif.DynAny3 Verif.Archive Verif.Factory Verif.FactorySpec Verif.FactoryJson Verif.FactoryJsonSpec Verif.Factory3 Verif.Factory4 Verif.Factory5 Verif.Factory6.
Local Open Scope list_scope.
Local Open Scope Z_scope.

Section Made.
  Variable fc : bool -> bytes -> option Z.
  Variable fs : list fileproto.
  Hypothesis Hrep : representable fs.
  Variable pl : pool.
  Variable W : list wtype.
  Hypothesis Hinit : initialize fc fs = Done (pl, W).
  Notation scoped := (concat (map scoped_messages fs)).
  Notation J := (json_types pl).
  Let Hpl7 := Hpl6 fc fs Hrep pl W Hinit.
  Notation known_type := (known_type fc fs Hrep pl W Hinit).

  Lemma own_entry f nm k ty m s : In f fs -> own_form f nm k -> nth_error scoped ty = Some (txt nm, m, s) -> w_entry (wty W ty) = false.
  Proof.
    intros Hf O Hx.
    assert (T : exists i m0 s0, nth_error (scoped_messages f) i = Some (txt nm, m0, s0) /\ mp_entry m0 = false).
    { inversion O; subst; try (exists 0%nat; do 2 eexists; split; [vm_compute; reflexivity|reflexivity]).
      - exists 2%nat; do 2 eexists; split; [vm_compute; reflexivity|reflexivity].
      - exists 3%nat; do 2 eexists; split; [vm_compute; reflexivity|reflexivity].
      - match goal with H : In _ _ |- _ => cbn [In] in H; repeat (destruct H as [<-|H]; [first
          [ exists 0%nat; do 2 eexists; split; [vm_compute; reflexivity|reflexivity] | exists 1%nat; do 2 eexists; split; [vm_compute; reflexivity|reflexivity]
          | exists 2%nat; do 2 eexists; split; [vm_compute; reflexivity|reflexivity] | exists 3%nat; do 2 eexists; split; [vm_compute; reflexivity|reflexivity]
          | exists 4%nat; do 2 eexists; split; [vm_compute; reflexivity|reflexivity] | exists 5%nat; do 2 eexists; split; [vm_compute; reflexivity|reflexivity]
          | exists 6%nat; do 2 eexists; split; [vm_compute; reflexivity|reflexivity] | exists 7%nat; do 2 eexists; split; [vm_compute; reflexivity|reflexivity]
          | exists 8%nat; do 2 eexists; split; [vm_compute; reflexivity|reflexivity] ]|]); destruct H end. }
    destruct T as (i & m0 & s0 & Hi & En). destruct (known_type ty _ m s f _ m0 s0 Hx Hf eq_refl (nth_error_In _ _ Hi)) as (_ & _ & _ & _ & _ & E). congruence.
  Qed.
  Lemma known_form ty n m s : nth_error scoped ty = Some (n, m, s) -> known_of J ty <> KNone -> exists f nm, In f fs /\ own_form f nm (known_of J ty) /\ n = txt nm.
  Proof.
    intros Hx Hk. pose proof (known_at fc fs Hrep pl W Hinit _ _ _ _ Hx) as K. rewrite K in Hk |- *. apply (known_kind_iff fs pl Hrep Hpl7 n _ Hk). reflexivity.
  Qed.
  Theorem factory_any : atypes_ok W J.
  Proof.
    intros ty. destruct (nth_error scoped ty) as [[[n m] s]|] eqn:Hx.
    - split; [|split].
      + intros Hk. destruct (known_form _ _ _ _ Hx Hk) as (f & nm & Hf & O & ->). exact (own_entry f nm _ ty m s Hf O Hx).
      + intros Hk. assert (Hk' : known_of J ty <> KNone) by congruence. destruct (known_form _ _ _ _ Hx Hk') as (f & nm & Hf & O & ->). rewrite Hk in O. inversion O; subst.
        destruct (known_type ty _ m s any_proto _ _ _ Hx Hf eq_refl (nth_error_In (scoped_messages any_proto) 0 eq_refl)) as (ws & F & -> & _).
        apply forall2_S in F. destruct F as (w1 & k1 & -> & F1 & F). apply forall2_1 in F. destruct F as (w2 & -> & F2). exists false, false. cbn [map].
        f_equal; [eapply (shape_at fc pl _ _ _ _ _ _ F1); vm_compute; reflexivity|f_equal; eapply (shape_at fc pl _ _ _ _ _ _ F2); vm_compute; reflexivity].
      + intros Hk g l t d Hg Hm. assert (Hk' : known_of J ty <> KNone) by congruence. destruct (known_form _ _ _ _ Hx Hk') as (f & nm & Hf & O & ->). rewrite Hk in O. inversion O; subst.
        destruct (known_type ty _ m s struct_proto _ _ _ Hx Hf eq_refl (nth_error_In (scoped_messages struct_proto) 3 eq_refl)) as (ws & F & Sh & _).
        apply forall2_1 in F. destruct F as (w & -> & F). destruct (ref_elem fc pl _ _ (txt "google.protobuf.Value") F eq_refl eq_refl) as (te & E1 & I1).
        cbn [map] in Sh. rewrite (shape_at fc pl _ _ _ true None false F E1 eq_refl eq_refl eq_refl) in Sh.
        assert (Hs : In (DynJsonSpec.shape g) (shapes W ty)) by (unfold shapes; apply in_map_iff; exists (g, l); auto). rewrite Sh in Hs. destruct Hs as [Hs|[]]. unfold DynJsonSpec.shape in Hs. assert (t = te) by congruence. subst t.
        exact (proj1 (ref_known fc fs Hrep pl W Hinit struct_proto "google.protobuf.Value" KValue te 2 _ _ Hf OfValue ltac:(discriminate) eq_refl I1)).
    - destruct (no_type fc fs Hrep pl W Hinit _ Hx) as [E1 E2]. unfold known_of. rewrite E1, E2. cbn. split; [congruence|]. split; [discriminate|]. discriminate.
  Qed.

  (** ** URLs *)
  Theorem url_resolves url ty : type_of (get_message_type pl) url = Ok ty <->
    exists p name, url = p ++ 47 :: name /\ name <> [] /\ ~ In 47 name /\ nth_error (map fst (all_messages fs)) ty = Some name.
  Proof.
    unfold type_of. split.
    - destruct (after_slash url) as [name|] eqn:E; [|discriminate]. apply slash_name in E. destruct E as (A & B & p & C). destruct (get_message_type pl name) as [t|] eqn:G; [|discriminate]. intros H. injection H as ->.
      exists p, name. split; [exact C|]. split; [exact A|]. split; [exact B|]. apply (factory_lookup fc fs Hrep pl W Hinit). exact G.
    - intros (p & name & A & B & C & D). assert (E : after_slash url = Some name) by (apply slash_name; eauto). rewrite E. apply (factory_lookup fc fs Hrep pl W Hinit) in D. rewrite D. reflexivity.
  Qed.
  Theorem url_means url ty : type_of (get_message_type pl) url = Ok ty ->
    exists p name m s, url = p ++ 47 :: name /\ In (name, m) (all_messages fs) /\ nth_error W ty = Some (wty W ty) /\ type_means fc fs (name, m, s) (wty W ty).
  Proof.
    intros H. apply url_resolves in H. destruct H as (p & name & A & _ & _ & B). pose proof (factory_types fc fs Hrep pl W Hinit) as F.
    destruct (index_type fc fs Hrep pl W Hinit _ _ B) as (m & s & Hx). destruct (forall2_nth _ _ _ _ _ F Hx) as (t & Ht & M). exists p, name, m, s.
    assert (E : wty W ty = t) by (unfold wty; apply nth_error_nth; exact Ht). rewrite E. split; [exact A|]. split; [|split; [exact Ht|exact M]].
    apply nth_error_In in Hx. exact (proj1 (scoped_valid fs pl Hrep Hpl7 _ _ _ Hx)).
  Qed.
  Theorem unknown_refused utf8_ok le maxd fshow n ty m f0 l0 f1 l1 url data :
    known_of J ty = KAny -> w_fields (wty W ty) = [(f0, l0); (f1, l1)] -> value (dyn_of f0) l0 (slot_at m l0) = FBytes url -> value (dyn_of f1) l1 (slot_at m l1) = FBytes data ->
    has (f0, l0) m = true -> url <> [] -> 0 <= maxd -> (forall p name, url = p ++ 47 :: name -> ~ In name (map fst (all_messages fs))) ->
    awrite_json W J utf8_ok le maxd fshow (get_message_type pl) (S n) ty m = Err BadMessage.
  Proof.
    intros K F V0 V1 Hh U M N. refine (any_refused W J utf8_ok le maxd fshow (fun _ _ => None) (get_message_type pl) factory_any n ty m f0 l0 f1 l1 url data K F V0 V1 Hh (or_introl U) M _).
    left. intros t C. apply url_resolves in C. destruct C as (p & name & A & _ & _ & B). apply (N p name A). eapply nth_error_In. exact B.
  Qed.
End Made.
