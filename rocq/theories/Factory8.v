(** Proofs about access to the fields of messages of the factory. *)
Require Import Verif.Bits Verif.Varint Verif.Pool Verif.PoolSpec Verif.PoolMain Verif.PoolAttrs Verif.DynSlots Verif.DynSlotsProofs Verif.Dyn Verif.DynMain Verif.DynClone Verif.Schema Verif.DynWire Verif.DynAccess Verif.DynAccessSpec Verif.DynAccess1 Verif.DynAccess2 Verif.DynAccess3.
Require Import Verif.Factory Verif.FactorySpec Verif.Factory1 Verif.Factory2 Verif.Factory3 Verif.Factory4 Verif.Factory5 Verif.Factory6 Verif.FactoryAccess Verif.FactoryAccessSpec.
Local Open Scope list_scope.
Local Open Scope Z_scope.

Lemma all_some_map {A B C} (g : A -> option B) (h : A -> option C) (f : B -> C -> Prop) l : (forall a, In a l -> exists b c, g a = Some b /\ h a = Some c /\ f b c) ->
  exists bs, all_some (map g l) = Some bs /\ Forall2 (fun a b => exists c, g a = Some b /\ h a = Some c /\ f b c) l bs.
Proof.
  induction l as [|a l IH]; intros H; [exists []; split; constructor|]. destruct (H a (or_introl eq_refl)) as (b & c & H1 & H2 & H3). destruct IH as (bs & E & F); [intros x Hx; apply H; right; exact Hx|].
  exists (b :: bs). cbn [map all_some]. rewrite H1, E. split; [reflexivity|]. constructor; [eauto|exact F].
Qed.

Lemma forall2_nth_r {A B} (R : A -> B -> Prop) l k i b : Forall2 R l k -> nth_error k i = Some b -> exists a, nth_error l i = Some a /\ R a b.
Proof. intros F. revert i. induction F as [|x y l k H _ IH]; intros [|i] E; cbn in *; try discriminate; [injection E as <-; eauto|]. apply IH, E. Qed.

Section Made.
  Variable fc : bool -> bytes -> option Z.
  Variable fs : list fileproto.
  Hypothesis Hrep : representable fs.
  Variable pl : pool.
  Variable W : list wtype.
  Hypothesis Hinit : initialize fc fs = Done (pl, W).
  Lemma Hpl8 : init fs = Done pl. Proof. exact (Hpl fc fs Hrep pl W Hinit). Qed.
  Notation scoped := (concat (map scoped_messages fs)).
  Notation AF := (access_fields fc pl).

  Lemma ptype_means p : good_field fs p -> exists t, ptype_of pl p = Some t /\ field_type fs p t.
  Proof.
    intros G. pose proof (good_type fs p G) as R.
    assert (C : In (fp_type p) [TYPE_GROUP; TYPE_MESSAGE] \/ fp_type p = TYPE_ENUM \/ ~ In (fp_type p) [TYPE_GROUP; TYPE_MESSAGE; TYPE_ENUM]).
    { cbn [In]. unfold TYPE_GROUP, TYPE_MESSAGE, TYPE_ENUM. lia. }
    destruct C as [C|[C|C]].
    - assert (S : shape_of p = SMsg) by (unfold shape_of, runtime_traits_for; cbn in C; destruct C as [<-|[<-|[]]]; reflexivity). unfold ptype_of. rewrite S.
      destruct G as [_ (Q & _)]. destruct Q as (n & En & Hn); [cbn in C; unfold TYPE_GROUP, TYPE_MESSAGE; intuition|]. rewrite En. cbn [tl].
      apply In_nth_error in Hn. destruct Hn as (ty & Hty). exists (PMsg ty). assert (E : message_index pl n = Some ty) by (apply (message_index_iff fs pl Hrep Hpl8); exact Hty). rewrite E. split; [reflexivity|]. eapply FtMessage; eassumption.
    - destruct (enum_exists fs pl Hrep Hpl8 p G C) as (n & d & sc & En & Ed & _ & Hin). assert (S : shape_of p = SEnum) by (unfold shape_of, runtime_traits_for; rewrite C; reflexivity). unfold ptype_of. rewrite S, Ed. cbn [option_map]. eexists. split; [reflexivity|]. eapply FtEnum; [exact C|]. exists n. eauto.
    - assert (K : exists t, In (fp_type p, t) plain_types /\ ptype_of pl p = Some t).
      { unfold ptype_of, shape_of, runtime_traits_for, plain_types. cbn [In] in C. unfold TYPE_GROUP, TYPE_MESSAGE, TYPE_ENUM in C.
        assert (D : fp_type p = 1 \/ fp_type p = 2 \/ fp_type p = 3 \/ fp_type p = 4 \/ fp_type p = 5 \/ fp_type p = 6 \/ fp_type p = 7 \/ fp_type p = 8 \/ fp_type p = 9 \/ fp_type p = 12 \/ fp_type p = 13 \/ fp_type p = 15 \/ fp_type p = 16 \/ fp_type p = 17 \/ fp_type p = 18) by lia.
        repeat (destruct D as [D|D]; [rewrite D; eexists; split; [|reflexivity]; cbn; tauto|]). rewrite D. eexists. split; [|reflexivity]. cbn. tauto. }
      destruct K as (t & K1 & K2). exists t. split; [exact K2|]. apply FtPlain, K1.
  Qed.
  Lemma ptype_only p t : good_field fs p -> field_type fs p t -> ptype_of pl p = Some t.
  Proof.
    intros G [t' H|e sc H H'|n ty H H' H''].
    - unfold plain_types in H. cbn [In] in H. unfold ptype_of, shape_of, runtime_traits_for. repeat (destruct H as [H|H]; [injection H as <- <-; reflexivity|]). destruct H.
    - destruct (of_enum_spec fs pl Hrep Hpl8 _ _ _ H') as (d & Ed & <-). assert (S : shape_of p = SEnum) by (unfold shape_of, runtime_traits_for; rewrite H; reflexivity). unfold ptype_of. rewrite S, Ed. reflexivity.
    - assert (S : shape_of p = SMsg) by (unfold shape_of, runtime_traits_for; cbn in H; destruct H as [<-|[<-|[]]]; reflexivity). unfold ptype_of. rewrite S, H'. cbn [tl]. apply (message_index_iff fs pl Hrep Hpl8) in H''. rewrite H''. reflexivity.
  Qed.
  Lemma access_dyn f a w : access_field fc pl f = Some a -> field_info fc pl f = Some w -> dynf_of a = dyn_of w.
  Proof.
    unfold access_field. intros H E. destruct (ptype_of pl (fd_proto f)) as [t|] eqn:T; [|discriminate]. rewrite E in H. injection H as <-. unfold dynf_of, dyn_of. cbn [tf_type tf_repeated tf_oneof tf_explicit tf_dint tf_dbytes]. f_equal.
    unfold field_info in E. destruct (elem_of pl f) as [e|] eqn:Ee; [|discriminate]. injection E as <-. unfold is_rep. cbn [w_rep w_elem]. unfold elem_of in Ee. unfold ptype_of in T.
    destruct (shape_of (fd_proto f)) as [[]| |[] []|[]| | | |]; try (injection T as <-; injection Ee as <-; destruct (fa_repeated (fd_attrs f)); reflexivity).
    - destruct (enum_of pl (fd_proto f)); [|discriminate]. injection T as <-. injection Ee as <-. destruct (fa_repeated (fd_attrs f)); reflexivity.
    - destruct (message_index pl _); [|discriminate]. injection T as <-. injection Ee as <-. destruct (fa_repeated (fd_attrs f)); reflexivity.
  Qed.

  Lemma all_scoped ty name m : nth_error (all_messages fs) ty = Some (name, m) -> exists s, nth_error scoped ty = Some (name, m, s).
  Proof. rewrite <- (scoped_all fs pl Hrep Hpl8), nth_error_map. destruct (nth_error scoped ty) as [[[n' m'] s]|]; cbn; [|discriminate]. intros [= -> ->]. eauto. Qed.

  Section Type_.
    Variables (ty : nat) (name : bytes) (m : mproto).
    Hypothesis Hty : nth_error (all_messages fs) ty = Some (name, m).
    Lemma access_all : exists s ws, In (name, m, s) scoped /\ built fc pl m s (nth ty W (WType [] 0 false)) ws /\
      Forall2 (fun p a => exists w, access_field fc pl (FDsc p (field_attrs (eff s) (mp_entry m) p)) = Some a /\ field_info fc pl (FDsc p (field_attrs (eff s) (mp_entry m) p)) = Some w) (mp_fields m) (AF ty) /\
      map dynf_of (AF ty) = map dyn_of ws.
    Proof.
      destruct (all_scoped _ _ _ Hty) as (s & Hs). pose proof (nth_error_In _ _ Hs) as Hx. destruct (made_pool fc fs Hrep pl W Hinit) as (_ & _ & F). destruct (forall2_nth _ _ _ _ _ F Hs) as (t & Ht & Hm).
      destruct (built_of fc fs Hrep pl W Hinit _ _ _ _ Hx Hm) as (ws & B). exists s, ws. assert (E : nth ty W (WType [] 0 false) = t) by (apply nth_error_nth; exact Ht). rewrite E. split; [exact Hx|]. split; [exact B|].
      pose proof (bt_infos _ _ _ _ _ _ B) as Bi. unfold access_fields. rewrite (mmap_scoped fs pl Hrep Hpl8), nth_error_map, Hs. cbn [option_map dsc_of]. unfold fields_of. cbn [md_proto md_feat]. rewrite map_map.
      destruct (all_some_map (fun p => access_field fc pl (FDsc p (field_attrs (eff s) (mp_entry m) p))) (fun p => field_info fc pl (FDsc p (field_attrs (eff s) (mp_entry m) p))) (fun _ _ => True) (mp_fields m)) as (bs & Eb & Fb).
      { intros p Hp. destruct (Forall2_in_l _ _ _ _ Bi Hp) as (w & _ & Hw). destruct (scoped_field fs pl Hrep Hpl8 _ _ _ _ Hx Hp) as (G & _). destruct (ptype_means p G) as (pt & Ep & _). unfold access_field. cbn [fd_proto]. rewrite Ep, Hw. eauto. }
      rewrite Eb. split; [revert Fb; apply forall2_map; intros p a _ _ (w & A1 & A2 & _); eauto|].
      clear - Fb Bi. revert ws Bi. induction Fb as [|p a ps bs (w & A1 & A2 & _) _ IH]; intros ws Bi; inversion Bi as [|? w' ? ws' H1 H2]; subst; [reflexivity|]. cbn [map]. f_equal; [|apply IH; exact H2]. eapply access_dyn; eassumption.
    Qed.
    Theorem access_shown : Forall2 (shown fs) (mp_fields m) (AF ty).
    Proof.
      destruct access_all as (s & ws & Hx & B & F & _). revert F. apply forall2_map. intros p a Hp _ (w & H1 & H2). pose proof (info_means fc fs Hrep pl W Hinit _ _ _ _ _ Hx Hp H2) as M.
      destruct (scoped_field fs pl Hrep Hpl8 _ _ _ _ Hx Hp) as (G & _). destruct (ptype_means p G) as (pt & Ep & Hpt). unfold access_field in H1. cbn [fd_proto] in H1. rewrite Ep, H2 in H1. injection H1 as <-.
      constructor; cbn [tf_name tf_number tf_type tf_repeated tf_oneof]; [reflexivity|reflexivity|exact Hpt| |exact (fm_oneof _ _ _ _ _ _ M)].
      apply Z.eqb_eq.
    Qed.
    Theorem access_made : no_implicit_defaults fs -> made (mp_oneofs m) (map dynf_of (AF ty)) (types_of W ty).
    Proof. intros ND. destruct access_all as (s & ws & Hx & B & _ & E). rewrite E. exact (made_of fc fs Hrep pl W Hinit _ _ _ _ _ ND Hx B). Qed.

    Lemma distinct_at : ForallOrdPairs compatible (mp_fields m).
    Proof. destruct access_all as (s & ws & Hx & _). destruct (scoped_valid fs pl Hrep Hpl8 _ _ _ Hx) as (_ & V & _). exact (vm_distinct _ V). Qed.
    Lemma ord_nth {A} (R : A -> A -> Prop) l i j a b : ForallOrdPairs R l -> (i < j)%nat -> nth_error l i = Some a -> nth_error l j = Some b -> R a b.
    Proof.
      intros F. revert i j. induction F as [|x l H _ IH]; intros i j L Hi Hj; [destruct i; discriminate|]. destruct j as [|j]; [lia|]. cbn in Hj. destruct i as [|i]; cbn in Hi.
      - injection Hi as <-. rewrite Forall_forall in H. apply H. eapply nth_error_In. exact Hj.
      - apply (IH i j); [lia|exact Hi|exact Hj].
    Qed.
    Lemma shown_back j g : nth_error (AF ty) j = Some g -> exists q, nth_error (mp_fields m) j = Some q /\ shown fs q g.
    Proof.
      intros Hg. exact (forall2_nth_r _ _ _ _ _ access_shown Hg).
    Qed.
    (** The name and the number of a field mean that field. *)
    Theorem access_keys i p : nth_error (mp_fields m) i = Some p -> exists f, nth_error (AF ty) i = Some f /\ shown fs p f /\ forall k, key_of k p -> meant (AF ty) k i f.
    Proof.
      intros Hp. destruct (forall2_nth _ _ _ _ _ access_shown Hp) as (f & Hf & S). exists f. split; [exact Hf|]. split; [exact S|]. intros k K. split; [exact Hf|]. split.
      - destruct k; cbn in *; [rewrite (sh_name _ _ _ S)|rewrite (sh_number _ _ _ S)]; exact K.
      - intros j g L Hg C. destruct (shown_back j g Hg) as (q & Hq & S'). pose proof (ord_nth _ _ _ _ _ _ distinct_at L Hq Hp) as (D1 & D2 & _).
        destruct k; cbn in *; [rewrite (sh_name _ _ _ S') in C; congruence|rewrite (sh_number _ _ _ S') in C; congruence].
    Qed.
    Theorem access_unknown k : (forall p, In p (mp_fields m) -> ~ key_of k p) -> forall E fuel t v r x, set_by E fuel t (AF ty) k v x = Some (x, Some NoSuchField) /\ get_by t (AF ty) k r x = inr NoSuchField.
    Proof.
      intros N E fuel t v r x. apply no_field. intros f Hf C. apply In_nth_error in Hf. destruct Hf as (j & Hj). destruct (shown_back j f Hj) as (q & Hq & S). apply (N q); [eapply nth_error_In; exact Hq|].
      destruct k; cbn in *; [rewrite <- (sh_name _ _ _ S)|rewrite <- (sh_number _ _ _ S)]; exact C.
    Qed.
    Lemma oneof_same i j p q : nth_error (mp_fields m) i = Some p -> nth_error (mp_fields m) j = Some q -> alternatives (dfields (map dynf_of (AF ty))) i j <-> same_oneof p q.
    Proof.
      intros Hp Hq. destruct (forall2_nth _ _ _ _ _ access_shown Hp) as (f & Hf & S). destruct (forall2_nth _ _ _ _ _ access_shown Hq) as (g & Hg & S').
      unfold alternatives, same_oneof, oneof_at, dfields. rewrite !nth_error_map, Hf, Hg. cbn [option_map d_oneof dynf_of y_oneof]. split.
      - intros (o & A & B). exists (Z.of_nat o). split; [apply (sh_oneof _ _ _ S)|apply (sh_oneof _ _ _ S')]; eauto.
      - intros (o & A & B). apply (sh_oneof _ _ _ S) in A. apply (sh_oneof _ _ _ S') in B. destruct A as (a & A & A'), B as (b & B & B'). exists a. split; [exact A|]. rewrite B. f_equal. lia.
    Qed.

    Section Set_.
      Hypothesis ND : no_implicit_defaults fs.
      Variables (E : nat -> dtype) (fuel : nat) (i : nat) (p : fproto).
      Hypothesis Hp : nth_error (mp_fields m) i = Some p.
      Notation T := (types_of W ty).
      Lemma the_type f t rep : shown fs p f -> field_type fs p t -> (rep = true <-> fp_label p = LABEL_REPEATED) -> tf_type f = t /\ tf_repeated f = rep.
      Proof.
        intros S Ht Hr. destruct access_all as (s & ws & Hx & _). destruct (scoped_field fs pl Hrep Hpl8 _ _ _ _ Hx (nth_error_In _ _ Hp)) as (G & _). split.
        - pose proof (ptype_only p _ G (sh_type _ _ _ S)) as A. pose proof (ptype_only p _ G Ht) as B. congruence.
        - pose proof (sh_repeated _ _ _ S) as R. destruct (tf_repeated f), rep; tauto || (symmetry; tauto) || (exfalso; assert (C : false = true) by tauto; discriminate C).
      Qed.
      Variables (t : ptype) (rep : bool).
      Hypothesis Ht : field_type fs p t.
      Hypothesis Hr : rep = true <-> fp_label p = LABEL_REPEATED.
      Theorem access_verdict k v x x' e : key_of k p -> set_by E fuel T (AF ty) k v x = Some (x', e) -> verdict t rep v e.
      Proof.
        intros K H. destruct (access_keys i p Hp) as (f & Hf & S & Mt). destruct (the_type f t rep S Ht Hr) as [<- <-]. exact (set_verdict E fuel _ _ _ (access_made ND) k i f v x x' e (Mt k K) H).
      Qed.
      Theorem access_value k v x x' : key_of k p -> length x = t_slots T -> ~ is_messages v -> set_by E fuel T (AF ty) k v x = Some (x', None) -> exists y, means t v y /\ look T i x' = Some (shows y, y).
      Proof.
        intros K L N H. destruct (access_keys i p Hp) as (f & Hf & S & Mt). destruct (the_type f t rep S Ht Hr) as [<- <-]. exact (set_means E fuel _ _ _ (access_made ND) k i f v x x' L (Mt k K) N H).
      Qed.
      Theorem access_set_get k k' v x x' r y : key_of k p -> key_of k' p -> length x = t_slots T -> set_by E fuel T (AF ty) k v x = Some (x', None) -> back v r y ->
        asks t rep r -> no_aliases t -> get_by T (AF ty) k' r x' = inl y.
      Proof.
        intros K K' L H Bk A A'. destruct (access_keys i p Hp) as (f & Hf & S & Mt). destruct (the_type f t rep S Ht Hr) as [<- <-].
        exact (get_back E fuel _ _ _ k k' i f v x x' r y (access_made ND) L (Mt k K) (Mt k' K') H Bk A A').
      Qed.
      Theorem access_get k r x : key_of k p -> typed (types_of W) ty x -> exists present y, look T i x = Some (present, y) /\ answers t rep present y r (get_by T (AF ty) k r x).
      Proof.
        intros K Tx. destruct (access_keys i p Hp) as (f & Hf & S & Mt). destruct (the_type f t rep S Ht Hr) as [<- <-]. exact (get_answers (types_of W) _ ty (AF ty) k i f r x (access_made ND) Tx (Mt k K)).
      Qed.
      Theorem access_others k v x x' e j q : key_of k p -> set_by E fuel T (AF ty) k v x = Some (x', e) -> nth_error (mp_fields m) j = Some q -> j <> i -> ~ same_oneof p q -> look T j x' = look T j x.
      Proof.
        intros K H Hq N O. destruct (access_keys i p Hp) as (f & Hf & S & Mt). refine (set_others E fuel _ _ _ (access_made ND) k i f v x x' e j (Mt k K) H N _). rewrite (oneof_same i j p q Hp Hq). exact O.
      Qed.
      Theorem access_drops k v x x' j q : key_of k p -> length x = t_slots T -> set_by E fuel T (AF ty) k v x = Some (x', None) -> nth_error (mp_fields m) j = Some q -> j <> i -> same_oneof p q ->
        exists d, look T j x' = Some (false, d) /\ look T j (new_message T) = Some (false, d).
      Proof.
        intros K L H Hq N O. destruct (access_keys i p Hp) as (f & Hf & S & Mt). destruct (access_keys j q Hq) as (g & Hg & _). exists (DynMain.default_value (dynf_of g)). split.
        - refine (set_drops E fuel _ _ _ (access_made ND) k i f v x x' j g _ _ _ _ _ _); try assumption; [exact (Mt k K)|]. apply (oneof_same i j p q Hp Hq). exact O.
        - assert (Hfd : exists l, Dyn.field T j = Some (dynf_of g, l)).
          { destruct (access_made ND) as (_ & _ & D). unfold dtype_of in D. destruct (slot_layout _ _) as [[ls n]|] eqn:Sl; [|discriminate]. injection D as D1 D2. unfold Dyn.field. destruct access_all as (s & ws & _ & B & _ & Em).
            unfold types_of. cbn [t_fields]. rewrite nth_error_map. pose proof (bt_fields _ _ _ _ _ _ B) as Bf. assert (Hw : nth_error (map dyn_of ws) j = Some (dynf_of g)) by (rewrite <- Em, nth_error_map, Hg; reflexivity).
            rewrite <- Bf, !nth_error_map in Hw. destruct (nth_error (w_fields _) j) as [[w l]|]; [|discriminate]. cbn [option_map fst snd] in Hw |- *. exists l. congruence. }
          destruct Hfd as (l & Hfd). exact (new_look _ _ _ _ _ _ (access_made ND) Hfd).
      Qed.
    End Set_.
  End Type_.
  Theorem access_env : no_implicit_defaults fs -> env_made (types_of W).
  Proof.
    intros ND ty. destruct (nth_error (all_messages fs) ty) as [[name m]|] eqn:E.
    - exists (mp_oneofs m), (map dynf_of (AF ty)). exact (access_made ty name m E ND).
    - exists 0%nat, []. assert (L : types_of W ty = DType [] 0).
      { destruct (made_pool fc fs Hrep pl W Hinit) as (_ & _ & F). unfold types_of. destruct (nth_error W ty) as [t|] eqn:K.
        - exfalso. destruct (forall2_nth_r _ _ _ _ _ F K) as ([[n' m'] s'] & Hs & _). rewrite <- (scoped_all fs pl Hrep Hpl8), nth_error_map, Hs in E. discriminate E.
        - assert (N : nth ty W (WType [] 0 false) = WType [] 0 false) by (apply nth_overflow, nth_error_None, K). rewrite N. reflexivity. }
      rewrite L. split; [constructor|]. split; [constructor|reflexivity].
  Qed.
  Theorem access_new ty : no_implicit_defaults fs -> typed (types_of W) ty (new_message (types_of W ty)).
  Proof. intros ND. apply new_typed, access_env, ND. Qed.
End Made.
