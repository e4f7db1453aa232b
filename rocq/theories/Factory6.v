(** Proofs about the factory: its types are those the theorems on JSON are about. *)
From Coq Require Import Ascii String.
Require Import Verif.Bits Verif.Varint Verif.CppText Verif.CppSpec Verif.Defaults Verif.Pool Verif.PoolSpec Verif.PoolProofs Verif.PoolProofs2 Verif.PoolMain Verif.PoolAttrs.
Require Import Verif.DynSlots Verif.DynSlotsProofs Verif.Dyn Verif.Schema Verif.DynWire Verif.DynJson Verif.DynJsonSpec Verif.DynJsonSafe Verif.Factory Verif.FactorySpec Verif.Factory1 Verif.Factory2 Verif.Factory3 Verif.Factory4 Verif.FactoryJson Verif.FactoryJsonSpec Verif.Factory5.
Local Open Scope list_scope.
Local Open Scope Z_scope.

Lemma combine_forall {A B C} (g : A -> B) (R : A -> C -> Prop) l k : Forall2 R l k -> Forall (fun x => exists a, In a l /\ fst x = g a /\ R a (snd x)) (combine (map g l) k).
Proof.
  induction 1 as [|a c l k H _ IH]; cbn [map combine]; constructor; [exists a; cbn; auto|]. revert IH. apply Forall_impl. intros x (b & H1 & H2). exists b. cbn. auto.
Qed.
Lemma nodup_nth {A B} (g : A -> B) l a b : NoDup (map g l) -> In a l -> In b l -> g a = g b -> a = b.
Proof.
  induction l as [|c l IH]; intros N Ha Hb E; [destruct Ha|]. cbn [map] in N. inversion N as [|? ? N1 N2]; subst. destruct Ha as [<-|Ha], Hb as [<-|Hb]; [reflexivity| | |apply IH; assumption].
  - exfalso. apply N1. rewrite E. apply in_map, Hb.
  - exfalso. apply N1. rewrite <- E. apply in_map, Ha.
Qed.
Lemma forall2_nth {A B} (R : A -> B -> Prop) l k i a : Forall2 R l k -> nth_error l i = Some a -> exists b, nth_error k i = Some b /\ R a b.
Proof. intros F. revert i. induction F as [|x y l k H _ IH]; intros [|i] E; cbn in *; try discriminate; [injection E as <-; eauto|]. apply IH, E. Qed.

Section Made.
  Variable fc : bool -> bytes -> option Z.
  Variable fs : list fileproto.
  Hypothesis Hrep : representable fs.
  Variable pl : pool.
  Variable W : list wtype.
  Hypothesis Hinit : initialize fc fs = Done (pl, W).
  Lemma Hpl6 : init fs = Done pl. Proof. exact (Hpl fc fs Hrep pl W Hinit). Qed.
  Notation scoped := (concat (map scoped_messages fs)).
  Notation J := (json_types pl).
  Notation built := (built fc pl).
  Notation attrs m s p := (FDsc p (field_attrs (eff s) (mp_entry m) p)).

  Lemma scoped_names : NoDup (map (fun x : bytes * mproto * list features => fst (fst x)) scoped).
  Proof.
    destruct (message_names fs pl Hrep Hpl6) as [_ N]. rewrite <- (scoped_all fs pl Hrep Hpl6), map_map in N. exact N.
  Qed.
  Lemma scoped_unique n m s m' s' : In (n, m, s) scoped -> In (n, m', s') scoped -> m = m' /\ s = s'.
  Proof. intros A B. pose proof (nodup_nth (fun x : bytes * mproto * list features => fst (fst x)) _ _ _ scoped_names A B eq_refl) as E. injection E as <- <-. auto. Qed.

  (** The type at a position. *)
  Lemma at_type ty n m s : nth_error scoped ty = Some (n, m, s) -> exists ws, built m s (wty W ty) ws /\ jty J ty = json_type pl (MDsc n m (eff s)).
  Proof.
    intros H. destruct (made_pool fc fs Hrep pl W Hinit) as (_ & _ & F). destruct (forall2_nth _ _ _ _ _ F H) as (t & Ht & M). assert (Hx : In (n, m, s) scoped) by (eapply nth_error_In; exact H).
    assert (E : wty W ty = t) by (unfold wty; exact (nth_error_nth _ _ _ Ht)). destruct (built_of fc fs Hrep pl W Hinit _ _ _ _ Hx M) as (ws & B). exists ws. rewrite E. split; [exact B|].
    unfold jty, json_types. rewrite (mmap_scoped fs pl Hrep Hpl6), map_map. apply nth_error_nth. rewrite nth_error_map, H. reflexivity.
  Qed.
  Lemma no_type ty : nth_error scoped ty = None -> wty W ty = WType [] 0 false /\ jty J ty = JType KNone [].
  Proof.
    intros H. destruct (made_pool fc fs Hrep pl W Hinit) as (_ & _ & F). apply forall2_length in F. apply nth_error_None in H. split.
    - unfold wty. apply nth_overflow. lia.
    - unfold jty, json_types. apply nth_overflow. rewrite (mmap_scoped fs pl Hrep Hpl6), !map_length. exact H.
  Qed.
  (** What a type name leads to. *)
  Lemma index_type n ty : nth_error (map fst (all_messages fs)) ty = Some n -> exists m s, nth_error scoped ty = Some (n, m, s).
  Proof.
    rewrite <- (scoped_all fs pl Hrep Hpl6), map_map, nth_error_map. destruct (nth_error _ ty) as [[[n' m] s]|]; cbn; [|discriminate]. intros K. injection K as ->. eauto.
  Qed.

  (** ** Fields *)
  Lemma built_fields m s t ws : built m s t ws -> Forall2 (fun p w => field_info fc pl (attrs m s p) = Some (fst w)) (mp_fields m) (w_fields t).
  Proof. intros B. pose proof (bt_infos _ _ _ _ _ _ B) as I. rewrite <- (bt_fields _ _ _ _ _ _ B) in I. exact (forall2_fst (fun p w => field_info fc pl (attrs m s p) = Some w) _ _ I). Qed.
  Lemma json_fields_of n m s : jt_fields (json_type pl (MDsc n m (eff s))) = map (fun p => json_field pl (attrs m s p)) (mp_fields m).
  Proof. unfold json_type, fields_of. cbn [jt_fields md_feat md_proto]. rewrite map_map. reflexivity. Qed.
  Lemma enum_values_good p d : enum_names_good fs -> enum_of pl p = Some d -> NoDup (map fst (ep_values (ed_proto d))) /\ ~ In [] (map fst (ep_values (ed_proto d))).
  Proof.
    intros E H. unfold enum_of, get_enum in H. apply find_some in H. destruct H as [H _]. destruct (pool_contents fs pl Hrep Hpl6) as (_ & _ & C & _).
    assert (Hi : In (epair_of d) (all_enums fs)) by (rewrite <- C; apply in_map, H). unfold enum_names_good in E. rewrite Forall_forall in E. exact (E _ Hi).
  Qed.
  Lemma field_good n m s p w : enum_names_good fs -> entries_good fs -> In (n, m, s) scoped -> In p (mp_fields m) -> field_info fc pl (attrs m s p) = Some w -> jfield_ok W w (json_field pl (attrs m s p)).
  Proof.
    intros E [_ R] Hx Hp H. split; [|split].
    - unfold json_field. cbn [fd_proto j_values]. destruct (shape_of p); try constructor. destruct (enum_of pl p) as [d|] eqn:K; [apply (enum_values_good p d E K)|constructor].
    - unfold json_field. cbn [fd_proto j_values]. destruct (shape_of p); try tauto. destruct (enum_of pl p) as [d|] eqn:K; [apply (enum_values_good p d E K)|cbn; tauto].
    - intros ty d He Hr. pose proof (info_means fc fs Hrep pl W Hinit _ _ _ _ _ Hx Hp H) as M. pose proof (fm_type _ _ _ _ _ _ M) as T. rewrite He in T. inversion T as [| | | | | |n' ty' d' K1 K2 K3 K4| |]; subst.
      destruct (index_type _ _ K3) as (m' & s' & Hty). destruct (at_type _ _ _ _ Hty) as (ws & B & _). rewrite (bt_entry _ _ _ _ _ _ B). destruct (mp_entry m') eqn:Em; [|reflexivity]. exfalso.
      assert (Hi : In (n', m') (all_messages fs)) by (apply (scoped_valid fs pl Hrep Hpl6 n' m' s'); eapply nth_error_In; exact Hty).
      assert (Hq : In p (message_fields fs)). { unfold message_fields. apply in_concat. exists (mp_fields m). split; [apply in_map_iff; exists (n, m); split; [reflexivity|]; apply (scoped_valid fs pl Hrep Hpl6 n m s); exact Hx|exact Hp]. }
      rewrite Forall_forall in R. assert (L : fp_label p = LABEL_REPEATED) by (eapply (R p Hq); eauto). apply (fm_repeated _ _ _ _ _ _ M) in L. unfold is_rep in L. rewrite Hr in L. discriminate.
  Qed.

  (** ** Entries of maps *)
  Lemma info_parts f w : field_info fc pl f = Some w -> exists e, elem_of pl f = Some e /\ w_elem w = e /\ w_oneof w = option_map Z.to_nat (fp_oneof (fd_proto f)) /\
    w_rep w = (if fa_repeated (fd_attrs f) then Some (fa_packed (fd_attrs f)) else None) /\ DynJsonSpec.shape w = (e, fa_repeated (fd_attrs f), option_map Z.to_nat (fp_oneof (fd_proto f)), explicit_presence f).
  Proof.
    unfold field_info. destruct (elem_of pl f) as [e|]; [|discriminate]. intros H. injection H as <-. exists e. cbn [w_elem w_oneof w_rep]. unfold DynJsonSpec.shape, is_rep. cbn [w_elem w_oneof w_rep w_explicit].
    destruct (fa_repeated (fd_attrs f)); auto 10.
  Qed.
  Lemma singular m s p : fp_label p <> LABEL_REPEATED -> fa_repeated (fd_attrs (attrs m s p)) = false.
  Proof. intros H. cbn. apply Z.eqb_neq, H. Qed.
  Lemma key_good m s p w : In (fp_type p) [3; 4; 5; 6; 7; 8; 9; 13; 15; 16; 17; 18] -> fp_label p <> LABEL_REPEATED -> field_info fc pl (attrs m s p) = Some w -> key_elem (json_field pl (attrs m s p)) w = true.
  Proof.
    intros Ht Hl H. destruct (info_parts _ _ H) as (e & He & Hw & _ & Hr & _). rewrite (singular m s p Hl) in Hr. unfold key_elem. rewrite Hw, Hr. clear Hw Hr H.
    assert (S : match shape_of p with SVar _ | SBool | SString | SFix _ _ => True | _ => False end).
    { unfold shape_of, runtime_traits_for. cbn [In] in Ht. repeat (destruct Ht as [<-|Ht]; [exact Logic.I|]). destruct Ht. }
    unfold elem_of, json_field in *. cbn [fd_proto fd_attrs j_signed j_string] in *. destruct (shape_of p); try contradiction; injection He as <-; try reflexivity. destruct t; reflexivity.
  Qed.
  Lemma entry_good n ty m s : nth_error scoped ty = Some (n, m, s) -> map_entry m ->
    exists kj kf kl vj vf vl, jfields W J ty = [(kj, (kf, kl)); (vj, (vf, vl))] /\ key_elem kj kf = true /\ w_rep vf = None /\ w_oneof kf = None /\ w_oneof vf = None.
  Proof.
    intros Hx (k & v & Hf & Hk & Lk & Lv & Ok & Ov). destruct (at_type _ _ _ _ Hx) as (ws & B & EJ). pose proof (built_fields _ _ _ _ B) as F. unfold jfields. rewrite EJ, json_fields_of. rewrite Hf in F |- *.
    inversion F as [|? [kf kl] ? ? Fk F1]; subst. inversion F1 as [|? [vf vl] ? ? Fv F2]; subst. inversion F2; subst. cbn [fst] in *. cbn [map combine].
    exists (json_field pl (attrs m s k)), kf, kl, (json_field pl (attrs m s v)), vf, vl. destruct (info_parts _ _ Fk) as (ek & _ & _ & O1 & _). destruct (info_parts _ _ Fv) as (ev & _ & _ & O2 & R2 & _). rewrite (singular m s v Lv) in R2.
    cbn [fd_proto] in O1, O2. rewrite Ok in O1. rewrite Ov in O2. split; [reflexivity|]. split; [exact (key_good _ _ _ _ Hk Lk Fk)|auto].
  Qed.

  (** ** Forms of their own *)
  (** The type and its fields, if the message is known. *)
  Lemma known_type ty n m s f n0 m0 s0 : nth_error scoped ty = Some (n, m, s) -> In f fs -> n = n0 -> In (n0, m0, s0) (scoped_messages f) ->
    exists ws, Forall2 (fun p w => field_info fc pl (attrs m0 s0 p) = Some w) (mp_fields m0) ws /\ shapes W ty = map DynJsonSpec.shape ws /\ wtype_of (mp_oneofs m0) (mp_entry m0) ws = Some (wty W ty) /\
      jt_fields (jty J ty) = map (fun p => json_field pl (attrs m0 s0 p)) (mp_fields m0) /\ w_entry (wty W ty) = mp_entry m0.
  Proof.
    intros Hx Hf -> Hs. assert (H0 : In (n0, m0, s0) scoped) by (apply in_concat; exists (scoped_messages f); split; [apply in_map, Hf|exact Hs]).
    assert (H1 : In (n0, m, s) scoped) by (eapply nth_error_In; exact Hx). destruct (scoped_unique _ _ _ _ _ H1 H0) as [-> ->]. destruct (at_type _ _ _ _ Hx) as (ws & B & EJ). exists ws.
    split; [apply (bt_infos _ _ _ _ _ _ B)|]. split; [unfold shapes; rewrite <- (bt_fields _ _ _ _ _ _ B), map_map; reflexivity|]. split; [apply (bt_type _ _ _ _ _ _ B)|]. split; [rewrite EJ; apply json_fields_of|apply (bt_entry _ _ _ _ _ _ B)].
  Qed.
  Lemma known_at ty n m s : nth_error scoped ty = Some (n, m, s) -> known_of J ty = known_kind pl n.
  Proof. intros H. destruct (at_type _ _ _ _ H) as (_ & _ & E). unfold known_of. rewrite E. reflexivity. Qed.
  Lemma shape_at f w e r o x : field_info fc pl f = Some w -> elem_of pl f = Some e -> fa_repeated (fd_attrs f) = r -> option_map Z.to_nat (fp_oneof (fd_proto f)) = o -> explicit_presence f = x -> DynJsonSpec.shape w = (e, r, o, x).
  Proof. intros H E <- <- <-. destruct (info_parts _ _ H) as (e' & E' & _ & _ & _ & S). congruence. Qed.

  Ltac known f i := match goal with Hx : nth_error _ ?ty = Some (_, ?m, ?s), Hf : In f fs, Hn : _ = txt _ |- _ =>
    let x := eval vm_compute in (nth i (scoped_messages f) ([], MProto [] [] [] [] [] 0 false (Features 0 0 0 0 0), [])) in
    match x with (_, ?m0, ?s0) => destruct (known_type ty _ m s f _ m0 s0 Hx Hf Hn ltac:(apply (nth_error_In _ i); vm_compute; reflexivity)) as (ws & F & Sh & Ty & Nm & En) end end.
  Ltac plain H := eapply (shape_at _ _ _ _ _ _ H); vm_compute; reflexivity.
  Lemma forall2_1 {A B} (R : A -> B -> Prop) a k : Forall2 R [a] k -> exists b, k = [b] /\ R a b.
  Proof. intros H. inversion H as [|? b ? ? K1 K2]; subst. inversion K2; subst. eauto. Qed.
  Lemma forall2_S {A B} (R : A -> B -> Prop) a l k : Forall2 R (a :: l) k -> exists b k', k = b :: k' /\ R a b /\ Forall2 R l k'.
  Proof. intros H. inversion H; subst. eauto. Qed.

  Lemma ref_elem f w n : field_info fc pl f = Some w -> shape_of (fd_proto f) = SMsg -> fp_type_name (fd_proto f) = 46 :: n ->
    exists te, elem_of pl f = Some (EMsg te (fa_delimited (fd_attrs f))) /\ message_index pl n = Some te.
  Proof.
    intros H S N. destruct (info_parts _ _ H) as (e & E & _). unfold elem_of in *. rewrite S, N in *. cbn [tl] in *. destruct (message_index pl n) as [te|]; [|discriminate]. exists te. split; reflexivity.
  Qed.
  Lemma enum_elem f w : field_info fc pl f = Some w -> shape_of (fd_proto f) = SEnum -> exists c d, elem_of pl f = Some (EEnum c) /\ enum_of pl (fd_proto f) = Some d /\ ed_full d = tl (fp_type_name (fd_proto f)).
  Proof.
    intros H S. destruct (info_parts _ _ H) as (e & E & _). unfold elem_of in *. rewrite S in *. destruct (enum_of pl (fd_proto f)) as [d|] eqn:K; [|discriminate]. cbn [option_map]. do 2 eexists. split; [reflexivity|].
    split; [reflexivity|]. exact (enum_full pl _ _ K).
  Qed.
  Lemma ref_type n te : message_index pl n = Some te -> exists m s, nth_error scoped te = Some (n, m, s).
  Proof. intros H. apply index_type. apply (message_index_iff fs pl Hrep Hpl6), H. Qed.
  Lemma ref_known f nm k te i m0 s0 : In f fs -> own_form f nm k -> k <> KNone -> nth_error (scoped_messages f) i = Some (txt nm, m0, s0) -> message_index pl (txt nm) = Some te ->
    known_of J te = k /\ w_entry (wty W te) = mp_entry m0.
  Proof.
    intros Hf O Hk Hi H. destruct (ref_type _ _ H) as (m & s & Hx). split.
    - rewrite (known_at _ _ _ _ Hx). apply (known_kind_iff fs pl Hrep Hpl6 _ _ Hk). eauto.
    - destruct (known_type te _ m s f _ m0 s0 Hx Hf eq_refl (nth_error_In _ _ Hi)) as (ws & _ & _ & _ & _ & En). exact En.
  Qed.
  Lemma ref_entry f n te i m0 s0 : In f fs -> nth_error (scoped_messages f) i = Some (n, m0, s0) -> message_index pl n = Some te -> w_entry (wty W te) = mp_entry m0.
  Proof. intros Hf Hi H. destruct (ref_type _ _ H) as (m & s & Hx). destruct (known_type te _ m s f _ m0 s0 Hx Hf eq_refl (nth_error_In _ _ Hi)) as (ws & _ & _ & _ & _ & En). exact En. Qed.

  Lemma wrapper_good ty m s n : nth_error scoped ty = Some (txt ("google.protobuf." ++ n)%string, m, s) -> In wrappers_proto fs ->
    In n ["DoubleValue"; "FloatValue"; "Int64Value"; "UInt64Value"; "Int32Value"; "UInt32Value"; "BoolValue"; "StringValue"; "BytesValue"]%string ->
    exists e, shapes W ty = [(e, false, None, false)] /\ match e with EVar _ | EBool | EFix _ _ | EBytes _ _ => True | _ => False end.
  Proof.
    intros Hx Hf Hn. assert (T : exists i p, nth_error (scoped_messages wrappers_proto) i = Some (txt ("google.protobuf." ++ n)%string, wk_wrapper n p, [Features IMPLICIT ENUM_OPEN PACKED UTF8_VERIFY LENGTH_PREFIXED; no_features; no_features]) /\ In p [1; 2; 3; 4; 5; 13; 8; 9; 12]).
    { cbn [In] in Hn. destruct Hn as [<-|Hn]; [exists 0%nat, 1; split; [vm_compute; reflexivity|cbn; auto 20]|]. destruct Hn as [<-|Hn]; [exists 1%nat, 2; split; [vm_compute; reflexivity|cbn; auto 20]|].
      destruct Hn as [<-|Hn]; [exists 2%nat, 3; split; [vm_compute; reflexivity|cbn; auto 20]|]. destruct Hn as [<-|Hn]; [exists 3%nat, 4; split; [vm_compute; reflexivity|cbn; auto 20]|].
      destruct Hn as [<-|Hn]; [exists 4%nat, 5; split; [vm_compute; reflexivity|cbn; auto 20]|]. destruct Hn as [<-|Hn]; [exists 5%nat, 13; split; [vm_compute; reflexivity|cbn; auto 20]|].
      destruct Hn as [<-|Hn]; [exists 6%nat, 8; split; [vm_compute; reflexivity|cbn; auto 20]|]. destruct Hn as [<-|Hn]; [exists 7%nat, 9; split; [vm_compute; reflexivity|cbn; auto 20]|].
      destruct Hn as [<-|Hn]; [exists 8%nat, 12; split; [vm_compute; reflexivity|cbn; auto 20]|]. destruct Hn. }
    destruct T as (i & p & Hi & Hp). destruct (known_type ty _ m s wrappers_proto _ _ _ Hx Hf eq_refl (nth_error_In _ _ Hi)) as (ws & F & Sh & _). cbn [wk_wrapper wk_message mp_fields] in F.
    apply forall2_1 in F. destruct F as (w & -> & H). rewrite Sh. cbn [map]. cbn [In] in Hp.
    repeat (destruct Hp as [<-|Hp]; [eexists; split; [f_equal; plain H|exact Logic.I]|]). destruct Hp.
  Qed.
  Lemma value_good ty m s : nth_error scoped ty = Some (txt "google.protobuf.Value", m, s) -> In struct_proto fs ->
    exists fs jn jd js jb jt jl c v st sl d1 d2,
      wtype_of 1 false fs = Some (wty W ty) /\ jt_fields (jty J ty) = [jn; jd; js; jb; jt; jl] /\
      map DynJsonSpec.shape fs = map (fun e => (e, false, Some O, true)) [EEnum c; EFix true true; EBytes true v; EBool; EMsg st d1; EMsg sl d2] /\
      j_null jn = true /\ j_string js = true /\ known_of J st = KStruct /\ known_of J sl = KListValue /\
      w_entry (wty W st) = false /\ w_entry (wty W sl) = false.
  Proof.
    intros Hx Hf. pose proof (eq_refl (txt "google.protobuf.Value")) as Hn. assert (T : exists m0 s0, nth_error (scoped_messages struct_proto) 2 = Some (txt "google.protobuf.Value", m0, s0) /\ m0 = nth 1 (fl_messages struct_proto) m /\ s0 = [Features IMPLICIT ENUM_OPEN PACKED UTF8_VERIFY LENGTH_PREFIXED; no_features; no_features]).
    { do 2 eexists. split; [vm_compute; reflexivity|]. split; reflexivity. }
    destruct T as (m0 & s0 & Hi & Em & Es). destruct (known_type ty _ m s struct_proto _ m0 s0 Hx Hf eq_refl (nth_error_In _ _ Hi)) as (ws & F & Sh & Ty & Nm & _). subst m0 s0. clear Hi Hn Sh.
    cbn [nth fl_messages struct_proto wk_file wk_message mp_fields mp_oneofs mp_entry map] in *.
    apply forall2_S in F. destruct F as (w1 & k1 & -> & F1 & F). apply forall2_S in F. destruct F as (w2 & k2 & -> & F2 & F). apply forall2_S in F. destruct F as (w3 & k3 & -> & F3 & F).
    apply forall2_S in F. destruct F as (w4 & k4 & -> & F4 & F). apply forall2_S in F. destruct F as (w5 & k5 & -> & F5 & F). apply forall2_1 in F. destruct F as (w6 & -> & F6).
    destruct (ref_elem _ _ (txt "google.protobuf.Struct") F5 eq_refl eq_refl) as (st & E5 & I5). destruct (ref_elem _ _ (txt "google.protobuf.ListValue") F6 eq_refl eq_refl) as (sl & E6 & I6).
    destruct (enum_elem _ _ F1 eq_refl) as (c & d & E1 & D & Nd).
    destruct (ref_known struct_proto "google.protobuf.Struct" KStruct st 0 _ _ Hf OfStruct ltac:(discriminate) eq_refl I5) as [K5 N5].
    destruct (ref_known struct_proto "google.protobuf.ListValue" KListValue sl 3 _ _ Hf OfListValue ltac:(discriminate) eq_refl I6) as [K6 N6].
    exists [w1; w2; w3; w4; w5; w6]. do 6 eexists. exists c, false, st, sl. do 2 eexists. split; [exact Ty|]. split; [exact Nm|]. split.
    { cbn [map]. assert (S2 : DynJsonSpec.shape w2 = (EFix true true, false, Some 0%nat, true)) by plain F2. assert (S3 : DynJsonSpec.shape w3 = (EBytes true false, false, Some 0%nat, true)) by plain F3.
      assert (S4 : DynJsonSpec.shape w4 = (EBool, false, Some 0%nat, true)) by plain F4. rewrite S2, S3, S4. rewrite (shape_at _ _ _ false (Some 0%nat) true F1 E1 eq_refl eq_refl eq_refl).
      rewrite (shape_at _ _ _ false (Some 0%nat) true F5 E5 eq_refl eq_refl eq_refl), (shape_at _ _ _ false (Some 0%nat) true F6 E6 eq_refl eq_refl eq_refl). reflexivity. }
    split. { unfold json_field. change (shape_of (fd_proto _)) with SEnum. cbn [fd_proto] in *. rewrite D, Nd. reflexivity. }
    split; [reflexivity|]. split; [exact K5|]. split; [exact K6|]. split; [exact N5|exact N6].
  Qed.
  Lemma known_good ty n m s : nth_error scoped ty = Some (n, m, s) -> known_ok W J ty.
  Proof.
    intros Hx. unfold known_ok. pose proof (known_at _ _ _ _ Hx) as K. destruct (known_of J ty) eqn:E; try exact Logic.I; symmetry in K; apply (known_kind_iff fs pl Hrep Hpl6) in K; try discriminate; destruct K as (f & nm & Hf & O & ->); inversion O; subst.
    - destruct (known_type ty _ m s timestamp_proto _ _ _ Hx Hf eq_refl (nth_error_In (scoped_messages timestamp_proto) 0 eq_refl)) as (ws & F & -> & _).
      apply forall2_S in F. destruct F as (w1 & k1 & -> & F1 & F). apply forall2_1 in F. destruct F as (w2 & -> & F2). cbn [map]. f_equal; [plain F1|f_equal; plain F2].
    - destruct (known_type ty _ m s duration_proto _ _ _ Hx Hf eq_refl (nth_error_In (scoped_messages duration_proto) 0 eq_refl)) as (ws & F & -> & _).
      apply forall2_S in F. destruct F as (w1 & k1 & -> & F1 & F). apply forall2_1 in F. destruct F as (w2 & -> & F2). cbn [map]. f_equal; [plain F1|f_equal; plain F2].
    - destruct (known_type ty _ m s field_mask_proto _ _ _ Hx Hf eq_refl (nth_error_In (scoped_messages field_mask_proto) 0 eq_refl)) as (ws & F & -> & _).
      apply forall2_1 in F. destruct F as (w2 & -> & F2). exists false. cbn [map]. f_equal. plain F2.
    - exact (value_good _ _ _ Hx Hf).
    - destruct (known_type ty _ m s struct_proto _ _ _ Hx Hf eq_refl (nth_error_In (scoped_messages struct_proto) 0 eq_refl)) as (ws & F & -> & _).
      apply forall2_1 in F. destruct F as (w & -> & F). destruct (ref_elem _ _ (txt "google.protobuf.Struct.FieldsEntry") F eq_refl eq_refl) as (te & E1 & I1). exists te. eexists. split; [cbn [map]; f_equal; exact (shape_at _ _ _ true None false F E1 eq_refl eq_refl eq_refl)|].
      exact (ref_entry struct_proto _ te 1 _ _ Hf eq_refl I1).
    - destruct (known_type ty _ m s struct_proto _ _ _ Hx Hf eq_refl (nth_error_In (scoped_messages struct_proto) 3 eq_refl)) as (ws & F & -> & _).
      apply forall2_1 in F. destruct F as (w & -> & F). destruct (ref_elem _ _ (txt "google.protobuf.Value") F eq_refl eq_refl) as (te & E1 & I1). exists te. eexists. split; [cbn [map]; f_equal; exact (shape_at _ _ _ true None false F E1 eq_refl eq_refl eq_refl)|].
      exact (ref_entry struct_proto _ te 2 _ _ Hf eq_refl I1).
    - eapply wrapper_good; eassumption.
  Qed.

  (** ** The whole *)
  Theorem factory_json : json_names_distinct fs -> enum_names_good fs -> entries_good fs -> jtypes_ok W J.
  Proof.
    intros Hj He Hm ty. destruct (nth_error scoped ty) as [[[n m] s]|] eqn:Hx.
    - destruct (at_type _ _ _ _ Hx) as (ws & B & EJ). pose proof (built_fields _ _ _ _ B) as F. assert (Hs : In (n, m, s) scoped) by (eapply nth_error_In; exact Hx).
      destruct (scoped_valid fs pl Hrep Hpl6 _ _ _ Hs) as (Hi & _). split; [|split; [|split; [|split]]].
      + rewrite EJ, json_fields_of, map_length. exact (forall2_length _ _ _ F).
      + rewrite EJ, json_fields_of, map_map. unfold json_field. cbn [j_json fd_proto]. unfold json_names_distinct in Hj. rewrite Forall_forall in Hj. exact (Hj _ Hi).
      + unfold jfields. rewrite EJ, json_fields_of. pose proof (combine_forall (fun p => json_field pl (attrs m s p)) _ _ _ F) as C. apply Forall_forall. intros x Hin. rewrite Forall_forall in C. destruct (C x Hin) as (p & Hp & -> & H).
        eapply field_good; eassumption.
      + eapply known_good; exact Hx.
      + rewrite (bt_entry _ _ _ _ _ _ B). intros Hen. destruct Hm as [Hm _]. rewrite Forall_forall in Hm. eapply entry_good; [exact Hx|exact (Hm _ Hi Hen)].
    - destruct (no_type _ Hx) as [E1 E2]. unfold jtype_ok, jfields, known_ok, known_of. rewrite E1, E2. cbn. split; [reflexivity|]. split; [constructor|]. split; [constructor|]. split; [exact Logic.I|discriminate].
  Qed.
End Made.
(** The numbers of enums. *)
Theorem factory_enums_fit fs pl : representable fs -> init fs = Done pl -> Forall (fun e => Forall (fun v => fits_s 32 (snd v)) (ep_values (snd e))) (all_enums fs) -> DynJsonSafe.enums_fit (json_types pl).
Proof.
  intros Hrep Hpl He ty jf Hj. unfold jty, json_types in Hj. destruct (nth_in_or_default ty (map (json_type pl) (s_mmap (p_state pl))) (JType KNone [])) as [K|K]; [|rewrite K in Hj; destruct Hj].
  apply in_map_iff in K. destruct K as (d & E & _). rewrite <- E in Hj. unfold json_type in Hj. cbn [jt_fields] in Hj. apply in_map_iff in Hj. destruct Hj as (f & <- & _). unfold json_field. cbn [j_values].
  destruct (shape_of (fd_proto f)); try constructor. destruct (enum_of pl (fd_proto f)) as [e|] eqn:K; [|constructor]. unfold enum_of, get_enum in K. apply find_some in K. destruct K as [K _].
  destruct (pool_contents fs pl Hrep Hpl) as (_ & _ & C & _). rewrite Forall_forall in He. apply (He (epair_of e)). rewrite <- C. apply in_map, K.
Qed.
