(** The attributes of the fields in a pool. *)
Require Import Verif.Bits Verif.Kahn Verif.Pool Verif.PoolSpec Verif.PoolProofs Verif.PoolProofs2 Verif.PoolMain.

Definition eff (scopes : list features) : features := fold_left merge_features scopes (Features 0 0 0 0 0).
Lemma eff_app a f : eff (a ++ [f]) = merge_features (eff a) f.
Proof. unfold eff. rewrite fold_left_app. reflexivity. Qed.
Lemma eff_get (get : features -> Z) scopes : (forall a b, get (merge_features a b) = over (get a) (get b)) -> get (Features 0 0 0 0 0) = 0 -> get (eff scopes) = feature get scopes.
Proof.
  intros Hg H0. unfold eff, feature. enough (K : forall a, get (fold_left merge_features scopes a) = fold_left (fun a f => if get f =? 0 then a else get f) scopes (get a)) by (rewrite K, H0; reflexivity).
  induction scopes as [|f t IH]; intros a; [reflexivity|].
  cbn [fold_left]. rewrite IH, Hg. reflexivity.
Qed.
Lemma eff_presence s : ft_presence (eff s) = feature ft_presence s. Proof. apply eff_get; reflexivity. Qed.
Lemma eff_enum s : ft_enum (eff s) = feature ft_enum s. Proof. apply eff_get; reflexivity. Qed.
Lemma eff_repeated s : ft_repeated (eff s) = feature ft_repeated s. Proof. apply eff_get; reflexivity. Qed.
Lemma eff_utf8 s : ft_utf8 (eff s) = feature ft_utf8 s. Proof. apply eff_get; reflexivity. Qed.
Lemma eff_encoding s : ft_encoding (eff s) = feature ft_encoding s. Proof. apply eff_get; reflexivity. Qed.

Lemma defaults_known f : known_edition f -> edition_feat f = language_defaults f.
Proof.
  unfold known_edition, edition_feat, language_defaults, select_features, name_eqb. intros H.
  destruct (list_eq_dec Z.eq_dec (fl_syntax f) proto3_text); [reflexivity|]. destruct (list_eq_dec Z.eq_dec (fl_syntax f) editions_text) as [e|]; [|reflexivity].
  destruct (H e) as [<-|[<-|[<-|[<-|[]]]]]; reflexivity.
Qed.
Lemma defaults_presence f : ft_presence (language_defaults f) <> 0.
Proof.
  unfold language_defaults. repeat match goal with |- context [if ?x then _ else _] => destruct x end; cbn; discriminate.
Qed.
Lemma file_eff f : known_edition f -> file_feat f = eff (file_scopes f).
Proof.
  intros H. unfold file_feat. rewrite (defaults_known _ H). unfold eff, file_scopes. cbn [fold_left]. f_equal. unfold language_defaults.
  repeat match goal with |- context [if ?x then _ else _] => destruct x end; reflexivity.
Qed.

Definition dsc_of (x : bytes * mproto * list features) : mdsc := let '(full, m, scopes) := x in MDsc full m (eff scopes).
Lemma flat_scoped m : forall full scopes, flat_m full (eff scopes) m = map dsc_of (scoped_tree scopes full m).
Proof.
  induction m as [m IH] using mproto_nested. intros full scopes. destruct m as [n0 fl0 ex0 ns es0 o0 en0 ft0]. cbn [flat_m scoped_tree map mp_nested dsc_of] in *. f_equal.
  rewrite concat_map, map_map. f_equal. apply map_ext_Forall. revert IH. apply Forall_impl. intros k Hk. rewrite <- eff_app. apply Hk.
Qed.
Lemma dscs_scoped f : known_edition f -> file_dscs f = map dsc_of (scoped_messages f).
Proof.
  intros H. unfold file_dscs, scoped_messages. rewrite concat_map, map_map. f_equal. apply map_ext. intros m. unfold flat_d, top_dsc. cbn [md_full md_feat md_proto].
  rewrite (file_eff f H), <- eff_app, in_scope_qualified. apply flat_scoped.
Qed.
Lemma all_scoped fs : Forall known_edition fs -> concat (map file_dscs fs) = map dsc_of (concat (map scoped_messages fs)).
Proof. intros H. rewrite concat_map, map_map. f_equal. apply map_ext_Forall. revert H. apply Forall_impl. apply dscs_scoped. Qed.

(** A scope list that begins with the defaults of a file. *)
Definition based (scopes : list features) : Prop := exists f t, scopes = language_defaults f :: t.
Lemma based_app a b : based a -> based (a ++ b).
Proof. intros (f & t & ->). exists f, (t ++ b). reflexivity. Qed.
Lemma based_presence s : based s -> feature ft_presence s <> 0.
Proof.
  intros (f & t & ->). unfold feature. cbn [fold_left]. pose proof (defaults_presence f) as H. revert H. generalize (ft_presence (language_defaults f)). intros z H. destruct (Z.eqb_spec z 0) as [E|E]; [contradiction|].
  clear H. revert z E. induction t as [|g t IH]; intros z E; [exact E|]. cbn [fold_left]. apply IH. destruct (Z.eqb_spec (ft_presence g) 0); auto.
Qed.
Lemma tree_based m : forall full scopes, based scopes -> Forall (fun x => based (snd x)) (scoped_tree scopes full m).
Proof.
  induction m as [m IH] using mproto_nested. intros full scopes Hb. destruct m as [n0 fl0 ex0 ns es0 o0 en0 ft0]. cbn [scoped_tree mp_nested] in *. constructor; [exact Hb|].
  apply Forall_concat_iff, Forall_map. revert IH. apply Forall_impl. intros k Hk. apply Hk, based_app, Hb.
Qed.
Lemma file_based f : based (file_scopes f).
Proof. exists f, [fl_feat f]. reflexivity. Qed.
Lemma messages_based fs : Forall (fun x => based (snd x)) (concat (map scoped_messages fs)).
Proof.
  apply Forall_concat_iff, Forall_map, Forall_forall. intros f _. unfold scoped_messages. apply Forall_concat_iff, Forall_map, Forall_forall. intros m _.
  apply tree_based, based_app, file_based.
Qed.

Lemma attrs_spec p entry scopes : based scopes -> attributes p entry (scopes ++ [fp_feat p]) (field_attrs (eff scopes) entry p).
Proof.
  intros Hb. pose proof (based_presence _ (based_app _ [fp_feat p] Hb)) as H0. unfold field_attrs. rewrite <- eff_app. set (s := scopes ++ [fp_feat p]) in *.
  unfold setup_presence, setup_packed, setup_utf8, setup_delimited, setup_required. rewrite eff_presence, eff_repeated, eff_utf8, eff_encoding.
  constructor; cbn [fa_explicit fa_repeated fa_packed fa_utf8 fa_delimited fa_required].
  - rewrite orb_true_iff, andb_true_iff, !orb_true_iff, !Z.eqb_eq. assert (X : is_some (fp_oneof p) = true <-> fp_oneof p <> None) by (destruct (fp_oneof p); cbn; split; congruence).
    rewrite X. tauto.
  - apply Z.eqb_eq.
  - rewrite !andb_true_iff, negb_true_iff, !orb_false_iff, orb_true_iff, !Z.eqb_eq, !Z.eqb_neq. unfold packable.
    assert (X : match fp_packed p with Some b => b | None => false end = true <-> fp_packed p = Some true) by (destruct (fp_packed p) as [[]|]; split; congruence).
    rewrite X. tauto.
  - rewrite andb_true_iff, !Z.eqb_eq. tauto.
  - rewrite orb_true_iff, andb_true_iff, !Z.eqb_eq. tauto.
  - rewrite orb_true_iff, !Z.eqb_eq. tauto.
Qed.

Lemma Forall2_concat {A B} (R : A -> B -> Prop) ls ks : Forall2 (Forall2 R) ls ks -> Forall2 R (concat ls) (concat ks).
Proof. intros H. induction H; cbn [concat]; [constructor|]. apply Forall2_app; auto. Qed.
Lemma Forall2_maps {A B C} (R : B -> C -> Prop) (f : A -> B) (g : A -> C) l : Forall (fun x => R (f x) (g x)) l -> Forall2 R (map f l) (map g l).
Proof. intros H. induction H; cbn [map]; constructor; auto. Qed.

Theorem pool_attributes fs p : representable fs -> init fs = Done p ->
  Forall2 (fun d x => let '(q, entry, scopes) := x in fd_proto d = q /\ attributes q entry scopes (fd_attrs d)) (p_fields p) (scoped_fields fs).
Proof.
  intros H E. pose proof (init_verdict fs H) as V. rewrite E in V. destruct V as [Va (A & B & C & D & F & G)]. rewrite G. pose proof (vf_edition _ Va) as He.
  unfold scoped_fields. apply Forall2_app.
  - rewrite (all_scoped fs He), map_map. apply Forall2_concat, Forall2_maps. eapply Forall_impl; [|apply messages_based]. intros [[full m] scopes] Hb. cbn [snd] in Hb.
    unfold dsc_fields, dsc_of. cbn [md_proto md_feat]. apply Forall2_app; apply Forall2_maps, Forall_forall; intros q _; unfold scoped, fdsc_of; cbn [fd_proto fd_attrs md_proto md_feat];
      (split; [reflexivity|apply attrs_spec, Hb]).
  - rewrite map_map. apply Forall2_concat, Forall2_maps. revert He. apply Forall_impl. intros f Hf. unfold file_fields. cbn [fst snd]. apply Forall2_maps, Forall_forall. intros q _.
    unfold scoped. cbn [fd_proto fd_attrs]. split; [reflexivity|]. rewrite (file_eff f Hf). apply attrs_spec, file_based.
Qed.

Theorem pool_enums fs p : representable fs -> init fs = Done p ->
  Forall2 (fun d x => let '(full, e, scopes) := x in ed_full d = full /\ ed_proto d = e /\ (ed_closed d = true <-> feature ft_enum scopes = ENUM_CLOSED)) (s_emap (p_state p)) (scoped_enums fs).
Proof.
  intros H E. pose proof (init_verdict fs H) as V. rewrite E in V. destruct V as [Va (A & B & C & D & F & G)]. rewrite F. pose proof (vf_edition _ Va) as He.
  unfold scoped_enums. apply Forall2_concat, Forall2_maps. revert He. apply Forall_impl. intros f Hf. unfold file_edscs. apply Forall2_app.
  - rewrite (dscs_scoped f Hf), map_map. apply Forall2_concat, Forall2_maps, Forall_forall. intros [[full m] scopes] _. unfold enums_of, dsc_of. cbn [md_proto md_feat md_full].
    apply Forall2_maps, Forall_forall. intros e _. unfold enum_dsc. cbn [ed_full ed_proto ed_closed]. split; [reflexivity|]. split; [reflexivity|].
    unfold enum_closed. rewrite <- eff_app, eff_enum. apply Z.eqb_eq.
  - apply Forall2_maps, Forall_forall. intros e _. unfold enum_dsc. cbn [ed_full ed_proto ed_closed]. split; [apply in_scope_qualified|]. split; [reflexivity|].
    unfold enum_closed. rewrite (file_eff f Hf), <- eff_app, eff_enum. apply Z.eqb_eq.
Qed.

Theorem pool_enum_lookup fs p : representable fs -> init fs = Done p -> forall n e,
  (exists d, get_enum p n = Some d /\ ed_proto d = e) <-> In (n, e) (all_enums fs).
Proof.
  intros H E n e. destruct (pool_contents fs p H E) as (_ & _ & B & _).
  pose proof (init_verdict fs H) as V. rewrite E in V. destruct V as [Va _]. destruct (vf_enums _ Va) as [_ Hn]. rewrite <- B in Hn |- *. rewrite <- edscs_full in Hn.
  unfold get_enum. split.
  - intros (d & Hd & <-). apply (find_unique _ _ _ Hn) in Hd. destruct Hd as [Hi <-]. apply in_map_iff. exists d. auto.
  - intros Hi. apply in_map_iff in Hi. destruct Hi as (d & Hd & Hi). unfold epair_of in Hd. injection Hd as <- <-. exists d. split; [|reflexivity]. apply (find_unique _ _ _ Hn). auto.
Qed.

Theorem pool_packed_rule fs p : representable fs -> init fs = Done p ->
  Forall2 (fun d x => let '(q, _, scopes) := x in fp_packed q <> Some false -> (fa_packed (fd_attrs d) = true <-> packed_rule q scopes)) (p_fields p) (scoped_fields fs).
Proof.
  intros H E. pose proof (pool_attributes fs p H E) as K. induction K as [|d [[q e] s] ds xs Hd K IH]; constructor; [|exact IH]. intros Hq. destruct Hd as [<- Hd]. rewrite (at_packed _ _ _ _ Hd).
  unfold packed_rule. destruct (fp_packed (fd_proto d)) as [[]|]; [tauto|contradiction|]. split; [intros (? & ? & [K1|K1]); [discriminate|auto]|tauto].
Qed.

Lemma representable_check fs :
  forallb (fun d => (Z.of_nat (mp_oneofs (snd d)) <? 1000) && forallb (fun p => match fp_oneof p with Some i => (0 <=? i) && (i <? 1000) | None => true end) (mp_fields (snd d)))
    (all_messages fs) = true -> representable fs.
Proof.
  intros H. unfold representable. apply Forall_forall. intros d Hd. rewrite forallb_forall in H. specialize (H d Hd). apply andb_true_iff in H. destruct H as [H1 H2].
  split; [apply Z.ltb_lt in H1; lia|]. apply Forall_forall. intros p Hp i Hi. rewrite forallb_forall in H2. specialize (H2 p Hp). rewrite Hi in H2. apply andb_true_iff in H2. destruct H2 as [H2 H3].
  apply Z.leb_le in H2. apply Z.ltb_lt in H3. unfold fits_s. change (2 ^ (32 - 1)) with 2147483648. lia.
Qed.
Lemma Forall2_at {A B} (R : A -> B -> Prop) l k : Forall2 R l k -> forall n a b, nth_error l n = Some a -> nth_error k n = Some b -> R a b.
Proof. intros H. induction H; intros [|n] a b Ha Hb; cbn in *; try discriminate; [congruence|eauto]. Qed.
