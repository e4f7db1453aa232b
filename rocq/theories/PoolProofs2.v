(** Verdicts, continued: files, dependencies, fields and types. *)
Require Import Verif.Bits Verif.Kahn Verif.KahnSpec Verif.KahnProofs Verif.Pool Verif.PoolSpec Verif.PoolProofs.

(** ** Flattened messages *)
Definition pair_of (d : mdsc) : bytes * mproto := (md_full d, md_proto d).
Lemma flat_tree m : forall full feat, map pair_of (flat_m full feat m) = tree full m.
Proof.
  induction m as [m IH] using mproto_nested. intros full feat. destruct m as [n0 fl0 ex0 ns es0 o0 en0 ft0]. cbn [flat_m tree map mp_nested] in *. unfold pair_of at 1. cbn [md_full md_proto]. f_equal.
  rewrite concat_map, map_map. f_equal. apply map_ext_Forall. revert IH. apply Forall_impl. intros k Hk. apply Hk.
Qed.
Lemma flat_sum g m : forall full feat, list_sum (map (fun d => g (md_proto d)) (flat_m full feat m)) = tsum g m.
Proof.
  induction m as [m IH] using mproto_nested. intros full feat. rewrite tsum_eq. destruct m as [n0 fl0 ex0 ns es0 o0 en0 ft0]. cbn [flat_m map mp_nested] in *.
  match goal with |- list_sum (?a :: ?l) = _ => change (list_sum (a :: l)) with (a + list_sum l)%nat end. cbn [md_proto]. f_equal.
  induction IH as [|x t Hx Ht IHt]; [reflexivity|]. cbn [map concat]. rewrite map_app, list_sum_app, IHt, Hx. reflexivity.
Qed.
Lemma in_scope_qualified p n : in_scope p n = qualified p n.
Proof. destruct p; reflexivity. Qed.
Lemma tree_names m : forall full, Forall (fun d => mp_name (snd d) <> []) (tree full m) <->
  mp_name m <> [] /\ Forall (fun d => Forall (fun k => mp_name k <> []) (mp_nested (snd d))) (tree full m).
Proof.
  induction m as [m IH] using mproto_nested. intros full. destruct m as [n0 fl0 ex0 ns es0 o0 en0 ft0]. cbn [tree mp_nested] in *. rewrite !Forall_cons_iff. cbn [snd mp_nested].
  assert (K : Forall (fun d => mp_name (snd d) <> []) (concat (map (fun k => tree (dotted full (mp_name k)) k) ns)) <->
    Forall (fun k => mp_name k <> []) ns /\ Forall (fun d => Forall (fun k => mp_name k <> []) (mp_nested (snd d))) (concat (map (fun k => tree (dotted full (mp_name k)) k) ns))).
  { induction IH as [|x t Hx Ht IHt]; cbn [map concat]; [split; auto|]. rewrite !Forall_app, Forall_cons_iff, IHt, (Hx (dotted full (mp_name x))). tauto. }
  rewrite K. tauto.
Qed.

(** ** Files *)
Definition edition_feat (f : fileproto) : features := match select_features f with Done d => d | _ => Features 0 0 0 0 0 end.
Definition file_feat (f : fileproto) : features := merge_features (edition_feat f) (fl_feat f).
Definition file_dscs (f : fileproto) : list mdsc := concat (map (fun m => flat_d (top_dsc (fl_package f) (file_feat f) m)) (fl_messages f)).
Definition file_edscs (f : fileproto) : list edsc :=
  concat (map enums_of (file_dscs f)) ++ map (enum_dsc false (fl_package f) (file_feat f)) (fl_enums f).

Lemma dscs_tree f : map pair_of (file_dscs f) = file_messages f.
Proof.
  unfold file_dscs, file_messages. rewrite concat_map, map_map. f_equal. apply map_ext. intros m. unfold flat_d, top_dsc. cbn [md_full md_feat md_proto].
  rewrite flat_tree, in_scope_qualified. reflexivity.
Qed.
Definition epair_of (e : edsc) : bytes * eproto := (ed_full e, ed_proto e).
Lemma edscs_tree f : map epair_of (file_edscs f) = file_enums f.
Proof.
  unfold file_edscs, file_enums. rewrite map_app, <- dscs_tree. f_equal.
  - rewrite concat_map, !map_map. f_equal. apply map_ext. intros d. unfold enums_of. rewrite map_map. reflexivity.
  - rewrite map_map. apply map_ext. intros e. unfold epair_of, enum_dsc. cbn [ed_full ed_proto]. rewrite in_scope_qualified. reflexivity.
Qed.

Lemma dscs_length {A} (h : mdsc -> list A) g f : (forall d, length (h d) = g (md_proto d)) -> length (concat (map h (file_dscs f))) = lsum g (fl_messages f).
Proof.
  intros Hh. unfold file_dscs. generalize (fl_package f) (file_feat f). intros p ft. induction (fl_messages f) as [|m t IH]; [reflexivity|].
  cbn [map concat]. rewrite map_app, concat_app, app_length, IH. change (lsum g (m :: t)) with (tsum g m + lsum g t)%nat. f_equal.
  rewrite <- (flat_sum g m (md_full (top_dsc p ft m)) (md_feat (top_dsc p ft m))).
  change (flat_m (md_full (top_dsc p ft m)) (md_feat (top_dsc p ft m)) m) with (flat_d (top_dsc p ft m)).
  induction (flat_d (top_dsc p ft m)) as [|d l IHl]; [reflexivity|]. cbn [map concat]. rewrite app_length, IHl.
  match goal with |- _ = list_sum (?a :: ?l) => change (list_sum (a :: l)) with (a + list_sum l)%nat end. f_equal. apply Hh.
Qed.

Lemma select_verdict f : verdict (select_features f) (known_edition f) (fun d => d = edition_feat f).
Proof.
  unfold edition_feat, select_features, known_edition. destruct (name_eqb (fl_syntax f) proto3_text) eqn:E3.
  - apply name_eqb_eq in E3. cbn. split; [|reflexivity]. rewrite E3. discriminate.
  - destruct (name_eqb (fl_syntax f) editions_text) eqn:Ee.
    + apply name_eqb_eq in Ee. unfold edition_defaults, EDITION_LEGACY, EDITION_PROTO3, EDITION_2023, EDITION_2024 in *. cbn [find_edition].
      repeat match goal with |- context [if ?a =? ?b then _ else _] => destruct (Z.eqb_spec a b) as [<-|] end; cbn [verdict In]; try (split; [intros _; auto 6|reflexivity]).
      intros K. specialize (K Ee). intuition congruence.
    + cbn. split; [|reflexivity]. intros K. rewrite K in Ee. assert (name_eqb editions_text editions_text = true) by (apply name_eqb_eq; reflexivity). congruence.
Qed.

Definition tops_named (f : fileproto) : Prop := Forall (fun m => mp_name m <> []) (fl_messages f).
Definition inner_named (l : list mdsc) : Prop :=
  Forall (fun d => Forall (fun k => mp_name k <> []) (mp_nested (md_proto d)) /\ Forall (fun e => ep_name e <> []) (mp_enums (md_proto d))) l.
Definition file_ok (f : fileproto) : Prop :=
  fl_name f <> [] /\ known_edition f /\ tops_named f /\ inner_named (file_dscs f) /\ Forall (fun e => ep_name e <> []) (fl_enums f).

Section Cap.
  Context (cap : counter).

  Lemma build_file_verdict f s :
    (length (s_messages s) + n_messages f <= c_messages cap)%nat -> (length (s_enums s) + n_enums f <= c_enums cap)%nat ->
    (s_oneofs s + n_oneofs f <= c_oneofs cap)%nat -> NoDup (map md_full (s_mmap s)) -> NoDup (map ed_full (s_emap s)) ->
    verdict (build_file cap (file_feat f) s f)
      (tops_named f /\ inner_named (file_dscs f) /\ Forall (fun e => ep_name e <> []) (fl_enums f) /\
       NoDup (map md_full (s_mmap s ++ file_dscs f)) /\ NoDup (map ed_full (s_emap s ++ file_edscs f)))
      (fun s' => length (s_messages s') = (length (s_messages s) + n_messages f)%nat /\ s_enums s' = s_enums s ++ file_edscs f /\
         s_mmap s' = s_mmap s ++ file_dscs f /\ s_emap s' = s_emap s ++ file_edscs f /\ s_oneofs s' = (s_oneofs s + n_oneofs f)%nat).
  Proof.
    intros Hm He Ho Nm Ne. unfold n_messages, n_enums, n_oneofs in *.
    eapply verdict_iff; [|eapply (verdict_bind _ _ _ (Forall (fun e => ep_name e <> []) (fl_enums f) /\ NoDup (map ed_full (s_emap s ++ file_edscs f))))].
    - instantiate (1 := tops_named f /\ declarable s (file_dscs f)). unfold declarable, inner_named, file_edscs.
      assert (NoDup (map ed_full (s_emap s ++ concat (map enums_of (file_dscs f)) ++ map (enum_dsc false (fl_package f) (file_feat f)) (fl_enums f))) ->
        NoDup (map ed_full (s_emap s ++ concat (map enums_of (file_dscs f))))).
      { rewrite app_assoc, (map_app ed_full (s_emap s ++ _)). apply nodup_prefix. }
      tauto.
    - apply build_tops_verdict; auto; lia.
    - cbn beta. intros s' (_ & _ & N1 & N2) (A1 & A2 & A3 & A4 & A5). fold (file_dscs f) in A2, A3, A4, N1, N2.
      eapply verdict_weaken; [|eapply verdict_iff; [|apply (enums_verdict cap false (fl_package f) (file_feat f))]].
      + cbn beta. intros a _ ->. cbn [s_messages s_enums s_mmap s_emap s_oneofs]. unfold file_edscs. rewrite A2, A3, A4, A5, <- !app_assoc. auto.
      + rewrite A4. unfold file_edscs. rewrite <- app_assoc. reflexivity.
      + rewrite A2, app_length. assert (Hq : length (concat (map enums_of (file_dscs f))) = lsum g_enums (fl_messages f)); [|lia].
        apply dscs_length. intros d. unfold enums_of, g_enums. apply map_length.
      + rewrite A4. exact N2.
  Qed.

  Lemma add_files_verdict fs : forall files s,
    (length files + length fs <= c_files cap)%nat ->
    (length (s_messages s) + fsum n_messages fs <= c_messages cap)%nat -> (length (s_enums s) + fsum n_enums fs <= c_enums cap)%nat ->
    (s_oneofs s + fsum n_oneofs fs <= c_oneofs cap)%nat -> NoDup (map (fun x => fl_name (fst x)) files) -> NoDup (map md_full (s_mmap s)) -> NoDup (map ed_full (s_emap s)) ->
    verdict (each (add_file cap) (files, s) fs)
      (Forall file_ok fs /\ NoDup (map (fun x => fl_name (fst x)) files ++ map fl_name fs) /\
       NoDup (map md_full (s_mmap s ++ concat (map file_dscs fs))) /\ NoDup (map ed_full (s_emap s ++ concat (map file_edscs fs))))
      (fun r => let '(files', s') := r in files' = files ++ map (fun f => (f, file_feat f)) fs /\
         length (s_messages s') = (length (s_messages s) + fsum n_messages fs)%nat /\
         s_mmap s' = s_mmap s ++ concat (map file_dscs fs) /\ s_emap s' = s_emap s ++ concat (map file_edscs fs)).
  Proof.
    induction fs as [|f t IH]; intros files s Hf Hm He Ho Nf Nm Ne; cbn [each].
    - cbn. rewrite !app_nil_r. split; [split; [constructor|auto]|]. unfold fsum. cbn. auto.
    - assert (Hl : forall g, fsum g (f :: t) = (g f + fsum g t)%nat) by reflexivity. rewrite !Hl in *. cbn [length map concat] in *.
      eapply verdict_iff; [|apply (verdict_bind _ _ ((fl_name f <> [] /\ ~ In (fl_name f) (map (fun x => fl_name (fst x)) files)) /\ known_edition f /\
          (tops_named f /\ inner_named (file_dscs f) /\ Forall (fun e => ep_name e <> []) (fl_enums f) /\
           NoDup (map md_full (s_mmap s ++ file_dscs f)) /\ NoDup (map ed_full (s_emap s ++ file_edscs f))) /\ True)
        (Forall file_ok t /\ NoDup ((map (fun x => fl_name (fst x)) files ++ [fl_name f]) ++ map fl_name t) /\
         NoDup (map md_full ((s_mmap s ++ file_dscs f) ++ concat (map file_dscs t))) /\ NoDup (map ed_full ((s_emap s ++ file_edscs f) ++ concat (map file_edscs t))))
        (fun r => let '(files', s') := r in files' = files ++ [(f, file_feat f)] /\
          length (s_messages s') = (length (s_messages s) + n_messages f)%nat /\ s_enums s' = s_enums s ++ file_edscs f /\
          s_mmap s' = s_mmap s ++ file_dscs f /\ s_emap s' = s_emap s ++ file_edscs f /\ s_oneofs s' = (s_oneofs s + n_oneofs f)%nat))].
      + rewrite <- !app_assoc. cbn [app]. rewrite Forall_cons_iff. unfold file_ok at 2.
        assert (NoDup (map (fun x : fileproto * features => fl_name (fst x)) files ++ fl_name f :: map fl_name t) -> ~ In (fl_name f) (map (fun x => fl_name (fst x)) files)).
        { intros H. apply NoDup_remove_2 in H. rewrite in_app_iff in H. tauto. }
        assert (NoDup (map md_full (s_mmap s ++ file_dscs f ++ concat (map file_dscs t))) -> NoDup (map md_full (s_mmap s ++ file_dscs f))).
        { rewrite app_assoc, (map_app md_full (s_mmap s ++ file_dscs f)). apply nodup_prefix. }
        assert (NoDup (map ed_full (s_emap s ++ file_edscs f ++ concat (map file_edscs t))) -> NoDup (map ed_full (s_emap s ++ file_edscs f))).
        { rewrite app_assoc, (map_app ed_full (s_emap s ++ file_edscs f)). apply nodup_prefix. }
        tauto.
      + unfold add_file. apply verdict_test.
        { rewrite andb_true_iff, nonempty_iff, (fresh_name (fun x : fileproto * features => fl_name (fst x))). reflexivity. }
        intros _. eapply verdict_bind; [apply select_verdict|]. cbn beta. intros d _ ->. fold (file_feat f). rewrite emplace_ok by lia. cbn [bind].
        eapply verdict_bind; [apply build_file_verdict; auto; lia|]. cbn beta. intros s' _ Hs. apply verdict_done. auto.
      + intros [files' s'] (Hff & _ & (_ & _ & _ & N1 & N2) & _) (-> & B1 & B2 & B3 & B4 & B5).
        eapply verdict_weaken; [|eapply verdict_iff; [|apply IH]].
        * cbn beta. intros [files'' s''] _ (D1 & D2 & D3 & D4). rewrite <- app_assoc in D1. cbn [app] in D1. rewrite D3, D4, B3, B4, <- !app_assoc. split; [exact D1|]. split; [lia|auto].
        * rewrite B3, B4, map_app. cbn [map fst]. reflexivity.
        * rewrite app_length. cbn. lia.
        * lia.
        * rewrite B2, app_length. assert (length (file_edscs f) = n_enums f); [|lia].
          unfold file_edscs, n_enums. rewrite app_length, map_length. f_equal. apply dscs_length. intros d. unfold enums_of, g_enums. apply map_length.
        * lia.
        * rewrite map_app. cbn [map fst]. apply nodup_snoc. tauto.
        * rewrite B3. exact N1.
        * rewrite B4. exact N2.
  Qed.
End Cap.
