(** Reading an encoded message into another one merges it. *)
From Coq Require Import Sorted.
Require Import Verif.Bits Verif.Varint Verif.VarintSpec Verif.VarintProofs Verif.VarintFacts Verif.VarintMain.
Require Import Verif.Schema Verif.Archive Verif.Decode Verif.DecodeSafe Verif.Wire Verif.WireFacts Verif.WireGrammar Verif.GrammarFacts Verif.DecodeSpec1 Verif.DecodeSpec4.
Require Import Verif.DecodeLaws Verif.DecodeLaws2 Verif.FieldSpec Verif.DecodeOcc Verif.WellTyped Verif.DecodeTerms Verif.DecodeMain Verif.Encode Verif.EncodeSpec Verif.EncodeProofs Verif.EncodeProofs2 Verif.RoundTrip Verif.RoundTrip2 Verif.EncodeMain.
Require Import Verif.Merge Verif.MergeProofs Verif.MergeSpec Verif.MergeLaws.

Lemma umap_add_add n a b u : umap_add n b (umap_add n a u) = umap_add n (a ++ b) u.
Proof.
  induction u as [|[m c] t IH]; cbn [umap_add].
  - rewrite Z.eqb_refl. reflexivity.
  - destruct (Z.eqb_spec m n).
    + subst. cbn [umap_add]. rewrite Z.eqb_refl, app_assoc. reflexivity.
    + destruct (Z.ltb_spec n m); cbn [umap_add].
      * rewrite Z.eqb_refl. reflexivity.
      * destruct (Z.eqb_spec m n); [lia|]. destruct (Z.ltb_spec n m); [lia|]. rewrite IH. reflexivity.
Qed.

Section Run.
  Context (E : env) (utf8_ok : bytes -> bool) (limit : Z).
  Hypothesis G : generated E.
  Notation wt := (wt E utf8_ok).
  Notation cell := (cell E utf8_ok).
  Notation cells := (cells E utf8_ok).
  Notation apb := (ap_body E utf8_ok limit).
  Notation apv := (ap_value E utf8_ok limit).
  Notation runs := (runs E utf8_ok limit).
  Notation sub_ok := (sub_ok E utf8_ok limit).
  Notation payload_of := (payload_of E).
  Notation dft := (default_msg E).

  (** Reading [v]'s encoding into [t] at depth [d] gives [w]. *)
  Definition sub_into (d : Z) (ty : nat) (t v w : val) : Prop :=
    scope_ok limit d = true /\ (m_entry (desc_of E ty) = true -> tag_number (hd 0 (enc_msg E ty v)) = 1) /\
    w = VMsg (msg_fields w) (msg_unk w) /\
    runs (d + 1) ty (msg_fields t, msg_unk t) (enc_msg E ty v) (msg_fields w, msg_unk w).

  Lemma value_into d num e t v w : 1 <= num < 2 ^ 25 -> wt e v -> zlen (payload_of num e v) < 2 ^ 31 ->
    (scalar e = true -> w = v) -> (forall ty delim, e = EMsg ty delim -> sub_into d ty t v w) ->
    exists p sub k x, tok_pay (grpB limit d) (8 * num + elem_wt e) (payload_of num e v) = TOk (p, sub, []) /\
      enum_val e x = w /\
      forall tb cur, (scalar e = false -> cur = t) ->
        apv (apb k) e cur d (Rec tb (8 * num + elem_wt e) (payload_of num e v) p sub) = TOk x.
  Proof.
    intros Hn Hw Hl Hwv Hsub. destruct (scalar e) eqn:Hs.
    - rewrite (Hwv eq_refl). assert (Hp : payload_of num e v = enc_scalar e v) by (destruct e; try discriminate; reflexivity). rewrite Hp in *.
      pose proof (scalar_encoded E utf8_ok e v Hw Hs Hl) as Hsp.
      destruct (tok_pay_scalar E utf8_ok limit (grpB limit d) num e (enc_scalar e v) v [] ltac:(lia) Hsp) as (p & H1 & H2).
      rewrite app_nil_r in H1. destruct (H2 [] (apb 0) (VInt 0) d) as (x & Hx1 & Hx2).
      exists p, [], 0%nat, x. split; [exact H1|]. split; [exact Hx2|]. intros tb cur _.
      revert Hx1. unfold ap_value. cbn [r_tag r_pay]. destruct (negb _); [auto|]. destruct e; try discriminate; auto.
    - clear Hwv. destruct e as [| | | | |ty delim]; try discriminate. specialize (Hsub _ _ eq_refl). destruct Hsub as (Hsc & Hent & Hv & k & rs & Ht & Ha).
      set (bs := enc_msg E ty v) in *. cbn [RoundTrip.payload_of elem_wt] in *. fold bs in Hl |- *.
      destruct delim.
      + destruct (tag_parts num WT_SGROUP ltac:(lia) ltac:(unfold WT_SGROUP; lia)) as [T1 T2].
        exists [], rs, (S k), w. split; [|split; [reflexivity|]].
        * rewrite tok_pay_wt by (unfold WT_SGROUP; lia). rewrite T1, T2.
          change (WT_SGROUP =? WT_VARINT) with false. change (WT_SGROUP =? WT_LEN) with false. change (WT_SGROUP =? WT_I64) with false.
          change (WT_SGROUP =? WT_SGROUP) with true. cbv iota. unfold grpB. rewrite Hsc.
          replace (bs ++ tagb num WT_EGROUP) with (bs ++ tagb num WT_EGROUP ++ []) by (rewrite app_nil_r; reflexivity).
          rewrite (tokB_group limit (d + 1) num (tagb num WT_EGROUP)) with (n := S (length bs)) (rs := rs); auto; [|lia].
          apply tagb_ok; [lia|unfold WT_EGROUP; lia].
        * intros tb cur Hc. rewrite (Hc eq_refl). unfold ap_value. cbn [r_tag elem_wt]. rewrite T1. change (WT_SGROUP =? WT_SGROUP) with true. cbn [negb].
          unfold ap_message. cbn [r_sub]. cbn [ap_body]. rewrite Ha. cbn [tbind]. rewrite <- Hv. reflexivity.
      + destruct (tag_parts num WT_LEN ltac:(lia) ltac:(unfold WT_LEN; lia)) as [T1 T2].
        exists bs, [], (S k), w. split; [|split; [reflexivity|]].
        * rewrite zlen_app in Hl. pose proof (zlen_nonneg (vint (zlen bs))). pose proof (zlen_nonneg bs).
          pose proof (tok_pay_lenb utf8_ok (grpB limit d) num (vint (zlen bs)) bs [] ltac:(lia) ltac:(apply vint_len; lia)) as K.
          rewrite app_nil_r in K. exact K.
        * intros tb cur Hc. rewrite (Hc eq_refl). unfold ap_value. cbn [r_tag elem_wt]. rewrite T1. change (WT_LEN =? WT_LEN) with true. cbn [negb].
          unfold ap_message. cbn [r_pay].
          replace (m_entry (desc_of E ty) && negb (tag_number (hd 0 bs) =? 1)) with false
            by (destruct (m_entry (desc_of E ty)); [rewrite Hent by reflexivity|]; reflexivity).
          rewrite Hsc. cbn [negb]. rewrite Ht. cbn [tbind]. cbn [ap_body]. rewrite Ha. cbn [tbind]. rewrite <- Hv. reflexivity.
  Qed.

  (** One singular element read into a member holding [g]. *)
  Lemma plain_into d ty num i e ex dv t v w fs u : 1 <= num < 2 ^ 25 -> member E ty num i (Field num e (CPlain ex dv)) ->
    zlen (payload_of num e v) < 2 ^ 31 -> (scalar e = true -> w = v) -> (forall ty' delim, e = EMsg ty' delim -> sub_into d ty' t v w) ->
    (i < length fs)%nat -> wt (loosen ex e) v -> (scalar e = false -> nth i fs [] = [t]) ->
    runs d ty (fs, u) (enc_elem (enc_msg E) num e v) (set_nth i [w] fs, u).
  Proof.
    intros Hn Hm Hl Hwv Hsub Hi Hw Hd. rewrite enc_elem_split.
    assert (K : payload_of num (loosen ex e) v = payload_of num e v /\ elem_wt (loosen ex e) = elem_wt e /\ scalar (loosen ex e) = scalar e).
    { destruct e as [| | |[l|]| |]; try (split; [reflexivity|split; reflexivity]). destruct ex; (split; [reflexivity|split; reflexivity]). }
    destruct K as (K1 & K2 & K3).
    destruct (value_into d num (loosen ex e) t v w) as (p & sub & k & x & H1 & H2 & H3); auto.
    { rewrite K1. exact Hl. }
    { rewrite K3. exact Hwv. }
    { intros ty' delim He. apply (Hsub ty' delim). destruct e as [| | |[l|]| |]; try discriminate; [destruct ex; discriminate|exact He]. }
    rewrite K1, K2, K3 in *. eapply (runs_rec E utf8_ok limit _ _ _ _ _ _ _ _ _ _ _ k); eauto using wt_range. cbn [ap_field].
    assert (Ha : apv (apb k) e (start_val E e (nth i fs [])) d (Rec (tagb num (elem_wt e)) (8 * num + elem_wt e) (payload_of num e v) p sub) = TOk x).
    { rewrite <- (H3 (tagb num (elem_wt e)) (start_val E e (nth i fs []))).
      - unfold ap_value. rewrite K2. destruct (negb _); [reflexivity|]. destruct e as [| | |[l|]| |]; try reflexivity. destruct ex; reflexivity.
      - intros Hs. rewrite (Hd Hs). reflexivity. }
    rewrite Ha. cbn [tbind].
    assert (Hev : enum_val e x = w) by (rewrite <- H2; destruct e as [| | |[l|]| |]; try reflexivity; destruct ex; reflexivity).
    destruct e as [| | |[l|]| |]; rewrite ?Hev; try reflexivity.
    destruct ex; cbn [andb]; [|reflexivity]. cbn [loosen] in Hw. rewrite (Hwv eq_refl) in *. inversion Hw; subst.
    rewrite (enum_int (EEnum (Some l)) x z (Some l) eq_refl (apv_int E utf8_ok limit _ _ _ _ _ _ Ha)) by congruence.
    match goal with H : enum_valid _ _ = true |- _ => rewrite H end. reflexivity.
  Qed.

  Lemma opt_into d ty num i e t v w fs u : 1 <= num < 2 ^ 25 -> member E ty num i (Field num e COpt) ->
    zlen (payload_of num e v) < 2 ^ 31 -> (scalar e = true -> w = v) -> (forall ty' delim, e = EMsg ty' delim -> sub_into d ty' t v w) ->
    wt e v -> (scalar e = false -> start_val E e (nth i fs []) = t) ->
    runs d ty (fs, u) (enc_elem (enc_msg E) num e v) (set_nth i [w] fs, u).
  Proof.
    intros Hn Hm Hl Hwv Hsub Hw Hd. rewrite enc_elem_split.
    destruct (value_into d num e t v w Hn Hw Hl Hwv Hsub) as (p & sub & k & x & H1 & H2 & H3).
    eapply (runs_rec E utf8_ok limit _ _ _ _ _ _ _ _ _ _ _ k); eauto using wt_range. cbn [ap_field].
    pose proof (H3 (tagb num (elem_wt e)) (start_val E e (nth i fs [])) Hd) as Ha.
    rewrite Ha. cbn [tbind]. destruct e as [| | |[l|]| |]; rewrite ?H2; try reflexivity.
    rewrite (Hwv eq_refl) in *. inversion Hw; subst. rewrite (enum_int (EEnum (Some l)) x z (Some l) eq_refl (apv_int E utf8_ok limit _ _ _ _ _ _ Ha)) by congruence.
    match goal with H : enum_valid _ _ = true |- _ => rewrite H end. reflexivity.
  Qed.

  Lemma one_into d ty i alts j num e t v w u fs : member E ty num i (Oneof alts) -> 1 <= num < 2 ^ 25 -> find_alt num alts 0 = Some (j, e) ->
    elem_closed e = false -> wt e v -> zlen (payload_of num e v) < 2 ^ 31 -> (scalar e = true -> w = v) ->
    (forall ty' delim, e = EMsg ty' delim -> sub_into d ty' t v w) ->
    (scalar e = false -> start_val E e (match nth i fs [] with VAlt j' v :: _ => if Nat.eqb j j' then [v] else [] | _ => [] end) = t) ->
    runs d ty (fs, u) (enc_elem (enc_msg E) num e v) (set_nth i [VAlt j w] fs, u).
  Proof.
    intros Hm Hn Ha Hc Hw Hl Hwv Hs Hd. rewrite enc_elem_split.
    destruct (value_into d num e t v w Hn Hw Hl Hwv Hs) as (p & sub & k & x & H1 & H2 & H3).
    eapply (runs_rec E utf8_ok limit _ _ _ _ _ _ _ _ _ _ _ k); eauto using wt_range. cbn [ap_field r_tag].
    destruct (tag_parts num (elem_wt e) ltac:(lia) (wt_range e)) as [_ T]. rewrite T, Ha. cbv zeta.
    rewrite H3 by exact Hd. cbn [tbind]. replace (is_closed e) with false by (symmetry; exact Hc). rewrite H2. reflexivity.
  Qed.

  Lemma map_into d ty i num e u : member E ty num i (Field num e (CMap true)) -> 1 <= num < 2 ^ 25 -> scalar e = false -> forall vs fs,
    Forall (wt e) vs -> zlen (concat (map (enc_elem (enc_msg E) num e) vs)) < 2 ^ 31 ->
    (forall ty' delim v, e = EMsg ty' delim -> In v vs -> sub_ok d ty' v) -> (i < length fs)%nat ->
    runs d ty (fs, u) (concat (map (enc_elem (enc_msg E) num e) vs)) (set_nth i (put_all vs (nth i fs [])) fs, u).
  Proof.
    intros Hm Hn Hsc. induction vs as [|v vs IH]; intros fs Hw Hl Hs Hi.
    - unfold put_all. cbn [fold_left]. rewrite set_nth_same by exact Hi. apply runs_nil.
    - cbn [map concat] in *. rewrite zlen_app in Hl. inversion Hw as [|? ? Hw1 Hw2]; subst.
      pose proof (zlen_nonneg (enc_elem (enc_msg E) num e v)). pose proof (zlen_nonneg (concat (map (enc_elem (enc_msg E) num e) vs))).
      pose proof (payload_le E num e v). unfold put_all. cbn [fold_left]. fold (put_all vs (map_put v (nth i fs []))).
      eapply runs_app.
      + apply (elem_run E utf8_ok limit d ty num i e (CMap true) v fs u); auto; try lia.
        intros ty' delim He. apply (Hs ty' delim v He). left; reflexivity.
      + pose proof (IH (set_nth i (map_put v (nth i fs [])) fs) Hw2 ltac:(lia)) as K.
        rewrite nth_set_nth, set_nth_twice in K. apply K.
        * intros ty' delim w He Hin. apply (Hs ty' delim w He). right; exact Hin.
        * rewrite set_nth_length by exact Hi. exact Hi.
  Qed.

  (** One member. *)
  Lemma field_into mv rec d ty i f g c fs u : nth_error (m_fields (desc_of E ty)) i = Some f -> cell f g -> cell f c -> omit f c = false ->
    zlen (enc_field (enc_msg E) f c) < 2 ^ 31 ->
    (forall ty' v', sub_msg f c ty' v' -> sub_ok d ty' v' /\ rec ty' (dft ty') v' = v') ->
    (forall ty' v' t, sub_msg f c ty' v' -> wt (EMsg ty' false) t -> m_entry (desc_of E ty') = false -> sub_into d ty' t v' (rec ty' t v')) ->
    (forall ty', wt (EMsg ty' false) (dft ty')) ->
    (i < length fs)%nat -> nth i fs [] = g ->
    runs d ty (fs, u) (enc_field (enc_msg E) f c) (set_nth i (merge_field E mv rec f g c) fs, u).
  Proof.
    intros Hi Hg Hc Ho Hl Hs Hr Hwd Hlen Hd. pose proof (nth_error_In _ _ Hi) as Hin.
    assert (Hm : forall n, In n (nums f) -> member E ty n i f /\ 1 <= n < 2 ^ 25).
    { intros n Hn. split; [eapply member_at; eauto|eapply gen_numbers; eauto]. }
    assert (Hsf : field_safe (m_unk (desc_of E ty)) f) by (apply (proj1 (Forall_forall _ _) (gen_safe E G ty)); exact Hin).
    pose proof (gen_messages E G ty f Hin) as Hgm.
    inversion Hc; subst; cbn [omit] in Ho; try discriminate; cbn [nums In] in Hm; cbn [enc_field] in *.
    - destruct (Hm num (or_introl eq_refl)) as [Hm1 Hn]. cbn [map concat] in *. rewrite app_nil_r in *. pose proof (payload_le E num e v).
      assert (exists t, nth i fs [] = [t] /\ wt (loosen ex e) t) as (t & Hgt & Ht) by (inversion Hg; eauto). rewrite Hgt.
      destruct (scalar e) eqn:Hsc.
      + assert (Hmf : merge_field E mv rec (Field num e (CPlain ex d0)) [t] [v] = [v]).
        { cbn [merge_field]. assert (K : ex || negb (is_default e d0 v) = true) by (destruct ex; [reflexivity|rewrite Ho; reflexivity]). rewrite K. destruct e; try discriminate; reflexivity. }
        rewrite Hmf. apply (plain_into d ty num i e ex d0 t v v fs u); auto; try lia.
        intros ty' delim ->. discriminate.
      + destruct e as [| | | | |ty' delim]; try discriminate. destruct Hgm as [He _]. cbn [loosen merge_field] in *.
        apply (plain_into d ty num i _ ex d0 t v _ fs u); auto; try lia; try discriminate.
        intros ty2 delim2 [= <- <-]. apply Hr; [constructor; left; reflexivity|eapply WellTyped.wt_delim; eassumption|exact He].
    - destruct (Hm num (or_introl eq_refl)) as [Hm1 Hn]. cbn [map concat] in *. rewrite app_nil_r in *. pose proof (payload_le E num e v).
      destruct (scalar e) eqn:Hsc.
      + assert (Hmf : merge_field E mv rec (Field num e COpt) (nth i fs []) [v] = [v]) by (cbn [merge_field]; destruct e; try discriminate; reflexivity).
        rewrite Hmf. apply (opt_into d ty num i e (VInt 0) v v fs u); auto; try lia; try congruence. intros ty' delim ->; discriminate.
      + destruct e as [| | | | |ty' delim]; try discriminate. destruct Hgm as [He _]. cbn [merge_field].
        eapply (opt_into d ty num i _ _ v _ fs u); auto; try lia; try discriminate; try reflexivity.
        intros ty2 delim2 [= <- <-]. cbn [start_val elem_default]. apply Hr; [constructor; left; reflexivity| |exact He].
        inversion Hg; subst; [apply Hwd|]. eapply WellTyped.wt_delim; eassumption.
    - destruct (Hm num (or_introl eq_refl)) as [Hm1 Hn].
      match goal with H : elems _ _ _ _ |- _ => apply elems_forall in H; rename H into Hw end.
      rewrite merge_rep by (intros; apply Hs; assumption).
      assert (Hrep : zlen (concat (map (enc_elem (enc_msg E) num e) c)) < 2 ^ 31 ->
        runs d ty (fs, u) (concat (map (enc_elem (enc_msg E) num e) c)) (set_nth i (nth i fs [] ++ c) fs, u)).
      { intros Hl'. eapply rep_run; eauto. intros ty' delim v -> Hv. apply Hs. constructor. exact Hv. }
      destruct pk; [|apply Hrep; exact Hl]. destruct (packable e) eqn:Hp; [|apply Hrep; exact Hl].
      eapply packed_run; eauto.
    - destruct (Hm num (or_introl eq_refl)) as [Hm1 Hn].
      match goal with H : elems _ _ _ _ |- _ => apply elems_forall in H; rename H into Hw end.
      destruct (gen_maps E G ty num e assoc Hin) as (ty' & ek & dk & ev & dv & -> & _). cbn [merge_field]. destruct assoc.
      + destruct (cell_map E utf8_ok G ty num _ _ Hin Hg), (cell_map E utf8_ok G ty num _ _ Hin Hc).
        rewrite merge_map_put by assumption. apply map_into; auto.
        intros ty2 delim v [= <- <-] Hv. apply Hs. constructor. exact Hv.
      + rewrite app_nil_case. eapply map_run; eauto; [discriminate|].
        intros ty2 delim v [= <- <-] Hv. apply Hs. constructor. exact Hv.
    - assert (Hnum : In num (map fst alts)) by (apply in_map_iff; exists (num, e); split; [reflexivity|eapply nth_error_In; eauto]).
      destruct (Hm num Hnum) as [Hm1 Hn].
      match goal with H : nth_error alts j = _ |- _ => rewrite H in *; rename H into Hj end.
      pose proof (payload_le E num e v).
      assert (Hfa : find_alt num alts 0 = Some (j, e)).
      { rewrite (find_alt_at alts j num e 0%nat); auto. apply (nodup_concat_in nums _ (Oneof alts) (gen_distinct E G ty) Hin). }
      assert (Hcl : elem_closed e = false).
      { cbn [field_safe] in Hsf. rewrite Forall_forall in Hsf. apply (Hsf (num, e)). eapply nth_error_In; eauto. }
      destruct (scalar e) eqn:Hsc.
      + assert (Hmf : merge_field E mv rec (Oneof alts) (nth i fs []) [VAlt j v] = [VAlt j v]).
        { cbn [merge_field]. inversion Hg; subst; [reflexivity|]. destruct (Nat.eqb_spec j0 j); [|reflexivity]. rewrite Hj. destruct e; try discriminate; reflexivity. }
        rewrite Hmf. apply (one_into d ty i alts j num e (VInt 0) v v u fs); auto; try lia; try congruence. intros ty' delim ->; discriminate.
      + destruct e as [| | | | |ty' delim]; try discriminate.
        assert (He : m_entry (desc_of E ty') = false) by (apply (Hgm num ty' delim); eapply nth_error_In; eauto).
        set (t := start_val E (EMsg ty' delim) (match nth i fs [] with VAlt j' v :: _ => if Nat.eqb j j' then [v] else [] | _ => [] end)).
        assert (Ht : wt (EMsg ty' false) t).
        { unfold t. inversion Hg as [| | | | | |? j0 num0 e0 v0 Hj0 Hw0]; subst; [apply Hwd|]. destruct (Nat.eqb_spec j j0); [subst j0|apply Hwd].
          rewrite Hj in Hj0. injection Hj0 as <- <-. eapply WellTyped.wt_delim; eassumption. }
        assert (Hmf : merge_field E mv rec (Oneof alts) (nth i fs []) [VAlt j v] = [VAlt j (rec ty' t v)]).
        { assert (Hd0 : rec ty' (dft ty') v = v) by (apply Hs; econstructor; exact Hj).
          unfold t. cbn [merge_field]. inversion Hg as [| | | | | |? j0 num0 e0 v0 Hj0 Hw0]; subst; [cbn [start_val elem_default]; rewrite Hd0; reflexivity|].
          rewrite (Nat.eqb_sym j0 j). destruct (Nat.eqb_spec j j0); [|cbn [start_val elem_default]; rewrite Hd0; reflexivity].
          rewrite Hj. reflexivity. }
        rewrite Hmf. apply (one_into d ty i alts j num _ t v _ u fs); auto; try lia; try discriminate.
        intros ty2 delim2 [= <- <-]. apply Hr; auto. econstructor; exact Hj.
  Qed.

  Lemma field_absent mv rec f g c : cell f g -> cell f c -> omit f c = true -> merge_field E mv rec f g c = g.
  Proof.
    intros Hg Hc Ho. inversion Hc; subst; cbn [omit] in Ho; try discriminate; cbn [merge_field]; try reflexivity.
    - inversion Hg; subst. destruct ex; [discriminate|]. rewrite Ho. cbn [orb negb]. destruct e; try reflexivity; discriminate.
    - destruct c; [|discriminate]. cbn [map]. rewrite app_nil_r. destruct e, mv, g; reflexivity.
    - destruct c; [|discriminate]. rewrite app_nil_r. destruct assoc, g; reflexivity.
  Qed.

  (** All members. *)
  Lemma fields_into mv rec d ty u : (forall ty', wt (EMsg ty' false) (dft ty')) -> forall fds gs fs dn dfds, m_fields (desc_of E ty) = dfds ++ fds -> length dn = length dfds ->
    cells fds gs -> cells fds fs ->
    (forall f c ty' v', In (f, c) (combine fds fs) -> sub_msg f c ty' v' -> sub_ok d ty' v' /\ rec ty' (dft ty') v' = v') ->
    (forall f c ty' v' t, In (f, c) (combine fds fs) -> sub_msg f c ty' v' -> wt (EMsg ty' false) t -> m_entry (desc_of E ty') = false -> sub_into d ty' t v' (rec ty' t v')) ->
    zlen (enc_fields (enc_msg E) fds fs) < 2 ^ 31 ->
    runs d ty (dn ++ gs, u) (enc_fields (enc_msg E) fds fs) (dn ++ merge_fields E mv rec fds gs fs, u).
  Proof.
    intros Hwd. induction fds as [|f fds IH]; intros gs fs dn dfds Hf Hlen Hg Hc Hs Hr Hl; inversion Hg; subst; inversion Hc; subst; [apply runs_nil|].
    cbn [enc_fields merge_fields] in *. rewrite zlen_app in Hl. rename c into g0, c0 into c0, fs0 into gs, fs1 into fs.
    pose proof (zlen_nonneg (if omit f c0 then [] else enc_field (enc_msg E) f c0)). pose proof (zlen_nonneg (enc_fields (enc_msg E) fds fs)).
    eapply (runs_app E utf8_ok limit d ty _ _ (dn ++ merge_field E mv rec f g0 c0 :: gs, u)).
    - destruct (omit f c0) eqn:Hom.
      + rewrite field_absent by assumption. apply runs_nil.
      + replace (dn ++ merge_field E mv rec f g0 c0 :: gs) with (set_nth (length dn) (merge_field E mv rec f g0 c0) (dn ++ g0 :: gs)) by apply set_nth_mid.
        apply field_into; auto; try lia.
        * rewrite Hf, Hlen, nth_error_app2, Nat.sub_diag by lia. reflexivity.
        * intros ty' v' Hsub. eapply Hs; [left; reflexivity|exact Hsub].
        * intros ty' v' t Hsub. eapply Hr; [left; reflexivity|exact Hsub].
        * rewrite app_length. cbn. lia.
        * apply nth_mid.
    - replace (dn ++ merge_field E mv rec f g0 c0 :: gs) with ((dn ++ [merge_field E mv rec f g0 c0]) ++ gs) by (rewrite <- app_assoc; reflexivity).
      replace (dn ++ merge_field E mv rec f g0 c0 :: merge_fields E mv rec fds gs fs) with ((dn ++ [merge_field E mv rec f g0 c0]) ++ merge_fields E mv rec fds gs fs) by (rewrite <- app_assoc; reflexivity).
      apply (IH gs fs _ (dfds ++ [f])); auto; try lia.
      + rewrite <- app_assoc. exact Hf.
      + rewrite !app_length. cbn. lia.
      + intros f1 c1 ty' v' Hin. apply Hs. right; exact Hin.
      + intros f1 c1 ty' v' t Hin. apply Hr. right; exact Hin.
  Qed.

  Lemma adds_umap n l : Forall (fun x => fst x = n) l -> l <> [] -> forall u, adds UMap l u = umap_add n (bytes_of l) u.
  Proof.
    intros Hl Hne. destruct l as [|[m f] l]; [congruence|]. clear Hne. inversion Hl as [|? ? H1 H2]; subst. cbn [fst] in *. intros u.
    unfold adds. cbn [fold_left unk_add fst snd]. unfold bytes_of. cbn [map concat snd]. fold (bytes_of l). clear Hl.
    change (fold_left (fun u x => unk_add UMap (fst x) (snd x) u) l (umap_add m f u)) with (adds UMap l (umap_add m f u)).
    revert u f. induction H2 as [|[k x] l Hk Hl IH]; intros u f; [cbn; rewrite app_nil_r; reflexivity|].
    cbn [fst] in Hk. subst k. unfold adds in *. cbn [fold_left unk_add fst snd]. rewrite umap_add_add, IH. unfold bytes_of. cbn [map concat snd]. rewrite app_assoc. reflexivity.
  Qed.

  Lemma unknown_into d ty fs w u : m_unk (desc_of E ty) = UNone \/ m_unk (desc_of E ty) = UMap -> length fs = length (m_fields (desc_of E ty)) ->
    stored_ok E limit d ty u -> runs d ty (fs, w) (enc_unknown (m_unk (desc_of E ty)) u) (fs, merge_unk (m_unk (desc_of E ty)) w u).
  Proof.
    intros Hk Hlf Hs. unfold stored_ok in Hs. pose proof (fun H => unknown_fields_run E utf8_ok limit G d ty fs H Hlf) as Hrun. unfold enc_unknown.
    destruct Hk as [Hk|Hk]; rewrite Hk in *; [apply runs_nil|]. cbn [merge_unk]. revert w.
    induction Hs as [|[n b] u (l & Hb & Hne & Hl) Hu IH]; intros w; [apply runs_nil|]. cbn [map concat snd fst fold_left] in *. eapply runs_app; [|apply IH].
    subst b. rewrite <- (adds_umap n l); auto.
    - apply Hrun; [discriminate|]. eapply Forall_impl; [|exact Hl]; cbn; tauto.
    - eapply Forall_impl; [|exact Hl]. cbn. intros x [_ [?|?]]; [discriminate|assumption].
  Qed.

  Lemma canonical_settled : forall ty v d, canonical E limit d ty v -> settled E ty v.
  Proof.
    apply (nested_ind_msg E (fun ty v => forall d, canonical E limit d ty v -> settled E ty v)).
    intros ty v IH d Hc. inversion Hc as [? ? ? [H1 H2] H3]; subst. constructor; [exact H1|]. intros f c ty' v' Hh Hs. eapply IH; eauto. eapply H3; eauto.
  Qed.

  Theorem merge_run mv : (forall ty, m_unk (desc_of E ty) = UNone \/ m_unk (desc_of E ty) = UMap) -> wt_defaults E utf8_ok -> forall ty v d a,
    wt (EMsg ty false) v -> wt (EMsg ty false) a -> canonical E limit (d + 1) ty v ->
    (forall n, nested E ty v n -> scope_ok limit (d + Z.of_nat n - 1) = true) -> zlen (enc_msg E ty v) < 2 ^ 31 ->
    runs (d + 1) ty (msg_fields a, msg_unk a) (enc_msg E ty v) (msg_fields (merge_msg E mv ty a v), msg_unk (merge_msg E mv ty a v)).
  Proof.
    intros Hst0 Hdf.
    apply (nested_ind_msg E (fun ty v => forall d a, wt (EMsg ty false) v -> wt (EMsg ty false) a -> canonical E limit (d + 1) ty v ->
    (forall n, nested E ty v n -> scope_ok limit (d + Z.of_nat n - 1) = true) -> zlen (enc_msg E ty v) < 2 ^ 31 ->
    runs (d + 1) ty (msg_fields a, msg_unk a) (enc_msg E ty v) (msg_fields (merge_msg E mv ty a v), msg_unk (merge_msg E mv ty a v)))).
    intros ty v IH d a Hw Ha Hc Hd Hl. pose proof Hw as Hw0. inversion Hw as [| | | | |? ? fs u Hcs Hst Hab]; subst. inversion Ha as [| | | | |? ? gs w Hgs Hgst Hgab]; subst.
    inversion Hc as [? ? ? [Hc1 Hc2] Hc3]; subst. cbn [enc_msg msg_fields msg_unk merge_msg] in *.
    rewrite zlen_app in Hl. pose proof (zlen_nonneg (enc_fields (enc_msg E) (m_fields (desc_of E ty)) fs)). pose proof (zlen_nonneg (enc_unknown (m_unk (desc_of E ty)) u)).
    assert (Hsub : forall f c ty' v', In (f, c) (combine (m_fields (desc_of E ty)) fs) -> sub_msg f c ty' v' ->
      wt (EMsg ty' false) v' /\ canonical E limit (d + 1 + 1) ty' v' /\
      (forall n, nested E ty' v' n -> scope_ok limit (d + 1 + Z.of_nat n - 1) = true) /\ zlen (enc_msg E ty' v') < 2 ^ 31).
    { intros f c ty' v' Hin Hs. split; [eapply wt_sub; eauto|]. split; [eapply Hc3; eauto|]. split.
      - intros n Hn. specialize (Hd (S n)). rewrite Nat2Z.inj_succ in Hd. replace (d + 1 + Z.of_nat n - 1) with (d + Z.succ (Z.of_nat n) - 1) by lia.
        apply Hd. eapply NStep; [exact Hin|exact Hs|exact Hn].
      - pose proof (sub_len E _ _ _ _ Hs). pose proof (fields_len E f c (sub_not_omitted _ _ _ _ Hs) _ _ Hin). lia. }
    assert (Hent : forall f c ty' v', In (f, c) (combine (m_fields (desc_of E ty)) fs) -> sub_msg f c ty' v' -> m_entry (desc_of E ty') = true -> tag_number (hd 0 (enc_msg E ty' v')) = 1).
    { intros f c ty' v' Hin Hs He. destruct (Hsub f c ty' v' Hin Hs) as (Hw' & _ & _ & _). assert (Hf : In f (m_fields (desc_of E ty))) by (eapply in_combine_l; eauto).
      pose proof (gen_messages E G ty f Hf) as Hgm. inversion Hw' as [| | | | |? ? fs' u' Hcs' Hst' Hab']; subst. inversion Hs; subst.
      + destruct c0 as [ex d0| |pk|assoc]; try (destruct Hgm; congruence).
        destruct (gen_maps E G ty num (EMsg ty' delim) assoc Hf) as (ty2 & ek & dk & ev & dv & He2 & Hsk & Hdesc). injection He2 as <- ->.
        rewrite Hdesc in Hcs'. cbn [m_fields] in Hcs'.
        inversion Hcs' as [|? ? ck ? Hk Hcs2]; subst. inversion Hk; subst. cbn [enc_msg]. rewrite Hdesc. cbn [m_fields enc_fields omit enc_field].
        cbn [map concat]. rewrite <- !app_assoc. apply entry_head. exact Hsk.
      + rewrite (Hgm num ty' delim) in He; [discriminate|]. eapply nth_error_In; eauto. }
    assert (Hscope : forall f c ty' v', In (f, c) (combine (m_fields (desc_of E ty)) fs) -> sub_msg f c ty' v' -> scope_ok limit (d + 1) = true).
    { intros f c ty' v' Hin Hs. destruct (Hsub f c ty' v' Hin Hs) as (Hw' & _ & Hdep & _). inversion Hw'; subst.
      specialize (Hdep 1%nat (NOne E _ _ _)). replace (d + 1 + Z.of_nat 1 - 1) with (d + 1) in Hdep by lia. exact Hdep. }
    eapply runs_app; [|apply unknown_into; auto].
    - apply (fields_into mv (merge_msg E mv) (d + 1) ty w Hdf (m_fields (desc_of E ty)) gs fs [] []); auto; [| |lia].
      + intros f c ty' v' Hin Hs. destruct (Hsub f c ty' v' Hin Hs) as (Hw' & Hc' & Hdep & Hlen'). split.
        * split; [eapply Hscope; eauto|]. split; [eapply Hent; eauto|]. split; [inversion Hw'; reflexivity|]. apply (message_run E utf8_ok limit G ty' v' (d + 1)); auto.
        * apply (merge_left E utf8_ok G); auto. eapply canonical_settled; eauto.
      + intros f c ty' v' t Hin Hs Ht He. destruct (Hsub f c ty' v' Hin Hs) as (Hw' & Hc' & Hdep & Hlen').
        split; [eapply Hscope; eauto|]. split; [eapply Hent; eauto|]. split; [inversion Hw'; subst; inversion Ht; subst; reflexivity|].
        apply (IH f c ty' v' Hin Hs (d + 1)); auto.
    - clear - Hgs Hcs. revert gs fs Hgs Hcs. induction (m_fields (desc_of E ty)) as [|f fds IH]; intros gs fs Hg Hf; inversion Hg; subst; inversion Hf; subst; [reflexivity|].
      cbn [merge_fields length]. f_equal. apply IH; auto.
  Qed.

  (** Parsing an encoded message into [a] is the same as merging it. *)
  Theorem merge_decode mv maxd ty a v bs : m_entry (desc_of E ty) = false -> (forall ty, m_unk (desc_of E ty) = UNone \/ m_unk (desc_of E ty) = UMap) ->
    wt_defaults E utf8_ok -> maxd <= limit -> wt_msg E utf8_ok ty a -> wt_msg E utf8_ok ty v -> canonical E limit 1 ty v ->
    encode_bytes E utf8_ok maxd ty v = Ok bs -> decode_bytes E utf8_ok limit ty a bs = Ok (merge_msg E mv ty a v).
  Proof.
    intros He Hst Hdf Hml Ha Hw Hc H. pose proof (generated_legal E G) as Hleg. destruct (encoded E utf8_ok maxd ty v bs Hleg Hw H) as (-> & Hl & Hd).
    apply dec_of_spec; [apply (gen_safe E G)|eapply enc_bytes; eauto|exact He|].
    assert (Hd' : forall n, nested E ty v n -> scope_ok limit (0 + Z.of_nat n - 1) = true) by (intros n Hn; rewrite Z.add_0_l; apply (scope_mono maxd); auto).
    destruct (merge_run mv Hst Hdf ty v 0 a Hw Ha Hc Hd' ltac:(unfold max_message_size in Hl; lia)) as (f & rs & Ht & Hap).
    change (0 + 1) with 1 in *. apply spec_ok_iff; [apply (gen_safe E G)|eapply enc_bytes; eauto|exact He|].
    inversion Hw as [| | | | |? ? fs u Hcs _ _]; subst. inversion Ha as [| | | | |? ? gs w Hgs _ _]; subst. split.
    - apply (Hd' 1%nat). constructor.
    - exists (S f), rs. split; [exact Ht|]. cbn [ap_body]. rewrite Hap. reflexivity.
  Qed.

  (** Parsing two encoded messages one after the other merges them. *)
  Theorem merge_concat mv maxd ty a v bs1 bs2 : m_entry (desc_of E ty) = false -> (forall ty, m_unk (desc_of E ty) = UNone \/ m_unk (desc_of E ty) = UMap) ->
    wt_defaults E utf8_ok -> maxd <= limit -> wt_msg E utf8_ok ty a -> canonical E limit 1 ty a -> wt_msg E utf8_ok ty v -> canonical E limit 1 ty v ->
    encode_bytes E utf8_ok maxd ty a = Ok bs1 -> encode_bytes E utf8_ok maxd ty v = Ok bs2 ->
    decode_bytes E utf8_ok limit ty (default_msg E ty) (bs1 ++ bs2) = Ok (merge_msg E mv ty a v).
  Proof.
    intros He Hst Hdf Hml Ha Hca Hw Hc H1 H2. pose proof (generated_legal E G) as Hleg.
    destruct (encoded E utf8_ok maxd ty a bs1 Hleg Ha H1) as (-> & Hl1 & Hd1). destruct (encoded E utf8_ok maxd ty v bs2 Hleg Hw H2) as (-> & Hl2 & Hd2).
    assert (Hb : all_bytes (enc_msg E ty a ++ enc_msg E ty v)) by (apply all_bytes_app; split; eapply enc_bytes; eauto).
    apply dec_of_spec; [apply (gen_safe E G)|exact Hb|exact He|].
    assert (Hd1' : forall n, nested E ty a n -> scope_ok limit (0 + Z.of_nat n - 1) = true) by (intros n Hn; rewrite Z.add_0_l; apply (scope_mono maxd); auto).
    assert (Hd2' : forall n, nested E ty v n -> scope_ok limit (0 + Z.of_nat n - 1) = true) by (intros n Hn; rewrite Z.add_0_l; apply (scope_mono maxd); auto).
    pose proof (message_run E utf8_ok limit G ty a 0 Ha Hca Hd1' ltac:(unfold max_message_size in Hl1; lia)) as R1.
    pose proof (merge_run mv Hst Hdf ty v 0 a Hw Ha Hc Hd2' ltac:(unfold max_message_size in Hl2; lia)) as R2.
    destruct (runs_app _ _ _ _ _ _ _ _ _ _ R1 R2) as (f & rs & Ht & Hap).
    change (0 + 1) with 1 in *. apply spec_ok_iff; [apply (gen_safe E G)|exact Hb|exact He|].
    inversion Hw as [| | | | |? ? fs u Hcs _ _]; subst. inversion Ha as [| | | | |? ? gs w Hgs _ _]; subst. split.
    - apply (Hd2' 1%nat). constructor.
    - exists (S f), rs. split; [exact Ht|]. cbn [ap_body]. change (msg_unk (default_msg E ty)) with (@nil (Z * bytes)). rewrite Hap. reflexivity.
  Qed.
End Run.
