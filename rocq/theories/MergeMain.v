(** Merge does what [merges] says, and keeps messages well-formed. *)
From Coq Require Import Sorted.
Require Import Verif.Bits Verif.Varint.
Require Import Verif.Schema Verif.Archive Verif.Decode Verif.DecodeSafe Verif.WellTyped Verif.DecodeTerms Verif.Encode Verif.EncodeSpec Verif.EncodeProofs Verif.EncodeProofs2 Verif.RoundTrip Verif.Presence.
Require Import Verif.Merge Verif.MergeProofs Verif.MergeSpec Verif.MergeLaws.

Lemma get_iff l x : keyed l -> sorted l -> In x l <-> map_get (entry_key x) l = Some x.
Proof.
  unfold sorted. induction l as [|h t IH]; intros Kl Sl; [split; [intros []|discriminate]|]. inversion Kl as [|? ? K1 K2]; subst. cbn [map] in Sl. inversion Sl as [|? ? S1 S2]; subst.
  cbn [In map_get]. specialize (IH K2 S1). destruct (key_ltb (entry_key x) (entry_key h) || key_ltb (entry_key h) (entry_key x)) eqn:L.
  - rewrite <- IH. split; [|tauto]. intros [->|H]; [rewrite key_irrefl in L; discriminate|exact H].
  - split; [|intros [= ->]; auto]. intros [->|H]; [reflexivity|]. apply orb_false_iff in L. exfalso.
    rewrite Forall_forall in S2. assert (key_lt (entry_key h) (entry_key x)) by (apply S2; apply in_map; exact H). unfold key_lt in *. destruct L; congruence.
Qed.
Lemma get_none_iff k l : is_key k -> keyed l -> map_get k l = None <-> no_entry k l.
Proof.
  intros Hk. induction 1 as [|h t Hh Ht IH]; [split; [intros _ x []|reflexivity]|]. cbn [map_get].
  destruct (key_ltb k (entry_key h) || key_ltb (entry_key h) k) eqn:L.
  - rewrite IH. unfold no_entry. split; intros H x; [intros [<-|Hx] Hc; [|apply (H x); assumption]|intros Hx; apply H; right; exact Hx].
    subst k. rewrite key_irrefl in L. discriminate.
  - split; [discriminate|]. intros H. exfalso. apply (H h (or_introl eq_refl)). apply orb_false_iff in L. symmetry. apply key_eq; tauto.
Qed.

Lemma ext_bytes_get n l : usorted l -> ext_bytes n l = match uget n l with Some b => b | None => [] end.
Proof.
  unfold usorted, ext_bytes. induction l as [|[m b] t IH]; intros Hs; [reflexivity|]. cbn [map fst] in Hs. inversion Hs as [|? ? S1 S2]; subst. cbn [filter fst uget].
  destruct (Z.eqb_spec m n); [|auto]. subst m. cbn [map concat snd]. rewrite IH, uget_none_lt by assumption. apply app_nil_r.
Qed.
Lemma uget_keys n l : In n (map fst l) <-> uget n l <> None.
Proof.
  induction l as [|[m b] t IH]; cbn; [split; [intros []|congruence]|]. destruct (Z.eqb_spec m n); [split; [discriminate|auto]|]. rewrite IH. split; [intros [?|?]; [congruence|assumption]|auto].
Qed.

Lemma merge_kept k w u : k <> UBytes -> store_ok k w -> store_ok k u -> merges_kept k w u (merge_unk k w u).
Proof.
  intros Hk Hw Hu. destruct k; cbn [store_ok] in *; [subst; constructor|congruence| |constructor].
  destruct (merge_umap_spec u w Hw Hu) as [A B]. apply MKMap; [exact A|..]; intros n.
  - rewrite !uget_keys, B. destruct (uget n w), (uget n u); cbn; intuition congruence.
  - rewrite !ext_bytes_get, B by assumption. destruct (uget n w), (uget n u); cbn; rewrite ?app_nil_r; reflexivity.
Qed.

Section Main.
  Context (E : env) (utf8_ok : bytes -> bool).
  Hypothesis G : generated E.
  Hypothesis D : wt_defaults E utf8_ok.
  Notation wt := (wt E utf8_ok).
  Notation cell := (cell E utf8_ok).
  Notation cells := (cells E utf8_ok).
  Notation dft := (default_msg E).

  Lemma default_wt ty f num e ex d : In f (m_fields (desc_of E ty)) -> f = Field num e (CPlain ex d) -> wt (loosen ex e) d.
  Proof.
    intros Hin ->. pose proof (D ty) as Hdf. inversion Hdf as [| | | | |? ? fs0 u0 Hcs _ _]; subst. destruct (In_nth_error _ _ Hin) as [i Hi].
    pose proof (cells_nth _ _ _ _ Hcs i _ Hi) as Hcd. erewrite nth_indep, map_nth with (d := Oneof []) in Hcd.
    2:{ rewrite map_length. apply nth_error_Some. congruence. }
    rewrite (nth_error_nth _ _ _ Hi) in Hcd. cbn [field_default] in Hcd. inversion Hcd; subst. assumption.
  Qed.

  Lemma set_iff ty num e ex d v : In (Field num e (CPlain ex d)) (m_fields (desc_of E ty)) -> wt (loosen ex e) v ->
    ex || negb (is_default e d v) = true <-> is_set (Field num e (CPlain ex d)) [v].
  Proof.
    intros Hin Hv. pose proof (default_wt ty _ _ _ _ _ Hin eq_refl) as Hd. destruct ex; cbn [orb is_set]; [tauto|].
    rewrite negb_true_iff, <- not_true_iff_false, (is_default_iff E utf8_ok e d v) by eauto. split; [eauto|]. intros (w & [= <-] & H). exact H.
  Qed.

  Lemma member_merges mv rec ty f g c : In f (m_fields (desc_of E ty)) -> cell f g -> cell f c ->
    (forall ty' v', sub_msg f c ty' v' -> rec ty' (dft ty') v' = v') ->
    (forall ty' v' t, sub_msg f c ty' v' -> sub_msg f g ty' t -> merges E ty' t v' (rec ty' t v')) ->
    merges_member E f g c (merge_field E mv rec f g c).
  Proof.
    intros Hin Hg Hc Hl Hr. destruct f as [num e [ex d| |pk|assoc]|alts].
    - inversion Hg; subst. inversion Hc; subst. cbn [merge_field]. destruct (scalar e) eqn:Hs.
      + assert (K : merges_member E (Field num e (CPlain ex d)) [v] [v0] (if ex || negb (is_default e d v0) then [v0] else [v])).
        { destruct (ex || negb (is_default e d v0)) eqn:K.
          - apply MPlain; [exact Hs|]. eapply set_iff; eauto.
          - apply MAbsent. intros Hset. eapply set_iff in Hset; eauto. congruence. }
        destruct e; try discriminate; exact K.
      + destruct e as [| | | | |ty' delim]; try discriminate. apply MPlainMsg. apply Hr; constructor; left; reflexivity.
    - inversion Hc; subst; [apply MAbsent; cbn; tauto|]. cbn [merge_field]. destruct e as [| | | | |ty' delim]; try (apply MOpt; reflexivity).
      inversion Hg; subst.
      + rewrite Hl by (constructor; left; reflexivity). apply MOptNew.
      + apply MOptMsg. apply Hr; constructor; left; reflexivity.
    - rewrite merge_rep by exact Hl. apply MRep.
    - cbn [merge_field]. destruct assoc; [|rewrite app_nil_case; apply MPairs].
      destruct (cell_map E utf8_ok G ty num e g Hin Hg) as [Kg Sg], (cell_map E utf8_ok G ty num e c Hin Hc) as [Kc Sc].
      destruct (merge_map_spec g c Kg Kc Sg Sc) as (A & B & C). apply MMap; [exact B|]. intros x.
      assert (Hk : In x g \/ In x c -> is_key (entry_key x)).
      { unfold keyed in *. rewrite Forall_forall in Kg, Kc. intros [H|H]; auto. }
      split.
      + intros Hx. assert (Hkx : is_key (entry_key x)) by (unfold keyed in A; rewrite Forall_forall in A; auto).
        apply get_iff in Hx; auto. rewrite C in Hx by exact Hkx. destruct (map_get (entry_key x) c) eqn:K.
        * left. apply get_iff; auto. congruence.
        * right. split; [apply get_iff; auto|]. apply get_none_iff; auto.
      + intros [Hx|[Hx Hn]].
        * assert (Hkx := Hk (or_intror Hx)). apply get_iff; auto. rewrite C by auto. apply get_iff in Hx; auto. rewrite Hx. reflexivity.
        * assert (Hkx := Hk (or_introl Hx)). apply get_iff; auto. rewrite C by auto. apply get_none_iff in Hn; auto. rewrite Hn. apply get_iff; auto.
    - inversion Hc; subst; [apply MAbsent; cbn; tauto|]. rename H0 into Hj. cbn [merge_field].
      inversion Hg; subst.
      + apply MOne. intros (n' & t' & dl & t0 & _ & K). discriminate.
      + destruct (Nat.eqb_spec j0 j); [subst j0|].
        * rewrite Hj. assert (e0 = e) by congruence. subst e0.
          destruct (scalar e) eqn:Hs.
          { destruct e; try discriminate; apply MOne; intros (n' & t' & dl & t0 & K & _); congruence. }
          destruct e as [| | | | |ty' delim]; try discriminate. eapply MOneMsg; [exact Hj|]. apply Hr; econstructor; exact Hj.
        * apply MOne. intros (n' & t' & dl & t0 & _ & K). congruence.
  Qed.

  Theorem merge_merges mv : no_flat_store E -> forall ty b, wt (EMsg ty false) b -> settled E ty b -> forall a, wt (EMsg ty false) a ->
    merges E ty a b (merge_msg E mv ty a b).
  Proof.
    intros Hnf. apply (nested_ind_msg E (fun ty b => wt (EMsg ty false) b -> settled E ty b -> forall a, wt (EMsg ty false) a -> merges E ty a b (merge_msg E mv ty a b))).
    intros ty b IH Hb Sb a Ha. inversion Sb as [? ? _ Hsub]; subst.
    assert (L : forall f x ty' v', holds E ty b f x -> sub_msg f x ty' v' -> merge_msg E mv ty' (dft ty') v' = v' /\
      forall t, wt (EMsg ty' false) t -> merges E ty' t v' (merge_msg E mv ty' t v')).
    { intros f x ty' v' Hh Hs. pose proof (wt_sub E utf8_ok ty b f x ty' v' Hb Hh Hs) as Hw. pose proof (Hsub f x ty' v' Hh Hs) as Hse.
      split; [apply (merge_left E utf8_ok G mv ty' v' Hw Hse)|]. intros t Ht. exact (IH f x ty' v' Hh Hs Hw Hse t Ht). }
    inversion Ha as [| | | | |? ? fa ua Ca Ua Ba]; subst. inversion Hb as [| | | | |? ? fb ub Cb Ub Bb]; subst.
    cbn [merge_msg]. constructor; [|apply merge_kept; auto].
    unfold holds in L. cbn [msg_fields] in L.
    assert (K : forall fds fa fb, (forall f, In f fds -> In f (m_fields (desc_of E ty))) -> cells fds fa -> cells fds fb ->
      (forall f x ty' v', In (f, x) (combine fds fb) -> sub_msg f x ty' v' -> merge_msg E mv ty' (dft ty') v' = v' /\
        forall t, wt (EMsg ty' false) t -> merges E ty' t v' (merge_msg E mv ty' t v')) ->
      merges_members E fds fa fb (merge_fields E mv (merge_msg E mv) fds fa fb)).
    { clear - G D. induction fds as [|f fds IH]; intros fa fb Hin Ca Cb L; inversion Ca; subst; inversion Cb; subst; cbn [merge_fields]; constructor.
      - apply (member_merges mv (merge_msg E mv) ty); try assumption.
        + apply Hin. left; reflexivity.
        + intros ty' v' Hs. apply (L f c0 ty' v' (or_introl eq_refl) Hs).
        + intros ty' v' t Hs Ht. apply (L f c0 ty' v' (or_introl eq_refl) Hs). apply (cell_sub E utf8_ok f c ty' t); assumption.
      - apply IH; auto; [intros g Hg; apply Hin; right; exact Hg|]. intros g x ty' v' Hg. apply L. right; exact Hg. }
    apply K; auto.
  Qed.
End Main.
