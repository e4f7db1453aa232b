(** Identity, associativity and meaning of merge. *)
From Coq Require Import Sorted.
Require Import Verif.Bits Verif.Varint.
Require Import Verif.Schema Verif.Archive Verif.Decode Verif.DecodeSafe Verif.WellTyped Verif.DecodeTerms Verif.Encode Verif.EncodeSpec Verif.EncodeProofs Verif.EncodeProofs2 Verif.RoundTrip Verif.Presence.
Require Import Verif.Merge Verif.MergeProofs Verif.MergeSpec.

Section Laws.
  Context (E : env) (utf8_ok : bytes -> bool).
  Hypothesis G : generated E.
  Notation wt := (wt E utf8_ok).
  Notation cell := (cell E utf8_ok).
  Notation cells := (cells E utf8_ok).
  Notation dft := (default_msg E).

  Lemma gen_map_shape : map_shape E.
  Proof.
    intros ty num e assoc H. destruct (gen_maps E G _ _ _ _ H) as (ty' & ek & dk & ev & dv & -> & Hs & Hd).
    exists ty', 1, ek, dk, [Field 2 ev (CPlain true dv)]. rewrite Hd. auto.
  Qed.

  Lemma cell_map ty num e c : In (Field num e (CMap true)) (m_fields (desc_of E ty)) -> cell (Field num e (CMap true)) c -> keyed c /\ sorted c.
  Proof.
    intros Hin Hc. inversion Hc; subst. split; [|unfold sorted; auto].
    match goal with H : elems _ _ _ _ |- _ => apply elems_forall in H; rename H into Hw end.
    eapply Forall_impl; [|exact Hw]. intros v. eapply map_keys; eauto using gen_map_shape.
  Qed.

  Lemma mapped_id (rec : nat -> val -> val -> val) num ty' delim cd c : (forall ty2 v', sub_msg (Field num (EMsg ty' delim) cd) c ty2 v' -> rec ty2 (dft ty2) v' = v') ->
    map (fun s => rec ty' (dft ty') s) c = c.
  Proof.
    intros H. rewrite <- (map_id c) at 2. apply map_ext_in. intros s Hs. apply H. constructor. exact Hs.
  Qed.

  Lemma app_nil_case {A} (g c : list A) : match g with [] => c | _ :: _ => g ++ c end = g ++ c.
  Proof. destruct g; reflexivity. Qed.

  (** A repeated member is appended, whether copied or moved. *)
  Lemma merge_rep mv (rec : nat -> val -> val -> val) num e pk g c :
    (forall ty2 v', sub_msg (Field num e (CRep pk)) c ty2 v' -> rec ty2 (dft ty2) v' = v') ->
    merge_field E mv rec (Field num e (CRep pk)) g c = g ++ c.
  Proof.
    intros H. cbn [merge_field]. destruct e as [| | | | |ty' delim]; try apply app_nil_case.
    destruct mv; [apply app_nil_case|]. erewrite mapped_id; eauto.
  Qed.

  (** ** Merging into an empty message *)
  Lemma field_left mv rec ty f c : In f (m_fields (desc_of E ty)) -> cell f c -> (omit f c = true -> c = field_default f) ->
    (forall ty' v', sub_msg f c ty' v' -> rec ty' (dft ty') v' = v') -> merge_field E mv rec f (field_default f) c = c.
  Proof.
    intros Hin Hc Ho Hs. pose proof (gen_messages E G ty f Hin) as Hg. destruct f as [num e [ex d| |pk|assoc]|alts]; cbn [field_default] in *.
    - inversion Hc; subst. cbn [merge_field]. destruct (scalar e) eqn:Hsc.
      + assert (K : (if ex || negb (is_default e d v) then [v] else [d]) = [v]).
        { destruct (ex || negb (is_default e d v)) eqn:K; [reflexivity|]. apply orb_false_iff in K. destruct K as [-> K]. apply negb_false_iff in K.
          symmetry. apply Ho. exact K. }
        destruct e; try discriminate; exact K.
      + destruct e as [| | | | |ty' delim]; try discriminate. destruct Hg as [_ ->]. f_equal. apply Hs. constructor. left; reflexivity.
    - inversion Hc; subst; [reflexivity|]. cbn [merge_field]. destruct e as [| | | | |ty' delim]; try reflexivity. f_equal. apply Hs. constructor. left; reflexivity.
    - rewrite merge_rep by exact Hs. reflexivity.
    - cbn [merge_field]. destruct assoc; [apply merge_map_nil_l|reflexivity].
    - inversion Hc; subst; reflexivity.
  Qed.

  Lemma fields_left mv rec ty : forall fds fs, (forall f, In f fds -> In f (m_fields (desc_of E ty))) -> cells fds fs ->
    (forall f c, In (f, c) (combine fds fs) -> omit f c = true -> c = field_default f) ->
    (forall f c ty' v', In (f, c) (combine fds fs) -> sub_msg f c ty' v' -> rec ty' (dft ty') v' = v') ->
    merge_fields E mv rec fds (map field_default fds) fs = fs.
  Proof.
    induction fds as [|f fds IH]; intros fs Hin Hc Ho Hs; inversion Hc; subst; [reflexivity|]. cbn [map merge_fields]. f_equal.
    - eapply field_left; eauto; intros; [apply Hin; left; reflexivity|apply Ho; [left; reflexivity|assumption]|eapply Hs; [left; reflexivity|eassumption]].
    - apply IH; auto; intros; [apply Hin; right; assumption|apply Ho; [right; assumption|assumption]|eapply Hs; [right; eassumption|eassumption]].
  Qed.

  Theorem merge_left mv : forall ty v, wt (EMsg ty false) v -> settled E ty v -> merge_msg E mv ty (dft ty) v = v.
  Proof.
    apply (nested_ind_msg E (fun ty v => wt (EMsg ty false) v -> settled E ty v -> merge_msg E mv ty (dft ty) v = v)).
    intros ty v IH Hw Hs. pose proof Hw as Hw0. inversion Hw as [| | | | |? ? fs u Hcs Hst Hab]; subst. inversion Hs as [? ? Ho Hsub]; subst.
    unfold default_msg. cbn [merge_msg]. f_equal.
    - apply (fields_left mv (merge_msg E mv) ty); auto. intros f c ty' v' Hin Hsm. apply (IH f c); auto.
      + eapply wt_sub; eauto.
      + eapply Hsub; eauto.
    - destruct (m_unk (desc_of E ty)) eqn:K; cbn [store_ok] in Hst; [subst; reflexivity|reflexivity|apply merge_umap_nil; exact Hst|reflexivity].
  Qed.

  (** ** Copying and moving give the same result *)
  Lemma field_mv (rec1 rec2 : nat -> val -> val -> val) f g c : (forall ty' v' t, sub_msg f c ty' v' -> rec1 ty' t v' = rec2 ty' t v') ->
    (forall ty' v', sub_msg f c ty' v' -> rec1 ty' (dft ty') v' = v') ->
    merge_field E true rec1 f g c = merge_field E false rec2 f g c.
  Proof.
    intros H H1. destruct f as [num e [ex d| |pk|assoc]|alts].
    - cbn [merge_field]. destruct e as [| | | | |ty' delim]; try reflexivity. destruct g as [|t g], c as [|s c]; try reflexivity.
      f_equal. apply H. constructor. left; reflexivity.
    - cbn [merge_field]. destruct c as [|s c]; [reflexivity|]. destruct e as [| | | | |ty' delim]; try reflexivity. f_equal. apply H. constructor. left; reflexivity.
    - rewrite !merge_rep; auto. intros ty2 v' Hs. rewrite <- (H ty2 v' _ Hs). auto.
    - reflexivity.
    - cbn [merge_field]. destruct c as [|[| | |j s] c]; try reflexivity. destruct g as [|[| | |i t] g]; try reflexivity. destruct (Nat.eqb i j); [|reflexivity].
      destruct (nth_error alts j) as [[num [| | | | |ty' delim]]|] eqn:K; try reflexivity. do 2 f_equal. apply H. econstructor. exact K.
  Qed.

  Theorem merge_moved : forall ty v, wt (EMsg ty false) v -> settled E ty v -> forall a, merge_msg E true ty a v = merge_msg E false ty a v.
  Proof.
    apply (nested_ind_msg E (fun ty v => wt (EMsg ty false) v -> settled E ty v -> forall a, merge_msg E true ty a v = merge_msg E false ty a v)).
    intros ty v IH Hw Hs a. inversion Hw as [| | | | |? ? fs u Hcs Hst Hab]; subst. inversion Hs as [? ? Ho Hsub]; subst.
    destruct a as [| |gs w|]; try reflexivity. cbn [merge_msg]. f_equal.
    assert (Hsub2 : forall f c ty' v', In (f, c) (combine (m_fields (desc_of E ty)) fs) -> sub_msg f c ty' v' ->
      (forall t, merge_msg E true ty' t v' = merge_msg E false ty' t v') /\ merge_msg E true ty' (dft ty') v' = v').
    { intros f c ty' v' Hin Hsm. assert (wt (EMsg ty' false) v') by (eapply wt_sub; eauto). assert (settled E ty' v') by (eapply Hsub; eauto).
      split; [apply (IH f c); auto|apply merge_left; auto]. }
    clear IH Hw Hs Ho Hsub Hst Hcs. revert gs fs Hsub2. induction (m_fields (desc_of E ty)) as [|f fds IHf]; intros gs fs H; [destruct fs; reflexivity|].
    destruct gs as [|g gs], fs as [|c fs]; try reflexivity. cbn [merge_fields]. f_equal.
    - apply field_mv; intros; [apply (H f c)|eapply (H f c)]; eauto; left; reflexivity.
    - apply IHf. intros f' c' ty' v' Hin. apply H. right; exact Hin.
  Qed.

  (** ** Merging an empty message *)
  Lemma field_right mv rec ty f g : m_entry (desc_of E ty) = false -> no_required E -> wt_defaults E utf8_ok -> In f (m_fields (desc_of E ty)) -> cell f g ->
    (forall ty' v' t, sub_msg f (field_default f) ty' v' -> m_entry (desc_of E ty') = false -> v' = dft ty' -> wt (EMsg ty' false) t -> rec ty' t v' = t) ->
    merge_field E mv rec f g (field_default f) = g.
  Proof.
    intros Hent Hnr Hdf Hin Hc Hs. pose proof (gen_messages E G ty f Hin) as Hg. destruct f as [num e [ex d| |pk|assoc]|alts]; cbn [field_default] in *.
    - inversion Hc; subst. cbn [merge_field]. destruct (scalar e) eqn:Hsc.
      + destruct (Hnr ty num e ex d Hent Hin Hsc) as [-> Hd].
        assert (Hwd : exists ex', wt (loosen ex' e) d).
        { specialize (Hdf ty). inversion Hdf as [| | | | |? ? fs0 u0 Hcs _ _]; subst. destruct (In_nth_error _ _ Hin) as [i Hi].
          pose proof (cells_nth _ _ _ _ Hcs i _ Hi) as Hcd. erewrite nth_indep, map_nth with (d := Oneof []) in Hcd.
          2:{ rewrite map_length. apply nth_error_Some. congruence. }
          rewrite (nth_error_nth _ _ _ Hi) in Hcd. cbn [field_default] in Hcd. inversion Hcd; subst. eauto. }
        assert (K : is_default e d d = true) by (apply (is_default_iff E utf8_ok); auto).
        rewrite K. cbn [orb negb]. destruct e; try discriminate; reflexivity.
      + destruct e as [| | | | |ty' delim]; try discriminate. destruct Hg as [Hg1 ->]. f_equal. cbn [loosen] in *.
        apply Hs; auto; [constructor; left; reflexivity|]. eapply wt_delim; eassumption.
    - reflexivity.
    - cbn [merge_field map]. destruct e; rewrite ?app_nil_r; destruct mv, g; reflexivity.
    - cbn [merge_field]. destruct assoc; [apply merge_map_nil_r|]. rewrite app_nil_r. destruct g; reflexivity.
    - reflexivity.
  Qed.

  Theorem merge_right mv : no_required E -> wt_defaults E utf8_ok -> no_flat_store E ->
    forall ty a, m_entry (desc_of E ty) = false -> wt (EMsg ty false) a -> merge_msg E mv ty a (dft ty) = a.
  Proof.
    intros Hnr Hdf Hnf.
    assert (H : forall ty v, v = dft ty -> m_entry (desc_of E ty) = false -> forall a, wt (EMsg ty false) a -> merge_msg E mv ty a v = a).
    { apply (nested_ind_msg E (fun ty v => v = dft ty -> m_entry (desc_of E ty) = false -> forall a, wt (EMsg ty false) a -> merge_msg E mv ty a v = a)).
      intros ty v IH -> Hent a Hw. inversion Hw as [| | | | |? ? gs w Hcs Hst Hab]; subst. unfold default_msg. cbn [merge_msg]. f_equal.
      - assert (K : forall fds gs, (forall f, In f fds -> In f (m_fields (desc_of E ty))) ->
          (forall f c, In (f, c) (combine fds (map field_default fds)) -> holds E ty (dft ty) f c) -> cells fds gs ->
          merge_fields E mv (merge_msg E mv) fds gs (map field_default fds) = gs).
        { clear Hcs Hst Hab Hw gs w. induction fds as [|f fds IHf]; intros gs Hin Hh Hcs; inversion Hcs; subst; [reflexivity|]. cbn [map merge_fields]. f_equal.
          - eapply field_right; eauto; [apply Hin; left; reflexivity|]. intros ty' v' t Hsm Hent' Hv' Ht. eapply IH; eauto. apply Hh. left; reflexivity.
          - apply IHf; auto; [intros; apply Hin; right; assumption|intros; apply Hh; right; assumption]. }
        apply K; auto.
      - specialize (Hnf ty). destruct (m_unk (desc_of E ty)) eqn:K; [reflexivity|congruence|reflexivity|]. cbn [merge_unk]. apply app_nil_r. }
    intros ty a He Hw. apply H; auto.
  Qed.

  (** ** Associativity *)
  Lemma field_assoc mv rec ty f a b c : scalar_oneofs E -> In f (m_fields (desc_of E ty)) -> cell f a -> cell f b -> cell f c ->
    (forall ty' v', sub_msg f c ty' v' -> rec ty' (dft ty') v' = v') ->
    (forall ty' v', sub_msg f b ty' v' -> rec ty' (dft ty') v' = v') ->
    (forall ty' x y z, sub_msg f c ty' z -> wt (EMsg ty' false) x -> sub_msg f b ty' y -> rec ty' (rec ty' x y) z = rec ty' x (rec ty' y z)) ->
    (forall ty', wt (EMsg ty' false) (dft ty')) ->
    merge_field E mv rec f (merge_field E mv rec f a b) c = merge_field E mv rec f a (merge_field E mv rec f b c).
  Proof.
    intros Hso Hin Ha Hb Hc Hl Hlb Hr Hwd. destruct f as [num e [ex d| |pk|assoc]|alts].
    - inversion Ha; subst. inversion Hb; subst. inversion Hc; subst. cbn [merge_field].
      assert (Hgen : match e with EMsg _ _ => False | _ => True end -> forall x y z : val,
         (if ex || negb (is_default e d z) then [z] else if ex || negb (is_default e d y) then [y] else [x]) =
         match (if ex || negb (is_default e d z) then [z] else [y]) with [] => [x] | s :: _ => if ex || negb (is_default e d s) then [s] else [x] end).
      { intros _ x y z. destruct (ex || negb (is_default e d z)) eqn:K; [rewrite K; reflexivity|reflexivity]. }
      destruct e as [| | | | |ty' delim].
      1-5: cbv iota; rewrite <- (Hgen I v v0 v1); destruct (ex || negb (is_default _ d v0)), (ex || negb (is_default _ d v1)); reflexivity.
      f_equal. cbn [loosen] in *. apply Hr; [constructor; left; reflexivity|eapply wt_delim; eassumption|constructor; left; reflexivity].
    - inversion Hc; subst; [reflexivity|]. rename v into s. cbn [merge_field]. destruct e as [| | | | |ty' delim].
      1-5: inversion Hb; subst; reflexivity.
      inversion Hb; subst.
      + rewrite Hl by (constructor; left; reflexivity). reflexivity.
      + f_equal. rewrite Hr; [reflexivity|constructor; left; reflexivity| |constructor; left; reflexivity].
        inversion Ha; subst; [apply Hwd|eapply wt_delim; eassumption].
    - assert (Hrbc : forall ty2 v', sub_msg (Field num e (CRep pk)) (b ++ c) ty2 v' -> rec ty2 (dft ty2) v' = v').
      { intros ty2 v' Hs. inversion Hs as [? ? ? ? ? ? Hv|]; subst. apply in_app_iff in Hv. destruct Hv; [apply Hlb|apply Hl]; constructor; assumption. }
      rewrite (merge_rep mv rec num e pk a b), (merge_rep mv rec num e pk b c) by assumption. rewrite !merge_rep by assumption. symmetry. apply app_assoc.
    - cbn [merge_field]. destruct assoc.
      + destruct (cell_map ty num e a Hin Ha), (cell_map ty num e b Hin Hb), (cell_map ty num e c Hin Hc). apply merge_map_assoc; auto.
      + rewrite !app_nil_case. symmetry. apply app_assoc.
    - assert (K : forall x y, cell (Oneof alts) x -> cell (Oneof alts) y -> merge_field E mv rec (Oneof alts) x y = match y with [] => x | _ => y end).
      { intros x y Hx Hy. inversion Hy; subst; [reflexivity|]. cbn [merge_field]. inversion Hx; subst; [reflexivity|].
        destruct (Nat.eqb_spec j0 j); [|reflexivity]. rewrite H0. destruct e as [| | | | |ty' delim]; try reflexivity.
        exfalso. eapply Hso; [exact Hin|]. eapply nth_error_In; eauto. }
      rewrite (K a b), (K b c) by auto. inversion Hc; subst; [rewrite (K a b) by auto; cbn [merge_field]; reflexivity|].
      rewrite (K a) by (auto; econstructor; eassumption). destruct b; rewrite K; auto; econstructor; eassumption.
  Qed.

  Theorem merge_assoc mv : scalar_oneofs E -> wt_defaults E utf8_ok -> forall ty c, wt (EMsg ty false) c -> settled E ty c ->
    forall a b, wt (EMsg ty false) a -> wt (EMsg ty false) b -> settled E ty b ->
    merge_msg E mv ty (merge_msg E mv ty a b) c = merge_msg E mv ty a (merge_msg E mv ty b c).
  Proof.
    intros Hso Hdf.
    apply (nested_ind_msg E (fun ty c => wt (EMsg ty false) c -> settled E ty c ->
      forall a b, wt (EMsg ty false) a -> wt (EMsg ty false) b -> settled E ty b ->
      merge_msg E mv ty (merge_msg E mv ty a b) c = merge_msg E mv ty a (merge_msg E mv ty b c))).
    intros ty c IH Hc Sc a b Ha Hb Sb.
    assert (Hl : forall v, wt (EMsg ty false) v -> settled E ty v -> forall f x ty' v', holds E ty v f x -> sub_msg f x ty' v' -> settled E ty' v' /\ merge_msg E mv ty' (dft ty') v' = v').
    { intros v Hv Sv f x ty' v' Hh Hs. inversion Sv as [? ? _ Hsub]; subst. split; [eapply Hsub; eauto|]. apply merge_left; [eapply wt_sub; eauto|eapply Hsub; eauto]. }
    pose proof (Hl c Hc Sc) as Lc. pose proof (Hl b Hb Sb) as Lb. clear Hl.
    pose proof (fun f x ty' v' => wt_sub E utf8_ok ty b f x ty' v' Hb) as Wb. pose proof (fun f x ty' v' => wt_sub E utf8_ok ty c f x ty' v' Hc) as Wc.
    inversion Ha as [| | | | |? ? fa ua Ca Ua Ba]; subst. inversion Hb as [| | | | |? ? fb ub Cb Ub Bb]; subst. inversion Hc as [| | | | |? ? fc uc Cc Uc Bc]; subst.
    cbn [merge_msg]. unfold holds in *. cbn [msg_fields] in *. f_equal.
    - assert (K : forall fds fa fb fc, (forall f, In f fds -> In f (m_fields (desc_of E ty))) -> cells fds fa -> cells fds fb -> cells fds fc ->
        (forall f c ty' v', In (f, c) (combine fds fc) -> sub_msg f c ty' v' -> settled E ty' v' /\ merge_msg E mv ty' (dft ty') v' = v' /\ wt (EMsg ty' false) v' /\
           forall x y, wt (EMsg ty' false) x -> wt (EMsg ty' false) y -> settled E ty' y ->
             merge_msg E mv ty' (merge_msg E mv ty' x y) v' = merge_msg E mv ty' x (merge_msg E mv ty' y v')) ->
        (forall f c ty' v', In (f, c) (combine fds fb) -> sub_msg f c ty' v' -> settled E ty' v' /\ merge_msg E mv ty' (dft ty') v' = v' /\ wt (EMsg ty' false) v') ->
        merge_fields E mv (merge_msg E mv) fds (merge_fields E mv (merge_msg E mv) fds fa fb) fc = merge_fields E mv (merge_msg E mv) fds fa (merge_fields E mv (merge_msg E mv) fds fb fc)).
      { clear - Hso Hdf G. induction fds as [|f fds IH]; intros fa fb fc Hin Ha Hb Hc Hsc Hsb; inversion Ha; subst; inversion Hb; subst; inversion Hc; subst; [reflexivity|].
        cbn [merge_fields]. f_equal.
        - eapply field_assoc; eauto.
          + apply Hin. left; reflexivity.
          + intros ty' v' Hs. eapply (Hsc f c1); eauto. left; reflexivity.
          + intros ty' v' Hs. eapply (Hsb f c0); eauto. left; reflexivity.
          + intros ty' x y z Hz Hx Hy. destruct (Hsb f c0 ty' y (or_introl eq_refl) Hy) as (S1 & _ & S2). eapply (Hsc f c1); eauto. left; reflexivity.
        - apply IH; auto.
          + intros g Hg. apply Hin. right; exact Hg.
          + intros g x ty' v' Hg. apply Hsc. right; exact Hg.
          + intros g x ty' v' Hg. apply Hsb. right; exact Hg. }
      apply K; auto.
      + intros f x ty' v' Hin Hs. destruct (Lc f x ty' v' Hin Hs) as [L1 L2]. pose proof (Wc f x ty' v' Hin Hs) as L3. split; [exact L1|]. split; [exact L2|]. split; [exact L3|].
        intros a b Wa Wb' Sb'. eapply (IH f x); eauto.
      + intros f x ty' v' Hin Hs. destruct (Lb f x ty' v' Hin Hs) as [L1 L2]. pose proof (Wb f x ty' v' Hin Hs). auto.
    - destruct (m_unk (desc_of E ty)); cbn [store_ok] in *; [reflexivity|reflexivity|apply merge_umap_assoc; assumption|cbn [merge_unk]; symmetry; apply app_assoc].
  Qed.
End Laws.
