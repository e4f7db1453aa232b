(** Dynamic messages as well-formed message values, and output to sinks. *)
Require Import Verif.Bits Verif.Varint Verif.DynSlots Verif.Dyn Verif.Schema Verif.Archive Verif.Decode Verif.Encode Verif.DynWire.
Require Import Verif.DynSlotsProofs Verif.DecodeSafe Verif.WellTyped Verif.EncodeSpec Verif.VarintFacts Verif.EncodeProofs Verif.DynView Verif.DynEncode1 Verif.DynEncode2 Verif.DynEncode3.
Require Import Verif.Output Verif.OutputSpec Verif.OutputProofs Verif.EncodeMain2.

(** ** Values *)
(** Strings are UTF-8 where that is checked, and closed enums hold known numbers. *)
Definition clean_val (utf8_ok : bytes -> bool) (e : elem) (v : val) : Prop :=
  match e, v with
  | EBytes true _, VBytes b => utf8_ok b = true
  | EEnum c, VInt z => enum_valid c z = true
  | _, _ => True
  end.
Fixpoint clean (W : list wtype) (utf8_ok : bytes -> bool) (fuel : nat) (ty : nat) (m : list slot) : Prop :=
  match fuel with
  | O => True
  | S n => Forall (fun fl =>
      has_value (dyn_of (fst fl)) (snd fl) (slot_at m (snd fl)) = true ->
      match value (dyn_of (fst fl)) (snd fl) (slot_at m (snd fl)), w_elem (fst fl) with
      | FInt z, e => clean_val utf8_ok e (VInt z)
      | FBytes b, e => clean_val utf8_ok e (VBytes b)
      | FInts x, e => Forall (fun z => clean_val utf8_ok e (VInt z)) x
      | FStrs x, e => Forall (fun b => clean_val utf8_ok e (VBytes b)) x
      | FMsg a, EMsg ty' _ => clean W utf8_ok n ty' a
      | FMsgs x, EMsg ty' _ => Forall (clean W utf8_ok n ty') x
      | _, _ => True
      end) (w_fields (wty W ty))
  end.

Section Values.
  Context (W : list wtype) (utf8_ok : bytes -> bool).
  Hypothesis HW : wtypes_ok W.
  Hypothesis Hempty : utf8_ok [] = true.
  Notation E := (env_of W).

  Lemma legal_env : legal_numbers E.
  Proof.
    intros ty f n Hf Hn. rewrite desc_env in Hf. cbn [m_fields desc_of_wtype] in Hf. apply in_map_iff in Hf. destruct Hf as (b & <- & Hb).
    assert (Hall : forall fs, Forall (fun fl => wfield_ok (fst fl)) fs -> Forall (fun b => match b with MOne f _ => wfield_ok f | MGroup _ g => Forall (fun fl => wfield_ok (fst fl)) g end) (members_of fs)).
    { induction 1 as [|[f l] fs Hf _ IH]; [constructor|]. cbn [members_of fst] in *. destruct (w_oneof f) as [o|]; [|constructor; assumption].
      assert (H1 : Forall (fun fl : wfield * layout => wfield_ok (fst fl)) [(f, l)]) by (constructor; [exact Hf|constructor]).
      destruct (members_of fs) as [|[f' l'|o' g] r]; [constructor; [exact H1|constructor]|constructor; assumption|]. destruct (Nat.eqb o o'); [|constructor; assumption].
      inversion IH; subst. constructor; [constructor; assumption|assumption]. }
    destruct (wtype_layout _ (wty_ok W ty HW)) as [_ L].
    assert (L' : Forall (fun fl : wfield * layout => wfield_ok (fst fl)) (w_fields (wty W ty))) by (eapply Forall_impl; [|exact L]; intros a (K & _); exact K).
    specialize (Hall _ L'). rewrite Forall_forall in Hall. specialize (Hall b Hb). destruct b as [f l|o g]; cbn [member_field nums] in Hn.
    - destruct Hn as [<-|[]]. apply Hall.
    - apply in_map_iff in Hn. destruct Hn as ([num e] & <- & Hn). apply in_map_iff in Hn. destruct Hn as ([f l] & [= <- <-] & Hn). rewrite Forall_forall in Hall. apply (Hall _ Hn).
  Qed.

  Lemma fits_wt e v : fits e v -> clean_val utf8_ok e v -> wt E utf8_ok e v.
  Proof.
    destruct e as [t| |is64 fl|c|u vw|t d], v as [z|b|i v|fs u']; cbn [fits]; intros H K; try contradiction; try (constructor; assumption).
    constructor; [exact H|]. intros ->. exact K.
  Qed.
  Lemma wt_loosen e v : wt E utf8_ok e v -> wt E utf8_ok (loosen false e) v.
  Proof. intros H. destruct e as [t| |is64 fl|[c|]|u vw|t d]; try exact H. cbn [loosen]. inversion H; subst. constructor; [assumption|reflexivity]. Qed.
  Lemma elems_of e vs : Forall (wt E utf8_ok e) vs -> elems E utf8_ok e vs.
  Proof. induction 1; constructor; assumption. Qed.

  Lemma val_wt n : forall ty m, typed W n ty m -> clean W utf8_ok n ty m -> forall d, wt E utf8_ok (EMsg ty d) (val_of W n ty m).
  Proof.
    induction n as [|n IH]; intros ty m Ht Hc d; [destruct Ht|]. cbn [val_of]. constructor; [|rewrite desc_env; reflexivity|constructor].
    rewrite desc_env. cbn [m_fields desc_of_wtype].
    assert (Hv : forall f l, In (f, l) (w_fields (wty W ty)) -> has_value (dyn_of f) l (slot_at m l) = true ->
      Forall (wt (env_of W) utf8_ok (w_elem f)) (slot_vals (val_of W n) f l (slot_at m l)) /\ (w_rep f = None -> exists v, slot_vals (val_of W n) f l (slot_at m l) = [v])).
    { intros f l Hin Hh. pose proof (slots_in W _ _ _ _ _ Ht Hin) as Hs. cbn [clean] in Hc. rewrite Forall_forall in Hc. specialize (Hc _ Hin Hh). cbn [fst snd] in Hc.
      destruct (shape_of _ (val_of W n) _ _ _ Hs Hh) as [v Hr Hsc Hv Hf Hvs|p vs Hr Hsc Hv Hf Hvs Hne|t dl x Hr He Hv Htx Hvs|p t dl x Hr He Hv Htx Hvs Hne]; rewrite Hvs; (split; [|intros K; try congruence; eauto]).
      - constructor; [|constructor]. apply fits_wt; [exact Hf|]. unfold single in Hv. destruct (value (dyn_of f) l (slot_at m l)); try discriminate Hv; injection Hv as <-; exact Hc.
      - assert (Hcl : Forall (clean_val utf8_ok (w_elem f)) vs).
        { unfold several in Hv. destruct (value (dyn_of f) l (slot_at m l)); try discriminate Hv; injection Hv as <-; apply Forall_map; exact Hc. }
        clear - Hf Hcl Hempty. induction Hf as [|v vs Hv _ IHf]; [constructor|]. inversion Hcl; subst. constructor; [apply fits_wt; assumption|auto].
      - rewrite Hv, He in Hc. rewrite He. constructor; [|constructor]. apply IH; assumption.
      - rewrite Hv, He in Hc. rewrite He. apply Forall_map. rewrite Forall_forall in *. intros y Hy. apply IH; auto. }
    assert (Hall : forall ms, (forall b fl, In b ms -> match b with MOne f l => fl = (f, l) | MGroup _ g => In fl g end -> In fl (w_fields (wty W ty))) ->
      (forall o g f l, In (MGroup o g) ms -> In (f, l) g -> w_rep f = None) ->
      cells (env_of W) utf8_ok (map member_field ms) (map (member_vals (val_of W n) m) ms)).
    { induction ms as [|b ms IHm]; intros Hin Hg; [constructor|]. cbn [map]. constructor; [|apply IHm; [intros b' fl Hb; apply Hin; right; exact Hb|intros o g f l Hb; apply (Hg o g); right; exact Hb]].
      destruct b as [f l|o g]; cbn [member_field member_vals].
      - specialize (Hin _ (f, l) (or_introl eq_refl) eq_refl). destruct (fields_in W HW _ _ _ Hin) as [(_ & _ & Hm & Hd) _]. unfold is_rep. destruct (has_value (dyn_of f) l (slot_at m l)) eqn:Hh.
        + destruct (Hv _ _ Hin Hh) as [Hw Hone]. destruct (w_rep f) as [p|]; [constructor; apply elems_of; exact Hw|]. destruct (Hone eq_refl) as (v & Ev). rewrite Ev in *. inversion Hw; subst.
          destruct (w_explicit f); constructor; [assumption|apply wt_loosen; assumption].
        + destruct (w_rep f) as [p|] eqn:Hr; [repeat constructor|]. destruct (w_explicit f) eqn:Hx; [constructor|]. cbn [orb]. constructor. destruct (Hd eq_refl) as [D1 D2]. unfold w_default. rewrite D1, D2.
          destruct (w_elem f) as [t| |is64 fl|[c|]|u vw|t dd] eqn:He; cbn [loosen]; try (constructor; [|reflexivity]; unfold in_vtype, fits_s; lia); try (constructor; cbn; lia).
          * constructor. destruct t; cbn [in_vtype]; unfold fits_s, fits_u; lia.
          * constructor. split; [lia|]. apply Z.pow_pos_nonneg; lia.
          * constructor; [constructor|auto].
          * specialize (Hm _ _ eq_refl eq_refl). congruence.
      - assert (Hcell : forall g2 g1, (forall fl, In fl (g1 ++ g2) -> In fl (w_fields (wty W ty))) -> (forall f l, In (f, l) (g1 ++ g2) -> w_rep f = None) ->
          cell (env_of W) utf8_ok (Oneof (map (fun fl => (w_num (fst fl), w_elem (fst fl))) (g1 ++ g2))) (group_vals (val_of W n) (length g1) g2 m)).
        { induction g2 as [|[f l] g2 IHg]; intros g1 H1 H2; cbn [group_vals]; [constructor|]. destruct (has_value (dyn_of f) l (slot_at m l)) eqn:Hh.
          - destruct (Hv f l) as [Hw Hone]; [apply H1; apply in_or_app; right; left; reflexivity|exact Hh|]. assert (Hnr : w_rep f = None) by (apply (H2 f l); apply in_or_app; right; left; reflexivity). destruct (Hone Hnr) as (v & Ev). rewrite Ev in *. inversion Hw; subst.
            cbn [map]. eapply CLone1; [|eassumption]. rewrite map_app, nth_error_app2; rewrite map_length; [|lia]. rewrite Nat.sub_diag. reflexivity.
          - specialize (IHg (g1 ++ [(f, l)])). rewrite <- app_assoc in IHg. cbn [app] in IHg. rewrite app_length in IHg. cbn [length] in IHg. rewrite Nat.add_1_r in IHg. apply IHg; assumption. }
        apply (Hcell g []); cbn [app]; [intros fl Hfl; eapply Hin; [left; reflexivity|exact Hfl]|intros f l Hfl; eapply Hg; [left; reflexivity|exact Hfl]]. }
    assert (Hsub : forall fs b fl, In b (members_of fs) -> match b with MOne f l => fl = (f, l) | MGroup _ g => In fl g end -> In fl fs /\ (forall o g, b = MGroup o g -> w_oneof (fst fl) <> None)).
    { induction fs as [|[f l] fs IHf]; intros b fl Hb Hfl; [destruct Hb|]. cbn [members_of] in Hb. destruct (w_oneof f) as [o|] eqn:Ho.
      - assert (H1 : b = MGroup o [(f, l)] -> In fl ((f, l) :: fs) /\ (forall o g, b = MGroup o g -> w_oneof (fst fl) <> None)) by (intros ->; destruct Hfl as [<-|[]]; split; [left; reflexivity|cbn [fst]; congruence]).
        assert (H2 : In b (members_of fs) -> In fl ((f, l) :: fs) /\ (forall o g, b = MGroup o g -> w_oneof (fst fl) <> None)) by (intros K; destruct (IHf _ _ K Hfl) as [K1 K2]; split; [right; exact K1|exact K2]).
        destruct (members_of fs) as [|[f' l'|o' g] r] eqn:Em; [destruct Hb as [<-|[]]; auto|destruct Hb as [<-|Hb]; auto|]. destruct (Nat.eqb o o') eqn:Eo; [|destruct Hb as [<-|Hb]; auto].
        destruct Hb as [<-|Hb]; [|apply H2; right; exact Hb]. destruct Hfl as [<-|Hfl]; [split; [left; reflexivity|cbn [fst]; congruence]|].
        destruct (IHf (MGroup o' g) fl (or_introl eq_refl) Hfl) as [K1 K2]. split; [right; exact K1|]. intros ? ? _. apply (K2 o' g eq_refl).
      - destruct Hb as [<-|Hb]; [subst fl; split; [left; reflexivity|discriminate]|]. destruct (IHf _ _ Hb Hfl) as [K1 K2]. split; [right; exact K1|exact K2]. }
    apply Hall.
    - intros b fl Hb Hfl. apply (Hsub _ _ _ Hb Hfl).
    - intros o g f l Hb Hfl. destruct (Hsub _ _ (f, l) Hb Hfl) as [K1 K2]. specialize (K2 o g eq_refl). cbn [fst] in K2. destruct (w_oneof f) as [o'|] eqn:Ho; [|congruence]. eapply (fields_in W HW); [exact K1|exact Ho].
  Qed.
End Values.

(** ** Sinks *)
Local Open Scope nat_scope.
Lemma chunked_calls_ok k ds : forall d s, inv k d s -> (forall n, k n = 0 -> length d + length (dflat ds) <= space k n) ->
  exists s', chunked_calls k ds s = Ok (true, s') /\ inv k (d ++ dflat ds) s'.
Proof.
  induction ds as [|[ck ws] ds IH]; intros d s Hi Hk; cbn [chunked_calls].
  - exists s. split; [reflexivity|]. cbn. rewrite app_nil_r. exact Hi.
  - rewrite dflat_cons in *. rewrite app_length in Hk. destruct (chunked_run_spec k ws d s Hi) as (ok & s1 & -> & O1 & O2). cbn [bind]. destruct ok.
    + cbn [orb]. destruct (IH _ s1 (O1 eq_refl)) as (s2 & E2 & I2); [intros n Hn; specialize (Hk n Hn); rewrite app_length; lia|]. exists s2. split; [exact E2|]. rewrite app_assoc. exact I2.
    + exfalso. destruct (O2 eq_refl) as (b1 & b2 & Eb & Hb & Hi1 & Hr & i & Hc & Hz). pose proof (inv_space _ _ _ Hi1) as Hs. rewrite Hc, space_S, Hz, Hr, app_length in Hs. specialize (Hk i Hz). rewrite Eb, app_length in Hk.
      destruct b2; [contradiction|]. cbn [length] in Hk. lia.
Qed.

Lemma dyn_chunked_ok W utf8_ok maxd k n ty m bs : wtypes_ok W -> typed W n ty m -> wt_msg (env_of W) utf8_ok ty (val_of W n ty m) ->
  dyn_encode W utf8_ok maxd n ty m = Ok bs -> (forall i, k (length bs) i = 0 -> length bs <= space (k (length bs)) i) ->
  exists chunks, dyn_write_chunked W utf8_ok maxd k n ty m = Ok (Some chunks) /\ filled (k (length bs)) bs chunks.
Proof.
  intros HW Ht Hwt He Hk. pose proof (dyn_encode_ok W utf8_ok maxd HW n ty m Ht) as Heq. rewrite He in Heq. symmetry in Heq.
  pose proof (e_size (env_of W) utf8_ok maxd (legal_env W HW) ty _ _ Hwt Heq) as Hsz. pose proof (dsz_ok W HW n ty m Ht) as Hz.
  unfold dyn_write_chunked. unfold dyn_encode in He. destruct (dplan W utf8_ok maxd n ty m) as [[s ds]| | | |] eqn:P; try discriminate He. cbn [bind] in *. apply Ok_inj in He. subst bs.
  assert (Hs : s = zlen (dflat ds)).
  { unfold dplan in P. rewrite Hz in P. destruct (dcnt W maxd n 0 ty m) as [c| | | |]; try discriminate P. cbn [bind] in P. destruct (sz_msg (env_of W) ty (val_of W n ty m)) as [s' c'].
    destruct (c <? length c'); [discriminate P|]. destruct (max_message_size <=? s')%Z; [discriminate P|]. destruct (dser _ _ _ _ _ _ _ _) as [[ws c2]| | | |]; try discriminate P. cbn [bind] in P. apply Ok_inj in P. injection P as <- <-. exact Hsz. }
  subst s. unfold zlen. rewrite Nat2Z.id. destruct (chunked_calls_ok (k (length (dflat ds))) ds [] c_init (inv_init _)) as (s' & -> & I); [cbn; exact Hk|]. cbn [bind].
  eexists. split; [reflexivity|]. apply inv_filled. exact I.
Qed.
