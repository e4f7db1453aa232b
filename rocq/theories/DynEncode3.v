(** The bytes written by the dynamic encoder are those written for a generated message. *)
Require Import Verif.Bits Verif.Varint Verif.DynSlots Verif.Dyn Verif.Schema Verif.Archive Verif.Decode Verif.Encode Verif.DynWire.
Require Import Verif.DynSlotsProofs Verif.DecodeSafe Verif.WellTyped Verif.EncodeSpec Verif.VarintFacts Verif.EncodeProofs Verif.DynView Verif.DynEncode1 Verif.DynEncode2.

(** ** Sizes *)
Lemma Ok_inj {T} (x y : T) : Ok x = Ok y -> x = y.
Proof. congruence. Qed.
Lemma vsize_nonneg x : 0 <= varint_size_u x.
Proof. unfold varint_size_u. apply Z.div_pos; [|lia]. unfold bit_width. destruct (Z.lor x 1 <=? 0); [lia|]. pose proof (Z.log2_nonneg (Z.lor x 1)). lia. Qed.
Lemma len_size_le s : 0 <= s -> s <= len_size s.
Proof. intros H. unfold len_size. pose proof (vsize_nonneg s). lia. Qed.
Lemma scalar_size_nonneg e v : 0 <= scalar_size e v.
Proof.
  destruct e, v; cbn [scalar_size]; try lia; try (unfold encode_size; destruct (is_zigzag _); apply vsize_nonneg).
  pose proof (len_size_le (zlen b)). unfold zlen in *. lia.
Qed.
Lemma sum_sizes_nonneg e vs : 0 <= sum_sizes e vs.
Proof. induction vs as [|v vs IH]; [reflexivity|]. cbn [sum_sizes]. pose proof (scalar_size_nonneg e v). lia. Qed.

Section Sizes.
  Context (W : list wtype).
  Lemma wtag_nonneg f : 0 <= wtag_size f. Proof. apply vsize_nonneg. Qed.
  Lemma sum_with_tag_nonneg f e vs : 0 <= sum_with_tag (wtag_size f) e vs.
  Proof. induction vs as [|v vs IH]; [reflexivity|]. cbn [sum_with_tag]. pose proof (scalar_size_nonneg e v). pose proof (wtag_nonneg f). lia. Qed.
  Section Rec.
    Variable rec : nat -> list slot -> res szr.
    Hypothesis Hrec : forall ty m r, rec ty m = Ok r -> 0 <= fst r.
    Lemma dsz_message_le f ty dl m r : dsz_message rec f ty dl m = Ok r -> exists r', rec ty m = Ok r' /\ fst r' <= fst r.
    Proof.
      unfold dsz_message. destruct (rec ty m) as [[s c]| | | |] eqn:F; try discriminate. cbn [bind]. intros H. apply Ok_inj in H. subst r. eexists. split; [reflexivity|]. pose proof (Hrec _ _ _ F) as Hs. cbn [fst] in *.
      pose proof (wtag_nonneg f). pose proof (len_size_le s Hs). destruct dl; cbn [fst]; lia.
    Qed.
    Lemma add_res_ok a b r : add_res a b = Ok r -> exists x y, a = Ok x /\ b = Ok y /\ r = add_sz x y.
    Proof. unfold add_res. destruct a as [x| | | |]; try discriminate. destruct b as [y| | | |]; try discriminate. cbn [bind]. intros [= <-]. eauto. Qed.
    Lemma dsz_messages_le f ty dl x : forall r, dsz_messages rec f ty dl x = Ok r -> 0 <= fst r /\ forall m, In m x -> exists r', rec ty m = Ok r' /\ fst r' <= fst r.
    Proof.
      induction x as [|a x IH]; intros r H; [injection H as <-; split; [reflexivity|intros m []]|]. cbn [dsz_messages] in H. apply add_res_ok in H. destruct H as (p & q & Hp & Hq & ->).
      destruct (dsz_message_le _ _ _ _ _ Hp) as (r' & Hr & Hle). destruct (IH _ Hq) as [Hn Hin]. pose proof (Hrec _ _ _ Hr). cbn [add_sz fst].
      split; [lia|]. intros m [<-|K]; [exists r'; split; [exact Hr|lia]|]. destruct (Hin m K) as (r2 & H2 & Hl2). exists r2. split; [exact H2|lia].
    Qed.
    Lemma dsz_field_nonneg f l s r : dsz_field rec f l s = Ok r -> 0 <= fst r.
    Proof.
      pose proof (wtag_nonneg f) as Hw. pose proof (fun e vs => sum_with_tag_nonneg f e vs) as Hst. pose proof sum_sizes_nonneg as Hss. pose proof scalar_size_nonneg as Hsc.
      assert (Hmul : forall (vs : list val) k, 0 <= k -> 0 <= zlen vs * k) by (intros; unfold zlen; nia).
      unfold dsz_field. destruct (w_elem f) as [t| |is64 fl|c|u vw|ty d], (w_rep f) as [p|]; intros H;
        try (unfold single in H; destruct (value (dyn_of f) l s); cbn [bind] in H; try discriminate H; apply Ok_inj in H; subst r; cbn [fst]; pose proof (Hsc (EVar VI32)); repeat match goal with |- context [scalar_size ?e ?v] => pose proof (Hsc e v); generalize dependent (scalar_size e v); intros end; lia);
        try (unfold several in H; destruct (value (dyn_of f) l s); cbn [bind] in H; try discriminate H; apply Ok_inj in H; subst r; try destruct (packed f); cbn [fst]; try apply Hst; try (match goal with |- context [sum_sizes ?e ?v] => pose proof (Hss e v); pose proof (len_size_le (sum_sizes e v)); lia end);
           try (match goal with |- context [len_size (zlen ?v * width ?e)] => pose proof (Hmul v (width e)); pose proof (len_size_le (zlen v * width e)); assert (0 <= width e) by (cbn [width]; lia); lia end); apply Hmul; cbn [width]; lia).
      - destruct (value (dyn_of f) l s); try discriminate H. apply (dsz_messages_le _ _ _ _ _ H).
      - destruct (value (dyn_of f) l s); try discriminate H. destruct (dsz_message_le _ _ _ _ _ H) as (r' & Hr & Hle). pose proof (Hrec _ _ _ Hr). lia.
    Qed.
    Lemma dsz_fields_le fs m : forall r, dsz_fields rec fs m = Ok r -> 0 <= fst r /\
      forall f l, In (f, l) fs -> present f l (slot_at m l) = true -> exists r', dsz_field rec f l (slot_at m l) = Ok r' /\ fst r' <= fst r.
    Proof.
      induction fs as [|[f l] fs IH]; intros r H; [injection H as <-; split; [reflexivity|intros ? ? []]|]. cbn [dsz_fields] in H. apply add_res_ok in H. destruct H as (p & q & Hp & Hq & ->).
      destruct (IH _ Hq) as [Hn Hin]. assert (0 <= fst p) by (destruct (present f l (slot_at m l)); [apply (dsz_field_nonneg _ _ _ _ Hp)|injection Hp as <-; reflexivity]). cbn [add_sz fst].
      split; [lia|]. intros f' l' [[= <- <-]|K] P.
      - rewrite P in Hp. exists p. split; [exact Hp|lia].
      - destruct (Hin _ _ K P) as (r' & Hr & Hle). exists r'. split; [exact Hr|lia].
    Qed.
  End Rec.
  Lemma dsz_nonneg n : forall ty m r, dsz W n ty m = Ok r -> 0 <= fst r.
  Proof. induction n as [|n IH]; intros ty m r H; [discriminate|]. apply (dsz_fields_le _ IH _ _ _ H). Qed.
End Sizes.

(** ** Output *)
Definition sim (a : dser_res) (b : serr) : Prop :=
  match a, b with
  | Ok (ds, c), Ok (ws, c') => dflat ds = flat ws /\ c = c'
  | Err e, Err e' => e = e'
  | UB, UB | Exn, Exn | NoFuel, NoFuel => True
  | _, _ => False
  end.
Lemma dflat_app a b : dflat (a ++ b) = dflat a ++ dflat b.
Proof. unfold dflat. rewrite map_app, concat_app, flat_app. reflexivity. Qed.
Lemma dflat_cons b ws ds : dflat (DCall b ws :: ds) = flat ws ++ dflat ds.
Proof. unfold dflat. cbn [map concat call_ops]. apply flat_app. Qed.
Lemma seq_sim a b x y : sim a b -> (forall c, sim (x c) (y c)) -> sim (seq_d a x) (seq_s b y).
Proof.
  intros H K. unfold seq_d, seq_s. destruct a as [[ds c]|e| | |], b as [[ws c']|e'| | |]; try contradiction; cbn [bind]; try exact H.
  destruct H as [H <-]. specialize (K c). destruct (x c) as [[ds1 c1]|e| | |], (y c) as [[ws1 c1']|e'| | |]; try contradiction; cbn [bind]; try exact K.
  destruct K as [K <-]. split; [|reflexivity]. rewrite dflat_app, flat_app, H, K. reflexivity.
Qed.

(** Enumerators are written as int32_t and as int64_t, which gives the same bytes. *)
Definition osim {A B} (R : A -> B -> Prop) (a : res A) (b : res B) : Prop :=
  match a, b with
  | Ok x, Ok y => R x y
  | Err e, Err e' => e = e'
  | UB, UB | Exn, Exn | NoFuel, NoFuel => True
  | _, _ => False
  end.
Section Ser.
  Context (W : list wtype) (utf8_ok : bytes -> bool) (maxd : Z).
  Hypothesis HW : wtypes_ok W.
  Let E := env_of W.

  Lemma dscalar_sim e v : osim (fun a b => flat a = flat b) (dscalar_ops utf8_ok e v) (scalar_ops utf8_ok e v).
  Proof. destruct e as [t| |is64 fl|c|u vw|t d], v; cbn [dscalar_ops scalar_ops osim]; try exact I; try reflexivity. destruct (u && negb (utf8_ok b)); reflexivity. Qed.
  Lemma dlist_packed e vs : osim (fun a b => dflat a = flat b) (dlist_ops utf8_ok [] e vs) (packed_ops utf8_ok e vs).
  Proof.
    induction vs as [|v vs IH]; [reflexivity|]. cbn [dlist_ops packed_ops]. pose proof (dscalar_sim e v) as Hv. unfold osim in *.
    destruct (dscalar_ops utf8_ok e v) as [a|a| | |], (scalar_ops utf8_ok e v) as [b|b| | |]; try contradiction; cbn [bind]; try exact Hv.
    destruct (dlist_ops utf8_ok [] e vs) as [x|x| | |], (packed_ops utf8_ok e vs) as [y|y| | |]; try contradiction; cbn [bind]; try exact IH.
    rewrite dflat_cons. cbn [app]. rewrite flat_app, IH, Hv. reflexivity.
  Qed.
  Lemma ser_elem_scalar rec num e v c : scalar e = true -> ser_elem utf8_ok rec num e v c = (ws <- scalar_ops utf8_ok e v ;; Ok (wtag num (elem_wt e) :: ws, c)).
  Proof. destruct e; try reflexivity. discriminate. Qed.
  Lemma dlist_unpacked rec num e vs c : scalar e = true ->
    sim (ws <- dlist_ops utf8_ok [wtag num (elem_wt e)] e vs ;; Ok (ws, c)) (ser_list utf8_ok rec num e vs c).
  Proof.
    intros Hsc. revert c. induction vs as [|v vs IH]; intros c; [split; reflexivity|]. cbn [dlist_ops ser_list]. rewrite ser_elem_scalar by exact Hsc. unfold seq_s. pose proof (dscalar_sim e v) as Hv. unfold osim in Hv.
    destruct (dscalar_ops utf8_ok e v) as [a|a| | |], (scalar_ops utf8_ok e v) as [b|b| | |]; try contradiction; cbn [bind]; try exact Hv.
    specialize (IH c). destruct (dlist_ops utf8_ok [wtag num (elem_wt e)] e vs) as [x|x| | |], (ser_list utf8_ok rec num e vs c) as [[y c']|y| | |]; cbn [bind sim] in *; try contradiction; try exact IH.
    destruct IH as [IH <-]. split; [|reflexivity]. rewrite dflat_cons. cbn [app]. rewrite !flat_cons, flat_app, Hv, IH, <- app_assoc. reflexivity.
  Qed.

  Lemma dser_ok n : forall depth ty m r, typed W n ty m -> dsz W n ty m = Ok r -> fst r < max_message_size ->
    forall c, sim (dser W utf8_ok maxd n depth ty m c) (ser_msg E utf8_ok maxd depth ty (val_of W n ty m) c).
  Proof.
    induction n as [|n IH]; intros depth ty m r Ht Hr Hlt c; [destruct Ht|]. cbn [dser val_of ser_msg]. cbn [dsz] in Hr. destruct (scope_ok maxd depth); [|reflexivity].
    subst E. rewrite desc_env. cbn [m_fields m_unk desc_of_wtype unk_ops].
    destruct (wtype_layout _ (wty_ok W ty HW)) as [C _].
    set (recE := fun (ty' : nat) (v' : val) (c' : list Z) => ser_msg (env_of W) utf8_ok maxd (depth + 1) ty' v' c').
    set (recD := dser W utf8_ok maxd n (depth + 1)).
    set (d := fun f l c => dser_field utf8_ok recD f l (slot_at m l) c).
    set (opX := fun (a b : list Z -> dser_res) c => seq_d (a c) b).
    set (opY := fun (a b : list Z -> serr) c => seq_s (a c) b).
    set (uX := fun c : list Z => Ok ([], c) : dser_res). set (uY := fun c : list Z => Ok ([], c) : serr).
    assert (WD : forall fs c, dser_fields utf8_ok recD fs m c = walkD opX uX uX m d fs c).
    { induction fs as [|[f l] fs IHf]; intros c0; [reflexivity|]. cbn [dser_fields walkD]. unfold opX at 1, seq_d. replace ((if present f l (slot_at m l) then d f l else uX) c0) with (if present f l (slot_at m l) then d f l c0 else uX c0) by (destruct (present f l (slot_at m l)); reflexivity).
      unfold d at 1, uX at 1. destruct (if present f l (slot_at m l) then _ else _) as [[ws c1]| | | |]; try reflexivity. cbn [bind]. rewrite IHf. reflexivity. }
    assert (WE : forall ms c, ser_fields utf8_ok recE (map member_field ms) (map (member_vals (val_of W n) m) ms) c = walkE opY uY uY m (val_of W n) (ser_field utf8_ok recE) ms c).
    { induction ms as [|b ms IHm]; intros c0; [reflexivity|]. cbn [map ser_fields walkE]. unfold opY at 1, seq_s. set (f := member_field b). set (vs := member_vals (val_of W n) m b).
      replace ((if omit f vs then uY else ser_field utf8_ok recE f vs) c0) with (if omit f vs then uY c0 else ser_field utf8_ok recE f vs c0) by (destruct (omit f vs); reflexivity).
      unfold uY at 1. destruct (if omit f vs then _ else _) as [[ws c1]| | | |]; try reflexivity. cbn [bind]. rewrite IHm. reflexivity. }
    rewrite WD, WE.
    enough (Hw : forall c, sim (walkD opX uX uX m d (w_fields (wty W ty)) c) (walkE opY uY uY m (val_of W n) (ser_field utf8_ok recE) (members_of (w_fields (wty W ty))) c)).
    { specialize (Hw c). destruct (walkE _ _ _ _ _ _ _ c) as [[ws c']| | | |]; cbn [bind]; try exact Hw. rewrite app_nil_r. exact Hw. }
    clear c. refine (walk (fun x y => forall c, sim (x c) (y c)) opX opY uX uY uX uY m (val_of W n) d (ser_field utf8_ok recE) _ _ _ _ _ _ _ _ _).
    - intros x y x' y' H1 H2 c. apply seq_sim; auto.
    - intros c. split; reflexivity.
    - intros c. split; reflexivity.
    - intros x y H c. specialize (H c). unfold opX, uX, seq_d. cbn [bind]. destruct (x c) as [[ws c']| | | |]; exact H.
    - intros x y H c. specialize (H c). unfold opY, uY, seq_s in H. cbn [bind] in H. destruct (y c) as [[ws c']| | | |]; exact H.
    - intros alts alts' i i' v Hn. unfold ser_field. rewrite Hn. reflexivity.
    - exact C.
    - apply Forall_forall. intros [f l] Hin. destruct (fields_in W HW _ _ _ Hin) as [Hf Ho]. pose proof (slots_in W _ _ _ _ _ Ht Hin) as Hs.
      apply walk_ok_intro; try assumption; [intros c; split; reflexivity|]. intros Hh Hp Sh.
      destruct (proj2 (dsz_fields_le (dsz W n) (dsz_nonneg W n) _ _ _ Hr) _ _ Hin Hp) as (r' & Hr' & Hle). clear Hr.
      assert (Hmsg : forall t dl x q, typed W n t x -> dsz W n t x = Ok q -> fst q < max_message_size -> forall c, sim (dser_message recD f t dl x c) (ser_elem utf8_ok recE (w_num f) (EMsg t dl) (val_of W n t x) c)).
      { intros t dl x q Hx Hq Hl c. unfold dser_message. destruct dl; cbn [ser_elem].
        - pose proof (IH (depth + 1) t x q Hx Hq Hl c) as K. fold recD in K. change (ser_msg (env_of W) utf8_ok maxd (depth + 1) t (val_of W n t x) c) with (recE t (val_of W n t x) c) in K.
          destruct (recD t x c) as [[ds c1]| | | |], (recE t (val_of W n t x) c) as [[ws c2]| | | |]; try contradiction; cbn [bind]; try exact K. destruct K as [K <-]. split; [|reflexivity].
          rewrite dflat_cons, dflat_app, K. change (wtag (w_num f) WT_SGROUP :: ws ++ [wtag (w_num f) WT_EGROUP]) with ([wtag (w_num f) WT_SGROUP] ++ ws ++ [wtag (w_num f) WT_EGROUP]). rewrite !flat_app. reflexivity.
        - destruct c as [|len c]; [exact I|]. pose proof (IH (depth + 1) t x q Hx Hq Hl c) as K. fold recD in K. change (ser_msg (env_of W) utf8_ok maxd (depth + 1) t (val_of W n t x) c) with (recE t (val_of W n t x) c) in K.
          destruct (recD t x c) as [[ds c1]| | | |], (recE t (val_of W n t x) c) as [[ws c2]| | | |]; try contradiction; cbn [bind]; try exact K. destruct K as [K <-]. split; [|reflexivity].
          rewrite dflat_cons, !flat_cons, K. change (flat []) with (@nil Z). rewrite app_nil_r, <- app_assoc. reflexivity. }
      assert (Hlist : forall t dl x, Forall (typed W n t) x -> (forall y, In y x -> exists q, dsz W n t y = Ok q /\ fst q < max_message_size) -> forall c, sim (dser_messages recD f t dl x c) (ser_list utf8_ok recE (w_num f) (EMsg t dl) (map (val_of W n t) x) c)).
      { induction 1 as [|a x Ha _ IHx]; intros Hq c; [split; reflexivity|]. cbn [dser_messages map ser_list]. destruct (Hq a (or_introl eq_refl)) as (q & Hq1 & Hq2). apply seq_sim; [eapply Hmsg; eassumption|]. apply IHx. intros y Hy. apply Hq. right. exact Hy. }
      assert (H1 : forall num e v c, sim (d f l c) (ser_elem utf8_ok recE num e v c) -> sim (d f l c) (ser_list utf8_ok recE num e [v] c)).
      { intros num e v c K. cbn [ser_list]. unfold seq_s. destruct (ser_elem utf8_ok recE num e v c) as [[ws c']| | | |]; cbn [bind]; try exact K. rewrite app_nil_r. exact K. }
      assert (H2 : forall v, (forall c, sim (d f l c) (ser_elem utf8_ok recE (w_num f) (w_elem f) v c)) ->
        (forall c, sim (d f l c) (ser_field utf8_ok recE (Field (w_num f) (w_elem f) COpt) [v] c)) /\ (forall dv c, sim (d f l c) (ser_field utf8_ok recE (Field (w_num f) (w_elem f) (CPlain false dv)) [v] c)) /\
        (forall alts i, nth_error alts i = Some (w_num f, w_elem f) -> forall c, sim (d f l c) (ser_field utf8_ok recE (Oneof alts) [VAlt i v] c))).
      { intros v K. split; [|split]; [intros c; cbn [ser_field]; auto|intros dv c; cbn [ser_field]; auto|]. intros alts i Hi c. cbn [ser_field]. rewrite Hi. auto. }
      destruct Sh as [v Hrp Hsc Hv _ Hvs|p vs Hrp Hsc Hv _ Hvs Hne|t dl x Hrp He Hv Htx Hvs|p t dl x Hrp He Hv Htx Hvs Hne]; (split; [intros p' Hp'; rewrite Hrp in Hp'; try discriminate Hp'|intros Hn'; rewrite Hrp in Hn'; try discriminate Hn'; intros v' Hv']).
      + rewrite Hvs in Hv'. injection Hv' as <-. apply H2. intros c. rewrite ser_elem_scalar by exact Hsc.
        assert (E1 : d f l c = (ws <- dscalar_ops utf8_ok (w_elem f) v ;; Ok ([DCall true (WVar VU32 (stag f) :: ws)], c))).
        { unfold d, dser_field. rewrite Hrp, Hv. cbn [bind]. destruct (w_elem f); try discriminate Hsc; reflexivity. }
        rewrite E1. unfold stag, wire_of, packed. rewrite Hrp. pose proof (dscalar_sim (w_elem f) v) as K. unfold osim in K.
        destruct (dscalar_ops utf8_ok (w_elem f) v) as [a|a| | |], (scalar_ops utf8_ok (w_elem f) v) as [b|b| | |]; try contradiction; cbn [bind]; try exact K.
        split; [|reflexivity]. rewrite dflat_cons, !flat_cons, K. unfold dflat. cbn [map concat]. change (flat []) with (@nil Z). rewrite app_nil_r. reflexivity.
      + injection Hp' as <-. rewrite Hvs. intros c. cbn [ser_field].
        assert (E1 : packed f = p && packable (w_elem f)) by (unfold packed; rewrite Hrp; reflexivity). rewrite <- E1.
        destruct (packed f) eqn:Pk.
        * pose proof (dlist_packed (w_elem f) vs) as K. unfold osim in K.
          assert (Hst : stag f = make_tag (w_num f) WT_LEN) by (unfold stag, wire_of; rewrite Pk; reflexivity).
          assert (Hfix : forall e, w_elem f = e -> match e with EVar _ | EEnum _ | EBytes _ _ | EMsg _ _ => False | _ => True end -> width e * zlen vs < 2 ^ 31).
          { intros e He Hk. unfold dsz_field in Hr'. rewrite Hrp, Hv in Hr'. cbn [bind] in Hr'. rewrite Pk, He in Hr'. pose proof (wtag_nonneg f).
            assert (0 <= zlen vs * width e) by (unfold zlen; destruct e; cbn [width]; nia). pose proof (len_size_le (zlen vs * width e)).
            destruct e; try contradiction; apply Ok_inj in Hr'; subst r'; cbn [fst] in Hle; unfold max_message_size in Hlt; nia. }
          unfold d, dser_field. rewrite Hrp, Hv. cbn [bind]. rewrite Pk, Hst.
          assert (Hu : forall z, 0 <= z < 2 ^ 31 -> wop_bytes (WVar VU32 (wrapU 32 z)) = wop_bytes (WVar VU64 z)).
          { intros z Hz. cbn [wop_bytes]. unfold pack_varint, pack_value. cbn [is_zigzag enc_bits vbits]. unfold wrapU. rewrite !Z.mod_small by lia. reflexivity. }
          destruct (w_elem f) as [t| |is64 fl|cl|u vw|t dd] eqn:He; try discriminate Hsc.
          -- destruct c as [|len c]; [exact I|]. destruct (dlist_ops utf8_ok [] (EVar t) vs) as [a|a| | |], (packed_ops utf8_ok (EVar t) vs) as [b|b| | |]; try contradiction; cbn [bind]; try exact K. split; [|reflexivity].
             rewrite dflat_cons, !flat_cons, K. change (flat []) with (@nil Z). rewrite app_nil_r, <- app_assoc. reflexivity.
          -- destruct (dlist_ops utf8_ok [] EBool vs) as [a|a| | |], (packed_ops utf8_ok EBool vs) as [b|b| | |]; try contradiction; cbn [bind]; try exact K. split; [|reflexivity].
             specialize (Hfix _ eq_refl I). rewrite dflat_cons, !flat_cons, K. rewrite Hu by (unfold zlen in *; cbn [width] in *; lia). change (flat []) with (@nil Z). cbn [width]. rewrite Z.mul_1_l, !app_nil_r, <- app_assoc. reflexivity.
          -- destruct (dlist_ops utf8_ok [] (EFix is64 fl) vs) as [a|a| | |], (packed_ops utf8_ok (EFix is64 fl) vs) as [b|b| | |]; try contradiction; cbn [bind]; try exact K. split; [|reflexivity].
             specialize (Hfix _ eq_refl I). rewrite dflat_cons, !flat_cons, K. rewrite Hu by (split; [unfold zlen; cbn [width]; nia|exact Hfix]). change (flat []) with (@nil Z). cbn [width]. rewrite (Z.mul_comm _ (zlen vs)), !app_nil_r, <- app_assoc. reflexivity.
          -- destruct c as [|len c]; [exact I|]. destruct (dlist_ops utf8_ok [] (EEnum cl) vs) as [a|a| | |], (packed_ops utf8_ok (EEnum cl) vs) as [b|b| | |]; try contradiction; cbn [bind]; try exact K. split; [|reflexivity].
             rewrite dflat_cons, !flat_cons, K. change (flat []) with (@nil Z). rewrite app_nil_r, <- app_assoc. reflexivity.
          -- unfold packed in Pk. rewrite Hrp, He in Pk. cbn in Pk. rewrite andb_false_r in Pk. discriminate.
        * assert (Hst : WVar VU32 (stag f) = wtag (w_num f) (elem_wt (w_elem f))) by (unfold wtag, stag, wire_of; rewrite Pk; reflexivity).
          pose proof (dlist_unpacked recE (w_num f) (w_elem f) vs c Hsc) as K. rewrite <- Hst in K.
          replace (d f l c) with (ws <- dlist_ops utf8_ok [WVar VU32 (stag f)] (w_elem f) vs;; Ok (ws, c)); [exact K|].
          unfold d, dser_field. rewrite Hrp, Hv. cbn [bind]. rewrite Pk. destruct (w_elem f); try discriminate Hsc; reflexivity.
      + rewrite Hvs in Hv'. injection Hv' as <-. apply H2. intros c. unfold d, dser_field. rewrite He, Hrp, Hv. unfold dsz_field in Hr'. rewrite He, Hrp, Hv in Hr'.
        destruct (dsz_message_le _ (dsz_nonneg W n) _ _ _ _ _ Hr') as (q & Hq & Hql). eapply Hmsg; [exact Htx|exact Hq|lia].
      + injection Hp' as <-. intros c. cbn [ser_field]. rewrite He, Hvs. cbn [packable]. rewrite andb_false_r. unfold d, dser_field. rewrite He, Hrp, Hv. unfold dsz_field in Hr'. rewrite He, Hrp, Hv in Hr'.
        apply Hlist; [exact Htx|]. intros y Hy. destruct (proj2 (dsz_messages_le _ (dsz_nonneg W n) _ _ _ _ _ Hr') y Hy) as (q & Hq & Hql). exists q. split; [exact Hq|lia].
  Qed.

  (** ** The whole message *)
  Theorem dyn_encode_ok n ty m : typed W n ty m -> dyn_encode W utf8_ok maxd n ty m = encode_bytes E utf8_ok maxd ty (val_of W n ty m).
  Proof.
    intros Ht. unfold dyn_encode, encode_bytes, dplan, plan. rewrite (dcnt_ok W maxd HW n 0 ty m Ht). fold E.
    destruct (cnt_msg E maxd 0 ty (val_of W n ty m)) as [k|]; [|reflexivity]. cbn [lift bind]. pose proof (dsz_ok W HW n ty m Ht) as Hz. fold E in Hz. rewrite Hz.
    destruct (sz_msg E ty (val_of W n ty m)) as [s c] eqn:Es. cbn [bind]. destruct (k <? length c)%nat; [reflexivity|]. destruct (max_message_size <=? s) eqn:Hs; [reflexivity|].
    apply Z.leb_gt in Hs. pose proof (dser_ok n 0 ty m (s, c) Ht Hz Hs (c ++ repeat 0 (k - length c))) as K.
    destruct (dser W utf8_ok maxd n 0 ty m _) as [[ds c1]| | | |], (ser_msg E utf8_ok maxd 0 ty (val_of W n ty m) _) as [[ws c2]| | | |]; try contradiction; cbn [bind]; try reflexivity.
    - f_equal. apply K.
    - cbn in K. rewrite K. reflexivity.
  Qed.
End Ser.
