(** The passes of the dynamic encoder agree with those of the generated one. *)
Require Import Verif.Bits Verif.Varint Verif.DynSlots Verif.Dyn Verif.Schema Verif.Archive Verif.Decode Verif.Encode Verif.DynWire.
Require Import Verif.DynSlotsProofs Verif.DecodeSafe Verif.WellTyped Verif.EncodeSpec Verif.VarintFacts Verif.EncodeProofs Verif.DynView Verif.DynEncode1.

(** ** What a slot holds *)
Inductive shape (T : nat -> list slot -> Prop) (rec : nat -> list slot -> val) (f : wfield) (l : layout) (s : slot) : Prop :=
| ShScalar v : w_rep f = None -> scalar (w_elem f) = true -> single f l s = Ok v -> fits (w_elem f) v -> slot_vals rec f l s = [v] -> shape T rec f l s
| ShScalars p vs : w_rep f = Some p -> scalar (w_elem f) = true -> several f l s = Ok vs -> Forall (fits (w_elem f)) vs -> slot_vals rec f l s = vs -> vs <> [] -> shape T rec f l s
| ShMsg ty d x : w_rep f = None -> w_elem f = EMsg ty d -> value (dyn_of f) l s = FMsg x -> T ty x -> slot_vals rec f l s = [rec ty x] -> shape T rec f l s
| ShMsgs p ty d x : w_rep f = Some p -> w_elem f = EMsg ty d -> value (dyn_of f) l s = FMsgs x -> Forall (T ty) x -> slot_vals rec f l s = map (rec ty) x -> x <> [] -> shape T rec f l s.

Lemma shape_of T rec f l s : slot_ok T f l s -> has_value (dyn_of f) l s = true -> shape T rec f l s.
Proof.
  intros H Hh. specialize (H Hh). assert (Hpos : is_rep f = true -> 0 < fst s).
  { intros K. unfold has_value, has_word, repeated, dyn_of in Hh. cbn [y_kind] in Hh. rewrite K in Hh. destruct (w_elem f); cbn in Hh; apply Z.ltb_lt; exact Hh. }
  assert (Hne : forall A (x : list A), is_rep f = true -> Z.of_nat (length x) = fst s -> x <> []) by (intros A x K1 K2 ->; cbn in K2; specialize (Hpos K1); lia).
  assert (Hk : y_kind (dyn_of f) = kind_of (w_elem f) (is_rep f)) by reflexivity.
  assert (Hsing : single f l s = match value (dyn_of f) l s with FInt z => Ok (VInt z) | FBytes b => Ok (VBytes b) | _ => UB end) by reflexivity.
  assert (Hsev : several f l s = match value (dyn_of f) l s with FInts x => Ok (map VInt x) | FStrs x => Ok (map VBytes x) | _ => UB end) by reflexivity.
  assert (Hsv : slot_vals rec f l s = match value (dyn_of f) l s with FInt z => [VInt z] | FBytes b => [VBytes b] | FMsg m => match w_elem f with EMsg ty _ => [rec ty m] | _ => [] end
      | FInts x => map VInt x | FStrs x => map VBytes x | FMsgs x => match w_elem f with EMsg ty _ => map (rec ty) x | _ => [] end | _ => [] end) by reflexivity.
  destruct (value (dyn_of f) l s) as [z|b|x|x|x|x| |] eqn:V; try contradiction.
  all: pose proof V as V0; unfold value in V; rewrite Hk in V; unfold is_rep in *; destruct (w_rep f) as [p|] eqn:Hr; destruct (w_elem f) as [t| |is64 fl|c|u vw|ty d] eqn:He; cbn [kind_of] in V.
  all: destruct (y_explicit (dyn_of f) && negb (has_value (dyn_of f) l s)); try rewrite Hh in V; try (destruct (fst s =? 0)); try destruct (snd s); try discriminate V; try contradiction.
  all: first [ solve [eapply ShScalar; [exact Hr|rewrite He; reflexivity|exact Hsing|rewrite He; exact H|exact Hsv]]
             | solve [eapply ShMsg; [exact Hr|exact He|exact V0|exact H|exact Hsv]]
             | solve [eapply ShScalars; [exact Hr|rewrite He; reflexivity|exact Hsev|rewrite He; apply Forall_map; exact (proj2 H)|exact Hsv|intros K; apply map_eq_nil in K; revert K; apply Hne; [reflexivity|exact (proj1 H)]]]
             | solve [eapply ShMsgs; [exact Hr|exact He|exact V0|exact (proj2 H)|exact Hsv|apply Hne; [reflexivity|exact (proj1 H)]]] ].
Qed.

(** ** Tags *)
Lemma stag_size f : wfield_ok f -> wtag_size f = tag_size (w_num f).
Proof.
  intros (Hn & _). assert (Hw : 0 <= wire_of f < 8) by (unfold wire_of; destruct (packed f); [unfold WT_LEN; lia|apply wt_range]).
  unfold wtag_size, stag. rewrite <- (tag_size_eq (w_num f) (wire_of f)) by lia. rewrite make_tag_sum by lia. unfold tagb. rewrite zlen_vint by lia. reflexivity.
Qed.

Section Passes.
  Context (W : list wtype) (utf8_ok : bytes -> bool) (maxd : Z).
  Hypothesis HW : wtypes_ok W.
  Let E := env_of W.

  Lemma present_explicit f l s : w_rep f = None -> w_explicit f = true -> present f l s = has_value (dyn_of f) l s.
  Proof. intros _ H. unfold present. rewrite H, !orb_true_r. cbn. apply andb_true_r. Qed.
  Lemma present_rep f l s p : w_rep f = Some p -> present f l s = has_value (dyn_of f) l s.
  Proof. intros H. unfold present, is_rep. rewrite H. cbn. apply andb_true_r. Qed.

  (** A field outside oneofs is written exactly when the member is. *)
  Lemma omit_one T rec f l m : wfield_ok f -> slot_ok T f l (slot_at m l) ->
    omit (member_field (MOne f l)) (member_vals rec m (MOne f l)) = negb (present f l (slot_at m l)) /\
    (present f l (slot_at m l) = true -> has_value (dyn_of f) l (slot_at m l) = true /\ member_vals rec m (MOne f l) = slot_vals rec f l (slot_at m l)).
  Proof.
    intros (_ & _ & Hm & Hd) Hs. cbn [member_field member_vals]. split; [|intros P; unfold present in P; apply andb_true_iff in P; destruct P as [-> _]; auto].
    destruct (has_value (dyn_of f) l (slot_at m l)) eqn:Hh.
    - destruct (shape_of T rec f l _ Hs Hh) as [v Hr Hsc Hv _ Hvs|p vs Hr Hsc _ _ Hvs Hne|ty d x Hr He Hv _ Hvs|p ty d x Hr He Hv _ Hvs Hne]; rewrite Hvs, Hr.
      + unfold present. rewrite Hh. unfold is_rep. rewrite Hr, Hv. destruct (w_explicit f) eqn:Hx; [rewrite !orb_true_r; reflexivity|]. cbn [omit andb orb]. rewrite orb_false_r.
        destruct (w_elem f); try discriminate Hsc; cbn [orb negb]; rewrite negb_involutive; reflexivity.
      + rewrite (present_rep _ _ _ _ Hr), Hh. destruct vs; [congruence|reflexivity].
      + rewrite (present_explicit _ _ _ Hr (Hm _ _ He Hr)), Hh, (Hm _ _ He Hr). reflexivity.
      + rewrite (present_rep _ _ _ _ Hr), Hh. destruct x; [congruence|reflexivity].
    - unfold present. rewrite Hh. cbn [andb negb]. unfold is_rep. destruct (w_rep f) as [p|] eqn:Hr; [reflexivity|]. destruct (w_explicit f) eqn:Hx; [reflexivity|]. cbn [orb omit].
      unfold w_default. destruct (Hd eq_refl) as [-> ->]. destruct (w_elem f) as [t| |[] []|c|u vw|ty d] eqn:He; try reflexivity. specialize (Hm _ _ eq_refl eq_refl). congruence.
  Qed.

  Lemma slots_in n ty m f l : typed W (S n) ty m -> In (f, l) (w_fields (wty W ty)) -> slot_ok (typed W n) f l (slot_at m l).
  Proof. intros [_ H] Hin. rewrite Forall_forall in H. exact (H _ Hin). Qed.
  Lemma fields_in ty f l : In (f, l) (w_fields (wty W ty)) -> wfield_ok f /\ (forall o, w_oneof f = Some o -> w_rep f = None).
  Proof. intros Hin. destruct (wtype_layout _ (wty_ok W ty HW)) as [_ H]. rewrite Forall_forall in H. destruct (H _ Hin) as (A & B & _). auto. Qed.

  (** From a field to its member, for any of the passes. *)
  Section Field.
    Context {X Y : Type} (R : X -> Y -> Prop) (uX : X) (uY : Y) (n : nat) (m : list slot) (d : wfield -> layout -> X) (ef : Schema.field -> list val -> Y).
    Hypothesis Ru : R uX uY.
    Lemma walk_ok_intro f l :
      wfield_ok f -> (forall o, w_oneof f = Some o -> w_rep f = None) -> slot_ok (typed W n) f l (slot_at m l) ->
      (has_value (dyn_of f) l (slot_at m l) = true -> present f l (slot_at m l) = true -> shape (typed W n) (val_of W n) f l (slot_at m l) ->
       (forall p, w_rep f = Some p -> R (d f l) (ef (Field (w_num f) (w_elem f) (CRep p)) (slot_vals (val_of W n) f l (slot_at m l)))) /\
       (w_rep f = None -> forall v, slot_vals (val_of W n) f l (slot_at m l) = [v] ->
         R (d f l) (ef (Field (w_num f) (w_elem f) COpt) [v]) /\ (forall dv, R (d f l) (ef (Field (w_num f) (w_elem f) (CPlain false dv)) [v])) /\
         (forall alts i, nth_error alts i = Some (w_num f, w_elem f) -> R (d f l) (ef (Oneof alts) [VAlt i v])))) ->
      walk_ok R uX uY m (val_of W n) d ef (f, l).
    Proof.
      intros Hf Ho Hs H. unfold walk_ok. destruct (w_oneof f) as [o|] eqn:Eo.
      - specialize (Ho _ eq_refl). destruct Hf as (_ & Hx & _). split; [exact Ho|]. assert (Hp : present f l (slot_at m l) = has_value (dyn_of f) l (slot_at m l)) by (apply present_explicit; eauto). split; [exact Hp|].
        intros Hh. rewrite Hh in Hp. specialize (H Hh Hp (shape_of _ _ _ _ _ Hs Hh)). destruct H as [_ H]. specialize (H Ho).
        destruct (shape_of _ (val_of W n) _ _ _ Hs Hh) as [v Hr _ _ _ Hvs|p vs Hr _ _ _ _ _|ty dd x Hr _ _ _ Hvs|p ty dd x Hr _ _ _ _ _]; try congruence; eexists; (split; [exact Hvs|]); apply (H _ Hvs).
      - destruct (omit_one (typed W n) (val_of W n) f l m Hf Hs) as [Om Hv]. rewrite Om. destruct (present f l (slot_at m l)) eqn:Hp; [|exact Ru]. cbn [negb]. destruct (Hv eq_refl) as [Hh ->]. pose proof (shape_of _ (val_of W n) _ _ _ Hs Hh) as Sh. specialize (H Hh eq_refl Sh).
        cbn [member_field]. destruct (w_rep f) as [p|] eqn:Hr; [apply H; reflexivity|]. destruct H as [_ H]. specialize (H eq_refl).
        destruct Sh as [v Hr' _ _ _ Hvs|p vs Hr' _ _ _ _ _|ty dd x Hr' _ _ _ Hvs|p ty dd x Hr' _ _ _ _ _]; try congruence; rewrite Hvs; specialize (H _ Hvs); destruct (w_explicit f); apply H.
    Qed.
  End Field.

  (** ** Counting *)
  Definition lift (o : option nat) : res nat := match o with Some k => Ok k | None => Err BadMessage end.
  Lemma dcnt_ok n : forall depth ty m, typed W n ty m -> dcnt W maxd n depth ty m = lift (cnt_msg E maxd depth ty (val_of W n ty m)).
  Proof.
    induction n as [|n IH]; intros depth ty m Ht; [destruct Ht|]. cbn [dcnt val_of cnt_msg]. destruct (scope_ok maxd depth); [|reflexivity].
    subst E. rewrite desc_env. cbn [m_fields desc_of_wtype].
    destruct (wtype_layout _ (wty_ok W ty HW)) as [C _].
    set (recE := fun (ty' : nat) (v' : val) => cnt_msg (env_of W) maxd (depth + 1) ty' v').
    set (d := fun f l => dcnt_field (dcnt W maxd n (depth + 1)) f l (slot_at m l)).
    set (opX := fun a b : res nat => x <- a ;; y <- b ;; Ok (x + y)%nat).
    assert (WD : forall fs, dcnt_fields (dcnt W maxd n (depth + 1)) fs m = walkD opX (Ok 0%nat) (Ok 0%nat) m d fs).
    { induction fs as [|[f l] fs IHf]; [reflexivity|]. cbn [dcnt_fields walkD]. rewrite IHf. reflexivity. }
    assert (WE : forall ms, cnt_fields recE (map member_field ms) (map (member_vals (val_of W n) m) ms) = walkE add_opt (Some 0%nat) (Some 0%nat) m (val_of W n) (cnt_field recE) ms).
    { induction ms as [|b ms IHm]; [reflexivity|]. cbn [map cnt_fields walkE]. rewrite IHm. reflexivity. }
    rewrite WD, WE. apply (walk (fun x y => x = lift y)).
    - intros x y x' y' -> ->. destruct y, y'; reflexivity.
    - reflexivity.
    - reflexivity.
    - intros x y ->. destruct y; reflexivity.
    - intros x y ->. destruct y; reflexivity.
    - intros alts alts' i i' v Hn. cbn [cnt_field]. rewrite Hn. reflexivity.
    - exact C.
    - apply Forall_forall. intros [f l] Hin. destruct (fields_in _ _ _ Hin) as [Hf Ho]. pose proof (slots_in _ _ _ _ _ Ht Hin) as Hs.
      apply walk_ok_intro; try assumption; [reflexivity|]. intros Hh Hp Sh.
      assert (Hlist : forall t dl x, Forall (typed W n t) x -> lift (cnt_list recE (EMsg t dl) (map (val_of W n t) x)) = (c <- dcnt_list (dcnt W maxd n (depth + 1)) t x ;; Ok (c + if dl then 0 else length x)%nat)).
      { induction 1 as [|a x Ha _ IHx]; [destruct dl; reflexivity|]. cbn [map cnt_list dcnt_list cnt_elem length]. rewrite (IH (depth + 1) t a Ha). fold recE.
        destruct (recE t (val_of W n t a)) as [k|] eqn:Ek; unfold recE in Ek; rewrite Ek; [|reflexivity]. cbn [add_opt lift bind].
        destruct (cnt_list recE (EMsg t dl) (map (val_of W n t) x)) as [k'|]; cbn [lift] in IHx; destruct (dcnt_list (dcnt W maxd n (depth + 1)) t x) as [c0| | | |]; try discriminate IHx; cbn [bind add_opt lift] in *.
        - injection IHx as ->. f_equal. destruct dl; cbn; lia.
        - injection IHx as <-. reflexivity. }
      assert (Hsc : forall e vs, scalar e = true -> cnt_list recE e vs = Some 0%nat).
      { intros e vs He. induction vs as [|v vs IHv]; [reflexivity|]. cbn [cnt_list]. rewrite IHv. destruct e; try reflexivity. discriminate. }
      destruct Sh as [v Hr Hsc' Hv _ Hvs|p vs Hr Hsc' Hv _ Hvs Hne|t dl x Hr He Hv Htx Hvs|p t dl x Hr He Hv Htx Hvs Hne]; (split; [intros p' Hp'; rewrite Hr in Hp'; try discriminate Hp'|intros Hn'; rewrite Hr in Hn'; try discriminate Hn'; intros v' Hv']); unfold d, dcnt_field.
      + assert (E0 : forall g, cnt_list recE (w_elem f) [g] = Some 0%nat) by (intros; apply Hsc; exact Hsc').
        assert (E1 : match w_elem f, w_rep f with EMsg ty0 delim, None => match value (dyn_of f) l (slot_at m l) with FMsg m0 => c <- dcnt W maxd n (depth + 1) ty0 m0;; Ok (c + (if delim then 0 else 1))%nat | _ => UB end
           | EMsg ty0 delim, Some _ => match value (dyn_of f) l (slot_at m l) with FMsgs x => c <- dcnt_list (dcnt W maxd n (depth + 1)) ty0 x;; Ok (c + (if delim then 0 else length x))%nat | _ => UB end
           | EVar _, Some _ | EEnum _, Some _ => Ok (if packed f then 1%nat else 0%nat) | _, _ => Ok 0%nat end = Ok 0%nat) by (rewrite Hr; destruct (w_elem f); try reflexivity; discriminate Hsc').
        rewrite E1. split; [|split]; [cbn [cnt_field]; rewrite E0; reflexivity|intros; cbn [cnt_field]; rewrite E0; reflexivity|].
        intros alts i Hi. cbn [cnt_field]. rewrite Hi. specialize (E0 v'). cbn [cnt_list] in E0. destruct (cnt_elem recE (w_elem f) v') as [[|]|]; try discriminate E0; reflexivity.
      + injection Hp' as <-. cbn [cnt_field]. unfold packed. rewrite Hr. rewrite Hsc by exact Hsc'. destruct p; destruct (w_elem f); try discriminate Hsc'; reflexivity.
      + rewrite He, Hv, Hr. assert (E0 : cnt_elem recE (EMsg t dl) v' = cnt_list recE (EMsg t dl) (map (val_of W n t) [x])).
        { rewrite Hvs in Hv'. injection Hv' as <-. cbn [map cnt_list]. destruct (cnt_elem _ _ _); cbn; rewrite ?Nat.add_0_r; reflexivity. }
        assert (E1 : (c <- dcnt W maxd n (depth + 1) t x ;; Ok (c + (if dl then 0 else 1))%nat) = lift (cnt_elem recE (EMsg t dl) v')).
        { rewrite E0, (Hlist t dl [x]) by (constructor; [exact Htx|constructor]). cbn [dcnt_list length]. destruct (dcnt W maxd n (depth + 1) t x); cbn [bind]; try reflexivity. rewrite Nat.add_0_r. reflexivity. }
        rewrite E1. assert (E2 : cnt_list recE (EMsg t dl) [v'] = cnt_elem recE (EMsg t dl) v') by (cbn [cnt_list]; destruct (cnt_elem _ _ _); cbn; rewrite ?Nat.add_0_r; reflexivity).
        split; [|split]; [cbn [cnt_field]; rewrite E2; reflexivity|intros; cbn [cnt_field]; rewrite E2; reflexivity|]. intros alts i Hi. cbn [cnt_field]. rewrite Hi. reflexivity.
      + injection Hp' as <-. rewrite He, Hv, Hr, Hvs. cbn [cnt_field packable]. rewrite andb_false_r. symmetry. apply Hlist. exact Htx.
  Qed.

  (** ** Sizes *)
  Lemma dsz_ok n : forall ty m, typed W n ty m -> dsz W n ty m = Ok (sz_msg E ty (val_of W n ty m)).
  Proof.
    induction n as [|n IH]; intros ty m Ht; [destruct Ht|]. cbn [dsz val_of sz_msg].
    subst E. rewrite desc_env. cbn [m_fields m_unk desc_of_wtype unk_size].
    destruct (wtype_layout _ (wty_ok W ty HW)) as [C _].
    set (recE := fun (ty' : nat) (v' : val) => sz_msg (env_of W) ty' v').
    set (d := fun f l => dsz_field (dsz W n) f l (slot_at m l)).
    assert (WD : forall fs, dsz_fields (dsz W n) fs m = walkD add_res (Ok (0, [])) (Ok (0, [])) m d fs).
    { induction fs as [|[f l] fs IHf]; [reflexivity|]. cbn [dsz_fields walkD]. rewrite IHf. reflexivity. }
    assert (WE : forall ms, sz_fields recE (map member_field ms) (map (member_vals (val_of W n) m) ms) = walkE add_sz (0, []) (0, []) m (val_of W n) (sz_field recE) ms).
    { induction ms as [|b ms IHm]; [reflexivity|]. cbn [map sz_fields walkE]. rewrite IHm. reflexivity. }
    rewrite WD, WE. assert (Hz : forall r : szr, (let '(s, c) := r in (s + 0, c)) = r) by (intros [s c]; rewrite Z.add_0_r; reflexivity). rewrite Hz.
    apply (walk (fun x y => x = Ok y)).
    - intros x y x' y' -> ->. reflexivity.
    - reflexivity.
    - reflexivity.
    - intros x [y c] ->. reflexivity.
    - intros x [y c] ->. reflexivity.
    - intros alts alts' i i' v Hn. cbn [sz_field]. rewrite Hn. reflexivity.
    - exact C.
    - apply Forall_forall. intros [f l] Hin. destruct (fields_in _ _ _ Hin) as [Hf Ho]. pose proof (slots_in _ _ _ _ _ Ht Hin) as Hs. pose proof (stag_size f Hf) as Ts.
      apply walk_ok_intro; try assumption; [reflexivity|]. intros Hh Hp Sh.
      assert (Hmsg : forall t dl x, typed W n t x -> dsz_message (dsz W n) f t dl x = Ok (sz_elem recE (w_num f) (EMsg t dl) (val_of W n t x))).
      { intros t dl x Hx. unfold dsz_message. rewrite (IH t x Hx). cbn [sz_elem]. unfold recE. destruct (sz_msg (env_of W) t (val_of W n t x)) as [s c]. cbn [bind]. rewrite Ts. destruct dl; reflexivity. }
      assert (Hlist : forall t dl x, Forall (typed W n t) x -> dsz_messages (dsz W n) f t dl x = Ok (sz_list recE (w_num f) (EMsg t dl) (map (val_of W n t) x))).
      { induction 1 as [|a x Ha _ IHx]; [reflexivity|]. cbn [dsz_messages map sz_list]. rewrite (Hmsg _ _ _ Ha), IHx. reflexivity. }
      assert (H1 : forall num e v, sz_list recE num e [v] = sz_elem recE num e v).
      { intros num e v. cbn [sz_list]. destruct (sz_elem recE num e v) as [s c]. unfold add_sz. cbn. rewrite Z.add_0_r, app_nil_r. reflexivity. }
      destruct Sh as [v Hr Hsc' Hv _ Hvs|p vs Hr Hsc' Hv _ Hvs Hne|t dl x Hr He Hv Htx Hvs|p t dl x Hr He Hv Htx Hvs Hne]; (split; [intros p' Hp'; rewrite Hr in Hp'; try discriminate Hp'|intros Hn'; rewrite Hr in Hn'; try discriminate Hn'; intros v' Hv']); unfold d, dsz_field.
      + assert (E1 : dsz_field (dsz W n) f l (slot_at m l) = Ok (sz_elem recE (w_num f) (w_elem f) v')).
        { rewrite Hvs in Hv'. injection Hv' as <-. unfold dsz_field. rewrite Hr, Hv. cbn [bind]. rewrite Ts. destruct (w_elem f); try discriminate Hsc'; reflexivity. }
        unfold dsz_field in E1. rewrite E1. split; [|split]; [cbn [sz_field]; rewrite H1; reflexivity|intros; cbn [sz_field]; rewrite H1; reflexivity|]. intros alts i Hi. cbn [sz_field]. rewrite Hi. reflexivity.
      + injection Hp' as <-. rewrite Hvs.
        assert (Hsw : sz_list recE (w_num f) (w_elem f) vs = (sum_with_tag (wtag_size f) (w_elem f) vs, [])).
        { rewrite Ts. clear - Hsc'. induction vs as [|v vs IHv]; [reflexivity|]. cbn [sz_list sum_with_tag]. rewrite IHv. destruct (w_elem f); try discriminate Hsc'; reflexivity. }
        assert (Hco : forall k, (forall v, scalar_size (w_elem f) v = k) -> sum_with_tag (wtag_size f) (w_elem f) vs = zlen vs * (wtag_size f + k)).
        { intros k Hk. clear - Hk. induction vs as [|v vs IHv]; [reflexivity|]. cbn [sum_with_tag]. rewrite IHv, Hk. unfold zlen. cbn [length]. lia. }
        rewrite Hr, Hv. cbn [bind sz_field]. unfold packed. rewrite Hr, Hsw. f_equal.
        destruct (w_elem f) as [t| |is64 fl|c|u vw|t dd] eqn:He; try discriminate Hsc'; destruct p; cbn [andb packable width]; rewrite ?Ts, ?Z.mul_1_r; try reflexivity; rewrite <- Ts, (Hco _ (fun _ => eq_refl)); reflexivity.
      + rewrite Hvs in Hv'. injection Hv' as <-. rewrite He, Hv, Hr, (Hmsg _ _ _ Htx).
        split; [|split]; [cbn [sz_field]; rewrite H1; reflexivity|intros; cbn [sz_field]; rewrite H1; reflexivity|]. intros alts i Hi. cbn [sz_field]. rewrite Hi. reflexivity.
      + injection Hp' as <-. rewrite He, Hv, Hr, Hvs. cbn [sz_field packable]. rewrite andb_false_r. apply Hlist. exact Htx.
  Qed.
End Passes.
