(** Messages read by the dynamic decoder are well-formed storage, and are written as the
    generated messages they agree with. *)
Require Import Verif.Bits Verif.Varint Verif.DynSlots Verif.Dyn Verif.Schema Verif.Archive Verif.Decode Verif.Encode Verif.DynWire.
Require Import Verif.DynSlotsProofs Verif.DecodeSafe Verif.WellTyped Verif.EncodeSpec Verif.DynView Verif.DynEncode1 Verif.DynEncode3 Verif.DynDecode Verif.DynDecode1 Verif.DynAgree Verif.DynDecode2 Verif.DynDecode3 Verif.DynDecode4 Verif.DecodeTerms Verif.DecodeMain3.

(** ** Values that are written alike *)
Section Alike.
  Context (E : env) (utf8_ok : bytes -> bool) (maxd : Z).
  Definition alike (ty : nat) (v v' : val) : Prop :=
    (forall d, cnt_msg E maxd d ty v = cnt_msg E maxd d ty v') /\ sz_msg E ty v = sz_msg E ty v' /\
    (forall d c, ser_msg E utf8_ok maxd d ty v c = ser_msg E utf8_ok maxd d ty v' c).
  Definition alike_elem (e : elem) (v v' : val) : Prop := match e with EMsg ty _ => alike ty v v' | _ => v = v' end.
  Inductive alike_cell : field -> list val -> list val -> Prop :=
  | AcOmit f c c' : omit f c = true -> omit f c' = true -> alike_cell f c c'
  | AcSame f c : alike_cell f c c
  | AcField num ty d k c c' : Forall2 (alike ty) c c' -> (forall x y, k <> CPlain x y) -> alike_cell (Field num (EMsg ty d) k) c c'
  | AcAlt alts i num e v v' : nth_error alts i = Some (num, e) -> alike_elem e v v' -> alike_cell (Oneof alts) [VAlt i v] [VAlt i v'].
  Inductive alike_cells : list field -> list (list val) -> list (list val) -> Prop :=
  | AcNil : alike_cells [] [] []
  | AcCons f fds c fs c' fs' : alike_cell f c c' -> alike_cells fds fs fs' -> alike_cells (f :: fds) (c :: fs) (c' :: fs').

  Lemma cell_omit f c c' : alike_cell f c c' -> omit f c = omit f c'.
  Proof.
    intros H. destruct H as [f c c' H1 H2|f c|num ty d k c c' H1 H2|alts i num e v v' H1 H2]; [congruence|reflexivity| |reflexivity].
    destruct k as [x y| | |]; [destruct (H2 x y eq_refl)| | |]; destruct H1; reflexivity.
  Qed.
  Lemma cell_cnt d f c c' : alike_cell f c c' -> omit f c = false -> cnt_field (fun ty' v' => cnt_msg E maxd d ty' v') f c = cnt_field (fun ty' v' => cnt_msg E maxd d ty' v') f c'.
  Proof.
    intros H Ho. destruct H as [f c c' H1 H2|f c|num ty dl k c c' H1 H2|alts i num e v v' H1 H2]; [congruence|reflexivity| |].
    - assert (L : cnt_list (fun ty' v' => cnt_msg E maxd d ty' v') (EMsg ty dl) c = cnt_list (fun ty' v' => cnt_msg E maxd d ty' v') (EMsg ty dl) c').
      { clear Ho. induction H1 as [|v v' c c' Hv _ IH]; [reflexivity|]. cbn [cnt_list cnt_elem]. rewrite (proj1 Hv), IH. reflexivity. }
      destruct k as [x y| |[]|]; cbn [cnt_field packable andb]; exact L.
    - cbn [cnt_field]. rewrite H1. destruct e; cbn [alike_elem cnt_elem] in *; subst; try reflexivity. rewrite (proj1 H2). reflexivity.
  Qed.
  Lemma cell_sz f c c' : alike_cell f c c' -> omit f c = false -> sz_field (fun ty' v' => sz_msg E ty' v') f c = sz_field (fun ty' v' => sz_msg E ty' v') f c'.
  Proof.
    intros H Ho. destruct H as [f c c' H1 H2|f c|num ty dl k c c' H1 H2|alts i num e v v' H1 H2]; [congruence|reflexivity| |].
    - assert (L : sz_list (fun ty' v' => sz_msg E ty' v') num (EMsg ty dl) c = sz_list (fun ty' v' => sz_msg E ty' v') num (EMsg ty dl) c').
      { clear Ho. induction H1 as [|v v' c c' Hv _ IH]; [reflexivity|]. cbn [sz_list sz_elem]. destruct Hv as (_ & Hv & _). rewrite Hv, IH. reflexivity. }
      destruct k as [x y| |[]|]; cbn [sz_field packable andb]; exact L.
    - cbn [sz_field]. rewrite H1. destruct e; cbn [alike_elem sz_elem] in *; subst; try reflexivity. destruct H2 as (_ & H2 & _). rewrite H2. reflexivity.
  Qed.
  Lemma cell_ser d f c c' k : alike_cell f c c' -> omit f c = false ->
    ser_field utf8_ok (fun ty' v' c' => ser_msg E utf8_ok maxd d ty' v' c') f c k = ser_field utf8_ok (fun ty' v' c' => ser_msg E utf8_ok maxd d ty' v' c') f c' k.
  Proof.
    intros H Ho. set (R := fun ty' v' c' => ser_msg E utf8_ok maxd d ty' v' c'). destruct H as [f c c' H1 H2|f c|num ty dl kd c c' H1 H2|alts i num e v v' H1 H2]; [congruence|reflexivity| |].
    - assert (L : forall k, ser_list utf8_ok R num (EMsg ty dl) c k = ser_list utf8_ok R num (EMsg ty dl) c' k).
      { clear Ho. induction H1 as [|v v' c c' Hv _ IH]; intros k0; [reflexivity|]. destruct Hv as (_ & _ & Hv). cbn [ser_list ser_elem]. unfold R at 1 2 4 5. unfold seq_s.
        destruct dl; [rewrite Hv; destruct (ser_msg E utf8_ok maxd d ty v' k0) as [[? ?]| | | |]; cbn [bind]; try reflexivity; rewrite IH; reflexivity|].
        destruct k0 as [|len k0]; [reflexivity|]. rewrite Hv. destruct (ser_msg E utf8_ok maxd d ty v' k0) as [[? ?]| | | |]; cbn [bind]; try reflexivity; rewrite IH; reflexivity. }
      destruct kd as [x y| |[]|]; cbn [ser_field packable andb]; apply L.
    - cbn [ser_field]. rewrite H1. destruct e; cbn [alike_elem ser_elem] in *; subst; try reflexivity. destruct H2 as (_ & _ & H2). unfold R. destruct delim; [rewrite H2; reflexivity|]. destruct k; [reflexivity|]. rewrite H2. reflexivity.
  Qed.
  Lemma alike_msg ty fs fs' : alike_cells (m_fields (desc_of E ty)) fs fs' -> alike ty (VMsg fs []) (VMsg fs' []).
  Proof.
    intros H. split; [|split].
    - intros d. cbn [cnt_msg]. destruct (scope_ok maxd d); [|reflexivity]. induction H as [|f fds c fs c' fs' Hc _ IH]; [reflexivity|]. cbn [cnt_fields]. rewrite IH, <- (cell_omit _ _ _ Hc). destruct (omit f c) eqn:Ho; [reflexivity|]. rewrite (cell_cnt _ _ _ _ Hc Ho). reflexivity.
    - cbn [sz_msg]. replace (sz_fields (fun ty' v' => sz_msg E ty' v') (m_fields (desc_of E ty)) fs') with (sz_fields (fun ty' v' => sz_msg E ty' v') (m_fields (desc_of E ty)) fs); [reflexivity|].
      induction H as [|f fds c fs c' fs' Hc _ IH]; [reflexivity|]. cbn [sz_fields]. rewrite IH, <- (cell_omit _ _ _ Hc). destruct (omit f c) eqn:Ho; [reflexivity|]. rewrite (cell_sz _ _ _ Hc Ho). reflexivity.
    - intros d k. cbn [ser_msg]. destruct (scope_ok maxd d); [|reflexivity].
      replace (ser_fields utf8_ok (fun ty' v' c' => ser_msg E utf8_ok maxd (d + 1) ty' v' c') (m_fields (desc_of E ty)) fs' k) with (ser_fields utf8_ok (fun ty' v' c' => ser_msg E utf8_ok maxd (d + 1) ty' v' c') (m_fields (desc_of E ty)) fs k); [reflexivity|].
      revert k. induction H as [|f fds c fs c' fs' Hc _ IH]; intros k; [reflexivity|]. cbn [ser_fields]. rewrite <- (cell_omit _ _ _ Hc). unfold seq_s. destruct (omit f c) eqn:Ho.
      + cbn [bind]. rewrite IH. reflexivity.
      + rewrite (cell_ser _ _ _ _ _ Hc Ho). destruct (ser_field _ _ _ _ _) as [[? ?]| | | |]; cbn [bind]; try reflexivity. rewrite IH. reflexivity.
  Qed.
  Lemma alike_bytes ty v v' : alike ty v v' -> encode_bytes E utf8_ok maxd ty v = encode_bytes E utf8_ok maxd ty v'.
  Proof. intros (H1 & H2 & H3). unfold encode_bytes, plan. rewrite H1, H2. destruct (cnt_msg E maxd 0 ty v'); [|reflexivity]. destruct (sz_msg E ty v') as [s c]. rewrite H3. reflexivity. Qed.
End Alike.

(** ** Well-formed storage *)
Section Typed.
  Context (W : list wtype) (utf8_ok : bytes -> bool) (maxd : Z).
  Notation E := (env_of W).
  Hypothesis HW : wtypes_ok W.
  Hypothesis Hread : readable W.
  Hypothesis Hutf8 : utf8_ok [] = true.
  Hypothesis Hdef : defaults_fit W.

  Lemma same_slot ty x y : In x (w_fields (wty W ty)) -> In y (w_fields (wty W ty)) -> l_slot (snd x) = l_slot (snd y) ->
    x = y \/ (w_rep (fst x) = None /\ w_rep (fst y) = None /\ l_ordinal (snd x) <> l_ordinal (snd y)).
  Proof.
    intros Hx Hy Hs. pose proof Hx as Hx'. pose proof Hy as Hy'. rewrite <- (members_fields (w_fields (wty W ty))) in Hx, Hy. apply in_flat_map in Hx, Hy. destruct Hx as (b & Hb & Hx). destruct Hy as (b' & Hb' & Hy).
    destruct (In_nth_error _ _ Hb) as [i Hi]. destruct (In_nth_error _ _ Hb') as [j Hj]. destruct (Nat.eq_dec i j) as [<-|Hij].
    - rewrite Hi in Hj. injection Hj as <-. destruct b as [f l|o g]; cbn [mfields] in *.
      + destruct Hx as [<-|[]]. destruct Hy as [<-|[]]. left. reflexivity.
      + destruct (In_nth_error _ _ Hx) as [a Ha]. destruct (In_nth_error _ _ Hy) as [c Hc]. destruct (Nat.eq_dec a c) as [<-|Hac]; [left; congruence|]. right.
        pose proof (group_slots _ _ _ (wty_ok W ty HW) Hb) as Gs. destruct (fop_index _ _ (fun a b Hab => conj (eq_sym (proj1 Hab)) (fun q => proj2 Hab (eq_sym q))) Gs _ _ _ _ Hac Ha Hc) as [_ S2].
        pose proof (members_wf (w_fields (wty W ty))) as Hw. rewrite Forall_forall in Hw. specialize (Hw _ Hb). destruct Hw as [_ Hw]. rewrite Forall_forall in Hw.
        destruct x as [f l]. destruct y as [f' l']. destruct (field_facts W HW Hread ty f l Hx') as (_ & H1 & _). destruct (field_facts W HW Hread ty f' l' Hy') as (_ & H2 & _).
        split; [exact (H1 _ (Hw _ Hx))|]. split; [exact (H2 _ (Hw _ Hy))|exact S2].
    - exfalso. exact (fop_index apart _ apart_sym (slots_apart _ (wty_ok W ty HW)) _ _ _ _ Hij Hi Hj _ _ Hx Hy Hs).
  Qed.
  Lemma singular_has f l s : w_rep f = None -> has_value (dyn_of f) l s = (fst s =? l_ordinal l).
  Proof. intros H. unfold has_value, has_word, repeated, dyn_of, is_rep. cbn [y_kind]. rewrite H. destruct (w_elem f); reflexivity. Qed.
  Lemma repeated_has f l s p : w_rep f = Some p -> has_value (dyn_of f) l s = (0 <? fst s).
  Proof. intros H. unfold has_value, has_word, repeated, dyn_of, is_rep. cbn [y_kind]. rewrite H. destruct (w_elem f); reflexivity. Qed.
  Lemma absent_zero ty f l : In (f, l) (w_fields (wty W ty)) -> has_value (dyn_of f) l zero_slot = false.
  Proof.
    intros Hin. destruct (field_facts W HW Hread ty f l Hin) as (_ & _ & _ & Ho & _). destruct (w_rep f) as [p|] eqn:Hr.
    - rewrite (repeated_has _ _ _ _ Hr). reflexivity.
    - rewrite (singular_has _ _ _ Hr). specialize (Ho eq_refl). apply Z.eqb_neq. cbn. lia.
  Qed.
  Lemma new_typed n ty : typed W (S n) ty (new_slots W ty).
  Proof.
    split; [apply repeat_length|]. apply Forall_forall. intros [f l] Hin. cbn [fst snd]. unfold new_slots. intros H. rewrite (zero_at utf8_ok) in H. rewrite (absent_zero ty) in H by exact Hin. discriminate.
  Qed.
  Lemma default_fits ty f l : In (f, l) (w_fields (wty W ty)) -> scalar (w_elem f) = true -> fits (w_elem f) (w_default f).
  Proof.
    unfold wty. intros Hin. destruct (nth_in_or_default ty W (WType [] 0 false)) as [H|H]; [|rewrite H in Hin; destruct Hin].
    pose proof Hdef as K. unfold defaults_fit in K. rewrite Forall_forall in K. specialize (K _ H). rewrite Forall_forall in K. exact (K _ Hin).
  Qed.
  Lemma complete_typed n ty m m' : typed W (S (S n)) ty m -> complete W ty m = Ok m' -> typed W (S (S n)) ty m'.
  Proof.
    unfold complete. intros [Hl Hf] H. destruct (w_entry (wty W ty)); [|injection H as <-; split; assumption].
    destruct (nth_error (w_fields (wty W ty)) 1) as [[f l]|] eqn:Hn; [|discriminate]. apply Ok_inj in H. subst m'. destruct (is_rep f) eqn:Hr; [split; assumption|]. cbn [orb].
    destruct (has_value (dyn_of f) l (slot_at m l)) eqn:Hh; [split; assumption|]. apply nth_error_In in Hn.
    destruct (field_facts W HW Hread ty f l Hn) as (_ & _ & Hs & _ & _). split; [rewrite put_length; exact Hl|]. rewrite Forall_forall in *. intros [f' l'] Hin. cbn [fst snd].
    unfold slot_at. destruct (Nat.eq_dec (l_slot l') (l_slot l)) as [He|Hne].
    - assert (Hp : w_rep f = None) by (unfold is_rep in Hr; destruct (w_rep f); [discriminate|reflexivity]). rewrite He, put_same by lia. destruct (same_slot ty (f', l') (f, l) Hin Hn He) as [Heq|(R1 & R2 & R3)]; cbn [fst snd] in *.
      + injection Heq as -> ->. intros Hv. unfold value. rewrite Hv, andb_false_r. unfold dyn_of, default_slot. cbn [y_kind snd]. rewrite Hr.
        pose proof (default_fits ty f l Hn) as Hd. unfold w_default in Hd. destruct (w_elem f) eqn:Hel; cbn [kind_of] in *; try (apply Hd; reflexivity). apply new_typed.
      + intros Hv. rewrite singular_has in Hv by exact R1. cbn [fst default_slot] in Hv. apply Z.eqb_eq in Hv. congruence.
    - rewrite put_other by congruence. exact (Hf _ Hin).
  Qed.

  Lemma wt_fits x e v : wt E utf8_ok (loosen x e) v -> scalar e = true -> fits e v.
  Proof. intros H Hs. destruct e as [t| |is64 fl|[cl|]|u vw|ty d]; try discriminate Hs; [| | |destruct x| |]; inversion H; subst; assumption. Qed.
  Lemma elems_all e vs : elems E utf8_ok e vs -> Forall (wt E utf8_ok e) vs.
  Proof. intros H. induction vs as [|v vs IH]; [constructor|]. inversion H; subst. constructor; auto. Qed.
  Definition csize (c : list val) : nat := fold_right (fun x n => vsize x + n)%nat 0%nat c.
  Lemma csize_in v c : In v c -> (vsize v <= csize c)%nat.
  Proof. apply (in_sum vsize). Qed.
  Lemma vsize_pos v : (1 <= vsize v)%nat.
  Proof. destruct v; cbn [vsize]; lia. Qed.
  Lemma several_ok f l s vs p rec : w_rep f = Some p -> scalar (w_elem f) = true -> several f l s = Ok vs -> fst s = zlen vs -> Forall (fits (w_elem f)) vs -> slot_ok rec f l s.
  Proof.
    intros Hp Hs Hv Hl Hf _. unfold several in Hv. destruct (value (dyn_of f) l s) as [| | |x|x|x| |] eqn:V; try discriminate Hv; apply Ok_inj in Hv; subst vs; (split; [rewrite Hl; unfold zlen; rewrite map_length; reflexivity|]).
    - rewrite Forall_map in Hf. exact Hf.
    - rewrite Forall_map in Hf. exact Hf.
  Qed.
  Lemma single_ok f l s v rec : scalar (w_elem f) = true -> single f l s = Ok v -> fits (w_elem f) v -> slot_ok rec f l s.
  Proof.
    intros Hs Hv Hf _. unfold single in Hv. destruct (value (dyn_of f) l s); try discriminate Hv; apply Ok_inj in Hv; subst v; exact Hf.
  Qed.

  Lemma member_typed k ty b c m : In b (members_of (w_fields (wty W ty))) -> same_member W (agree W) m b c -> cell E utf8_ok (member_field b) c -> (csize c <= k)%nat ->
    (forall ty m v, (vsize v <= k)%nat -> wt_msg E utf8_ok ty v -> agree W ty m v -> typed W (S k) ty m) ->
    forall x, In x (mfields b) -> slot_ok (typed W (S k)) (fst x) (snd x) (slot_at m (snd x)).
  Proof.
    intros Hb Hm Hc Hk IH x Hx. destruct Hm as [f l vs Hm|o g Hm|o g i f l v H1 H2 H3]; cbn [mfields member_field] in *.
    - destruct Hx as [<-|[]]. cbn [fst snd]. destruct Hm as [Hp Hh Hx|v Hp Hh Hx Hd|v Hp Hh H|p vs Hp Hs H1 H2 H3|p ty' d ms vs Hp He Hv Hl Hms].
      + intros K. congruence.
      + intros K. congruence.
      + rewrite Hp in Hc. assert (Hw : exists x, wt E utf8_ok (loosen x (w_elem f)) v).
        { destruct (w_explicit f); inversion Hc; subst; [|eauto]. exists true. assert (L : loosen true (w_elem f) = w_elem f) by (destruct (w_elem f) as [| | |[]| |]; reflexivity). rewrite L. assumption. }
        destruct Hw as [x Hw]. destruct H as [v Hs H|ty' d m' v He Hv Ha].
        * eapply single_ok; eauto. eapply wt_fits; eauto.
        * intros _. rewrite Hv, He. rewrite He in Hw. cbn [loosen] in Hw. apply IH with (v := v); [|destruct d; inversion Hw; subst; constructor; assumption|exact Ha]. pose proof (csize_in v [v] (or_introl eq_refl)). lia.
      + eapply several_ok; eauto. rewrite Hp in Hc. inversion Hc; subst. match goal with H : elems _ _ _ _ |- _ => apply elems_all in H; revert H end. apply Forall_impl. intros v Hw.
        apply (wt_fits true); [|exact Hs]. destruct (w_elem f) as [| | |[]| |]; exact Hw.
      + intros _. rewrite Hv, He. split; [symmetry; exact Hl|]. rewrite Hp in Hc. inversion Hc; subst. match goal with H : elems _ _ _ _ |- _ => apply elems_all in H; rename H into Hw end. rewrite He in Hw.
        assert (Hk' : Forall (fun v => vsize v <= k)%nat vs) by (apply Forall_forall; intros v Hin; pose proof (csize_in v vs Hin); lia). clear - Hms Hw Hk' IH HW Hread Hdef Hutf8.
        revert Hw Hk'. induction Hms as [|m' v ms vs (m0 & Ha & Hcm) _ IHms]; intros Hw Hk'; [constructor|]. inversion Hw as [|? ? Hw1 Hw2]; subst. inversion Hk' as [|? ? Hk1 Hk2]; subst. constructor; [|auto].
        assert (T : typed W (S k) ty' m0) by (apply IH with (v := v); [exact Hk1|destruct d; inversion Hw1; subst; constructor; assumption|exact Ha]).
        pose proof (vsize_pos v). destruct k as [|k]; [lia|]. eapply complete_typed; eauto.
    - intros K. destruct x as [f l]. cbn [fst snd] in *. rewrite (Hm _ _ Hx) in K. discriminate.
    - destruct x as [f' l']. cbn [fst snd]. assert (Hin : In (f, l) g) by (eapply nth_error_In; eauto).
      pose proof (member_in W ty _ _ Hb Hx) as F1. pose proof (member_in W ty _ _ Hb Hin) as F2.
      destruct (In_nth_error _ _ Hx) as [j Hj]. destruct (Nat.eq_dec j i) as [->|Hji].
      + rewrite H1 in Hj. injection Hj as <- <-. inversion Hc as [| | | | | |? ? ? ? ? Hn Hw]; subst. rewrite nth_error_map, H1 in Hn. cbn [option_map fst] in Hn. injection Hn as <- <-.
        destruct H3 as [v Hs H|ty' d m' v He Hv Ha].
        * eapply single_ok; eauto. apply (wt_fits true); [|exact Hs]. destruct (w_elem f) as [| | |[]| |]; exact Hw.
        * intros _. rewrite Hv, He. rewrite He in Hw. apply IH with (v := v); [|destruct d; inversion Hw; subst; constructor; assumption|exact Ha]. cbn [csize fold_right vsize] in Hk. lia.
      + intros K. exfalso. pose proof (group_slots _ _ _ (wty_ok W ty HW) Hb) as Gs. destruct (fop_index _ _ (fun a b Hab => conj (eq_sym (proj1 Hab)) (fun q => proj2 Hab (eq_sym q))) Gs _ _ _ _ Hji Hj H1) as [S1 S2]. cbn [snd] in S1, S2.
        destruct (same_slot ty _ _ F1 F2 S1) as [Heq|(R1 & R2 & _)]; [injection Heq; intros; congruence|]. cbn [fst] in R1, R2. rewrite singular_has in K by exact R1. rewrite singular_has in H2 by exact R2. unfold slot_at in *. rewrite S1 in K. apply Z.eqb_eq in K, H2. congruence.
  Qed.
  Lemma cells_nth fds fs : cells E utf8_ok fds fs -> Forall2 (cell E utf8_ok) fds fs.
  Proof. revert fs. induction fds as [|f fds IH]; intros fs H; inversion H; subst; constructor; auto. Qed.
  Lemma agree_typed n : forall ty m v, (vsize v <= n)%nat -> wt_msg E utf8_ok ty v -> agree W ty m v -> typed W (S n) ty m.
  Proof.
    induction n as [|k IH]; intros ty m v Hk Hw Ha; [pose proof (vsize_pos v); lia|]. destruct Ha as [ty m vs Hl Hms]. split; [exact Hl|]. inversion Hw as [| | | | |? ? ? ? Hc _ _]; subst. apply cells_nth in Hc. rewrite desc_env in Hc. cbn [m_fields desc_of_wtype] in Hc.
    apply Forall_forall. intros x Hx. rewrite <- (members_fields (w_fields (wty W ty))) in Hx. apply in_flat_map in Hx. destruct Hx as (b & Hb & Hx). destruct (In_nth_error _ _ Hb) as [j Hj].
    destruct (Forall2_nth_l _ _ _ Hms _ _ Hj) as (c & Hc1 & Hm). assert (Hj' : nth_error (map member_field (members_of (w_fields (wty W ty)))) j = Some (member_field b)) by (rewrite nth_error_map, Hj; reflexivity).
    apply (member_typed k ty b c m Hb Hm (Forall2_nth_both _ _ _ Hc _ _ _ Hj' Hc1)); [|exact IH|exact Hx].
    apply nth_error_In in Hc1. cbn [vsize] in Hk. pose proof (in_sum csize vs c Hc1). unfold csize in *. lia.
  Qed.
End Typed.

(** ** Writing what was read *)
Section Relay.
  Context (W : list wtype) (utf8_ok : bytes -> bool) (maxd : Z).
  Notation E := (env_of W).
  Hypothesis HW : wtypes_ok W.
  Hypothesis Hread : readable W.
  Hypothesis Hutf8 : utf8_ok [] = true.
  Notation alike := (alike E utf8_ok maxd).

  Lemma plain ty : no_maps W -> w_entry (wty W ty) = false.
  Proof.
    intros H. unfold wty. destruct (nth_in_or_default ty W (WType [] 0 false)) as [K|K]; [|rewrite K; reflexivity]. unfold no_maps in H. rewrite Forall_forall in H. auto.
  Qed.
  Lemma slot_single f l s v rec : single f l s = Ok v -> slot_vals rec f l s = [v].
  Proof. unfold single, slot_vals. destruct (value (dyn_of f) l s); intros H; try discriminate; apply Ok_inj in H; subst; reflexivity. Qed.
  Lemma slot_several f l s vs rec : several f l s = Ok vs -> slot_vals rec f l s = vs.
  Proof. unfold several, slot_vals. destruct (value (dyn_of f) l s); intros H; try discriminate; apply Ok_inj in H; subst; reflexivity. Qed.
  Lemma group_none rec g m i : (forall f l, In (f, l) g -> has_value (dyn_of f) l (slot_at m l) = false) -> group_vals rec i g m = [].
  Proof. revert i. induction g as [|[f l] g IH]; intros i H; [reflexivity|]. cbn [group_vals]. rewrite (H f l) by (left; reflexivity). apply IH. intros; apply H; right; assumption. Qed.
  Lemma group_at rec g m f l : forall j i, nth_error g j = Some (f, l) -> has_value (dyn_of f) l (slot_at m l) = true ->
    (forall f' l' j', nth_error g j' = Some (f', l') -> j' <> j -> has_value (dyn_of f') l' (slot_at m l') = false) ->
    group_vals rec i g m = map (VAlt (i + j)) (slot_vals rec f l (slot_at m l)).
  Proof.
    induction g as [|[f' l'] g IH]; intros j i Hj Hh Ho; [destruct j; discriminate|]. cbn [group_vals]. destruct j as [|j].
    - injection Hj as -> ->. rewrite Hh, Nat.add_0_r. reflexivity.
    - rewrite (Ho f' l' 0%nat eq_refl) by discriminate. rewrite (IH j (S i)); [f_equal; f_equal; lia|exact Hj|exact Hh|]. intros f1 l1 j1 H1 H2. apply (Ho f1 l1 (S j1) H1). congruence.
  Qed.

  Lemma member_alike k ty b c m : no_maps W -> In b (members_of (w_fields (wty W ty))) -> same_member W (agree W) m b c -> (csize c <= k)%nat ->
    (forall ty m v, (vsize v <= k)%nat -> agree W ty m v -> alike ty v (val_of W (S k) ty m)) ->
    alike_cell E utf8_ok maxd (member_field b) c (member_vals (val_of W (S k)) m b).
  Proof.
    intros Hno Hb Hm Hk IH. destruct Hm as [f l vs Hm|o g Hm|o g i f l v H1 H2 H3]; cbn [member_vals].
    - destruct (field_facts W HW Hread ty f l (member_in W ty _ _ Hb (or_introl eq_refl))) as (Hf & _ & _ & _ & _).
      destruct Hm as [Hp Hh Hx|v Hp Hh Hx Hd|v Hp Hh H|p vs Hp Hs H1 H2 H3|p ty' d ms vs Hp He Hv Hl Hms].
      + rewrite Hh, Hx, orb_true_r. apply AcSame.
      + unfold is_rep. rewrite Hh, Hp, Hx. cbn [orb member_field]. rewrite Hp, Hx. apply AcOmit; [exact Hd|]. cbn [omit]. apply default_self; assumption.
      + rewrite Hh. destruct H as [v Hs H|ty' d m' v He Hv Ha].
        * rewrite (slot_single _ _ _ _ _ H). apply AcSame.
        * unfold slot_vals. rewrite Hv, He. cbn [member_field]. rewrite Hp, He. assert (Hx : w_explicit f = true) by (destruct Hf as (_ & _ & Hf & _); eauto). rewrite Hx.
          apply AcField; [|discriminate]. constructor; [|constructor]. apply IH; [|exact Ha]. pose proof (csize_in v [v] (or_introl eq_refl)). lia.
      + rewrite (repeated_has _ _ _ _ Hp). destruct (Z.ltb_spec 0 (fst (slot_at m l))) as [Hpos|Hneg].
        * rewrite (slot_several _ _ _ _ _ H1). apply AcSame.
        * unfold is_rep. rewrite Hp. cbn [orb]. rewrite H2 in Hneg. unfold zlen in Hneg. destruct vs; [apply AcSame|cbn [length] in Hneg; lia].
      + cbn [member_field]. rewrite Hp, He. rewrite (repeated_has _ _ _ _ Hp). pose proof (Forall2_len _ _ _ Hms) as Hlen. destruct (Z.ltb_spec 0 (fst (slot_at m l))) as [Hpos|Hneg].
        * unfold slot_vals. rewrite Hv, He. apply AcField; [|discriminate].
          assert (Hk' : Forall (fun v => vsize v <= k)%nat vs) by (apply Forall_forall; intros v Hin; pose proof (csize_in v vs Hin); lia). clear - Hms Hk' IH Hno.
          revert Hk'. induction Hms as [|m' v ms vs (m0 & Ha & Hcm) _ IHms]; intros Hk'; [constructor|]. inversion Hk' as [|? ? Hk1 Hk2]; subst. constructor; [|auto].
          rewrite complete_plain in Hcm by (apply plain; exact Hno). apply Ok_inj in Hcm. subst m0. apply IH; assumption.
        * unfold is_rep. rewrite Hp. cbn [orb]. rewrite Hl in Hneg. unfold zlen in Hneg. destruct ms; [|cbn [length] in Hneg; lia]. destruct vs; [|discriminate Hlen]. apply AcSame.
    - rewrite group_none by exact Hm. apply AcSame.
    - cbn [mfields member_field]. assert (Hin : In (f, l) g) by (eapply nth_error_In; eauto). pose proof (member_in W ty _ _ Hb Hin) as F2.
      rewrite (group_at _ g m f l i 0 H1 H2).
      2:{ intros f' l' j' Hj' Hne. assert (Hin' : In (f', l') g) by (eapply nth_error_In; eauto). pose proof (member_in W ty _ _ Hb Hin') as F1.
        pose proof (group_slots _ _ _ (wty_ok W ty HW) Hb) as Gs. destruct (fop_index _ _ (fun a b Hab => conj (eq_sym (proj1 Hab)) (fun q => proj2 Hab (eq_sym q))) Gs _ _ _ _ Hne Hj' H1) as [S1 S2]. cbn [snd] in S1, S2.
        destruct (same_slot W HW Hread ty _ _ F1 F2 S1) as [Heq|(R1 & R2 & _)]; [injection Heq; intros; congruence|]. cbn [fst] in R1, R2. rewrite singular_has by exact R1. rewrite singular_has in H2 by exact R2. unfold slot_at in *. rewrite S1. apply Z.eqb_eq in H2. apply Z.eqb_neq. congruence. }
      cbn [Nat.add]. assert (Hn : nth_error (map (fun fl => (w_num (fst fl), w_elem (fst fl))) g) i = Some (w_num f, w_elem f)) by (rewrite nth_error_map, H1; reflexivity).
      destruct H3 as [v Hs H|ty' d m' v He Hv Ha].
      + rewrite (slot_single _ _ _ _ _ H). apply AcSame.
      + unfold slot_vals. rewrite Hv, He. cbn [map]. eapply AcAlt; [exact Hn|]. rewrite He. cbn [alike_elem]. apply IH; [|exact Ha]. cbn [csize fold_right vsize] in Hk. lia.
  Qed.
  Lemma agree_alike n : no_maps W -> forall ty m v, (vsize v <= n)%nat -> agree W ty m v -> alike ty v (val_of W (S n) ty m).
  Proof.
    intros Hno. induction n as [|k IH]; intros ty m v Hk Ha; [destruct Ha; cbn [vsize] in Hk; lia|]. destruct Ha as [ty m vs Hl Hms]. cbn [val_of]. apply alike_msg. rewrite desc_env. cbn [m_fields desc_of_wtype].
    assert (Hk' : Forall (fun c => csize c <= k)%nat vs). { apply Forall_forall. intros c Hc. cbn [vsize] in Hk. pose proof (in_sum csize vs c Hc). unfold csize in *. lia. }
    assert (G : forall bs vs, Forall2 (same_member W (agree W) m) bs vs -> Forall (fun c => csize c <= k)%nat vs -> (forall b, In b bs -> In b (members_of (w_fields (wty W ty)))) ->
      alike_cells E utf8_ok maxd (map member_field bs) vs (map (member_vals (val_of W (S k)) m) bs)).
    { clear - IH HW Hread Hno. induction 1 as [|b c bs vs Hm _ IHm]; intros Hk Hin; [constructor|]. inversion Hk; subst. cbn [map]. constructor; [|apply IHm; auto; intros; apply Hin; right; assumption].
      apply member_alike with (ty := ty); auto. apply Hin. left. reflexivity. }
    exact (G _ _ Hms Hk' (fun b H => H)).
  Qed.

  (** What was read can be written again, and without maps gives the same bytes. *)
  Lemma env_wt_defaults : wt_defaults E utf8_ok.
  Proof.
    intros ty. unfold default_msg. rewrite desc_env. cbn [m_fields m_unk desc_of_wtype]. constructor.
    - rewrite desc_env. cbn [m_fields desc_of_wtype]. rewrite map_map.
      assert (G : forall bs, (forall b, In b bs -> In b (members_of (w_fields (wty W ty)))) -> cells E utf8_ok (map member_field bs) (map (fun b => field_default (member_field b)) bs)).
      { induction bs as [|b bs IH]; intros Hin; [constructor|]. cbn [map]. constructor; [|apply IH; intros; apply Hin; right; assumption]. specialize (Hin b (or_introl eq_refl)). destruct b as [f l|o g]; cbn [member_field field_default]; [|constructor].
        destruct (field_facts W HW Hread ty f l (member_in W ty _ _ Hin (or_introl eq_refl))) as (Hf & _ & _ & _ & _).
        destruct (w_rep f) eqn:Hr; [repeat constructor|]. destruct (w_explicit f) eqn:Hx; [constructor|]. constructor. destruct Hf as (_ & _ & Hm & Hd). destruct (Hd Hx) as [Di Db]. unfold w_default. rewrite Di, Db.
        destruct (w_elem f) as [t| |is64 fl|[cl|]|u vw|ty' d] eqn:He; cbn [loosen].
        - constructor. destruct t; unfold in_vtype, fits_s, fits_u; lia.
        - constructor. lia.
        - constructor. split; [lia|]. apply Z.pow_pos_nonneg; lia.
        - constructor; [unfold in_vtype, fits_s, fits_u; lia|reflexivity].
        - constructor; [unfold in_vtype, fits_s, fits_u; lia|reflexivity].
        - constructor; [constructor|auto].
        - rewrite (Hm _ _ eq_refl Hr) in Hx. discriminate. }
      apply G. auto.
    - rewrite desc_env. cbn. auto.
    - constructor.
  Qed.

  Lemma read_value ty bs m : dyn_read W utf8_ok maxd ty bs = Ok m -> exists v, decode_bytes E utf8_ok maxd ty (default_msg E ty) bs = Ok v /\ agree W ty m v.
  Proof.
    intros H. pose proof (read_same W utf8_ok maxd HW Hread Hutf8 ty bs) as K. destruct (decode_bytes E utf8_ok maxd ty (default_msg E ty) bs) as [v|e| | |]; try contradiction.
    - destruct K as (m' & K & Ha). rewrite H in K. apply Ok_inj in K. subst m'. eauto.
    - destruct K as [e' K]. congruence.
  Qed.
  Lemma read_wt ty bs v : all_bytes bs -> decode_bytes E utf8_ok maxd ty (default_msg E ty) bs = Ok v -> wt_msg E utf8_ok ty v.
  Proof.
    intros Hb H. eapply (p_wt E utf8_ok maxd); [exact (env_safe W HW Hread)| |exact env_wt_defaults|exact Hb|rewrite desc_env; reflexivity| |apply env_wt_defaults|exact H].
    - intros ty' num e assoc Hin. exfalso. rewrite desc_env in Hin. cbn [m_fields desc_of_wtype] in Hin. apply in_map_iff in Hin. destruct Hin as (b & Hb' & _). destruct b as [f l|o g]; [|discriminate]. cbn [member_field] in Hb'. destruct (w_rep f); [discriminate|]. destruct (w_explicit f); discriminate.
    - intros tb Ht. exfalso. clear H Hb. induction Ht as [ty' bs' tb tag p _ _ K| |]; auto. rewrite desc_env in K. apply K. reflexivity.
  Qed.
  Theorem read_typed ty bs m : defaults_fit W -> all_bytes bs -> dyn_read W utf8_ok maxd ty bs = Ok m -> exists n, forall k, (n <= k)%nat -> typed W k ty m.
  Proof.
    intros Hd Hb H. destruct (read_value _ _ _ H) as (v & Hv & Ha). exists (S (vsize v)). intros k Hk. destruct k as [|k]; [lia|]. eapply agree_typed; eauto; [lia|]. eapply read_wt; eauto.
  Qed.
End Relay.

Theorem relay W utf8_ok maxd limit ty bs m : wtypes_ok W -> readable W -> utf8_ok [] = true -> defaults_fit W -> no_maps W -> all_bytes bs -> dyn_read W utf8_ok maxd ty bs = Ok m ->
  exists v n, decode_bytes (env_of W) utf8_ok maxd ty (default_msg (env_of W) ty) bs = Ok v /\
    forall k, (n <= k)%nat -> dyn_encode W utf8_ok limit k ty m = encode_bytes (env_of W) utf8_ok limit ty v.
Proof.
  intros HW Hr Hu Hd Hno Hb H. destruct (read_value W utf8_ok maxd HW Hr Hu _ _ _ H) as (v & Hv & Ha). exists v, (S (vsize v)). split; [exact Hv|]. intros k Hk. destruct k as [|k]; [lia|].
  rewrite (dyn_encode_ok W utf8_ok limit HW).
  - symmetry. apply alike_bytes. apply agree_alike; auto. lia.
  - apply (agree_typed W utf8_ok) with (v := v); auto; [lia|]. eapply read_wt; eauto.
Qed.
