(** Messages are written the same. *)
Require Import Verif.Bits Verif.Varint Verif.Timestamp Verif.Duration Verif.FieldMask Verif.FieldMaskProofs.
Require Import Verif.DynSlots Verif.Dyn Verif.Schema Verif.Archive Verif.Decode Verif.Encode Verif.DynWire Verif.DynView Verif.DynEncode1 Verif.DynEncode3 Verif.DynJson Verif.DynJsonSpec Verif.DynJson1 Verif.DynJson2 Verif.DynJson3 Verif.GenJson Verif.JsonAgreeSpec Verif.JsonAgree1 Verif.JsonAgree2.

Section Body.
  Context (W : list wtype) (J : list jtype) (E : env) (G : list gtype) (le : bool) (fshow : bool -> Z -> bytes).
  Hypothesis HW : wtypes_ok W.
  Hypothesis HJ : jtypes_ok W J.
  Hypothesis HM : types_match W J E G.
  Notation known_of := (known_of J).
  Notation jfields := (jfields W J).

  (** ** The members of the known types *)
  Lemma matches_one jf f l bs fds : matches W [(jf, (f, l))] bs fds -> exists std c, bs = [GField jf std] /\ fds = [Field (w_num f) (w_elem f) c] /\ card_matches W f c.
  Proof.
    intros M. inversion M as [|? ? ? std c ? ? ? _ Hc _ M2|g o ? ? ? L _ _ _]; subst; [|destruct g as [|? [|? ?]]; cbn in L; [lia|lia|discriminate]].
    inversion M2; subst; [eauto|]. destruct g; [cbn in *; lia|discriminate].
  Qed.
  Lemma matches_two ja fa la jb fb lb bs fds : w_oneof fa = None -> matches W [(ja, (fa, la)); (jb, (fb, lb))] bs fds ->
    exists sa ca sb cb, bs = [GField ja sa; GField jb sb] /\ fds = [Field (w_num fa) (w_elem fa) ca; Field (w_num fb) (w_elem fb) cb] /\ card_matches W fa ca /\ card_matches W fb cb.
  Proof.
    intros O M. inversion M as [|? ? ? std c ? ? ? _ Hc _ M2|g o ? ? ? L Fo _ _ Eg]; subst.
    - destruct (matches_one _ _ _ _ _ M2) as (sb & cb & -> & -> & Cb). exists std, c, sb, cb. auto.
    - destruct g as [|x g]; [cbn in L; lia|]. cbn in Eg. injection Eg as -> _. inversion Fo as [|? ? Q _]. cbn in Q. congruence.
  Qed.
  Lemma matches_group o xs bs fds : (2 <= length xs)%nat -> Forall (fun x => w_oneof (fst (snd x)) = Some o) xs -> matches W xs bs fds ->
    bs = [GOneof (map fst xs)] /\ fds = [Oneof (map (fun x => (w_num (fst (snd x)), w_elem (fst (snd x)))) xs)].
  Proof.
    intros L F M. inversion M as [|jf f l std c xs' bs' fds' _ _ A _|g o' xs' bs' fds' Lg Fg A M2]; subst; [cbn in L; lia| |].
    - exfalso. inversion F as [|? ? F0 F1]; subst. cbn in F0. rewrite F0 in A. destruct xs' as [|[j [f' l']] xs']; [cbn in L; lia|]. inversion F1 as [|? ? F2 _]; subst. cbn in F2, A. congruence.
    - apply Forall_app in F. destruct F as (F0 & F1). assert (o' = o) by (destruct g as [|x g]; [cbn in Lg; lia|]; inversion F0; inversion Fg; congruence). subst o'.
      destruct xs' as [|[j [f l]] xs']; [|exfalso; inversion F1 as [|? ? F2 _]; subst; cbn in F2, A; congruence]. inversion M2 as [| |g2 ? ? ? ? L2]; subst; [rewrite app_nil_r; auto|]. destruct g2; [cbn in L2; lia|discriminate].
  Qed.
  Lemma known_facts ty : w_entry (wty W ty) = false -> gknown G ty = known_of ty /\ matches W (jfields ty) (g_members (gty G ty)) (m_fields (desc_of E ty)).
  Proof. intros He. destruct (HM ty) as (K & M & _). rewrite He in M. auto. Qed.

  (** google.protobuf.Value *)
  Lemma value_oneof ty : known_of ty = KValue -> Forall (fun x => w_oneof (fst (snd x)) = Some 0%nat) (jfields ty).
  Proof.
    intros K. destruct (HJ ty) as (_ & _ & _ & Kk & _). unfold known_ok in Kk. rewrite K in Kk. destruct Kk as (fs & jn & jd & js & jb & jt & jl & c & v & st & sl & d1 & d2 & Hw & _ & Hs & _).
    apply Forall_forall. intros [jf [f l]] Hin. cbn [fst snd]. apply (jfield_in W J HJ) in Hin. unfold wtype_of in Hw. destruct (slot_layout _ _) as [[ls k]|]; [|discriminate]. injection Hw as Hw. rewrite <- Hw in Hin. cbn [w_fields] in Hin.
    apply in_combine_l in Hin. apply (in_map shape) in Hin. rewrite Hs in Hin. apply in_map_iff in Hin. destruct Hin as (e & Es & _). unfold shape in Es. congruence.
  Qed.
  Lemma value_active rec ty m : known_of ty = KValue -> (exists fl, In fl (w_fields (wty W ty)) /\ has fl m = true) ->
    w_entry (wty W ty) = false /\
    exists k jf f l l0 f0 t, nth_error (jfields ty) k = Some (jf, (f, l)) /\ w_fields (wty W ty) = (f0, l0) :: t /\ length (jfields ty) = 6%nat /\ has (f, l) m = true /\ w_rep f = None /\
      active_oneof_index l0 (fst (slot_at m l0)) = Z.of_nat k /\
      group_vals rec 0 (map snd (jfields ty)) m = map (VAlt k) (slot_vals rec f l (slot_at m l)) /\
      match w_elem f with
      | EMsg st _ => (known_of st = KStruct \/ known_of st = KListValue) /\ w_entry (wty W st) = false
      | e => wide jf e = false
      end.
  Proof.
    intros K (fl & Hin & Hh). destruct (HJ ty) as (_ & _ & _ & Kk & _).
    destruct (value_layout W J ty Kk K) as (f0 & f1 & f2 & f3 & f4 & f5 & jn & jd & js & jb & jt & jl & c & v & st & sl & d1 & d2 & Hf & Hj & _ & He & E0 & E1 & E2 & E3 & E4 & E5 & (R0 & R1 & R2 & R3 & R4 & R5) & _ & _ & Ks & Kl & Es & El).
    assert (Jf : jfields ty = [(jn, (f0, value_at 2)); (jd, (f1, value_at 3)); (js, (f2, value_at 4)); (jb, (f3, value_at 5)); (jt, (f4, value_at 6)); (jl, (f5, value_at 7))]).
    { unfold DynJson.jfields. rewrite Hf, Hj. reflexivity. }
    split; [exact He|].
    set (s := nth 0 m zero_slot). assert (Sa : forall z, slot_at m (value_at z) = s) by reflexivity.
    assert (Hx : exists k, (k < 6)%nat /\ fst s = Z.of_nat k + 2).
    { rewrite Hf in Hin. unfold has in Hh. cbn [In] in Hin.
      repeat (destruct Hin as [<-|Hin]; [cbn [fst snd] in Hh; rewrite Sa, single_word in Hh by assumption; cbn [l_ordinal value_at] in Hh;
        match type of Hh with (fst s =? ?z) = true => exists (Z.to_nat (z - 2)) end; cbn; split; [lia|lia]|]). contradiction. }
    destruct Hx as (k & Hk & Hs).
    rewrite Jf, Hf. exists k.
    assert (Hv : forall f z, w_rep f = None -> has_value (dyn_of f) (value_at z) s = (Z.of_nat k + 2 =? z)).
    { intros f z R. rewrite single_word by exact R. rewrite Hs. reflexivity. }
    assert (Ix : active_oneof_index (value_at 2) (fst s) = Z.of_nat k) by (rewrite value_index by lia; lia).
    cbn [map snd group_vals]. rewrite !Sa. rewrite (Hv f0), (Hv f1), (Hv f2), (Hv f3), (Hv f4), (Hv f5) by assumption.
    destruct k as [|[|[|[|[|[|k]]]]]]; [| | | | | |lia]; eexists _, _, _, _, _, _; (split; [reflexivity|]); (split; [reflexivity|]); (split; [reflexivity|]);
      (split; [unfold has; cbn [fst snd]; rewrite Sa, Hv by assumption; reflexivity|]); (split; [assumption|]); (split; [exact Ix|]); (split; [reflexivity|]);
      rewrite ?E0, ?E1, ?E2, ?E3, ?E4, ?E5; try reflexivity; auto.
  Qed.

  Context (n : nat).
  Notation recv := (view W J G n).
  Lemma view_message ty m : view W J G (S n) ty m = VMsg (view_members recv (g_members (gty G ty)) (jfields ty) m) [].
  Proof. reflexivity. Qed.

  Context (recd : bool -> nat -> list slot -> res (list tok)) (recg : nat -> val -> res (list tok)).
  Notation common := (common W J).
  Hypothesis RM : forall ty m, w_entry (wty W ty) = false -> typed W n ty m -> common n ty m -> agree (recd false ty m) (recg ty (recv ty m)).

  (** ** Map entries *)
  Lemma entry_fields te m : w_entry (wty W te) = true -> typed W (S n) te m -> common (S n) te m ->
    exists kj kf kl vj vf vl k x, jfields te = [(kj, (kf, kl)); (vj, (vf, vl))] /\ view W J G (S n) te m = VMsg [[k]; [x]] [] /\
      entry_of E G te = Some (kj, w_elem kf, (vj, w_elem vf)) /\
      (exists key, write_field W le fshow recd true kj kf kl (slot_at m kl) = key /\ bind key (fun a => Ok (quote kf a)) = gwrite_scalar le fshow true kj (w_elem kf) k) /\
      agree (write_field W le fshow recd false vj vf vl (slot_at m vl)) (gwrite_elem le fshow recg (wide vj (w_elem vf)) vj (w_elem vf) x) /\
      has (kf, kl) m = true /\ has (vf, vl) m = true /\ w_rep vf = None /\
      (forall tv d, w_elem vf = EMsg tv d -> exists y, snd (slot_at m vl) = CMsg y /\ x = recv tv y /\ typed W n tv y /\ common n tv y /\ w_entry (wty W tv) = false).
  Proof.
    intros He T C. destruct (HM te) as (_ & M & _). rewrite He in M. destruct M as (kj & kf & kl & ks & vj & vf & vl & vs & dk & dv & Hj & Hg & Hm & _).
    destruct (HJ te) as (_ & _ & FJ & _ & HE). destruct (HE He) as (kj' & kf' & kl' & vj' & vf' & vl' & Hj' & Kk & Rv & Ok_ & Ov). rewrite Hj in Hj'. injection Hj' as <- <- <- <- <- <-.
    cbn [JsonAgreeSpec.common] in C. rewrite He in C. destruct C as (Cs & Ch).
    assert (Wf : w_fields (wty W te) = [(kf, kl); (vf, vl)]) by (rewrite <- (jfields_fields W J HJ), Hj; reflexivity). rewrite Wf in Ch. inversion Ch as [|? ? Hk Ch']; subst. inversion Ch' as [|? ? Hv _]; subst.
    assert (Ik : In (kj, (kf, kl)) (jfields te)) by (rewrite Hj; left; reflexivity). assert (Iv : In (vj, (vf, vl)) (jfields te)) by (rewrite Hj; right; left; reflexivity).
    pose proof (Cs _ _ _ Ik Hk) as Ck. pose proof (Cs _ _ _ Iv Hv) as Cv.
    assert (Sk : slot_ok (typed W n) kf kl (slot_at m kl)) by (apply (typed_slot W n te); [exact T|rewrite Wf; left; reflexivity]).
    assert (Sv : slot_ok (typed W n) vf vl (slot_at m vl)) by (apply (typed_slot W n te); [exact T|rewrite Wf; right; left; reflexivity]).
    assert (Rk : w_rep kf = None) by (unfold key_elem in Kk; destruct (w_rep kf); [destruct (w_elem kf); discriminate|reflexivity]).
    assert (Mk : message_elem (w_elem kf) = false) by (unfold key_elem in Kk; rewrite Rk in Kk; destruct (w_elem kf); try reflexivity; discriminate Kk).
    destruct (value_scalar W n recv (common n) kj kf kl (slot_at m kl) Rk Mk Hk Sk Ck) as (k & Sg & Fk & Vk & _).
    destruct (field_single W J le fshow HJ n recd recg recv RM (wide vj (w_elem vf)) te vj vf vl (slot_at m vl) Iv Rv Hv Sv Cv eq_refl) as (x & Vx & Ax).
    exists kj, kf, kl, vj, vf, vl, k, x. split; [exact Hj|]. split.
    { rewrite view_message, Hg, Hj. cbn [view_members member_vals]. unfold has in Hk, Hv. cbn [fst snd] in Hk, Hv. rewrite Hk, Hv, Vk, Vx. reflexivity. }
    split; [unfold entry_of; rewrite Hm, Hg; reflexivity|]. split.
    { eexists. split; [reflexivity|]. rewrite <- (key_same le fshow kj kf k Kk Fk). unfold write_field. rewrite Rk, Sg. cbn [bind]. destruct (w_elem kf); try discriminate Mk; reflexivity. }
    split; [exact Ax|]. split; [exact Hk|]. split; [exact Hv|]. split; [exact Rv|]. intros tv d Ev.
    destruct (value_message W n recv (common n) vj vf vl (slot_at m vl) tv d Rv Ev Hv Sv Cv) as (y & Sy & _ & Ty & Cy & Vy). exists y. split; [exact Sy|]. split; [congruence|]. split; [exact Ty|]. split; [exact Cy|].
    rewrite Forall_forall in FJ. destruct (FJ _ Iv) as (_ & _ & Ne). apply (Ne tv d Ev Rv).
  Qed.
  Lemma value_has k tv y : known_of tv = KValue -> w_entry (wty W tv) = false -> common k tv y -> exists fl, In fl (w_fields (wty W tv)) /\ has fl y = true.
  Proof. intros K He C. destruct k; [contradiction C|]. cbn [JsonAgreeSpec.common] in C. rewrite He, K in C. apply C. Qed.
  Lemma entry_set te m : w_entry (wty W te) = true -> typed W (S n) te m -> common (S n) te m -> unset_value W J te m = Ok false.
  Proof.
    intros He T C. destruct (entry_fields te m He T C) as (kj & kf & kl & vj & vf & vl & k & x & Hj & _ & _ & _ & _ & _ & _ & Rv & Hm).
    assert (Wf : w_fields (wty W te) = [(kf, kl); (vf, vl)]) by (rewrite <- (jfields_fields W J HJ), Hj; reflexivity). unfold unset_value. rewrite Wf. cbn [nth_error]. rewrite Rv.
    destruct (w_elem vf) as [| | | | |tv d] eqn:Ev; try reflexivity. destruct (Hm tv d eq_refl) as (y & -> & _ & Ty & Cy & Hev). 
    destruct (known_of tv) eqn:K; try reflexivity. destruct (value_active recv tv y K (value_has n tv y K Hev Cy)) as (_ & i & jf & f & l & l0 & f0 & t & _ & -> & _ & _ & _ & Ix & _). cbn [nth_error]. rewrite Ix. f_equal. lia.
  Qed.
  Lemma entry_same te m : w_entry (wty W te) = true -> typed W (S n) te m -> common (S n) te m ->
    agree (write_body W J le fshow recd false te m) (gwrite_entry E G le fshow recg te (view W J G (S n) te m)).
  Proof.
    intros He T C. unfold write_body, write_entry. rewrite He, (entry_set te m He T C). cbn [bind].
    destruct (entry_fields te m He T C) as (kj & kf & kl & vj & vf & vl & k & x & -> & -> & Ee & (key & Ek & Kq) & Av & Hk & Hv & _).
    unfold gwrite_entry. rewrite Ee, <- Kq. cbn [write_entry_fields orb]. unfold has in Hk, Hv. cbn [fst snd] in Hk, Hv. rewrite Hk, Hv, Ek. destruct key as [a| | | |]; try apply agree_refl. cbn [bind].
    destruct Av as [ -> | -> ]; [|right; reflexivity]. destruct (gwrite_elem _ _ _ _ _ _ x) as [b| | | |]; try apply agree_refl. left. cbn [bind]. rewrite app_nil_r. reflexivity.
  Qed.

  Hypothesis RE : forall te m, w_entry (wty W te) = true -> typed W n te m -> common n te m -> agree (recd false te m) (gwrite_entry E G le fshow recg te (recv te m)).
  Hypothesis RN : forall ty m x, typed W n ty m -> common n ty m -> recd false ty m = Ok x -> x <> [].

  (** ** Structs and lists *)
  Lemma repeated_one ty te d jf f l m : jfields ty = [(jf, (f, l))] -> w_fields (wty W ty) = [(f, l)] -> w_elem f = EMsg te d -> is_rep f = true -> typed W (S n) ty m ->
    (forall jf f l, In (jf, (f, l)) (jfields ty) -> has (f, l) m = true -> slot_common (common n) jf f l (slot_at m l)) -> 0 <= fst (slot_at m l) ->
    exists x, value (dyn_of f) l (slot_at m l) = FMsgs x /\ member_vals recv m (MOne f l) = map (recv te) x /\ Forall (typed W n te) x /\ Forall (common n te) x.
  Proof.
    intros Hj Hw Ef R T C Hs. unfold is_rep in R. destruct (w_rep f) as [p|] eqn:Rp; [|discriminate]. cbn [member_vals].
    destruct (has_value (dyn_of f) l (slot_at m l)) eqn:Hh.
    - assert (Hin : In (jf, (f, l)) (jfields ty)) by (rewrite Hj; left; reflexivity).
      assert (So : slot_ok (typed W n) f l (slot_at m l)) by (apply (typed_slot W n ty); [exact T|rewrite Hw; left; reflexivity]).
      destruct (value_messages W n recv (common n) jf f l (slot_at m l) te d p Rp Ef Hh So (C _ _ _ Hin Hh)) as (x & V & Tx & Cx & Sv & _). exists x. auto.
    - rewrite (rep_word f l _ p Rp) in Hh. exists []. unfold is_rep. rewrite Rp. cbn [orb map]. split; [|auto]. unfold value. cbn [dyn_of y_kind]. unfold is_rep. rewrite Rp, Ef. cbn [kind_of]. replace (fst (slot_at m l) =? 0) with true by lia. reflexivity.
  Qed.
  Lemma struct_same ty m : known_of ty = KStruct -> w_entry (wty W ty) = false -> typed W (S n) ty m -> common (S n) ty m ->
    exists num te d a x, m_fields (desc_of E ty) = [Field num (EMsg te d) (CMap a)] /\ view W J G (S n) ty m = VMsg [map (recv te) x] [] /\ w_entry (wty W te) = true /\ Forall (typed W n te) x /\ Forall (common n te) x /\
      (exists kf vf tv dv, w_fields (wty W te) = [kf; vf] /\ w_elem (fst vf) = EMsg tv dv /\ known_of tv = KValue) /\
      agree (write_body W J le fshow recd false ty m) (gwrite_map E G le fshow recg te (map (recv te) x)).
  Proof.
    intros K He T C. destruct (HJ ty) as (_ & _ & _ & Kk & _). unfold known_ok in Kk. rewrite K in Kk. destruct Kk as (te & d & Sh & Hte). destruct (shapes_one W J HJ ty _ _ _ _ Sh) as (jf & f & l & Hj & Hw & Ef & R & _).
    destruct (known_facts ty He) as (_ & M). rewrite Hj in M. destruct (matches_one _ _ _ _ _ M) as (std & c & Hg & Hm & Cm).
    cbn [JsonAgreeSpec.common] in C. rewrite He, K in C. destruct C as (Cs & Cw). rewrite Hw in Cw. inversion Cw as [|? ? Hs _]; subst. cbn [snd] in Hs.
    destruct (repeated_one ty te d jf f l m Hj Hw Ef R T Cs Hs) as (x & V & Mv & Tx & Cx).
    destruct c as [ex dd| |pk|a]; cbn [card_matches] in Cm; unfold is_rep in R; destruct (w_rep f) eqn:Rp; try discriminate R.
    1: destruct ex; [contradiction|destruct Cm; discriminate]. 1: destruct Cm; discriminate. 1: destruct Cm as (_ & Cm); rewrite (Cm te d Ef) in Hte; discriminate.
    exists (w_num f), te, d, a, x. split; [rewrite Hm, Ef; reflexivity|]. split; [rewrite view_message, Hg, Hj; cbn [view_members]; rewrite Mv; reflexivity|].
    split; [exact Hte|]. split; [exact Tx|]. split; [exact Cx|]. split; [destruct (HM ty) as (_ & _ & HS); apply (HS te d f l K Hw Ef)|].
    unfold write_body. rewrite He, K, Hj, Ef, Rp, V. apply (map_same W J E G le fshow n recd recg recv RE RN); assumption.
  Qed.
  Lemma list_value_same ty m : known_of ty = KListValue -> w_entry (wty W ty) = false -> typed W (S n) ty m -> common (S n) ty m ->
    exists num te d p jf std x, m_fields (desc_of E ty) = [Field num (EMsg te d) (CRep p)] /\ g_members (gty G ty) = [GField jf std] /\ view W J G (S n) ty m = VMsg [map (recv te) x] [] /\
      agree (write_body W J le fshow recd false ty m) (gwrite_array le fshow recg jf (EMsg te d) (map (recv te) x)).
  Proof.
    intros K He T C. destruct (HJ ty) as (_ & _ & _ & Kk & _). unfold known_ok in Kk. rewrite K in Kk. destruct Kk as (te & d & Sh & Hte). destruct (shapes_one W J HJ ty _ _ _ _ Sh) as (jf & f & l & Hj & Hw & Ef & R & _).
    destruct (known_facts ty He) as (_ & M). rewrite Hj in M. destruct (matches_one _ _ _ _ _ M) as (std & c & Hg & Hm & Cm).
    cbn [JsonAgreeSpec.common] in C. rewrite He, K in C. destruct C as (Cs & Cw). rewrite Hw in Cw. inversion Cw as [|? ? Hs _]; subst. cbn [snd] in Hs.
    destruct (repeated_one ty te d jf f l m Hj Hw Ef R T Cs Hs) as (x & V & Mv & Tx & Cx).
    destruct c as [ex dd| |pk|a]; cbn [card_matches] in Cm; unfold is_rep in R; destruct (w_rep f) eqn:Rp; try discriminate R.
    1: destruct ex; [contradiction|destruct Cm; discriminate]. 1: destruct Cm; discriminate. 2: destruct Cm as (_ & te' & d' & Ef' & Cm); rewrite Ef in Ef'; injection Ef' as <- <-; rewrite Hte in Cm; discriminate.
    exists (w_num f), te, d, pk, jf, std, x. split; [rewrite Hm, Ef; reflexivity|]. split; [exact Hg|]. split; [rewrite view_message, Hg, Hj; cbn [view_members]; rewrite Mv; reflexivity|].
    unfold write_body. rewrite He, K, Hj, Ef, Rp, V. apply (list_same W J le fshow n recd recg recv RM RN); assumption.
  Qed.
  Lemma kinds_same te x : (forall m, In m x -> has_kind (recv te m) = true) -> filter has_kind (map (recv te) x) = map (recv te) x.
  Proof. intros H. induction x as [|m x IH]; [reflexivity|]. cbn [map filter]. rewrite (H m) by (left; reflexivity). f_equal. apply IH. intros; apply H; right; assumption. Qed.

  (** ** The other known types *)
  Lemma shapes_pair ty ea eb : shapes W ty = [(ea, false, None, false); (eb, false, None, false)] -> exists ja fa la jb fb lb, jfields ty = [(ja, (fa, la)); (jb, (fb, lb))] /\ w_fields (wty W ty) = [(fa, la); (fb, lb)] /\
    (w_elem fa = ea /\ w_rep fa = None /\ w_oneof fa = None /\ w_explicit fa = false) /\ (w_elem fb = eb /\ w_rep fb = None /\ w_oneof fb = None /\ w_explicit fb = false).
  Proof.
    unfold shapes, shape. intros H. pose proof (jfields_fields W J HJ ty) as K. destruct (w_fields (wty W ty)) as [|[fa la] [|[fb lb] [|? ?]]]; try discriminate H. cbn [map fst] in H. injection H as A1 A2 A3 A4 B1 B2 B3 B4.
    destruct (jfields ty) as [|[ja [fa' la']] [|[jb [fb' lb']] [|? ?]]]; try discriminate K. cbn [map snd] in K. injection K as -> -> -> ->. exists ja, fa, la, jb, fb, lb.
    unfold is_rep in A2, B2. destruct (w_rep fa); [discriminate|]. destruct (w_rep fb); [discriminate|]. auto 10.
  Qed.
  Lemma value_var f l s t : w_elem f = EVar t -> w_rep f = None -> (exists z, value (dyn_of f) l s = FInt z) \/ value (dyn_of f) l s = FUndef.
  Proof. intros Ef R. unfold value. cbn [dyn_of y_kind]. unfold is_rep. rewrite R, Ef. cbn [kind_of]. destruct (y_explicit _ && _); [eauto|]. destruct (snd s); eauto. Qed.
  Lemma value_strs f l s u v : w_elem f = EBytes u v -> is_rep f = true -> (exists x, value (dyn_of f) l s = FStrs x) \/ value (dyn_of f) l s = FUndef.
  Proof. intros Ef R. unfold value. cbn [dyn_of y_kind]. rewrite R, Ef. cbn [kind_of]. destruct (fst s =? 0); [eauto|]. destruct (snd s); eauto. Qed.
  Lemma number_same ty jf f l t m : In (jf, (f, l)) (jfields ty) -> w_elem f = EVar t -> w_rep f = None -> w_oneof f = None -> w_explicit f = false -> typed W (S n) ty m -> has (f, l) m = true \/ unset (f, l) m ->
    exists z, number_of (f, l) m = Ok z /\ member_vals recv m (MOne f l) = [VInt z].
  Proof.
    intros Hin Ef R O X T H. unfold number_of. cbn [member_vals fst snd]. destruct H as [H|(H & V)]; unfold has in H; cbn [fst snd] in *; rewrite H.
    - assert (So : slot_ok (typed W n) f l (slot_at m l)) by (apply (typed_slot W n ty); [exact T|apply (jfield_in W J HJ ty jf); exact Hin]).
      specialize (So H). unfold slot_vals. destruct (value_var f l (slot_at m l) t Ef R) as [(z & V)|V]; rewrite V in *; [eauto|contradiction].
    - exists 0. rewrite V. split; [reflexivity|]. unfold is_rep. rewrite R, X. cbn [orb].
      destruct (field_in W HW ty f l (jfield_in W J HJ ty jf f l Hin)) as ((_ & _ & _ & D) & _). cbn [fst] in D. destruct (D X) as (D1 & _). unfold w_default. rewrite Ef, D1. reflexivity.
  Qed.
  Lemma time_same encode ty m ea eb : shapes W ty = [(EVar ea, false, None, false); (EVar eb, false, None, false)] -> w_entry (wty W ty) = false -> typed W (S n) ty m -> Forall (fun fl => has fl m = true \/ unset fl m) (w_fields (wty W ty)) ->
    exists a b, view W J G (S n) ty m = VMsg [[VInt a]; [VInt b]] [] /\ write_time W encode ty m = match encode a b with Some t => Ok [Str t] | None => Err BadMessage end.
  Proof.
    intros Sh He T C. destruct (shapes_pair ty _ _ Sh) as (ja & fa & la & jb & fb & lb & Hj & Hw & (A1 & A2 & A3 & A4) & (B1 & B2 & B3 & B4)).
    destruct (known_facts ty He) as (_ & M). rewrite Hj in M. destruct (matches_two _ _ _ _ _ _ _ _ A3 M) as (sa & ca & sb & cb & Hg & _).
    rewrite Hw in C. inversion C as [|? ? Ca C']; subst. inversion C' as [|? ? Cb _]; subst.
    destruct (number_same ty ja fa la ea m) as (a & Na & Va); try assumption; [rewrite Hj; left; reflexivity|].
    destruct (number_same ty jb fb lb eb m) as (b & Nb & Vb); try assumption; [rewrite Hj; right; left; reflexivity|].
    exists a, b. split; [rewrite view_message, Hg, Hj; cbn [view_members]; rewrite Va, Vb; reflexivity|]. unfold write_time. rewrite Hw, Na, Nb. reflexivity.
  Qed.
  Lemma mask_same ty m : known_of ty = KFieldMask -> w_entry (wty W ty) = false -> typed W (S n) ty m -> common (S n) ty m ->
    exists x, view W J G (S n) ty m = VMsg [map VBytes x] [] /\ write_mask W ty m = match json_unescape (mask_encode x) with Some t => Ok [Str t] | None => Err BadMessage end.
  Proof.
    intros K He T C. destruct (HJ ty) as (_ & _ & _ & Kk & _). unfold known_ok in Kk. rewrite K in Kk. destruct Kk as (v & Sh). destruct (shapes_one W J HJ ty _ _ _ _ Sh) as (jf & f & l & Hj & Hw & Ef & R & _).
    destruct (known_facts ty He) as (_ & M). rewrite Hj in M. destruct (matches_one _ _ _ _ _ M) as (std & c & Hg & _ & _).
    cbn [JsonAgreeSpec.common] in C. rewrite He, K, Hw in C. inversion C as [|? ? Hs _]; subst. cbn [snd] in Hs.
    assert (So : slot_ok (typed W n) f l (slot_at m l)) by (apply (typed_slot W n ty); [exact T|rewrite Hw; left; reflexivity]).
    unfold write_mask. rewrite view_message, Hg, Hj, Hw. cbn [view_members member_vals]. pose proof R as R'. unfold is_rep in R'. destruct (w_rep f) as [p|] eqn:Rp; [|discriminate]. clear R'.
    destruct (has_value (dyn_of f) l (slot_at m l)) eqn:Hh.
    - specialize (So Hh). unfold slot_vals. destruct (value_strs f l (slot_at m l) true v Ef R) as [(x & V)|V]; rewrite V in *; [eauto|contradiction].
    - rewrite (rep_word f l _ p Rp) in Hh. exists []. rewrite R. split; [reflexivity|]. unfold value. cbn [dyn_of y_kind]. rewrite R, Ef. cbn [kind_of]. replace (fst (slot_at m l) =? 0) with true by lia. reflexivity.
  Qed.
  Lemma masks x : map (fun p => match p with VBytes b => b | _ => [] end) (map VBytes x) = x.
  Proof. rewrite map_map. apply map_id. Qed.
  Lemma wrapper_same ty m : known_of ty = KWrapper -> w_entry (wty W ty) = false -> typed W (S n) ty m -> common (S n) ty m ->
    agree (write_body W J le fshow recd false ty m) (gwrite_body E G le fshow false false recg ty (view W J G (S n) ty m)).
  Proof.
    intros K He T C. destruct (HJ ty) as (_ & _ & _ & Kk & _). unfold known_ok in Kk. rewrite K in Kk. destruct Kk as (e & Sh & Ee). destruct (shapes_one W J HJ ty _ _ _ _ Sh) as (jf & f & l & Hj & Hw & Ef & R & _ & X).
    destruct (known_facts ty He) as (Gk & M). rewrite Hj in M. destruct (matches_one _ _ _ _ _ M) as (std & c & Hg & Hm & Cm).
    cbn [JsonAgreeSpec.common] in C. rewrite He, K in C. destruct C as (Cs & Ch). rewrite Hw in Ch. inversion Ch as [|? ? Hh _]; subst.
    assert (Rp : w_rep f = None) by (unfold is_rep in R; destruct (w_rep f); [discriminate|reflexivity]).
    assert (Hin : In (jf, (f, l)) (jfields ty)) by (rewrite Hj; left; reflexivity).
    assert (So : slot_ok (typed W n) f l (slot_at m l)) by (apply (typed_slot W n ty); [exact T|rewrite Hw; left; reflexivity]).
    destruct (field_single W J le fshow HJ n recd recg recv RM (wide jf (w_elem f)) ty jf f l (slot_at m l) Hin Rp Hh So (Cs _ _ _ Hin Hh) eq_refl) as (x & Vx & Ax).
    rewrite view_message, Hg, Hj. cbn [view_members member_vals]. unfold has in Hh. cbn [fst snd] in Hh. rewrite Hh, Vx. unfold gwrite_body. rewrite Gk, K, Hm, Hg.
    destruct c as [ex dd| |pk|a]; cbn [card_matches] in Cm; [|destruct Cm; congruence|destruct Cm as (Cm & _); rewrite Rp in Cm; contradiction|destruct Cm as (Cm & _); rewrite Rp in Cm; contradiction].
    unfold write_body. rewrite He, K, Hj. unfold write_cref. rewrite Hh. unfold gwrite_elem in Ax. destruct (w_elem f); try contradiction; exact Ax.
  Qed.

  (** google.protobuf.Value: of a struct or a list what is in it is written. *)
  Hypothesis RS : forall st m, known_of st = KStruct -> w_entry (wty W st) = false -> typed W n st m -> common n st m ->
    exists num te d a es, m_fields (desc_of E st) = [Field num (EMsg te d) (CMap a)] /\ recv st m = VMsg [es] [] /\ agree (recd false st m) (gwrite_map E G le fshow recg te es).
  Hypothesis RL : forall st m, known_of st = KListValue -> w_entry (wty W st) = false -> typed W n st m -> common n st m ->
    exists num te d p jf std vs, m_fields (desc_of E st) = [Field num (EMsg te d) (CRep p)] /\ g_members (gty G st) = [GField jf std] /\ recv st m = VMsg [vs] [] /\ agree (recd false st m) (gwrite_array le fshow recg jf (EMsg te d) vs).
  Lemma value_same ty m : known_of ty = KValue -> w_entry (wty W ty) = false -> typed W (S n) ty m -> common (S n) ty m ->
    agree (write_body W J le fshow recd false ty m) (gwrite_body E G le fshow false false recg ty (view W J G (S n) ty m)).
  Proof.
    intros K He T C. pose proof (value_has _ ty m K He C) as Hh0. destruct (value_active recv ty m K Hh0) as (_ & k & jf & f & l & l0 & f0 & t & Hn & Hw & Hl & Hh & Rp & Ix & Gv & El).
    destruct (known_facts ty He) as (Gk & M). destruct (matches_group 0%nat (jfields ty) _ _ ltac:(lia) (value_oneof ty K) M) as (Hg & Hm).
    cbn [JsonAgreeSpec.common] in C. rewrite He, K in C. destruct C as (Cs & _). assert (Hin : In (jf, (f, l)) (jfields ty)) by (eapply nth_error_In; exact Hn).
    assert (So : slot_ok (typed W n) f l (slot_at m l)) by (apply (typed_slot W n ty); [exact T|apply (jfield_in W J HJ ty jf); exact Hin]).
    pose proof (Cs _ _ _ Hin Hh) as Cf. unfold has in Hh. cbn [fst snd] in Hh.
    rewrite view_message, Hg. cbn [view_members]. rewrite map_length, firstn_all, Gv. unfold write_body, gwrite_body, write_value, gwrite_value. rewrite He, K, Gk, K, Hw, Ix, Hm, Hg.
    replace (Z.of_nat k <? 0) with false by lia. rewrite Nat2Z.id, Hn. unfold write_cref. rewrite Hh.
    pose proof (map_nth_error fst _ _ Hn) as Hn1. cbn [fst] in Hn1. pose proof (map_nth_error (fun x => (w_num (fst (snd x)), w_elem (fst (snd x)))) _ _ Hn) as Hn'. cbn [fst snd] in Hn'.
    destruct (w_elem f) as [| | | | |st d] eqn:Ef.
    6: { destruct El as (Ks & Hs). destruct (value_message W n recv (common n) jf f l (slot_at m l) st d Rp Ef Hh So Cf) as (y & _ & Vy & Ty & Cy & Sv). rewrite Sv. cbn [map]. rewrite Hn1, Hn'. unfold write_field. rewrite ?Ef, Rp, Vy.
         destruct Ks as [Ks|Ks].
         - destruct (RS st y Ks Hs Ty Cy) as (num & te & d' & a & es & -> & -> & A). exact A.
         - destruct (RL st y Ks Hs Ty Cy) as (num & te & d' & p & lj & std & vs & -> & -> & -> & A). exact A. }
    all: destruct (field_single W J le fshow HJ n recd recg recv RM false ty jf f l (slot_at m l) Hin Rp Hh So Cf ltac:(rewrite Ef; symmetry; exact El)) as (x & Vx & Ax); rewrite Vx; cbn [map]; rewrite Hn1, Hn'; rewrite Ef in *; exact Ax.
  Qed.

  (** ** The other messages *)
  Lemma pairs_map {T U} (g : T -> U) (R : U -> U -> Prop) xs : ForallOrdPairs R (map g xs) -> ForallOrdPairs (fun a b => R (g a) (g b)) xs.
  Proof.
    induction xs as [|x xs IH]; intros H; [constructor|]. cbn [map] in H. inversion H as [|? ? A B]; subst. constructor; [|apply IH; exact B]. rewrite Forall_map in A. exact A.
  Qed.
  Lemma pairs_weaken {T} (R Q : T -> T -> Prop) xs : (forall a b, In a xs -> In b xs -> R a b -> Q a b) -> ForallOrdPairs R xs -> ForallOrdPairs Q xs.
  Proof.
    intros I0 H. induction H as [|a l A B IH]; constructor.
    - rewrite Forall_forall in *. intros b Hb. apply I0; [left; reflexivity|right; exact Hb|auto].
    - apply IH. intros. apply I0; [right; assumption|right; assumption|assumption].
  Qed.
  Lemma exclusive_fields ty m : ForallOrdPairs (exclusive m) (jfields ty).
  Proof.
    destruct (wtype_layout _ (wty_ok W ty HW)) as (P & F). rewrite <- (jfields_fields W J HJ) in P. apply pairs_map in P. revert P. apply pairs_weaken.
    intros [ja [fa la]] [jb [fb lb]] Ha Hb (P & _) o Oa Ob (A & B). cbn [fst snd] in *.
    assert (So : same_oneof fa fb) by (unfold same_oneof; rewrite ?Oa, ?Ob; cbn; eauto). destruct (P So) as (Q1 & Q2).
    rewrite Forall_forall in F. destruct (F _ (jfield_in W J HJ ty ja fa la Ha)) as (_ & Ra & _). destruct (F _ (jfield_in W J HJ ty jb fb lb Hb)) as (_ & Rb & _). cbn [fst] in Ra, Rb.
    unfold has in A, B. cbn [fst snd] in A, B. rewrite single_word in A by (apply (Ra o Oa)). rewrite single_word in B by (apply (Rb o Ob)). unfold slot_at in A, B. rewrite Q1 in A. lia.
  Qed.
  Lemma plain_same ty m : known_of ty = KNone -> w_entry (wty W ty) = false -> typed W (S n) ty m -> common (S n) ty m ->
    agree (write_body W J le fshow recd false ty m) (gwrite_body E G le fshow false false recg ty (view W J G (S n) ty m)).
  Proof.
    intros K He T C. destruct (known_facts ty He) as (Gk & M). cbn [JsonAgreeSpec.common] in C. rewrite He, K in C. destruct C as (Cs & Cd).
    assert (Fa : Forall (facts W J n ty m) (jfields ty)).
    { apply Forall_forall. intros [jf [f l]] Hin. pose proof (jfield_in W J HJ ty jf f l Hin) as Hw. unfold facts. cbn [fst snd]. split; [exact Hin|]. split.
      - intros H. split; [apply (typed_slot W n ty); assumption|apply Cs; assumption].
      - intros H R X v S0. apply (Cd f l v); assumption. }
    rewrite view_message. unfold write_body, gwrite_body. rewrite He, K, Gk, K.
    destruct (members_same W J E G le fshow HW HJ n recd recg recv RM RE RN ty m _ _ _ M Fa (exclusive_fields ty m) true) as [ -> | -> ]; [|right; reflexivity]. left.
    destruct (gwrite_members E G le fshow false false recg _ _ _) as [ms| | | |]; try reflexivity. cbn [bind]. unfold gobject, out. destruct ms; reflexivity.
  Qed.
  Lemma body_same ty m : (forall te m, w_entry (wty W te) = true -> (exists kf vf tv dv, w_fields (wty W te) = [kf; vf] /\ w_elem (fst vf) = EMsg tv dv /\ known_of tv = KValue) -> typed W n te m -> common n te m -> has_kind (recv te m) = true) ->
    w_entry (wty W ty) = false -> typed W (S n) ty m -> common (S n) ty m ->
    agree (write_body W J le fshow recd false ty m) (gwrite_body E G le fshow false false recg ty (view W J G (S n) ty m)).
  Proof.
    intros RK He T C. destruct (known_facts ty He) as (Gk & _). destruct (HJ ty) as (_ & _ & _ & Kk & _). unfold known_ok in Kk. pose proof C as C0. cbn [JsonAgreeSpec.common] in C0. rewrite He in C0.
    destruct (known_of ty) eqn:K.
    all: try (first [apply plain_same; assumption | apply value_same; assumption | apply wrapper_same; assumption]).
    all: try contradiction C0.
    - destruct (time_same timestamp_encode ty m _ _ Kk He T C0) as (a & b & -> & Hw). unfold write_body, gwrite_body. rewrite He, K, Gk, Hw. apply agree_refl.
    - destruct (time_same duration_encode ty m _ _ Kk He T C0) as (a & b & -> & Hw). unfold write_body, gwrite_body. rewrite He, K, Gk, Hw. apply agree_refl.
    - destruct (mask_same ty m K He T C) as (x & -> & Hw). unfold write_body, gwrite_body. rewrite He, K, Gk, Hw, masks. apply agree_refl.
    - destruct (struct_same ty m K He T C) as (num & te & d & a & x & Hm & -> & Ht & Tx & Cx & Hv & A). unfold gwrite_body. rewrite Gk, Hm, kinds_same; [exact A|].
      intros y Hy. rewrite Forall_forall in Tx, Cx. apply RK; auto.
    - destruct (list_value_same ty m K He T C) as (num & te & d & p & jf & std & x & Hm & Hg & -> & A). unfold gwrite_body. rewrite Gk, Hm, Hg. exact A.
  Qed.
End Body.
