(** Reading back a message of each kind of type. *)
Require Import Verif.Bits Verif.Varint Verif.Timestamp Verif.Duration Verif.TimestampProofs Verif.DurationProofs Verif.FieldMask Verif.FieldMaskProofs.
Require Import Verif.DynSlots Verif.Dyn Verif.Schema Verif.Archive Verif.Decode Verif.Encode Verif.DynWire Verif.DynDecode Verif.DynView Verif.DynEncode1 Verif.DynDecode1 Verif.DynEncode3 Verif.DynDecode3 Verif.DynJson Verif.DynJsonSpec Verif.DynJson1 Verif.DynJson2.

(** ** google.protobuf.Value *)
Definition value_at (k : Z) : layout := Layout 0 k (2 ^ 32 - 1) (-2).
Lemma value_layout W J ty : known_ok W J ty -> known_of J ty = KValue ->
  exists f0 f1 f2 f3 f4 f5 jn jd js jb jt jl c v st sl d1 d2,
    w_fields (wty W ty) = [(f0, value_at 2); (f1, value_at 3); (f2, value_at 4); (f3, value_at 5); (f4, value_at 6); (f5, value_at 7)] /\
    jt_fields (jty J ty) = [jn; jd; js; jb; jt; jl] /\ w_slots (wty W ty) = 1%nat /\ w_entry (wty W ty) = false /\
    w_elem f0 = EEnum c /\ w_elem f1 = EFix true true /\ w_elem f2 = EBytes true v /\ w_elem f3 = EBool /\ w_elem f4 = EMsg st d1 /\ w_elem f5 = EMsg sl d2 /\
    (w_rep f0 = None /\ w_rep f1 = None /\ w_rep f2 = None /\ w_rep f3 = None /\ w_rep f4 = None /\ w_rep f5 = None) /\
    j_null jn = true /\ j_string js = true /\ known_of J st = KStruct /\ known_of J sl = KListValue /\ w_entry (wty W st) = false /\ w_entry (wty W sl) = false.
Proof.
  intros H K. unfold known_ok in H. rewrite K in H. destruct H as (fs & jn & jd & js & jb & jt & jl & c & v & st & sl & d1 & d2 & Hw & Hj & Hs & H).
  destruct fs as [|f0 [|f1 [|f2 [|f3 [|f4 [|f5 [|? ?]]]]]]]; try discriminate Hs. cbn [map] in Hs. unfold shape in Hs. injection Hs as E0 R0 O0 X0 E1 R1 O1 X1 E2 R2 O2 X2 E3 R3 O3 X3 E4 R4 O4 X4 E5 R5 O5 X5.
  unfold wtype_of in Hw. cbn [map] in Hw. rewrite O0, O1, O2, O3, O4, O5, R0, R1, R2, R3, R4, R5 in Hw. 
  assert (L : slot_layout 1 [DField (Some 0%nat) false; DField (Some 0%nat) false; DField (Some 0%nat) false; DField (Some 0%nat) false; DField (Some 0%nat) false; DField (Some 0%nat) false] = Some ([value_at 2; value_at 3; value_at 4; value_at 5; value_at 6; value_at 7], 1%nat)) by reflexivity.
  rewrite L in Hw. injection Hw as Hw. rewrite <- Hw. cbn [combine w_fields w_slots w_entry].
  assert (R : forall f, is_rep f = false -> w_rep f = None) by (unfold is_rep; intros f; destruct (w_rep f); [discriminate|reflexivity]).
  exists f0, f1, f2, f3, f4, f5, jn, jd, js, jb, jt, jl, c, v, st, sl, d1, d2.
  split; [reflexivity|]. split; [exact Hj|]. split; [reflexivity|]. split; [reflexivity|]. do 6 (split; [assumption|]). split; [|exact H]. repeat (split; [apply R; assumption|]). apply R. assumption.
Qed.
Lemma value_index k : 2 <= k <= 7 -> active_oneof_index (value_at 2) k = k - 2.
Proof.
  intros H. unfold active_oneof_index, value_at. cbn [l_mask l_bias]. replace (k =? 0) with false by lia. change (2 ^ 32 - 1) with (Z.ones 32). rewrite Z.land_ones by lia. rewrite Z.mod_small by lia. cbv zeta.
  replace ((k + -2 <? - 2 ^ 31) || (2 ^ 31 - 1 <? k + -2)) with false by lia. lia.
Qed.

Lemma new_zero W ty l : slot_at (new_slots W ty) l = zero_slot.
Proof. unfold slot_at, new_slots. destruct (Nat.lt_ge_cases (l_slot l) (w_slots (wty W ty))) as [H|H]; [apply nth_repeat|rewrite nth_overflow; [reflexivity|rewrite repeat_length; lia]]. Qed.

Section Body.
  Context (W : list wtype) (J : list jtype) (utf8_ok : bytes -> bool) (le : bool) (fshow : bool -> Z -> bytes) (fparse : bool -> bytes -> option Z).
  Hypothesis HW : wtypes_ok W.
  Hypothesis HJ : jtypes_ok W J.
  Notation slot_printable := (slot_printable utf8_ok fshow fparse).
  Context (strict : bool) (n : nat) (Pr : nat -> list slot -> Prop) (recw : bool -> nat -> list slot -> res (list tok)) (recr : nat -> list slot -> list tok -> res (list slot * list tok)).
  Hypothesis RT : forall ty m ts, typed W n ty m -> Pr ty m -> recw false ty m = Ok ts ->
    wrote W J ty ts /\ (forall r, exists m', recr ty (new_slots W ty) (ts ++ r) = Ok (m', r) /\ same W n ty m m') /\
    (known_of J ty = KValue -> forall r, w_fields (wty W ty) <> [] /\ recr ty (new_slots W ty) (TNull :: r) = Ok (null_value W ty, r)).
  Notation write_field := (write_field W le fshow recw).
  Notation read_field := (read_field W J utf8_ok fparse recr).
  Notation read_at := (read_at W J utf8_ok fparse recr).

  Lemma jfields_fields ty : map snd (jfields W J ty) = w_fields (wty W ty).
  Proof. unfold jfields. destruct (HJ ty) as (L & _). revert L. generalize (w_fields (wty W ty)). induction (jt_fields (jty J ty)) as [|a t IH]; intros [|b u] L; try discriminate L; [reflexivity|]. cbn [combine map snd]. f_equal. apply IH. injection L as L. exact L. Qed.
  Lemma jfields_names ty : map fst (jfields W J ty) = jt_fields (jty J ty).
  Proof. unfold jfields. destruct (HJ ty) as (L & _). revert L. generalize (w_fields (wty W ty)). induction (jt_fields (jty J ty)) as [|a t IH]; intros [|b u] L; try discriminate L; [reflexivity|]. cbn [combine map fst]. f_equal. apply IH. injection L as L. exact L. Qed.
  Lemma jfield_in ty jf f l : In (jf, (f, l)) (jfields W J ty) -> In (f, l) (w_fields (wty W ty)).
  Proof. intros H. rewrite <- jfields_fields. apply (in_map snd _ _ H). Qed.

  Lemma typed_slot ty m f l : typed W (S n) ty m -> In (f, l) (w_fields (wty W ty)) -> slot_ok (typed W n) f l (slot_at m l).
  Proof. intros (_ & F) H. rewrite Forall_forall in F. apply (F (f, l) H). Qed.

  Lemma field_read ty jf f l m s0 ts : In (jf, (f, l)) (jfields W J ty) -> typed W (S n) ty m -> has (f, l) m = true -> slot_printable Pr jf f l (slot_at m l) -> fst s0 = 0 ->
    write_field false jf f l (slot_at m l) = Ok ts ->
    (exists j, ts = render j /\ (j = JNull -> exists tv d, w_elem f = EMsg tv d /\ known_of J tv = KValue /\ w_rep f = None) /\ match w_elem f, w_rep f with EMsg tv _, None => wrote W J tv ts | _, _ => True end) /\
    forall r, exists s', read_field jf f l s0 (ts ++ r) = Ok (s', r) /\ back (same W n) f l (slot_at m l) s'.
  Proof.
    intros Hin Ht Hh Hp H0 H. destruct (field_back W J utf8_ok le fshow fparse HW HJ n Pr recw recr RT ty jf f l (slot_at m l) s0 ts Hin Hh (typed_slot _ _ _ _ Ht (jfield_in _ _ _ _ Hin)) Hp H0 H) as [Hj R].
    split; [exact Hj|]. intros r. destruct (R r) as (s' & E & B & Nl). exists s'. split; [|exact B]. destruct Hj as (j & -> & _). unfold read_field, DynJson.read_field.
    destruct j as [b|b|[]| |l'|l']; try exact E. cbn [render app] in *. rewrite (Nl eq_refl). reflexivity.
  Qed.

  (** ** Messages without a special form *)
  Lemma find_own ty jf f l : In (jf, (f, l)) (jfields W J ty) -> find_field W J ty (j_json jf) = Some (jf, (f, l)).
  Proof.
    intros H. unfold find_field. assert (K : find (fun x => eqb_bytes (j_json (fst x)) (j_json jf)) (jfields W J ty) = Some (jf, (f, l))); [|rewrite K; reflexivity].
    destruct (HJ ty) as (_ & Nd & _). rewrite <- jfields_names, map_map in Nd. revert H Nd. induction (jfields W J ty) as [|x t IH]; intros H Nd; [destruct H|]. cbn [map] in Nd. inversion Nd as [|? ? N1 N2]; subst. cbn [find].
    destruct (eqb_bytes (j_json (fst x)) (j_json jf)) eqn:E.
    - destruct H as [->|H]; [reflexivity|]. exfalso. apply N1. apply eqb_bytes_eq in E. rewrite E. apply (in_map (fun x => j_json (fst x)) _ _ H).
    - destruct H as [->|H]; [cbn [fst] in E; rewrite eqb_bytes_refl in E; discriminate|]. apply IH; assumption.
  Qed.
  (** The members written and what reading them does. *)
  Lemma members_back ty m0 : typed W (S n) ty m0 -> (forall jf f l, In (jf, (f, l)) (jfields W J ty) -> has (f, l) m0 = true -> slot_printable Pr jf f l (slot_at m0 l)) ->
    forall fs2 fs1 done m first ts, jfields W J ty = fs1 ++ fs2 -> inv W (same W n) ty m0 done m -> incl done (map snd fs1) -> (forall x, In x (map snd fs1) -> has x m0 = true -> In x done) ->
    write_members W le fshow recw false first fs2 m0 = Ok ts ->
    (exists ms, map fst ms = map (fun x => j_json (fst x)) (filter (fun x => has (snd x) m0) fs2) /\ ts = (if first then [] else match ms with [] => [] | _ => [Comma] end) ++ separated (map member ms)) /\
    forall k r, (length ts < k)%nat -> exists m', read_members W J utf8_ok fparse strict recr k first ty m (ts ++ RBrace :: r) = Ok (m', r) /\ same W (S n) ty m0 m'.
  Proof.
    intros Ht Hp. induction fs2 as [|[jf [f l]] fs2 IH]; intros fs1 done m first ts Hfs I Hd Hc H.
    - cbn [write_members] in H. apply Ok_inj in H. subst ts. split; [exists []; split; [reflexivity|destruct first; reflexivity]|]. intros [|k] r Hk; [cbn in Hk; lia|]. exists m. split; [reflexivity|].
      apply (inv_done W HW (same W n) ty m0 n done m eq_refl I). intros f l Hf Hh. apply Hc; [|exact Hh]. rewrite app_nil_r in Hfs. rewrite <- Hfs, jfields_fields. exact Hf.
    - cbn [write_members] in H. assert (Hin : In (jf, (f, l)) (jfields W J ty)) by (rewrite Hfs; apply in_or_app; right; left; reflexivity).
      assert (Hfs' : jfields W J ty = (fs1 ++ [(jf, (f, l))]) ++ fs2) by (rewrite <- app_assoc; exact Hfs).
      destruct (has_value (dyn_of f) l (slot_at m0 l)) eqn:Hh.
      + destruct (write_field false jf f l (slot_at m0 l)) as [x| | | |] eqn:Hx; try discriminate H. cbn [bind] in H. destruct (write_members W le fshow recw false false fs2 m0) as [y| | | |] eqn:Hy; try discriminate H. cbn [bind] in H. apply Ok_inj in H. subst ts.
        assert (Hap : apart_from done (f, l)).
        { intros z Hz. left. destruct (wtype_layout _ (wty_ok W ty HW)) as [FOP _]. rewrite <- jfields_fields, Hfs, map_app in FOP. destruct (fop_app _ _ _ FOP) as (_ & _ & K). apply K; [apply Hd; exact Hz|left; reflexivity]. }
        pose proof (inv_free W HW (same W n) ty m0 done m f l I (jfield_in _ _ _ _ Hin) Hh Hap) as H0.
        destruct (field_read ty jf f l m0 (slot_at m l) x Hin Ht Hh (Hp _ _ _ Hin Hh) H0 Hx) as [(j & -> & _) R].
        assert (St : forall s', back (same W n) f l (slot_at m0 l) s' ->
          (exists ms, map fst ms = map (fun x => j_json (fst x)) (filter (fun x => has (snd x) m0) fs2) /\ y = (match ms with [] => [] | _ => [Comma] end) ++ separated (map member ms)) /\
          forall k r, (length y < k)%nat -> exists m', read_members W J utf8_ok fparse strict recr k false ty (put m (l_slot l) s') (y ++ RBrace :: r) = Ok (m', r) /\ same W (S n) ty m0 m').
        { intros s' B. destruct (IH (fs1 ++ [(jf, (f, l))]) ((f, l) :: done) (put m (l_slot l) s') false y Hfs') as [K1 K2]; auto.
          - apply inv_step; auto. apply (jfield_in _ _ _ _ Hin).
          - rewrite map_app. intros z [<-|Hz]; apply in_or_app; [right; left; reflexivity|left; apply Hd; exact Hz].
          - rewrite map_app. intros z Hz Hz'. apply in_app_or in Hz. destruct Hz as [Hz|[<-|[]]]; [right; apply Hc; assumption|left; reflexivity]. }
        split.
        * destruct (R []) as (s' & _ & B). destruct (St s' B) as [(ms & Em & ->) _]. exists ((j_json jf, j) :: ms). split; [cbn [filter snd]; change (has (f, l) m0) with (has_value (dyn_of f) l (slot_at m0 l)); rewrite Hh; cbn [map fst]; rewrite Em; reflexivity|]. destruct first; cbn [app]; destruct ms as [|p ms]; cbn [map separated app]; unfold member at 1; cbn [fst snd app]; rewrite ?app_nil_r; reflexivity.
        * intros k r Hk. destruct (R (y ++ RBrace :: r)) as (s' & E & B). destruct (St s' B) as [_ K]. 
          assert (Sh : forall b, read_members W J utf8_ok fparse strict recr k first ty m ((if first then [] else [Comma]) ++ Str (j_json jf) :: Colon :: render j ++ b) =
            match k with O => NoFuel | S k' => '(m1, r1) <- read_at (jf, (f, l)) m (render j ++ b) ;; read_members W J utf8_ok fparse strict recr k' false ty m1 r1 end).
          { intros b. destruct k as [|k]; [reflexivity|]. cbn [read_members]. destruct first; cbn [app bind]; rewrite (find_own ty jf f l Hin); reflexivity. }
          replace (((if first then [] else [Comma]) ++ Str (j_json jf) :: Colon :: render j ++ y) ++ RBrace :: r) with ((if first then [] else [Comma]) ++ Str (j_json jf) :: Colon :: render j ++ (y ++ RBrace :: r)) by (rewrite <- !app_assoc; cbn [app]; rewrite <- app_assoc; reflexivity).
          rewrite Sh. destruct k as [|k]; [lia|]. cbn [DynJson.read_at]. rewrite E. cbn [bind]. apply K. rewrite app_length in Hk. cbn [length] in Hk. rewrite app_length in Hk. lia.
      + cbn [filter snd]. change (has (f, l) m0) with (has_value (dyn_of f) l (slot_at m0 l)). rewrite Hh. apply (IH (fs1 ++ [(jf, (f, l))]) done m first ts Hfs' I); auto.
        * intros z Hz. rewrite map_app. apply in_or_app. left. apply Hd. exact Hz.
        * rewrite map_app. intros z Hz Hz'. apply in_app_or in Hz. destruct Hz as [Hz|[<-|[]]]; [apply Hc; assumption|]. unfold has in Hz'. cbn [fst snd] in Hz'. congruence.
  Qed.

  (** ** Types with a special form *)
  Lemma field_first ty f l t : w_fields (wty W ty) = (f, l) :: t -> exists jf u, jfields W J ty = (jf, (f, l)) :: u.
  Proof. intros H. pose proof (jfields_fields ty) as K. rewrite H in K. destruct (jfields W J ty) as [|[jf [f' l']] u]; [discriminate K|]. cbn [map snd] in K. injection K as -> -> _. eauto. Qed.

  (** A type with one field, read by read_nth 0. *)
  Lemma one_back ty jf f l m0 ts : jfields W J ty = [(jf, (f, l))] -> typed W (S n) ty m0 -> has (f, l) m0 = true -> slot_printable Pr jf f l (slot_at m0 l) ->
    write_field false jf f l (slot_at m0 l) = Ok ts ->
    (exists j, ts = render j /\ (j = JNull -> exists tv d, w_elem f = EMsg tv d /\ known_of J tv = KValue /\ w_rep f = None)) /\
    forall r, exists m', read_nth W J utf8_ok fparse recr 0 ty (new_slots W ty) (ts ++ r) = Ok (m', r) /\ same W (S n) ty m0 m'.
  Proof.
    intros Hj Ht Hh Hp H. assert (Hin : In (jf, (f, l)) (jfields W J ty)) by (rewrite Hj; left; reflexivity).
    assert (H0 : fst (slot_at (new_slots W ty) l) = 0) by (rewrite new_zero; reflexivity).
    destruct (field_read ty jf f l m0 _ ts Hin Ht Hh Hp H0 H) as [(j & Ej & Hn & _) R]. split; [eauto|]. intros r. destruct (R r) as (s' & E & B).
    unfold read_nth. rewrite Hj. cbn [nth_error DynJson.read_at]. rewrite E. cbn [bind]. eexists. split; [reflexivity|].
    apply (inv_done W HW (same W n) ty m0 n [(f, l)] _ eq_refl).
    - apply inv_step; auto; [apply inv_new|apply (jfield_in _ _ _ _ Hin)|intros z []].
    - intros f' l' Hf _. rewrite <- jfields_fields, Hj in Hf. exact Hf.
  Qed.
  (** Such a field without value. *)
  Lemma none_back ty jf f l m0 s : jfields W J ty = [(jf, (f, l))] -> has (f, l) m0 = false -> fst s = 0 -> same W (S n) ty m0 (put (new_slots W ty) (l_slot l) s) /\ same W (S n) ty m0 (new_slots W ty).
  Proof.
    intros Hj Hh Hs. assert (Hf : In (f, l) (w_fields (wty W ty))) by (rewrite <- jfields_fields, Hj; left; reflexivity).
    assert (C : forall f' l', In (f', l') (w_fields (wty W ty)) -> has (f', l') m0 = true -> In (f', l') ([] : list (wfield * layout))) by (intros f' l' Hf'; rewrite <- jfields_fields, Hj in Hf'; destruct Hf' as [[= <- <-]|[]]; congruence).
    split; apply (inv_done W HW (same W n) ty m0 n [] _ eq_refl); try exact C; [|apply inv_new]. apply inv_zero; [apply inv_new|intros ? ? []| |exact Hs]. destruct (field_in W HW ty f l Hf) as (_ & _ & L & _). exact L.
  Qed.
  Lemma shapes_one ty e r o x : shapes W ty = [(e, r, o, x)] -> exists jf f l, jfields W J ty = [(jf, (f, l))] /\ w_fields (wty W ty) = [(f, l)] /\ w_elem f = e /\ is_rep f = r /\ w_oneof f = o /\ w_explicit f = x.
  Proof.
    unfold shapes, shape. intros H. pose proof (jfields_fields ty) as K. destruct (w_fields (wty W ty)) as [|[f l] [|? ?]]; try discriminate H. cbn [map fst] in H. injection H as <- <- <- <-.
    destruct (jfields W J ty) as [|[jf [f' l']] [|? ?]]; try discriminate K. cbn [map snd] in K. injection K as -> ->. exists jf, f, l. repeat (split; [reflexivity|]). reflexivity.
  Qed.

  (** Struct and ListValue *)
  Lemma list_back ty te d m0 ts : shapes W ty = [(EMsg te d, true, None, false)] -> typed W (S n) ty m0 ->
    (forall jf f l, In (jf, (f, l)) (jfields W J ty) -> has (f, l) m0 = true -> slot_printable Pr jf f l (slot_at m0 l)) ->
    match jfields W J ty with
    | (_, (f, l)) :: _ => match w_elem f, w_rep f, value (dyn_of f) l (slot_at m0 l) with EMsg te _, Some _, FMsgs x => write_messages W recw false te x | _, _, _ => UB end
    | [] => UB
    end = Ok ts ->
    (exists j, ts = render j /\ (if w_entry (wty W te) then exists l, j = JObj l else exists l, j = JArr l)) /\
    forall r, exists m', read_nth W J utf8_ok fparse recr 0 ty (new_slots W ty) (ts ++ r) = Ok (m', r) /\ same W (S n) ty m0 m'.
  Proof.
    intros Hs Ht Hp H. destruct (shapes_one _ _ _ _ _ Hs) as (jf & f & l & Hj & Hw & Ef & Er & _). rewrite Hj, Ef in H. unfold is_rep in Er. destruct (w_rep f) as [p|] eqn:Rf; [|discriminate Er].
    destruct (value (dyn_of f) l (slot_at m0 l)) as [| | | | |x| |] eqn:V; try discriminate H.
    assert (Hin : In (jf, (f, l)) (jfields W J ty)) by (rewrite Hj; left; reflexivity).
    destruct (has (f, l) m0) eqn:Hh.
    - assert (Hx : write_field false jf f l (slot_at m0 l) = Ok ts) by (unfold write_field, DynJson.write_field; rewrite Ef, Rf, V; exact H).
      pose proof (Hp _ _ _ Hin Hh) as Hq. split; [|apply (one_back ty jf f l m0 ts Hj Ht Hh Hq Hx)].
      pose proof (typed_slot ty m0 f l Ht (jfield_in _ _ _ _ Hin) Hh) as Ho. rewrite V, Ef in Ho. unfold slot_printable, DynJsonSpec.slot_printable in Hq. rewrite V in Hq.
      apply (messages_back W J n Pr recw recr RT te x ts (proj2 Ho) (Hq _ _ Ef) H).
    - assert (x = []) as ->.
      { unfold has in Hh. cbn [fst snd] in Hh. rewrite (rep_word f l _ p Rf) in Hh. unfold value, dyn_of, is_rep in V. cbn [y_kind] in V. rewrite Ef, Rf in V. cbn [kind_of] in V.
        destruct (fst (slot_at m0 l) =? 0) eqn:E0; [injection V as <-; reflexivity|]. destruct (snd (slot_at m0 l)); try discriminate V. injection V as <-. replace (Z.to_nat (fst (slot_at m0 l))) with 0%nat by lia. reflexivity. }
      destruct (messages_back W J n Pr recw recr RT te [] ts (Forall_nil _) (Forall_nil _) H) as [Hj' R]. split; [exact Hj'|]. intros r. destruct (R r) as (y & E & Hy). inversion Hy; subst y.
      unfold read_nth. rewrite Hj. cbn [nth_error DynJson.read_at].
      assert (Rd : read_field jf f l (slot_at (new_slots W ty) l) (ts ++ r) = Ok ((0, CMsgs []), r)).
      { unfold read_field, DynJson.read_field, read_into. rewrite Ef, Rf.
        assert (V0 : value (dyn_of f) l (slot_at (new_slots W ty) l) = FMsgs []) by (rewrite new_zero; unfold value, dyn_of, is_rep; cbn [y_kind]; rewrite Ef, Rf; reflexivity).
        rewrite V0, E. destruct Hj' as (j & -> & Hj'). destruct (w_entry (wty W te)); destruct Hj' as (l' & ->); reflexivity. }
      rewrite Rd. cbn [bind]. eexists. split; [reflexivity|]. apply (none_back ty jf f l m0 (0, CMsgs []) Hj Hh eq_refl).
  Qed.

  (** Timestamp and Duration *)
  Lemma time_back encode decode ty m0 ts : (forall s k t, encode s k = Some t -> decode t = Some (s, k)) ->
    shapes W ty = [(EVar VI64, false, None, false); (EVar VI32, false, None, false)] -> Forall (fun fl => has fl m0 = true \/ unset fl m0) (w_fields (wty W ty)) ->
    write_time W encode ty m0 = Ok ts ->
    (exists b, ts = render (JStr b)) /\ forall r, exists m', read_time W decode ty (new_slots W ty) (ts ++ r) = Ok (m', r) /\ same W (S n) ty m0 m'.
  Proof.
    intros Hc Hs Hp H. unfold shapes, shape in Hs. destruct (wtype_layout _ (wty_ok W ty HW)) as [FOP Fe]. unfold write_time, read_time in *. cbn [same].
    destruct (w_fields (wty W ty)) as [|[f0 l0] [|[f1 l1] [|? ?]]] eqn:Hw; try discriminate Hs. cbn [map fst] in Hs. injection Hs as E0 R0 O0 X0 E1 R1 O1 X1.
    inversion Hp as [|? ? P0 Hp']; subst. inversion Hp' as [|? ? P1 _]; subst. inversion Fe as [|? ? Q0 Fe']; subst. inversion Fe' as [|? ? Q1 _]; subst. inversion FOP as [|? ? C0 _]; subst. inversion C0 as [|? ? C _]; subst.
    assert (D : l_slot l0 <> l_slot l1) by (apply C; intros (o & A & B); cbn [fst] in *; congruence).
    destruct (number_of (f0, l0) m0) as [s| | | |] eqn:N0; try discriminate H. cbn [bind] in H. destruct (number_of (f1, l1) m0) as [k| | | |] eqn:N1; try discriminate H. cbn [bind] in H.
    destruct (encode s k) as [t|] eqn:En; [|discriminate H]. apply Ok_inj in H. subst ts. split; [exists t; reflexivity|]. intros r. cbn [app]. rewrite (Hc _ _ _ En). eexists. split; [reflexivity|].
    assert (Lm : length (new_slots W ty) = w_slots (wty W ty)) by apply repeat_length. split; [rewrite !put_length; exact Lm|].
    destruct Q0 as (W0 & _ & L0 & G0), Q1 as (W1 & _ & L1 & G1). cbn [fst snd] in *.
    assert (S0 : slot_at (put (put (new_slots W ty) (l_slot l0) (l_ordinal l0, CInt s)) (l_slot l1) (l_ordinal l1, CInt k)) l0 = (l_ordinal l0, CInt s)) by (unfold slot_at; rewrite put_other by congruence; apply put_same; lia).
    assert (S1 : slot_at (put (put (new_slots W ty) (l_slot l0) (l_ordinal l0, CInt s)) (l_slot l1) (l_ordinal l1, CInt k)) l1 = (l_ordinal l1, CInt k)) by (unfold slot_at; apply put_same; rewrite put_length; lia).
    assert (G : forall f l t z, w_elem f = EVar t -> is_rep f = false -> w_explicit f = false -> wfield_ok f -> (has (f, l) m0 = true \/ unset (f, l) m0) -> number_of (f, l) m0 = Ok z -> same_slot (same W n) f l (slot_at m0 l) (l_ordinal l, CInt z)).
    { clear. intros f l t z E R X O P N. assert (Rf : w_rep f = None) by (unfold is_rep in R; destruct (w_rep f); [discriminate R|reflexivity]).
      unfold number_of in N. cbn [fst snd] in N. destruct (value (dyn_of f) l (slot_at m0 l)) as [z'| | | | | | |] eqn:V; try discriminate N. apply Ok_inj in N. subst z'.
      assert (Hh' : has_value (dyn_of f) l (l_ordinal l, CInt z) = true) by (rewrite single_word by exact Rf; apply Z.eqb_refl).
      assert (V' : value (dyn_of f) l (l_ordinal l, CInt z) = FInt z) by (unfold value; rewrite Hh', andb_false_r; unfold dyn_of; cbn [y_kind snd]; rewrite E, R; reflexivity).
      destruct P as [P|[P1 P2]].
      - apply back_same; [exact P|]. split; [exact Hh'|]. rewrite E, V, V'. reflexivity.
      - unfold has in P1. cbn [fst snd] in P1, P2. rewrite V in P2. injection P2 as ->. unfold same_slot, present, single. rewrite P1, Hh', V', E, R, X. cbn [andb orb is_default w_default]. unfold w_default. rewrite E. destruct O as (_ & _ & _ & O). destruct (O X) as [-> _]. split; [reflexivity|discriminate]. }
    constructor; [|constructor; [|constructor]]; cbn [fst snd]; [rewrite S0|rewrite S1]; eapply G; eauto.
  Qed.

  (** FieldMask *)
  Lemma split_app p : comma_free p -> forall cur t, split_commas cur (p ++ t) = split_commas (cur ++ p) t.
  Proof.
    induction p as [|c p IH]; intros Hp cur t; [rewrite app_nil_r; reflexivity|]. cbn [app split_commas]. replace (c =? 44) with false by (symmetry; apply Z.eqb_neq; intros ->; apply Hp; left; reflexivity).
    rewrite IH by (intros K; apply Hp; right; exact K). rewrite <- app_assoc. reflexivity.
  Qed.
  Lemma split_join x : x <> [] -> Forall comma_free x -> split_commas [] (join x) = x.
  Proof.
    intros N F. induction F as [|p x Hp F IH]; [congruence|]. destruct x as [|q x].
    - cbn [join]. rewrite <- (app_nil_r p) at 1. rewrite split_app by exact Hp. reflexivity.
    - change (join (p :: q :: x)) with (p ++ 44 :: join (q :: x)). rewrite split_app by exact Hp. cbn [app]. remember (join (q :: x)) as jn. cbn [split_commas]. change (44 =? 44) with true. cbv iota. subst jn. rewrite IH by discriminate. reflexivity.
  Qed.
End Body.
