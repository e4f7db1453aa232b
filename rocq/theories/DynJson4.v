(** Writing a dynamic message and reading it back. *)
Require Import Verif.Bits Verif.Varint Verif.Timestamp Verif.Duration Verif.TimestampProofs Verif.DurationProofs Verif.FieldMask Verif.FieldMaskProofs.
Require Import Verif.DynSlots Verif.Dyn Verif.Schema Verif.Archive Verif.Decode Verif.Encode Verif.DynWire Verif.DynDecode Verif.DynView Verif.DynEncode1 Verif.DynDecode1 Verif.DynEncode3 Verif.DynDecode3 Verif.DynJson Verif.DynJsonSpec Verif.DynJson1 Verif.DynJson2 Verif.DynJson3.

Lemma printable_value W J utf8_ok fshow fparse n ty m : known_of J ty = KValue -> w_entry (wty W ty) = false -> printable W J utf8_ok fshow fparse n ty m ->
  exists i jf f l, nth_error (jfields W J ty) i = Some (jf, (f, l)) /\ has (f, l) m = true.
Proof. intros K E. destruct n as [|n]; [intros []|]. cbn [printable]. unfold printable_body. rewrite K, E. intros (i & jf & f & l & A & B & _). eauto 6. Qed.

Section Body.
  Context (W : list wtype) (J : list jtype) (utf8_ok : bytes -> bool) (le : bool) (fshow : bool -> Z -> bytes) (fparse : bool -> bytes -> option Z).
  Hypothesis HW : wtypes_ok W.
  Hypothesis HJ : jtypes_ok W J.
  Notation slot_printable := (slot_printable utf8_ok fshow fparse).
  Context (strict : bool) (n : nat) (Pr : nat -> list slot -> Prop) (recw : bool -> nat -> list slot -> res (list tok)) (recr : nat -> list slot -> list tok -> res (list slot * list tok)).
  Hypothesis RT : forall ty m ts, typed W n ty m -> Pr ty m -> recw false ty m = Ok ts ->
    wrote W J ty ts /\ (forall r, exists m', recr ty (new_slots W ty) (ts ++ r) = Ok (m', r) /\ same W n ty m m') /\
    (known_of J ty = KValue -> forall r, w_fields (wty W ty) <> [] /\ recr ty (new_slots W ty) (TNull :: r) = Ok (null_value W ty, r)).
  Hypothesis PV : forall ty m, known_of J ty = KValue -> w_entry (wty W ty) = false -> Pr ty m ->
    exists i jf f l, nth_error (jfields W J ty) i = Some (jf, (f, l)) /\ has (f, l) m = true.
  Notation write_field := (write_field W le fshow recw).
  Notation read_field := (read_field W J utf8_ok fparse recr).
  Notation read_at := (read_at W J utf8_ok fparse recr).


  Lemma mask_back ty v m0 ts : shapes W ty = [(EBytes true v, true, None, false)] -> typed W (S n) ty m0 ->
    (forall f l x, In (f, l) (w_fields (wty W ty)) -> value (dyn_of f) l (slot_at m0 l) = FStrs x -> Forall comma_free x /\ x <> [[]]) ->
    write_mask W ty m0 = Ok ts ->
    (exists b, ts = render (JStr b)) /\ forall r, exists m', read_mask W ty (new_slots W ty) (ts ++ r) = Ok (m', r) /\ same W (S n) ty m0 m'.
  Proof.
    intros Hs Ht Hp H. destruct (shapes_one W J HJ _ _ _ _ _ Hs) as (jf & f & l & Hj & Hw & Ef & Er & _). assert (Hf : In (f, l) (w_fields (wty W ty))) by (rewrite Hw; left; reflexivity).
    unfold write_mask, read_mask in *. rewrite Hw in *. destruct (value (dyn_of f) l (slot_at m0 l)) as [| | | |x| | |] eqn:V; try discriminate H. destruct (Hp f l x (or_introl eq_refl) V) as [Hc Hx].
    assert (Rf : exists p, w_rep f = Some p) by (unfold is_rep in Er; destruct (w_rep f); [eauto|discriminate Er]). destruct Rf as (p & Rf).
    destruct (has (f, l) m0) eqn:Hh.
    - assert (Ho : slot_ok (typed W n) f l (slot_at m0 l)) by (apply (typed_slot W n ty m0 f l Ht); rewrite Hw; left; reflexivity). specialize (Ho Hh). rewrite V, Ef in Ho. destruct Ho as [Hl Ho]. cbn [fits] in Ho.
      unfold has in Hh. cbn [fst snd] in Hh. pose proof Hh as Hh'. rewrite (rep_word f l _ p Rf) in Hh'. rewrite mask_encode_unescape in H by exact Ho. apply Ok_inj in H. subst ts. split; [exists (join x); reflexivity|]. intros r. cbn [app].
      assert (Ne : x <> []) by (intros ->; cbn in Hl; lia).
      assert (Nj : join x <> []).
      { destruct x as [|q [|q' x]]; [congruence| |]; cbn [join]; [intros E; apply Hx; rewrite E; reflexivity|]. destruct q; discriminate. }
      destruct (join x) as [|c t] eqn:Jx; [congruence|]. rewrite <- Jx. rewrite split_join by assumption. cbv zeta. eexists. split; [reflexivity|].
      apply (inv_done W HW (same W n) ty m0 n [(f, l)] _ eq_refl); [|intros f' l' Hf' _; rewrite Hw in Hf'; exact Hf'].
      apply inv_step; auto; [apply inv_new|rewrite Hw; left; reflexivity|intros z []|]. split; [rewrite (rep_word f l _ p Rf); cbn [fst]; unfold zlen; lia|].
      rewrite Ef, V. unfold value, dyn_of. rewrite Ef, Er. cbn [y_kind kind_of fst snd]. replace (zlen x =? 0) with false by (unfold zlen; lia). unfold zlen. rewrite Nat2Z.id, firstn_all. reflexivity.
    - assert (x = []) as ->.
      { unfold has in Hh. cbn [fst snd] in Hh. rewrite (rep_word f l _ p Rf) in Hh. unfold value, dyn_of in V. cbn [y_kind] in V. rewrite Ef, Er in V. cbn [kind_of] in V.
        destruct (fst (slot_at m0 l) =? 0) eqn:E0; [injection V as <-; reflexivity|]. destruct (snd (slot_at m0 l)); try discriminate V. injection V as <-. replace (Z.to_nat (fst (slot_at m0 l))) with 0%nat by lia. reflexivity. }
      cbn in H. apply Ok_inj in H. subst ts. split; [exists []; reflexivity|]. intros r. cbn [app]. eexists. split; [reflexivity|]. apply (none_back W J HW HJ n ty jf f l m0 zero_slot Hj Hh eq_refl).
  Qed.

  (** ** Value *)
  Lemma in_nth ty i jf f l : nth_error (jfields W J ty) i = Some (jf, (f, l)) -> In (jf, (f, l)) (jfields W J ty).
  Proof. apply nth_error_In. Qed.
  Lemma value_active ty m0 i jf f l : known_of J ty = KValue -> nth_error (jfields W J ty) i = Some (jf, (f, l)) -> has (f, l) m0 = true ->
    exists f0, hd_error (w_fields (wty W ty)) = Some (f0, value_at 2) /\ active_oneof_index (value_at 2) (fst (slot_at m0 (value_at 2))) = Z.of_nat i.
  Proof using HJ. clear RT PV recw recr Pr fshow fparse.
    intros K Hi Hh. destruct (HJ ty) as (_ & _ & _ & Ko & _). destruct (value_layout W J ty Ko K) as (f0 & f1 & f2 & f3 & f4 & f5 & jn & jd & js & jb & jt & jl & c & v & st & sl & d1 & d2 & Hw & Hj & _ & _ & _ & _ & _ & _ & _ & _ & (R0 & R1 & R2 & R3 & R4 & R5) & _).
    exists f0. rewrite Hw. split; [reflexivity|]. unfold jfields in Hi. rewrite Hw, Hj in Hi. cbn [combine] in Hi. unfold has in Hh. cbn [fst snd] in Hh.
    destruct i as [|[|[|[|[|[|i]]]]]]; cbn [nth_error] in Hi; [| | | | | |destruct i; discriminate Hi]; injection Hi as <- <- <-; rewrite single_word in Hh by assumption; apply Z.eqb_eq in Hh; unfold slot_at, value_at in *; cbn [l_slot l_ordinal] in *; rewrite Hh; apply value_index; lia.
  Qed.

  Lemma value_back ty m0 ts : known_of J ty = KValue -> typed W (S n) ty m0 ->
    (exists i jf f l, nth_error (jfields W J ty) i = Some (jf, (f, l)) /\ has (f, l) m0 = true /\
       (i = O -> value (dyn_of f) l (slot_at m0 l) = FInt 0) /\ (i <> O -> slot_printable Pr jf f l (slot_at m0 l))) ->
    write_value W J le fshow recw false ty m0 = Ok ts ->
    (exists j, ts = render j) /\ forall r, exists m', read_value W J utf8_ok fparse recr ty (new_slots W ty) (ts ++ r) = Ok (m', r) /\ same W (S n) ty m0 m'.
  Proof.
    intros K Ht (i & jf & f & l & Hi & Hh & H0 & Hp) H. destruct (value_active ty m0 i jf f l K Hi Hh) as (f0' & Hhd & Ha). unfold write_value in H.
    destruct (w_fields (wty W ty)) as [|[f0'' l0''] tl] eqn:Hw'; [discriminate Hhd|]. cbn [hd_error] in Hhd. injection Hhd as -> ->. rewrite Ha in H. replace (Z.of_nat i <? 0) with false in H by lia. rewrite Nat2Z.id, Hi in H.
    unfold write_cref in H. change (has_value (dyn_of f) l (slot_at m0 l)) with (has (f, l) m0) in H. rewrite Hh in H.
    assert (Hin : In (jf, (f, l)) (jfields W J ty)) by (apply nth_error_In in Hi; exact Hi).
    assert (Hz : fst (slot_at (new_slots W ty) l) = 0) by (rewrite new_zero; reflexivity).
    assert (Fin : forall s', back (same W n) f l (slot_at m0 l) s' -> same W (S n) ty m0 (put (new_slots W ty) (l_slot l) s')).
    { intros s' B. apply (inv_done W HW (same W n) ty m0 n [(f, l)] _ eq_refl).
      - apply inv_step; auto; [apply inv_new|apply (jfield_in W J HJ _ _ _ _ Hin)|intros z []].
      - intros g k Hg Hgh. rewrite <- (jfields_fields W J HJ) in Hg. apply in_map_iff in Hg. destruct Hg as ([jg [g' k']] & [= -> ->] & Hg). apply In_nth_error in Hg. destruct Hg as (i' & Hi').
        destruct (value_active ty m0 i' jg g k K Hi' Hgh) as (_ & _ & Ha'). assert (i' = i) by lia. subst i'. rewrite Hi in Hi'. injection Hi' as <- <- <-. left. reflexivity. }
    destruct (HJ ty) as (_ & _ & _ & Ko & _). destruct (value_layout W J ty Ko K) as (f0 & f1 & f2 & f3 & f4 & f5 & jn & jd & js & jb & jt & jl & c & v & st & sl & d1 & d2 & Hw & Hj & _ & _ & E0 & E1 & E2 & E3 & E4 & E5 & (R0 & R1 & R2 & R3 & R4 & R5) & Jn & Js & Ks & Kl & Ns & Nl).
    assert (Hjf : jfields W J ty = [(jn, (f0, value_at 2)); (jd, (f1, value_at 3)); (js, (f2, value_at 4)); (jb, (f3, value_at 5)); (jt, (f4, value_at 6)); (jl, (f5, value_at 7))]) by (unfold jfields; rewrite Hw, Hj; reflexivity).
    destruct i as [|i].
    - rewrite Hjf in Hi. cbn [nth_error] in Hi. injection Hi as <- <- <-. specialize (H0 eq_refl). unfold write_field in H. rewrite E0, R0 in H. unfold single in H. rewrite H0 in H. cbn [bind write_scalar] in H. rewrite Jn in H. apply Ok_inj in H. subst ts.
      split; [exists JNull; reflexivity|]. intros r. cbn [app read_value]. rewrite Hw'. rewrite Hw in Hw'. injection Hw' as <- <-. cbn [nth_error]. eexists. split; [reflexivity|].
      apply Fin. split; [rewrite single_word by exact R0; reflexivity|]. rewrite E0, H0. unfold value. rewrite single_word by exact R0. cbn [fst]. rewrite Z.eqb_refl. cbn [negb]. rewrite andb_false_r. unfold dyn_of, is_rep. cbn [y_kind snd]. rewrite E0, R0. reflexivity.
    - specialize (Hp (Nat.neq_succ_0 i)). destruct (field_read W J utf8_ok le fshow fparse HW HJ n Pr recw recr RT ty jf f l m0 _ ts Hin Ht Hh Hp Hz H) as [(j & -> & Hjn & Wr) R].
      split; [eauto|]. intros r. destruct (R r) as (s' & E & B). exists (put (new_slots W ty) (l_slot l) s'). split; [|apply Fin; exact B].
      assert (Rn : read_nth W J utf8_ok fparse recr (S i) ty (new_slots W ty) (render j ++ r) = Ok (put (new_slots W ty) (l_slot l) s', r)).
      { unfold read_nth. rewrite Hi. cbn [DynJson.read_at]. rewrite E. reflexivity. }
      clear Fin E B R.
      assert (Pick : match S i with
                     | 1%nat => exists b, j = JNum b | 2%nat => exists b, j = JStr b | 3%nat => exists b, j = JBool b
                     | 4%nat => exists x, j = JObj x | 5%nat => exists x, j = JArr x | _ => False end).
      { rewrite Hjf in Hi. assert (Ren : forall j j', render j = render j' -> match j' with JStr _ | JNum _ | JBool _ => j = j' | _ => True end).
        { clear. intros [b|b|[]| |x|x] [b'|b'|[]| |x'|x']; cbn [render]; intros K; try discriminate K; try exact I; congruence. }
        destruct i as [|[|[|[|[|i]]]]]; cbn [nth_error] in Hi; [| | | | |destruct i; discriminate Hi]; injection Hi as <- <- <-.
        - unfold write_field in H. rewrite E1, R1 in H. destruct (single f1 (value_at 3) _) as [[z| | |]| | | |]; try discriminate H. cbn [bind write_scalar] in H. apply Ok_inj in H. change (false || wide jd (EFix true true)) with false in H. cbv iota in H. eexists. apply (Ren j (JNum _)). symmetry. exact H.
        - unfold write_field in H. rewrite E2, R2 in H. destruct (single f2 (value_at 4) _) as [[|b| |]| | | |]; try discriminate H. cbn [bind write_scalar] in H. rewrite Js in H. apply Ok_inj in H. eexists. apply (Ren j (JStr _)). symmetry. exact H.
        - unfold write_field in H. rewrite E3, R3 in H. destruct (single f3 (value_at 5) _) as [[z| | |]| | | |]; try discriminate H. cbn [bind write_scalar] in H. apply Ok_inj in H. exists (negb (z =? 0)). apply (Ren j (JBool _)). rewrite <- H. destruct (z =? 0); reflexivity.
        - rewrite E4, R4 in Wr. unfold wrote in Wr. rewrite Ns in Wr. destruct Wr as (j' & Ej & _ & Hs & _). destruct (Hs Ks) as (x & ->). cbn [render] in Ej. destruct j as [| |[]| | |x']; try discriminate Ej. eauto.
        - rewrite E5, R5 in Wr. unfold wrote in Wr. rewrite Nl in Wr. destruct Wr as (j' & Ej & _ & _ & Hs). destruct (Hs Kl) as (x & ->). cbn [render] in Ej. destruct j as [| |[]| |x'|]; try discriminate Ej. eauto. }
      destruct i as [|[|[|[|[|i]]]]]; try contradiction; destruct Pick as (x & ->); try (destruct x); exact Rn.
  Qed.

  (** ** Map entries *)
  Lemma entry_back ty m0 ts : w_entry (wty W ty) = true -> typed W (S n) ty m0 ->
    (forall jf f l, In (jf, (f, l)) (jfields W J ty) -> has (f, l) m0 = true -> slot_printable Pr jf f l (slot_at m0 l)) ->
    Forall (fun fl => has fl m0 = true) (w_fields (wty W ty)) -> write_entry W J le fshow recw false ty m0 = Ok ts ->
    (exists p, ts = member p) /\ forall r, exists m', read_entry W J utf8_ok fparse recr ty (new_slots W ty) (ts ++ r) = Ok (m', r) /\ same W (S n) ty m0 m'.
  Proof.
    intros He Ht Hp Ha H. destruct (HJ ty) as (_ & _ & Fj & _ & En). destruct (En He) as (kj & kf & kl & vj & vf & vl & Hj & Kk & Rv & Ok' & Ov). pose proof (jfields_fields W J HJ ty) as Hw. rewrite Hj in Hw. cbn [map snd] in Hw.
    rewrite <- Hw in Ha. inversion Ha as [|? ? Hk Ha']; subst. inversion Ha' as [|? ? Hv _]; subst. clear Ha Ha'.
    assert (Ik : In (kj, (kf, kl)) (jfields W J ty)) by (rewrite Hj; left; reflexivity). assert (Iv : In (vj, (vf, vl)) (jfields W J ty)) by (rewrite Hj; right; left; reflexivity).
    assert (Rk : w_rep kf = None) by (unfold key_elem in Kk; destruct (w_rep kf); [destruct (w_elem kf); discriminate Kk|reflexivity]).
    assert (Nk : not_message kf) by (unfold not_message, key_elem in *; destruct (w_elem kf); try exact I; rewrite Rk in Kk; discriminate Kk).
    destruct (wtype_layout _ (wty_ok W ty HW)) as [FOP Fe]. rewrite <- Hw in FOP, Fe. inversion FOP as [|? ? C0 _]; subst. inversion C0 as [|? ? C _]; subst. assert (D : l_slot kl <> l_slot vl) by (apply C; intros (o & A & B); cbn [fst] in *; congruence).
    assert (Hkf : In (kf, kl) (w_fields (wty W ty))) by (rewrite <- Hw; left; reflexivity). assert (Hvf : In (vf, vl) (w_fields (wty W ty))) by (rewrite <- Hw; right; left; reflexivity).
    (* the check of the value *)
    unfold write_entry in H. destruct (unset_value W J ty m0) as [[]| | | |] eqn:U; try discriminate H.
    { exfalso. unfold unset_value in U. rewrite <- Hw in U. cbn [nth_error] in U. destruct (w_elem vf) as [| | | | |tv dv] eqn:Ev; try discriminate U. rewrite Rv in U. pose proof (Hp _ _ _ Iv Hv) as Hpv.
      assert (Vv : forall x, snd (slot_at m0 vl) = CMsg x -> value (dyn_of vf) vl (slot_at m0 vl) = FMsg x).
      { intros x Ex. unfold value. change (has_value (dyn_of vf) vl (slot_at m0 vl)) with (has (vf, vl) m0). rewrite Hv. unfold dyn_of, is_rep. cbn [y_kind]. rewrite Ev, Rv. cbn [kind_of]. rewrite Ex. reflexivity. }
      destruct (snd (slot_at m0 vl)) as [| | |x| | | |] eqn:Ex; try discriminate U. unfold slot_printable, DynJsonSpec.slot_printable in Hpv. rewrite (Vv x eq_refl) in Hpv. specialize (Hpv _ _ Ev).
      destruct (known_of J tv) eqn:Kt; try discriminate U. destruct (HJ tv) as (_ & _ & _ & Ko & _). destruct (value_layout W J tv Ko Kt) as (f0 & f1 & f2 & f3 & f4 & f5 & jn & jd & js & jb & jt & jl & c & v & st & sl & d1 & d2 & Hw2 & _ & _ & Ne & _).
      destruct (PV tv x Kt Ne Hpv) as (i & jf & f & l & Hi & Hh). destruct (value_active tv x i jf f l Kt Hi Hh) as (f0' & Hhd & Hact). rewrite Hw2 in U. cbn [nth_error] in U. rewrite Hact in U. apply Ok_inj in U. lia. }
    cbn [bind] in H. rewrite Hj in H. cbn [write_entry_fields] in H. unfold has in Hk, Hv. cbn [fst snd] in Hk, Hv. rewrite Hk, Hv in H. cbn [orb] in H.
    destruct (DynJson.write_field W le fshow recw true kj kf kl (slot_at m0 kl)) as [x| | | |] eqn:Ex; try discriminate H. cbn [bind] in H.
    destruct (DynJson.write_field W le fshow recw false vj vf vl (slot_at m0 vl)) as [y| | | |] eqn:Ey; try discriminate H. cbn [bind] in H. apply Ok_inj in H.
    (* the key *)
    rewrite write_plain, Rk in Ex by exact Nk. destruct (single kf kl (slot_at m0 kl)) as [v| | | |] eqn:V; try discriminate Ex. cbn [bind] in Ex.
    pose proof (typed_slot W n ty m0 kf kl Ht Hkf Hk) as Ho. pose proof (Hp _ _ _ Ik Hk) as Hpk. unfold slot_printable, DynJsonSpec.slot_printable in Hpk.
    assert (Fv : fits (w_elem kf) v) by (unfold single in V; destruct (value (dyn_of kf) kl (slot_at m0 kl)); try discriminate V; apply Ok_inj in V; subst v; exact Ho).
    assert (Pv : scalar_printable utf8_ok fshow fparse kj (w_elem kf) v) by (unfold single in V; destruct (value (dyn_of kf) kl (slot_at m0 kl)); try discriminate V; apply Ok_inj in V; subst v; exact Hpk).
    destruct (key_back utf8_ok le fshow fparse kj kf v x Kk Fv Pv Ex) as (k & Q & Rd). rewrite Q in H. cbn [app] in H. rewrite app_nil_r in H.
    set (m1 := put (new_slots W ty) (l_slot kl) (l_ordinal kl, content_of v)).
    assert (B1 : back (same W n) kf kl (slot_at m0 kl) (l_ordinal kl, content_of v)) by (apply scalar_field; assumption).
    assert (I1 : inv W (same W n) ty m0 [(kf, kl)] m1) by (apply inv_step; auto; [apply inv_new|intros z []]).
    assert (Z1 : fst (slot_at m1 vl) = 0) by (unfold m1, slot_at; rewrite put_other by exact D; fold (slot_at (new_slots W ty) vl); rewrite new_zero; reflexivity).
    destruct (field_back W J utf8_ok le fshow fparse HW HJ n Pr recw recr RT ty vj vf vl (slot_at m0 vl) (slot_at m1 vl) y Iv Hv (typed_slot W n ty m0 vf vl Ht Hvf) (Hp _ _ _ Iv Hv) Z1 Ey) as [(j & Ej & Hjn & _) R].
    subst ts. split; [exists (k, j); unfold member; cbn [fst snd]; rewrite Ej; reflexivity|]. intros r. destruct (R r) as (s' & E & B & Nl). cbn [app]. unfold read_entry. rewrite Hj, Kk, Rd. cbn [bind]. fold m1.
    assert (Rm : read_mapped W J utf8_ok fparse recr vj vf vl (slot_at m1 vl) (y ++ r) = Ok (s', r)).
    { rewrite Ej in *. unfold read_mapped. destruct j as [b|b|[]| |l'|l']; try exact E. cbn [render app] in *. destruct (Hjn eq_refl) as (tv & d & Etv & Ktv & _). rewrite (Nl eq_refl). cbn [bind]. rewrite Etv, Ktv. reflexivity. }
    rewrite Rm. cbn [bind]. eexists. split; [reflexivity|]. apply (inv_done W HW (same W n) ty m0 n [(vf, vl); (kf, kl)] _ eq_refl).
    - apply inv_step; auto. intros z [<-|[]]. left. exact C.
    - intros g k' Hg _. rewrite <- Hw in Hg. destruct Hg as [<-|[<-|[]]]; [right; left; reflexivity|left; reflexivity].
  Qed.

  (** ** Every type *)
  Lemma body_back ty m0 ts : typed W (S n) ty m0 -> printable_body W J utf8_ok fshow fparse Pr ty m0 -> write_body W J le fshow recw false ty m0 = Ok ts ->
    wrote W J ty ts /\ (forall r, exists m', read_body W J utf8_ok fparse strict recr ty (new_slots W ty) (ts ++ r) = Ok (m', r) /\ same W (S n) ty m0 m') /\
    (known_of J ty = KValue -> forall r, w_fields (wty W ty) <> [] /\ read_body W J utf8_ok fparse strict recr ty (new_slots W ty) (TNull :: r) = Ok (null_value W ty, r)).
  Proof.
    intros Ht Hp H. unfold printable_body in Hp. unfold write_body in H. unfold wrote, read_body. pose proof (HJ ty) as (_ & _ & _ & Ko & _). unfold known_ok in Ko.
    destruct (w_entry (wty W ty)) eqn:He.
    { destruct Hp as [Hp Ha]. destruct (entry_back ty m0 ts He Ht Hp Ha H) as [A B]. split; [exact A|]. split; [exact B|]. intros K. destruct (HJ ty) as (_ & _ & _ & Ko' & _). destruct (value_layout W J ty Ko' K) as (? & ? & ? & ? & ? & ? & ? & ? & ? & ? & ? & ? & ? & ? & ? & ? & ? & ? & _ & _ & _ & Ne & _). congruence. }
    destruct (known_of J ty) eqn:K; try contradiction.
    - (* generic *)
      destruct (write_members W le fshow recw false true (jfields W J ty) m0) as [x| | | |] eqn:X; try discriminate H. cbn [bind] in H. apply Ok_inj in H.
      destruct (members_back W J utf8_ok le fshow fparse HW HJ strict n Pr recw recr RT ty m0 Ht Hp (jfields W J ty) [] [] (new_slots W ty) true x eq_refl) as [(ms & _ & Ms) R]; auto; [apply inv_new|intros z []|].
      subst ts. split; [|split; [|discriminate]].
      + exists (JObj ms). cbn [app] in Ms. split; [rewrite Ms; reflexivity|]. split; [discriminate|]. split; discriminate.
      + intros r. cbn [app]. rewrite <- app_assoc. cbn [app]. apply R. rewrite app_length. cbn [length]. lia.
    - destruct (time_back W J utf8_ok fshow fparse HW strict n Pr recw recr RT _ _ ty m0 ts timestamp_roundtrip Ko Hp H) as [(b & ->) R]. split; [|split; [exact R|discriminate]]. exists (JStr b). repeat split; discriminate.
    - destruct (time_back W J utf8_ok fshow fparse HW strict n Pr recw recr RT _ _ ty m0 ts duration_roundtrip Ko Hp H) as [(b & ->) R]. split; [|split; [exact R|discriminate]]. exists (JStr b). repeat split; discriminate.
    - destruct Ko as (v & Ko). destruct (mask_back ty v m0 ts Ko Ht Hp H) as [(b & ->) R]. split; [|split; [exact R|discriminate]]. exists (JStr b). repeat split; discriminate.
    - destruct (value_back ty m0 ts K Ht Hp H) as [(j & ->) R]. split; [exists j; repeat split; discriminate|]. split; [exact R|]. intros _ r.
      destruct Ko as (fs & Ko). destruct (HJ ty) as (_ & _ & _ & Ko' & _). destruct (value_layout W J ty Ko' K) as (f0 & ? & ? & ? & ? & ? & ? & ? & ? & ? & ? & ? & ? & ? & ? & ? & ? & ? & Hw & _). rewrite Hw. split; [discriminate|]. unfold read_value, null_value. rewrite Hw. reflexivity.
    - destruct Ko as (te & d & Ks & Ne). destruct (list_back W J utf8_ok le fshow fparse HW HJ n Pr recw recr RT ty te d m0 ts Ks Ht (proj1 Hp) H) as [(j & -> & Hj) R]. split; [|split; [exact R|discriminate]]. rewrite Ne in Hj. destruct Hj as (l & ->). exists (JObj l). split; [reflexivity|]. split; [discriminate|]. split; [eauto|discriminate].
    - destruct Ko as (te & d & Ks & Ne). destruct (list_back W J utf8_ok le fshow fparse HW HJ n Pr recw recr RT ty te d m0 ts Ks Ht (proj1 Hp) H) as [(j & -> & Hj) R]. split; [|split; [exact R|discriminate]]. rewrite Ne in Hj. destruct Hj as (l & ->). exists (JArr l). split; [reflexivity|]. split; [discriminate|]. split; [discriminate|eauto].
    - destruct Ko as (e & Ks & Ke). destruct Hp as [Hp Ha]. destruct (shapes_one W J HJ _ _ _ _ _ Ks) as (jf & f & l & Hj & Hw & Ef & _). rewrite Hj in H. rewrite Hw in Ha. inversion Ha as [|? ? Hh _]; subst.
      unfold write_cref in H. change (has_value (dyn_of f) l (slot_at m0 l)) with (has (f, l) m0) in H. rewrite Hh in H. assert (Hin : In (jf, (f, l)) (jfields W J ty)) by (rewrite Hj; left; reflexivity).
      destruct (one_back W J utf8_ok le fshow fparse HW HJ n Pr recw recr RT ty jf f l m0 ts Hj Ht Hh (Hp _ _ _ Hin Hh) H) as [(j & -> & Hn) R]. split; [|split; [exact R|discriminate]]. exists j. split; [reflexivity|].
      split; [|split; discriminate]. intros E. destruct (Hn E) as (tv & d & Etv & _). rewrite Etv in Ke. contradiction.
  Qed.
End Body.

Section Main.
  Context (W : list wtype) (J : list jtype) (utf8_ok : bytes -> bool) (le : bool) (maxd : Z) (fshow : bool -> Z -> bytes) (fparse : bool -> bytes -> option Z).
  Hypothesis HW : wtypes_ok W.
  Hypothesis HJ : jtypes_ok W J.
  Lemma msg_back strict n : forall d ty m ts, typed W n ty m -> printable W J utf8_ok fshow fparse n ty m -> write_msg W J le maxd fshow n d false ty m = Ok ts ->
    wrote W J ty ts /\ (forall r, exists m', read_msg W J utf8_ok maxd fparse strict n d ty (new_slots W ty) (ts ++ r) = Ok (m', r) /\ same W n ty m m') /\
    (known_of J ty = KValue -> forall r, w_fields (wty W ty) <> [] /\ read_msg W J utf8_ok maxd fparse strict n d ty (new_slots W ty) (TNull :: r) = Ok (null_value W ty, r)).
  Proof.
    induction n as [|n IH]; intros d ty m ts Ht Hp H; [discriminate H|]. cbn [write_msg read_msg] in *. destruct (scope_ok maxd d); [|discriminate H].
    apply (body_back W J utf8_ok le fshow fparse HW HJ strict n (printable W J utf8_ok fshow fparse n) (write_msg W J le maxd fshow n (d + 1)) (read_msg W J utf8_ok maxd fparse strict n (d + 1))); auto. exact (printable_value W J utf8_ok fshow fparse n).
  Qed.
End Main.
