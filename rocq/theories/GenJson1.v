(** Written scalars, lists and maps of generated messages read back the same. *)
From Coq Require Import Sorted.
Require Import Verif.Bits Verif.Varint Verif.TextNum Verif.Base64 Verif.Base64Proofs Verif.FieldMaskProofs.
Require Import Verif.Schema Verif.Archive Verif.Decode Verif.Encode Verif.WellTyped Verif.DynView Verif.DynJson Verif.DynJsonSpec Verif.DynJson1 Verif.GenJson Verif.GenJsonSpec.

Lemma res_ok_inj {A} (x y : A) : Ok x = Ok y -> x = y.
Proof. congruence. Qed.
Lemma bind_ok {A B} (a : res A) (f : A -> res B) b : bind a f = Ok b -> exists x, a = Ok x /\ f x = Ok b.
Proof. destruct a; cbn; try discriminate. intros H. eexists. split; [reflexivity|exact H]. Qed.

Lemma commas_length xs : Forall (fun x => x <> []) xs -> (length xs <= length (commas xs))%nat.
Proof.
  induction 1 as [|x xs Hx _ IH]; [cbn; lia|]. destruct xs as [|y xs]; [cbn; destruct x; [contradiction|cbn; lia]|]. rewrite commas_cons, app_length. change (length (x :: y :: xs)) with (S (length (y :: xs))).
  change (length (Comma :: commas (y :: xs))) with (S (length (commas (y :: xs)))). lia.
Qed.

Section Back.
  Context (E : env) (G : list gtype) (utf8_ok : bytes -> bool) (le : bool).
  Context (fshow : bool -> Z -> bytes) (fparse : bool -> bytes -> option Z) (lenient : bool).
  Notation wt := (wt E utf8_ok).
  Notation gwrite_scalar := (gwrite_scalar le fshow).
  Notation gread_scalar := (gread_scalar utf8_ok fparse lenient).
  Notation gscalar_printable := (gscalar_printable utf8_ok fshow fparse).

  Lemma wt_fits e v : scalar e = true -> wt e v -> fits e v.
  Proof. intros Hs H. destruct H; try discriminate Hs; cbn; assumption. Qed.
  Lemma wt_loose ex e v : scalar e = true -> wt (loosen ex e) v -> fits e v.
  Proof. intros Hs H. apply wt_fits in H; [|destruct e as [| | |[?|]| |]; destruct ex; (reflexivity || discriminate Hs)]. destruct e as [| | |[?|]| |]; destruct ex; exact H. Qed.
  Lemma wt_delim ty d v : wt (EMsg ty d) v -> wt_msg E utf8_ok ty v.
  Proof. intros H. inversion H; subst. constructor; assumption. Qed.

  Lemma gscalar_back q q' checked jf e v ts : names_ok jf -> scalar e = true -> fits e v -> gscalar_printable checked jf e v -> gwrite_scalar q jf e v = Ok ts ->
    q = q' \/ (q = false /\ q' = true /\ lenient = true /\ wide jf e = true) ->
    (exists j, ts = render j /\ j <> JNull) /\ forall r, gread_scalar checked q' jf e (ts ++ r) = Ok (v, r).
  Proof.
    intros [Hd Hn] Hs Hf Hp H Hq.
    assert (N : forall z, v = VInt z -> match e with EVar _ | EFix _ _ => True | _ => False end -> number_value fparse jf e (number_text fshow jf e z) = Some z).
    { intros z -> He. apply (number_back utf8_ok); [exact He|exact Hf|]. destruct e as [t| |b []|c|u vw|ty d]; try contradiction; try exact I. exact Hp. }
    assert (NN : forall r z, v = VInt z -> match e with EVar _ | EFix _ _ => True | _ => False end ->
      gread_scalar checked q' jf e ((if q then Str (number_text fshow jf e z) else Num (number_text fshow jf e z)) :: r) = Ok (v, r)).
    { intros r z -> He. specialize (N z eq_refl He). destruct Hq as [<-|(-> & -> & Hl & _)].
      - destruct e as [t| |b fl|c|u vw|ty d]; try contradiction; cbn [GenJson.gread_scalar]; destruct q; cbn [negb orb]; rewrite N; reflexivity.
      - destruct e as [t| |b fl|c|u vw|ty d]; try contradiction; cbn [GenJson.gread_scalar negb orb]; rewrite Hl, N; reflexivity. }
    assert (NJ : forall z, exists j, [if q then Str (number_text fshow jf e z) else Num (number_text fshow jf e z)] = render j /\ j <> JNull).
    { intros z. destruct q; [eexists (JStr _)|eexists (JNum _)]; (split; [reflexivity|discriminate]). }
    destruct e as [t| |b fl|c|u vw|ty d]; destruct v as [z|b'| |]; try discriminate H; try contradiction; try discriminate Hs.
    - apply res_ok_inj in H. subst ts. split; [apply NJ|]. intros r. apply NN; [reflexivity|exact I].
    - apply res_ok_inj in H. subst ts. destruct Hq as [<-|(_ & _ & _ & W)]; [|discriminate W]. destruct Hf as [-> | ->]; destruct q; cbn; (split; [|reflexivity]);
        [exists (JStr false_text)|exists (JBool false)|exists (JStr true_text)|exists (JBool true)]; split; (reflexivity || discriminate).
    - apply res_ok_inj in H. subst ts. split; [apply NJ|]. intros r. apply NN; [reflexivity|exact I].
    - destruct Hp as [Hu Hp]. cbn [GenJson.gwrite_scalar] in H. rewrite Hu in H. destruct (name_number (j_values jf) z Hn Hd) as [[En Ho]|[En Ev]].
      + rewrite En in H. apply res_ok_inj in H. subst ts. destruct Hp as [Hp|Hp]; [contradiction|]. split; [eexists (JNum _); split; [reflexivity|discriminate]|]. intros r. cbn [app GenJson.gread_scalar]. rewrite Hp.
        pose proof (number_back utf8_ok fshow fparse jf (EVar VI32) z I Hf I) as K. unfold number_text in K. cbn [int_kind shown] in K. rewrite K. reflexivity.
      + assert (H' : ts = [Str (name_of (j_values jf) z)]) by (destruct (name_of (j_values jf) z); [congruence|apply res_ok_inj in H; auto]). subst ts. split; [exists (JStr (name_of (j_values jf) z)); split; [reflexivity|discriminate]|]. intros r. cbn [app GenJson.gread_scalar]. rewrite Hu, Ev. reflexivity.
    - cbn [GenJson.gwrite_scalar] in H. cbn [fits] in Hf. cbn in Hp. destruct (j_string jf) eqn:Js.
      + apply res_ok_inj in H. subst ts. split; [exists (JStr b'); split; [reflexivity|discriminate]|]. intros r. cbn [app GenJson.gread_scalar]. rewrite Js. destruct checked; [rewrite Hp by reflexivity|]; reflexivity.
      + rewrite b64_encode_spec in H by exact Hf. apply res_ok_inj in H. subst ts. split; [eexists (JStr _); split; [reflexivity|discriminate]|]. intros r. cbn [app GenJson.gread_scalar]. rewrite Js, b64_decode_text by exact Hf. reflexivity.
  Qed.
  Lemma key_scalar kj ek : key_kind kj ek = true -> scalar ek = true.
  Proof. destruct ek as [t| |b fl|c|u vw|ty d]; try reflexivity. discriminate. Qed.
  Lemma gkey_back kj ek k ts : names_ok kj -> key_kind kj ek = true -> fits ek k -> gscalar_printable true kj ek k -> gwrite_scalar true kj ek k = Ok ts ->
    exists s, ts = [Str s] /\ forall r, gread_scalar true true kj ek (Str s :: r) = Ok (k, r).
  Proof.
    intros Hn Hk Hf Hp H. destruct (gscalar_back true true true kj ek k ts Hn (key_scalar _ _ Hk) Hf Hp H (or_introl eq_refl)) as [_ R].
    assert (S : exists s, ts = [Str s]). { clear R. destruct ek as [t| |b fl|c|u vw|ty d]; destruct k as [z|b'| |]; try discriminate Hk; try contradiction; cbn [GenJson.gwrite_scalar key_kind] in *; try rewrite Hk in H; apply res_ok_inj in H; subst ts; eexists; reflexivity. }
    destruct S as (s & ->). exists s. split; [reflexivity|exact R].
  Qed.

  Section Rec.
    Context (always strict preserve : bool) (recw : nat -> val -> res (list tok)) (recr : nat -> val -> list tok -> res (val * list tok)) (P : nat -> val -> Prop) (B : nat -> val -> val).
    Notation gwrite_elem := (gwrite_elem le fshow recw).
    Notation gread_elem := (gread_elem utf8_ok fparse lenient recr).
    Notation elem_printable := (elem_printable utf8_ok fshow fparse P).
    Notation bare_elem := (bare_elem B).
    Hypothesis RT : forall ty v ts, wt_msg E utf8_ok ty v -> P ty v -> recw ty v = Ok ts ->
      (exists j, ts = render j /\ (j = JNull -> gknown G ty = KValue /\ is_null v = true)) /\ forall r, recr ty (default_msg E ty) (ts ++ r) = Ok (B ty v, r).
    Hypothesis HG : gtypes_ok E G.

    (** A value of an element that is not null is written as something else. *)
    Lemma gelem_back q q' checked jf e v ts : names_ok jf -> (scalar e = true -> fits e v) -> (scalar e = false -> wt e v) -> elem_printable checked jf e v -> gwrite_elem q jf e v = Ok ts ->
      q = q' \/ (q = false /\ q' = true /\ lenient = true /\ wide jf e = true) ->
      (exists j, ts = render j /\ (not_null G e v -> j <> JNull)) /\ forall r, gread_elem checked q' jf e (elem_default E e) (ts ++ r) = Ok (bare_elem e v, r).
    Proof.
      intros Hn Hf Hw Hp H Hq. destruct (scalar e) eqn:Se.
      - assert (H' : gwrite_scalar q jf e v = Ok ts) by (destruct e; try discriminate Se; exact H). assert (Hp' : gscalar_printable checked jf e v) by (destruct e; try discriminate Se; exact Hp).
        destruct (gscalar_back q q' checked jf e v ts Hn Se (Hf eq_refl) Hp' H' Hq) as [(j & -> & Hj) R]. split; [exists j; auto|]. intros r. specialize (R r). destruct e; try discriminate Se; exact R.
      - destruct e as [t| |b fl|c|u vw|ty d]; try discriminate Se. specialize (Hw eq_refl). apply wt_delim in Hw. destruct (RT ty v ts Hw Hp H) as [(j & -> & Hj) R]. split; [|exact R].
        exists j. split; [reflexivity|]. intros N ->. destruct (Hj eq_refl) as [K1 K2]. rewrite (N ty d eq_refl K1) in K2. discriminate.
    Qed.

    Lemma gelems_back jf e vs : forall xs, names_ok jf -> elems E utf8_ok e vs -> Forall (elem_printable true jf e) vs -> gwrite_elems le fshow recw (wide jf e) jf e vs = Ok xs ->
      Forall (fun x => exists j, x = render j) xs /\ Forall2 (fun x a => forall r, exists y, gread_elem true (wide jf e) jf e (elem_default E e) (x ++ r) = Ok (y, r) /\ y = bare_elem e a) xs vs.
    Proof.
      induction vs as [|v vs IH]; intros xs Hn Hw Hp H; cbn [gwrite_elems] in H; [apply res_ok_inj in H; subst xs; split; constructor|].
      apply bind_ok in H. destruct H as (x & Hx & H). apply bind_ok in H. destruct H as (xs' & Hxs & H). apply res_ok_inj in H. subst xs. inversion Hw as [|? ? ? Hv Hvs]; subst. inversion Hp as [|? ? Pv Pvs]; subst.
      destruct (IH xs' Hn Hvs Pvs Hxs) as [A1 A2]. destruct (gelem_back (wide jf e) (wide jf e) true jf e v x Hn (fun S => wt_fits e v S Hv) (fun _ => Hv) Pv Hx (or_introl eq_refl)) as [(j & -> & _) R].
      split; constructor; auto; [exists j; reflexivity|]. intros r. eexists. split; [apply R|reflexivity].
    Qed.
    Lemma Forall2_map_eq {X Y} (f : X -> Y) xs ys : Forall2 (fun a y => y = f a) xs ys -> ys = map f xs.
    Proof. induction 1; cbn; congruence. Qed.
    Lemma renders xs : Forall (fun x => exists j, x = render j) xs -> exists js, xs = map render js.
    Proof. induction 1 as [|x xs (j & ->) _ (js & ->)]; [exists []; reflexivity|exists (j :: js); reflexivity]. Qed.
    Lemma members_render xs : Forall (fun x => exists p, x = member p) xs -> exists ps, xs = map member ps.
    Proof. induction 1 as [|x xs (j & ->) _ (js & ->)]; [exists []; reflexivity|exists (j :: js); reflexivity]. Qed.

    Lemma garray_back jf e vs ts : names_ok jf -> elems E utf8_ok e vs -> Forall (elem_printable true jf e) vs -> gwrite_array le fshow recw jf e vs = Ok ts ->
      (exists js, ts = render (JArr js)) /\ forall r, gread_array E utf8_ok fparse lenient recr jf e (ts ++ r) = Ok (map (bare_elem e) vs, r).
    Proof.
      intros Hn Hw Hp H. unfold gwrite_array in H. apply bind_ok in H. destruct H as (xs & Hx & H). apply res_ok_inj in H. subst ts.
      destruct (gelems_back jf e vs xs Hn Hw Hp Hx) as [A1 A2]. split.
      - destruct (renders xs A1) as (js & ->). exists js. rewrite commas_separated. reflexivity.
      - intros r. destruct (read_repeated_ok false _ (fun a y => y = bare_elem e a) xs vs A1 A2 r) as (zs & R & F). unfold gread_array. cbn [opening closing] in R. rewrite R. rewrite (Forall2_map_eq _ _ _ F). reflexivity.
    Qed.

    (** ** Maps *)
    Context (te : nat) (n1 n2 : Z) (ek ev : elem) (dk dv : val) (kj : jfield) (ks : bool) (vj : jfield) (vs0 : bool).
    Hypothesis Hfs : m_fields (desc_of E te) = [Field n1 ek (CPlain true dk); Field n2 ev (CPlain true dv)].
    Hypothesis Hbs : g_members (gty G te) = [GField kj ks; GField vj vs0].
    Hypothesis Hkey : key_kind kj ek = true.
    Lemma entry_is : entry_of E G te = Some (kj, ek, (vj, ev)).
    Proof. unfold entry_of. rewrite Hfs, Hbs. reflexivity. Qed.
    Lemma entry_names : names_ok kj /\ names_ok vj.
    Proof. destruct (HG te) as (F & _). rewrite Hfs, Hbs in F. inversion F as [|? ? ? ? A F']; subst. inversion F' as [|? ? ? ? B' _]; subst. cbn in A, B'. tauto. Qed.
    Lemma loosen_true e : loosen true e = e.
    Proof. destruct e as [| | |[?|]| |]; reflexivity. Qed.
    Lemma gentry_back v x : wt (EMsg te false) v -> entry_printable E G utf8_ok fshow fparse P te v -> gwrite_entry E G le fshow recw te v = Ok x ->
      (exists p, x = member p) /\ forall r, gread_pair E G utf8_ok fparse lenient recr te (x ++ r) = Ok (bare_entry E G B te v, r).
    Proof.
      intros Hw Hp H. unfold entry_printable in Hp. unfold gwrite_entry in H. unfold gread_pair, bare_entry. rewrite entry_is in *.
      inversion Hw as [| | | | |ty' d' fs u Hc _ _]; subst. rewrite Hfs in Hc. inversion Hc as [|f1 fd1 c1 fs1 C1 Hc1]; subst. inversion Hc1 as [|f2 fd2 c2 fs2 C2 Hc2]; subst. inversion Hc2; subst.
      inversion C1 as [? ? ? ? k Wk| | | | | |]; subst. inversion C2 as [? ? ? ? y Wy| | | | | |]; subst. rewrite loosen_true in Wk, Wy. destruct Hp as [Pk Py].
      apply bind_ok in H. destruct H as (a & Ha & H). apply bind_ok in H. destruct H as (b & Hb & H). apply res_ok_inj in H. subst x. destruct entry_names as [Nk Nv].
      destruct (gkey_back kj ek k a Nk Hkey (wt_fits _ _ (key_scalar _ _ Hkey) Wk) Pk Ha) as (s & -> & Rk).
      destruct (gelem_back (wide vj ev) (wide vj ev) true vj ev y b Nv (fun S => wt_fits ev y S Wy) (fun _ => Wy) Py Hb (or_introl eq_refl)) as [(j & -> & _) Ry].
      split; [exists (s, j); reflexivity|]. intros r. cbn [app]. rewrite Rk. cbn [bind]. rewrite Ry. reflexivity.
    Qed.
    Lemma gentries_back vs : forall xs, elems E utf8_ok (EMsg te false) vs -> Forall (entry_printable E G utf8_ok fshow fparse P te) vs -> gwrite_entries E G le fshow recw te vs = Ok xs ->
      Forall (fun x => exists p, x = member p) xs /\ Forall2 (fun x a => forall r, exists y, gread_pair E G utf8_ok fparse lenient recr te (x ++ r) = Ok (y, r) /\ y = bare_entry E G B te a) xs vs.
    Proof.
      induction vs as [|v vs IH]; intros xs Hw Hp H; cbn [gwrite_entries] in H; [apply res_ok_inj in H; subst xs; split; constructor|].
      apply bind_ok in H. destruct H as (x & Hx & H). apply bind_ok in H. destruct H as (xs' & Hxs & H). apply res_ok_inj in H. subst xs. inversion Hw as [|? ? ? Hv Hvs]; subst. inversion Hp as [|? ? Pv Pvs]; subst.
      destruct (IH xs' Hvs Pvs Hxs) as [A1 A2]. destruct (gentry_back v x Hv Pv Hx) as [Hj R].
      split; constructor; auto. intros r. eexists. split; [apply R|reflexivity].
    Qed.
    (** ** Loops over the members of an object *)
    Definition rest (first : bool) (xs : list (list tok)) : list tok := if first then commas xs else flat_map (cons Comma) xs.
    Lemma rest_cons first x xs : rest first (x :: xs) = (if first then [] else [Comma]) ++ x ++ rest false xs.
    Proof.
      assert (C : forall l y, commas (y :: l) = y ++ flat_map (cons Comma) l). { induction l as [|z l IHl]; intros y; [cbn; rewrite app_nil_r; reflexivity|]. rewrite commas_cons, IHl. reflexivity. }
      destruct first; cbn [rest app]; [apply C|reflexivity].
    Qed.
    Lemma bare_entry_key v : entry_key (bare_entry E G B te v) = entry_key v.
    Proof. unfold bare_entry. rewrite entry_is. destruct v as [| |[|[|k [|? ?]] [|[|x [|? ?]] [|? ?]]] u|]; reflexivity. Qed.
    Lemma map_put_last e l : Forall (fun h => key_ltb (entry_key h) (entry_key e) = true) l -> map_put e l = l ++ [e].
    Proof. induction 1 as [|h t Hh _ IH]; [reflexivity|]. cbn [map_put app]. rewrite Hh, IH. reflexivity. Qed.
    Lemma gread_entries_back xs vs : Forall (fun x => exists p, x = member p) xs ->
      Forall2 (fun x a => forall r, exists y, gread_pair E G utf8_ok fparse lenient recr te (x ++ r) = Ok (y, r) /\ y = bare_entry E G B te a) xs vs ->
      forall k first cur r, (length xs < k)%nat -> StronglySorted key_lt (map entry_key (cur ++ map (bare_entry E G B te) vs)) ->
      gread_entries E G utf8_ok fparse lenient recr k first te cur (rest first xs ++ RBrace :: r) = Ok (cur ++ map (bare_entry E G B te) vs, r).
    Proof.
      intros Hm. induction 1 as [|x v xs vs H F IH]; intros k first cur r Hk Hs; destruct k as [|k]; cbn [length] in Hk; try lia; cbn [gread_entries].
      - cbn [map]. rewrite app_nil_r. destruct first; reflexivity.
      - inversion Hm as [|? ? (p & ->) Hm']; subst. rewrite rest_cons, <- !app_assoc. destruct (H (rest false xs ++ RBrace :: r)) as (y & Ry & ->). cbn [map] in Hs |- *.
        assert (S1 : Forall (fun h => key_ltb (entry_key h) (entry_key (bare_entry E G B te v)) = true) cur).
        { clear -Hs. induction cur as [|h cur IHc]; [constructor|]. cbn [app map] in Hs. inversion Hs as [|? ? Hs' Ha]; subst. constructor; [|apply IHc; exact Hs']. rewrite Forall_forall in Ha. apply Ha. rewrite map_app, in_app_iff. right. left. reflexivity. }
        unfold member in Ry |- *. cbn [app] in Ry |- *. destruct first; cbn [app bind]; rewrite Ry; cbn [bind]; rewrite (map_put_last _ _ S1), IH; try (rewrite <- app_assoc; reflexivity); auto; try lia; rewrite <- app_assoc; exact Hs.
    Qed.
    Lemma gmap_back assoc vs ts : elems E utf8_ok (EMsg te false) vs -> (assoc = true -> StronglySorted key_lt (map entry_key vs)) -> Forall (entry_printable E G utf8_ok fshow fparse P te) vs -> gwrite_map E G le fshow recw te vs = Ok ts ->
      (exists ps, ts = render (JObj ps)) /\ forall r, gread_map E G utf8_ok fparse lenient recr assoc te [] (ts ++ r) = Ok (map (bare_entry E G B te) vs, r).
    Proof.
      intros Hw Hs Hp H. unfold gwrite_map in H. apply bind_ok in H. destruct H as (xs & Hx & H). apply res_ok_inj in H. subst ts.
      destruct (gentries_back vs xs Hw Hp Hx) as [A1 A2]. split.
      - destruct (members_render xs A1) as (ps & ->). exists ps. rewrite commas_separated. reflexivity.
      - intros r. unfold gread_map. destruct assoc.
        + cbn [app]. rewrite <- app_assoc. cbn [app]. apply (gread_entries_back xs vs A1 A2 _ true []).
          * rewrite app_length. cbn [length]. pose proof (commas_length xs) as L. specialize (L ltac:(eapply Forall_impl; [|exact A1]; intros ? (? & ->); discriminate)). lia.
          * cbn [app]. rewrite map_map. rewrite (map_ext _ entry_key) by (intros; apply bare_entry_key). apply Hs. reflexivity.
        + destruct (read_repeated_ok true _ (fun a y => y = bare_entry E G B te a) xs vs A1 A2 r) as (zs & R & F). cbn [opening closing] in R. rewrite R. cbn [bind]. rewrite (Forall2_map_eq _ _ _ F). reflexivity.
    Qed.
  End Rec.
End Back.
