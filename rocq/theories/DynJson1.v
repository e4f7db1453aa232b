(** Tokens of JSON values, numbers and scalars. *)
Require Import Verif.Bits Verif.Varint Verif.TextNum Verif.Base64 Verif.Base64Proofs Verif.FieldMaskProofs Verif.CppText Verif.CppSpec Verif.CppNames Verif.CppNumbers Verif.CppProofs Verif.Defaults.
Require Import Verif.DynSlots Verif.Dyn Verif.Schema Verif.Archive Verif.Decode Verif.Encode Verif.DynWire Verif.DynDecode Verif.DynView Verif.DynJson Verif.DynJsonSpec.

(** ** Values *)
Section JsonInd.
  Variable P : json -> Prop.
  Hypothesis HStr : forall b, P (JStr b).
  Hypothesis HNum : forall b, P (JNum b).
  Hypothesis HBool : forall b, P (JBool b).
  Hypothesis HNull : P JNull.
  Hypothesis HArr : forall l, Forall P l -> P (JArr l).
  Hypothesis HObj : forall l, Forall (fun p => P (snd p)) l -> P (JObj l).
  Fixpoint json_rect' (j : json) : P j :=
    match j with
    | JStr b => HStr b
    | JNum b => HNum b
    | JBool b => HBool b
    | JNull => HNull
    | JArr l => HArr l ((fix go l := match l return Forall P l with [] => Forall_nil _ | x :: t => Forall_cons _ (json_rect' x) (go t) end) l)
    | JObj l => HObj l ((fix go l := match l return Forall (fun p => P (snd p)) l with [] => Forall_nil _ | x :: t => Forall_cons _ (json_rect' (snd x)) (go t) end) l)
    end.
End JsonInd.

Lemma commas_separated xs : commas xs = separated xs.
Proof. induction xs as [|x [|y r] IH]; [reflexivity|reflexivity|]. cbn [commas separated] in *. rewrite IH. reflexivity. Qed.
Lemma commas_cons x y r : commas (x :: y :: r) = x ++ Comma :: commas (y :: r).
Proof. reflexivity. Qed.

(** An element of an array, or of an object. *)
Definition item (brace : bool) (x : list tok) : Prop := if brace then exists p, x = member p else exists j, x = render j.
Definition opening (brace : bool) : tok := if brace then LBrace else LBrack.
Definition closing (brace : bool) : tok := if brace then RBrace else RBrack.

(** What [op] does when nothing but brackets of one kind matter. *)
Section Inert.
  Context {T : Type} (b : bool) (op : nat -> list tok -> T).
  Hypothesis Hop : forall d t r, opens b t = true -> op d (t :: r) = op (S d) r.
  Hypothesis Hcl : forall d t r, closes b t = true -> op (S d) (t :: r) = op d r.
  Hypothesis Hno : forall d t r, opens b t = false -> closes b t = false -> op d (t :: r) = op d r.
  Lemma inert_commas xs : Forall (fun x => forall d r, op d (x ++ r) = op d r) xs -> forall d r, op d (commas xs ++ r) = op d r.
  Proof.
    induction xs as [|x [|y t] IH]; intros F d r; [reflexivity| |]; inversion F; subst; cbn [commas] in *; [auto|].
    rewrite <- app_assoc. rewrite H1. cbn [app]. rewrite Hno by (destruct b; reflexivity). apply IH. assumption.
  Qed.
  Lemma inert_json j : forall d r, op d (render j ++ r) = op d r.
  Proof.
    induction j as [x|x|[]| |l IH|l IH] using json_rect'; intros d r; try (cbn [render app]; apply Hno; destruct b; reflexivity).
    - cbn [render app]. rewrite <- commas_separated, <- app_assoc. assert (F : Forall (fun x => forall d r, op d (x ++ r) = op d r) (map render l)) by (apply Forall_map; exact IH).
      assert (K : (opens b LBrack = true /\ closes b RBrack = true) \/ (opens b LBrack = false /\ closes b LBrack = false /\ opens b RBrack = false /\ closes b RBrack = false)) by (clear; destruct b; cbn; auto).
      destruct K as [[K1 K2]|(K1 & K2 & K3 & K4)].
      + rewrite Hop by exact K1. rewrite inert_commas by exact F. cbn [app]. apply Hcl. exact K2.
      + rewrite Hno by assumption. rewrite inert_commas by exact F. cbn [app]. apply Hno; assumption.
    - cbn [render app]. rewrite <- commas_separated, <- app_assoc.
      assert (F : Forall (fun x => forall d r, op d (x ++ r) = op d r) (map (fun p => Str (fst p) :: Colon :: render (snd p)) l)).
      { apply Forall_map. eapply Forall_impl; [|exact IH]. intros p Hp d' r'. cbn [app]. rewrite !Hno by (destruct b; reflexivity). apply Hp. }
      assert (K : (opens b LBrace = true /\ closes b RBrace = true) \/ (opens b LBrace = false /\ closes b LBrace = false /\ opens b RBrace = false /\ closes b RBrace = false)) by (clear; destruct b; cbn; auto).
      destruct K as [[K1 K2]|(K1 & K2 & K3 & K4)].
      + rewrite Hop by exact K1. rewrite inert_commas by exact F. cbn [app]. apply Hcl. exact K2.
      + rewrite Hno by assumption. rewrite inert_commas by exact F. cbn [app]. apply Hno; assumption.
  Qed.
End Inert.

Lemma count_inert brace c b j : forall d r, count_elems brace c (Some (b, d)) (render j ++ r) = count_elems brace c (Some (b, d)) r.
Proof.
  apply (inert_json b (fun d ts => count_elems brace c (Some (b, d)) ts)); intros d t r; cbn [count_elems].
  - intros ->. reflexivity.
  - intros E. rewrite E. destruct b, t; try discriminate E; reflexivity.
  - intros -> ->. reflexivity.
Qed.
Lemma skip_inert b j : forall d r, skip_closed b d (render j ++ r) = skip_closed b d r.
Proof.
  apply (inert_json b (fun d ts => skip_closed b d ts)); intros d t r; cbn [skip_closed].
  - intros ->. reflexivity.
  - intros E. rewrite E. destruct b, t; try discriminate E; reflexivity.
  - intros -> ->. reflexivity.
Qed.

Lemma inert_members {T} (op : list tok -> T) l : (forall j r, op (render j ++ r) = op r) -> (forall b r, op (Str b :: r) = op r) -> (forall r, op (Colon :: r) = op r) -> (forall r, op (Comma :: r) = op r) ->
  forall r, op (commas (map (fun p => Str (fst p) :: Colon :: render (snd p)) l) ++ r) = op r.
Proof.
  intros Hj Hs Hc Hm. induction l as [|p [|p' t] IH]; intros r; [reflexivity| |].
  - cbn [map commas app]. rewrite Hs, Hc. apply Hj.
  - cbn [map] in *. rewrite commas_cons. cbn [app]. rewrite Hs, Hc, <- app_assoc, Hj. cbn [app]. rewrite Hm. apply IH.
Qed.
Lemma inert_elements {T} (op : list tok -> T) l : (forall j r, op (render j ++ r) = op r) -> (forall r, op (Comma :: r) = op r) ->
  forall r, op (commas (map render l) ++ r) = op r.
Proof.
  intros Hj Hm. induction l as [|p [|p' t] IH]; intros r; [reflexivity| |].
  - cbn [map commas]. apply Hj.
  - cbn [map] in *. rewrite commas_cons, <- app_assoc, Hj. cbn [app]. rewrite Hm. apply IH.
Qed.

(** A value where values are counted. *)
Lemma count_value brace c j r : count_elems brace c None (render j ++ r) = count_elems brace c None r.
Proof.
  destruct j as [x|x|[]| |l|l]; try (cbn [render app count_elems]; destruct brace; reflexivity).
  - cbn [render app]. cbn [count_elems]. rewrite <- commas_separated, <- app_assoc. rewrite (inert_elements (fun ts => count_elems brace c (Some (false, O)) ts)); [reflexivity| |intros; reflexivity]. intros. apply count_inert.
  - cbn [render app]. cbn [count_elems]. rewrite <- commas_separated, <- app_assoc. rewrite (inert_members (fun ts => count_elems brace c (Some (true, O)) ts)); [reflexivity| | | |]; intros; try reflexivity. apply count_inert.
Qed.
Lemma count_item brace c x r : item brace x -> count_elems brace c None (x ++ r) = count_elems brace c None r.
Proof.
  destruct brace; intros [p ->]; [|apply count_value]. unfold member. cbn [app count_elems closes]. apply count_value.
Qed.
Lemma count_items brace x xs r : forall c, Forall (item brace) (x :: xs) -> count_elems brace c None (commas (x :: xs) ++ closing brace :: r) = Ok (c + length xs)%nat.
Proof.
  revert x. induction xs as [|y t IH]; intros x c F; inversion F as [|? ? Hx Ht]; subst.
  - cbn [commas length]. rewrite count_item by assumption. destruct brace; cbn; f_equal; lia.
  - rewrite commas_cons, <- app_assoc, count_item by assumption. cbn [app count_elems]. rewrite IH by assumption. cbn [length]. f_equal. lia.
Qed.
Lemma item_head brace x : item brace x -> exists t u, x = t :: u /\ closes brace t = false /\ t <> Comma.
Proof.
  destruct brace; intros [p ->]; [unfold member; eexists; eexists; split; [reflexivity|]; split; [reflexivity|discriminate]|].
  destruct p as [b|b|[]| |l|l]; cbn [render]; eexists; eexists; (split; [reflexivity|]; split; [reflexivity|discriminate]).
Qed.
Lemma number_items brace xs r : Forall (item brace) xs -> number_of_elements brace (commas xs ++ closing brace :: r) = Ok (length xs).
Proof.
  destruct xs as [|x xs]; intros F; [destruct brace; reflexivity|]. pose proof (count_items brace x xs r 1 F) as K. inversion F as [|? ? Hx Ht]; subst.
  destruct (item_head _ _ Hx) as (t & u & -> & Hc & _). destruct xs as [|y xs]; [cbn [commas app] in *|rewrite commas_cons in *; cbn [app] in *]; cbn [number_of_elements]; rewrite Hc; exact K.
Qed.

(** ** Lists *)
Lemma read_elems_two {X} (one : list tok -> res (X * list tok)) k ts : read_elems one (S (S k)) ts =
  ('(x, r) <- one ts ;; match r with Comma :: r1 => '(xs, r2) <- read_elems one (S k) r1 ;; Ok (x :: xs, r2) | _ => Err BadMessage end).
Proof. reflexivity. Qed.
Lemma read_elems_ok {X A} (one : list tok -> res (X * list tok)) (R : A -> X -> Prop) xs ys :
  Forall2 (fun x a => forall r, exists y, one (x ++ r) = Ok (y, r) /\ R a y) xs ys ->
  forall r, exists zs, read_elems one (length xs) (commas xs ++ r) = Ok (zs, r) /\ Forall2 R ys zs.
Proof.
  induction 1 as [|x a xs ys H F IH]; intros r; [exists []; split; [reflexivity|constructor]|].
  destruct xs as [|x' xs].
  - inversion F; subst. cbn [length commas read_elems]. destruct (H r) as (y & -> & Hy). exists [y]. split; [reflexivity|]. constructor; [exact Hy|constructor].
  - rewrite commas_cons, <- app_assoc. cbn [app]. destruct (H (Comma :: commas (x' :: xs) ++ r)) as (y & E & Hy). destruct (IH r) as (zs & Ez & Hz).
    exists (y :: zs). split; [|constructor; assumption]. change (length (x :: x' :: xs)) with (S (length (x' :: xs))). change (length (x' :: xs)) with (S (length xs)) in *.
    rewrite read_elems_two, E. cbn [bind]. rewrite Ez. reflexivity.
Qed.
Lemma read_repeated_ok {X A} brace (one : list tok -> res (X * list tok)) (R : A -> X -> Prop) xs ys : Forall (item brace) xs ->
  Forall2 (fun x a => forall r, exists y, one (x ++ r) = Ok (y, r) /\ R a y) xs ys ->
  forall r, exists zs, read_repeated brace one ((opening brace :: commas xs ++ [closing brace]) ++ r) = Ok (zs, r) /\ Forall2 R ys zs.
Proof.
  intros Hi F r. cbn [app]. rewrite <- app_assoc. cbn [app]. destruct (read_elems_ok one R xs ys F (closing brace :: r)) as (zs & E & Hz). exists zs. split; [|exact Hz].
  unfold read_repeated. replace (opens brace (opening brace)) with true by (destruct brace; reflexivity). rewrite number_items by exact Hi. cbn [bind]. rewrite E. cbn [bind].
  replace (closes brace (closing brace)) with true by (destruct brace; reflexivity). reflexivity.
Qed.

(** ** Numbers *)
Lemma eqb_bytes_eq a : forall b, eqb_bytes a b = true <-> a = b.
Proof.
  induction a as [|x a IH]; intros [|y b]; cbn; try (split; congruence). rewrite andb_true_iff, Z.eqb_eq, IH. split; [intros [-> ->]; reflexivity|intros [= -> ->]; auto].
Qed.
Lemma eqb_bytes_refl a : eqb_bytes a a = true.
Proof. apply eqb_bytes_eq. reflexivity. Qed.
Lemma eqb_bytes_neq a b : eqb_bytes a b = false <-> a <> b.
Proof. rewrite <- eqb_bytes_eq. destruct (eqb_bytes a b); split; congruence. Qed.

Lemma number_dec ds : Forall TextNum.is_digit ds -> number 10 (map (fun c => c - 48) ds) = dec_val ds.
Proof.
  intros _. unfold number, dec_val. generalize 0. induction ds as [|c ds IH]; intros acc; [reflexivity|]. cbn [map fold_left dec_val_from]. apply IH.
Qed.
Lemma digits_dec v : 0 <= v < 10 ^ 20 -> digits_of 10 (u64_to_chars v) (map (fun c => c - 48) (u64_to_chars v)) /\ number 10 (map (fun c => c - 48) (u64_to_chars v)) = v.
Proof.
  intros H. unfold u64_to_chars. assert (D : Forall TextNum.is_digit (dec_digits 20 v)) by (apply dec_digits_digits; lia). split.
  - split; [apply dec_digits_nonnil; lia|]. induction D as [|c l Hc _ IH]; [constructor|]. constructor; [|exact IH]. unfold TextNum.is_digit in Hc. unfold hex_value.
    replace ((48 <=? c) && (c <=? 57)) with true by lia. lia.
  - rewrite number_dec by exact D. apply dec_digits_val. exact H.
Qed.
Lemma show_nonnil z : show_int z <> [].
Proof. unfold show_int. destruct (z <? 0); [discriminate|]. apply dec_digits_nonnil. lia. Qed.
Lemma show_parse (sg : bool) w z : 1 <= w <= 64 -> (if sg then - 2 ^ (w - 1) <= z < 2 ^ (w - 1) else 0 <= z < 2 ^ w) -> parse_default sg w (show_int z) = Some z.
Proof.
  intros Hw R. assert (P : 2 ^ w <= 2 ^ 64) by (apply Z.pow_le_mono_r; lia). assert (P1 : 2 ^ (w - 1) <= 2 ^ 64) by (apply Z.pow_le_mono_r; lia).
  assert (P2 : 0 < 2 ^ (w - 1)) by (apply Z.pow_pos_nonneg; lia). change (2 ^ 64) with 18446744073709551616 in *.
  apply parse_exact; [apply show_nonnil|]. unfold show_int, in_type. destruct (Z.ltb_spec z 0).
  - destruct sg; [|lia]. destruct (digits_dec (- z)) as [D N]; [change (10 ^ 20) with 100000000000000000000; lia|]. eexists; eexists. split; [exact D|]. split; [lia|]. right. split; [reflexivity|]. split; [reflexivity|]. lia.
  - destruct (digits_dec z) as [D N]; [change (10 ^ 20) with 100000000000000000000; destruct sg; lia|]. eexists; eexists. split; [exact D|]. split; [destruct sg; lia|]. left. split; [reflexivity|]. lia.
Qed.

Lemma wrap_wrap w z : 1 <= w -> 0 <= z < 2 ^ w -> wrapU w (wrapS w z) = z.
Proof.
  intros Hw H. unfold wrapU, wrapS. rewrite (Z.mod_small z) by exact H. destruct (z <? 2 ^ (w - 1)); [apply Z.mod_small; exact H|].
  replace (z - 2 ^ w) with (z + (-1) * 2 ^ w) by lia. rewrite Z.mod_add by lia. apply Z.mod_small. exact H.
Qed.
Lemma wrapS_range w z : 1 <= w -> - 2 ^ (w - 1) <= wrapS w z < 2 ^ (w - 1).
Proof.
  intros Hw. unfold wrapS. assert (E : 2 ^ w = 2 * 2 ^ (w - 1)) by (rewrite <- Z.pow_succ_r by lia; f_equal; lia). assert (0 < 2 ^ (w - 1)) by (apply Z.pow_pos_nonneg; lia).
  pose proof (Z.mod_pos_bound z (2 ^ w)). cbv zeta. destruct (Z.ltb_spec (z mod 2 ^ w) (2 ^ (w - 1))); lia.
Qed.

Section Scalars.
  Context (utf8_ok : bytes -> bool) (le : bool) (fshow : bool -> Z -> bytes) (fparse : bool -> bytes -> option Z).
  Notation number_text := (number_text fshow).
  Notation number_value := (number_value fparse).
  Notation write_scalar := (write_scalar le fshow).
  Notation read_scalar := (read_scalar utf8_ok fparse).
  Notation scalar_printable := (scalar_printable utf8_ok fshow fparse).

  Lemma number_back jf e z : match e with EVar _ | EFix _ _ => True | _ => False end -> fits e (VInt z) -> scalar_printable jf e (VInt z) -> number_value jf e (number_text jf e z) = Some z.
  Proof.
    intros He Hf Hp. unfold number_value, number_text, DynJson.number_value, DynJson.number_text. destruct e as [t| |b fl| | |]; try contradiction.
    - destruct (int_kind (j_signed jf) (EVar t)) as [[sg w]|] eqn:E; [|destruct t; discriminate E]. destruct (show_int (shown sg w (EVar t) z)) eqn:S; [destruct (show_nonnil _ S)|]. rewrite <- S. cbn [shown]. rewrite show_parse; [reflexivity| |].
      + destruct t; injection E as <- <-; lia.
      + cbn [fits] in Hf. unfold in_vtype, fits_s, fits_u in Hf. destruct t; injection E as <- <-; exact Hf.
    - destruct fl; [exact Hp|]. cbn [int_kind]. set (w := if b then 64 else 32). assert (Hw : 1 <= w <= 64) by (subst w; destruct b; lia).
      assert (Hz : 0 <= z < 2 ^ w) by (subst w; cbn [fits] in Hf; destruct b; cbn in Hf |- *; lia).
      destruct (show_int _) eqn:S; [destruct (show_nonnil _ S)|]. rewrite <- S. cbn [shown stored]. rewrite show_parse; [|exact Hw|].
      + f_equal. destruct (j_signed jf); [apply wrap_wrap; lia|apply Z.mod_small; exact Hz].
      + destruct (j_signed jf); [apply wrapS_range; lia|exact Hz].
  Qed.

  Lemma name_number vs z : ~ In [] (map fst vs) -> NoDup (map fst vs) -> (name_of vs z = [] /\ ~ (exists n, In (n, z) vs)) \/ (name_of vs z <> [] /\ value_of vs (name_of vs z) = Some z).
  Proof.
    intros Hn Hd. destruct (find (fun p => snd p =? z) vs) as [[n z']|] eqn:E; (replace (name_of vs z) with (match find (fun p => snd p =? z) vs with Some p => fst p | None => [] end) by reflexivity); rewrite E.
    - right. destruct (find_some _ _ E) as [Hin Hz]. cbn in Hz. apply Z.eqb_eq in Hz. subst z'. cbn [fst]. split; [intros Hx; apply Hn; rewrite <- Hx; apply (in_map fst _ _ Hin)|].
      clear E Hn. unfold value_of. induction vs as [|[n' z'] vs IH]; [destruct Hin|]. cbn [find fst]. destruct (eqb_bytes n' n) eqn:En.
      + apply eqb_bytes_eq in En. subst n'. cbn [map fst] in Hd. inversion Hd as [|? ? H1 H2]; subst. destruct Hin as [[= ->]|Hin]; [reflexivity|]. destruct (H1 (in_map fst _ _ Hin)).
      + destruct Hin as [[= -> ->]|Hin]; [rewrite eqb_bytes_refl in En; discriminate|]. inversion Hd; subst. apply IH; assumption.
    - left. split; [reflexivity|]. intros (n & Hin). apply (find_none _ _ E) in Hin. cbn in Hin. rewrite Z.eqb_refl in Hin. discriminate.
  Qed.

  (** A scalar is written as one value, which is read back. *)
  Lemma scalar_back jf e v ts : NoDup (map fst (j_values jf)) -> ~ In [] (map fst (j_values jf)) -> fits e v -> scalar_printable jf e v -> write_scalar false jf e v = Ok ts ->
    (exists j, ts = render j /\ j <> JNull) /\ forall r, read_scalar false jf e (ts ++ r) = Ok (v, r).
  Proof.
    intros Hd Hn Hf Hp H. assert (N : forall z, v = VInt z -> match e with EVar _ | EFix _ _ => True | _ => False end -> number_value jf e (number_text jf e z) = Some z) by (intros z -> He; apply number_back; assumption).
    destruct e as [t| |b fl|c|u vw|ty d]; destruct v as [z|b'| |]; try discriminate H; try contradiction.
    - cbn [write_scalar DynJson.write_scalar] in H. specialize (N z eq_refl I). unfold read_scalar, DynJson.read_scalar. rewrite orb_false_l in *. destruct (wide jf (EVar t)); injection H as <-; (split; [(eexists (JStr _); split; [reflexivity|discriminate]) || (eexists (JNum _); split; [reflexivity|discriminate])|]); intros r; cbn [app]; rewrite N; reflexivity.
    - cbn in H. injection H as <-. destruct Hf as [-> | ->]; cbn; (split; [|reflexivity]); [exists (JBool false)|exists (JBool true)]; split; (reflexivity || discriminate).
    - cbn [write_scalar DynJson.write_scalar] in H. specialize (N z eq_refl I). unfold read_scalar, DynJson.read_scalar. rewrite orb_false_l in *. destruct (wide jf (EFix b fl)); injection H as <-; (split; [(eexists (JStr _); split; [reflexivity|discriminate]) || (eexists (JNum _); split; [reflexivity|discriminate])|]); intros r; cbn [app]; rewrite N; reflexivity.
    - destruct Hp as [Hu Hp]. cbn [write_scalar DynJson.write_scalar] in H. rewrite Hu in H. destruct (name_number (j_values jf) z Hn Hd) as [[En Ho]|[En Ev]].
      + rewrite En in H. injection H as <-. destruct Hp as [Hp|Hp]; [contradiction|]. split; [eexists (JNum _); split; [reflexivity|discriminate]|]. intros r. cbn [app read_scalar DynJson.read_scalar].
        assert (R : -2147483648 <= z < 2147483648) by exact Hf. replace (wrapU 32 z) with z by (unfold wrapU; cbn; lia).
        pose proof (number_back jf (EVar VI32) z I Hf I) as K. unfold number_text, DynJson.number_text in K. cbn [int_kind shown] in K. rewrite K. reflexivity.
      + assert (H' : ts = [Str (name_of (j_values jf) z)]) by (destruct (name_of (j_values jf) z); [congruence|injection H as <-; reflexivity]). subst ts. split; [exists (JStr (name_of (j_values jf) z)); split; [reflexivity|discriminate]|]. intros r. cbn [app read_scalar DynJson.read_scalar]. rewrite Ev. reflexivity.
    - cbn [write_scalar DynJson.write_scalar] in H. cbn [fits] in Hf. cbn in Hp. destruct (j_string jf) eqn:Js.
      + injection H as <-. split; [exists (JStr b'); split; [reflexivity|discriminate]|]. intros r. cbn [app read_scalar DynJson.read_scalar]. rewrite Js, Hp by reflexivity. reflexivity.
      + rewrite b64_encode_spec in H by exact Hf. injection H as <-. split; [eexists (JStr _); split; [reflexivity|discriminate]|]. intros r. cbn [app read_scalar DynJson.read_scalar]. rewrite Js, b64_decode_text by exact Hf. reflexivity.
  Qed.

  (** The key of a map entry is written as a string. *)
  Lemma key_back jf f v ts : key_elem jf f = true -> fits (w_elem f) v -> scalar_printable jf (w_elem f) v -> write_scalar true jf (w_elem f) v = Ok ts ->
    exists k, quote f ts = [Str k] /\ forall r, read_scalar true jf (w_elem f) (Str k :: r) = Ok (v, r).
  Proof.
    unfold key_elem, quote. intros Hk Hf Hp H. destruct (w_rep f); [destruct (w_elem f); discriminate Hk|].
    assert (N : forall z, v = VInt z -> match w_elem f with EVar _ | EFix _ _ => True | _ => False end -> number_value jf (w_elem f) (number_text jf (w_elem f) z) = Some z) by (intros z -> He; apply number_back; assumption).
    destruct (w_elem f) as [t| |b fl|c|u vw|ty d]; destruct v as [z|b'| |]; try discriminate H; try discriminate Hk; try contradiction.
    - cbn [write_scalar DynJson.write_scalar orb] in H. injection H as <-. eexists. split; [reflexivity|]. intros r. cbn [read_scalar DynJson.read_scalar orb]. rewrite (N z eq_refl I). reflexivity.
    - cbn in H. injection H as <-. destruct Hf as [-> | ->]; cbn; eexists; (split; [reflexivity|]); reflexivity.
    - cbn [write_scalar DynJson.write_scalar orb] in H. injection H as <-. eexists. split; [reflexivity|]. intros r. cbn [read_scalar DynJson.read_scalar orb]. rewrite (N z eq_refl I). reflexivity.
    - cbn [write_scalar DynJson.write_scalar] in H. cbn in Hp. rewrite Hk in *. injection H as <-. eexists. split; [reflexivity|]. intros r. cbn [read_scalar DynJson.read_scalar]. rewrite Hk, Hp by reflexivity. reflexivity.
  Qed.
End Scalars.
