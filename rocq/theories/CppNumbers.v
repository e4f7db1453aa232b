From Coq Require Import Ascii String.
Require Import Verif.Bits Verif.CppText Verif.CppSpec Verif.CppNames.
Local Open Scope list_scope.

(** ** Digits *)
Lemma hex_value_range c : 0 <= hex_value c <= 16.
Proof.
  unfold hex_value. destruct (Z.leb_spec 48 c), (Z.leb_spec c 57), (Z.leb_spec 97 c), (Z.leb_spec c 102), (Z.leb_spec 65 c), (Z.leb_spec c 70);
    cbn [andb]; lia.
Qed.
Lemma digit_spec base c : base <= 16 -> digit base c = if hex_value c <? base then Some (hex_value c) else None.
Proof.
  intros B. unfold digit, hex_value, is_digit. cbv zeta.
  destruct (Z.leb_spec 48 c), (Z.leb_spec c 57), (Z.leb_spec 97 c), (Z.leb_spec c 102), (Z.leb_spec 65 c), (Z.leb_spec c 70),
    (Z.leb_spec c 122), (Z.leb_spec c 90); cbn [andb]; try lia;
    repeat match goal with |- context [?x <? base] => destruct (Z.ltb_spec x base) end; try lia; try reflexivity; f_equal; lia.
Qed.
Lemma scan_digits_spec base l : base <= 16 -> forall acc,
  scan_digits base acc l = (fold_left (fun v d => v * base + d) (fst (digits_then base l)) acc, snd (digits_then base l)).
Proof.
  intros B. induction l as [|c t IH]; intros acc; cbn [scan_digits digits_then]; [reflexivity|]. rewrite digit_spec by exact B.
  destruct (hex_value c <? base); [|reflexivity]. rewrite IH. destruct (digits_then base t); reflexivity.
Qed.
Lemma digits_then_spec base l ds : digits_of base l ds <-> l <> [] /\ digits_then base l = (ds, []).
Proof.
  unfold digits_of. apply and_iff_compat_l. revert ds. induction l as [|c t IH]; intros ds; cbn [digits_then].
  - split; [inversion 1; reflexivity|intros [= <-]; constructor].
  - destruct (Z.ltb_spec (hex_value c) base) as [H|H].
    + destruct (digits_then base t) as [a b] eqn:E. split.
      * inversion 1 as [|? d ? ds' [H1 H2] H3]; subst. apply IH in H3. injection H3 as -> ->. reflexivity.
      * intros [= <- ->]. constructor; [auto|]. apply IH. reflexivity.
    + split; [inversion 1; subst; lia|discriminate].
Qed.
Lemma from_chars_spec base l m : 8 <= base <= 16 -> from_chars base l = Some (m, []) <-> exists ds, digits_of base l ds /\ m = number base ds /\ m < 2 ^ 64.
Proof.
  intros B. unfold from_chars. destruct l as [|c t].
  - split; [discriminate|]. intros (ds & (N & _) & _). congruence.
  - rewrite digit_spec by lia. rewrite scan_digits_spec by lia. split.
    + destruct (hex_value c <? base) eqn:H; [|discriminate]. destruct (digits_then base (c :: t)) as [ds r] eqn:E. cbn [fst snd].
      fold (number base ds). destruct (Z.ltb_spec (number base ds) (2 ^ 64)); [|discriminate]. intros [= <- ->]. exists ds.
      split; [apply digits_then_spec; split; [discriminate|exact E]|auto].
    + intros (ds & D & -> & L). apply digits_then_spec in D. destruct D as [_ D]. rewrite D. cbn [fst snd]. fold (number base ds).
      assert (H : (hex_value c <? base) = true).
      { cbn [digits_then] in D. destruct (hex_value c <? base); [reflexivity|discriminate]. }
      rewrite H. destruct (Z.ltb_spec (number base ds) (2 ^ 64)); [reflexivity|lia].
Qed.

Lemma fold_number_nonneg base ds : 0 <= base -> Forall (fun d => 0 <= d) ds -> forall a, 0 <= a -> 0 <= fold_left (fun v d => v * base + d) ds a.
Proof. intros B. induction 1 as [|d ds Hd _ IH]; intros a Ha; cbn [fold_left]; [exact Ha|]. apply IH. nia. Qed.
Lemma digits_nonneg base l ds : digits_of base l ds -> Forall (fun d => 0 <= d) ds.
Proof.
  intros (_ & F). induction F as [|c d l ds [H _] _ IH]; constructor; [|exact IH]. pose proof (hex_value_range c). lia.
Qed.
Lemma magnitude_nonneg v m : magnitude v m -> 0 <= m.
Proof. destruct 1 as [|c l ds _ D|l ds D|x l ds _ D]; [lia|..]; (apply fold_number_nonneg; [lia|eapply digits_nonneg; exact D|lia]). Qed.

(** ** The text after the sign *)
Definition parse_body (value : bytes) : option Z :=
  let hex := starts [48; 120] value || starts [48; 88] value in
  let oct := (2 <=? zlen value) && starts [48] value in
  let base := if hex then 16 else if oct then 8 else 10 in
  let value := if hex then skipn 2 value else if oct then tl value else value in
  match from_chars base value with Some (m, []) => Some m | _ => None end.
Lemma from_chars_some base l m : match from_chars base l with Some (m, []) => Some m | _ => None end = Some m <-> from_chars base l = Some (m, []).
Proof. destruct (from_chars base l) as [[m' [|c r]]|]; split; intros H; try discriminate; injection H as ->; reflexivity. Qed.
Lemma digits_of_head base c t ds : digits_of base (c :: t) ds -> hex_value c < base.
Proof. intros (_ & F). inversion F as [|? ? ? ? [H1 H2] _]; subst. exact H2. Qed.
Lemma parse_body_spec v m : parse_body v = Some m <-> magnitude v m /\ m < 2 ^ 64.
Proof.
  unfold parse_body. destruct v as [|c t].
  { split; [discriminate|]. intros [H _]. inversion H. }
  destruct (Z.eq_dec c 48) as [->|Hc].
  - destruct t as [|x t].
    + cbn [starts]. change (48 =? 48) with true. change (2 <=? zlen [48]) with false. cbn [andb orb]. rewrite from_chars_some. split.
      * intros E. assert (m = 0) by (vm_compute in E; congruence). subst. split; [constructor|lia].
      * intros [H L]. assert (m = 0) as ->; [|reflexivity]. inversion H as [|? ? ? N D|? ? D|]; subst; [reflexivity|congruence|]. destruct D as [D _]. congruence.
    + destruct (Z.eq_dec x 120) as [->|Hx]; [|destruct (Z.eq_dec x 88) as [->|Hx']].
      1,2: match goal with |- context [starts ?a ?b || starts ?c ?d] => change (starts a b || starts c d) with true end; rewrite from_chars_some, from_chars_spec by lia; cbn [skipn]; split;
        [intros (ds & D & -> & L); split; [apply MHex; [tauto|exact D]|exact L]|];
        intros [H L]; inversion H as [|? ? ? N D|? ? D|? ? ? X D]; subst; [congruence|apply digits_of_head in D; vm_compute in D; discriminate|];
        exists ds; auto.
      assert (S : starts [48; 120] (48 :: x :: t) || starts [48; 88] (48 :: x :: t) = false).
      { cbn [starts]. rewrite Z.eqb_refl. cbn [andb]. destruct (Z.eqb_spec 120 x); [congruence|]. destruct (Z.eqb_spec 88 x); [congruence|]. reflexivity. }
      rewrite S. clear S. assert (S : (2 <=? zlen (48 :: x :: t)) && starts [48] (48 :: x :: t) = true).
      { apply andb_true_intro. split; [apply Z.leb_le; rewrite !zlen_cons; pose proof (zlen_nonneg t); lia|reflexivity]. }
      rewrite S. clear S. cbn [tl]. rewrite from_chars_some, from_chars_spec by lia. split.
      * intros (ds & D & -> & L). split; [apply MOct, D|exact L].
      * intros [H L]. inversion H as [|? ? ? N D|? ? D|? ? ? X D]; subst; [congruence|exists ds; auto|destruct X; congruence].
  - assert (S : starts [48] (c :: t) = false) by (cbn [starts]; destruct (Z.eqb_spec 48 c); [congruence|reflexivity]).
    assert (S2 : starts [48; 120] (c :: t) || starts [48; 88] (c :: t) = false) by (cbn [starts]; destruct (Z.eqb_spec 48 c); [congruence|reflexivity]).
    rewrite S, S2, andb_false_r. rewrite from_chars_some, from_chars_spec by lia. split.
    + intros (ds & D & -> & L). split; [apply MDec; assumption|exact L].
    + intros [H L]. inversion H as [|? ? ? N D|? ? D|? ? ? X D]; subst; try congruence. exists ds. auto.
Qed.

Lemma magnitude_head v m : magnitude v m -> exists c t, v = c :: t /\ 48 <= c <= 57.
Proof.
  destruct 1 as [|c l ds N D|l ds D|x l ds X D]; eexists _, _; (split; [reflexivity|]); try lia.
  apply digits_of_head in D. unfold hex_value in D.
  destruct (Z.leb_spec 48 c), (Z.leb_spec c 57), (Z.leb_spec 97 c), (Z.leb_spec c 102), (Z.leb_spec 65 c), (Z.leb_spec c 70); cbn [andb] in D; lia.
Qed.
(** Signs *)
Lemma parse_integer_body value allow : parse_integer value allow =
  match value with
  | c :: t => if sign c then if allow then match parse_body t with Some m => Some (c =? 45, m) | None => None end else None
              else match parse_body value with Some m => Some (false, m) | None => None end
  | [] => None
  end.
Proof.
  destruct value as [|c t]; [reflexivity|]. unfold parse_integer, parse_body.
  replace ((c =? 45) || (c =? 43)) with (sign c) by (unfold sign; apply orb_comm). cbv zeta.
  destruct (sign c), allow; cbn [andb negb]; try reflexivity;
    match goal with |- match ?f with _ => _ end = _ => destruct f as [[m [|? ?]]|] end; reflexivity.
Qed.
Lemma sign_spec c : sign c = true <-> c = 43 \/ c = 45.
Proof. unfold sign. rewrite orb_true_iff, !Z.eqb_eq. tauto. Qed.
Lemma sign_digit c : 48 <= c <= 57 -> sign c = false.
Proof. intros H. destruct (sign c) eqn:E; [apply sign_spec in E; lia|reflexivity]. Qed.
Lemma parse_integer_spec value neg m : parse_integer value true = Some (neg, m) <->
  m < 2 ^ 64 /\ (magnitude value m /\ neg = false \/ exists v, magnitude v m /\ (value = 43 :: v /\ neg = false \/ value = 45 :: v /\ neg = true)).
Proof.
  rewrite parse_integer_body. destruct value as [|c t].
  { split; [discriminate|]. intros (_ & [[H _]|(v & _ & [[H _]|[H _]])]); [inversion H|discriminate..]. }
  destruct (sign c) eqn:Sc.
  - apply sign_spec in Sc. assert (NM : ~ magnitude (c :: t) m).
    { intros H. destruct (magnitude_head _ _ H) as (c' & t' & E & B). injection E as -> ->. lia. }
    split.
    + destruct (parse_body t) as [m'|] eqn:E; [|discriminate]. intros [= <- ->]. apply parse_body_spec in E. split; [apply E|]. right.
      exists t. split; [apply E|]. destruct Sc as [->| ->]; [left|right]; auto.
    + intros (L & [[H _]|(v & H & K)]); [contradiction|]. assert (E : parse_body v = Some m) by (apply parse_body_spec; auto).
      destruct K as [[K ->]|[K ->]]; injection K as -> ->; rewrite E; reflexivity.
  - split.
    + destruct (parse_body (c :: t)) as [m'|] eqn:E; [|discriminate]. intros [= <- ->]. apply parse_body_spec in E. tauto.
    + intros (L & [[H ->]|(v & H & K)]).
      * rewrite (proj2 (parse_body_spec _ _) (conj H L)). reflexivity.
      * destruct K as [[K _]|[K _]]; injection K as -> _; discriminate.
Qed.
Lemma parse_unsigned_spec value neg m : parse_integer value false = Some (neg, m) <-> neg = false /\ magnitude value m /\ m < 2 ^ 64.
Proof.
  rewrite parse_integer_body. destruct value as [|c t].
  { split; [discriminate|]. intros (_ & H & _). inversion H. }
  destruct (sign c) eqn:Sc.
  - split; [discriminate|]. intros (_ & H & _). destruct (magnitude_head _ _ H) as (c' & t' & E & B). injection E as -> ->.
    apply sign_spec in Sc. lia.
  - split.
    + destruct (parse_body (c :: t)) as [m'|] eqn:E; [|discriminate]. intros [= <- ->]. apply parse_body_spec in E. tauto.
    + intros (-> & H). rewrite (proj2 (parse_body_spec _ _) H). reflexivity.
Qed.

(** ** Reading the literal back *)
Definition alnum (c : Z) : Prop := decimal_digit c \/ letter c.
Lemma pp_number_all l : Forall alnum l -> pp_number l = (l, []).
Proof.
  induction 1 as [|c t Hc Ht IH]; [reflexivity|]. cbn [pp_number].
  assert (P : pp_char c = true).
  { unfold pp_char. destruct Hc as [Hc|[Hc|Hc]]; unfold decimal_digit in *; rewrite !orb_true_iff, !andb_true_iff, !Z.leb_le; lia. }
  rewrite P. destruct t as [|s t']; [reflexivity|].
  assert (N : sign s = false).
  { inversion Ht as [|? ? Hs _]; subst. destruct (sign s) eqn:E; [|reflexivity]. apply sign_spec in E.
    destruct Hs as [Hs|[Hs|Hs]]; unfold decimal_digit in *; lia. }
  rewrite N, andb_false_r, IH. reflexivity.
Qed.
Lemma hex_alnum c : hex_value c < 16 -> alnum c.
Proof.
  unfold hex_value, alnum, decimal_digit, letter.
  destruct (Z.leb_spec 48 c), (Z.leb_spec c 57), (Z.leb_spec 97 c), (Z.leb_spec c 102), (Z.leb_spec 65 c), (Z.leb_spec c 70); cbn [andb]; lia.
Qed.
Lemma digits_alnum base l ds : base <= 16 -> digits_of base l ds -> Forall alnum l.
Proof. intros B (_ & F). induction F as [|c d l ds [H H'] _ IH]; constructor; [apply hex_alnum; lia|exact IH]. Qed.
Lemma magnitude_alnum v m : magnitude v m -> Forall alnum v.
Proof.
  destruct 1 as [|c l ds N D|l ds D|x l ds X D].
  - constructor; [left; unfold decimal_digit; lia|constructor].
  - eapply digits_alnum; [|exact D]. lia.
  - constructor; [left; unfold decimal_digit; lia|]. eapply digits_alnum; [|exact D]. lia.
  - constructor; [left; unfold decimal_digit; lia|]. constructor; [right; unfold letter; lia|]. eapply digits_alnum; [|exact D]. lia.
Qed.
Definition suffix_ok (s : bytes) : Prop := s = [] \/ exists c t, s = c :: t /\ hex_value c = 16 /\ c <> 120 /\ c <> 88.
Lemma digits_then_app base l ds s : base <= 16 -> Forall2 (fun c d => hex_value c = d /\ d < base) l ds -> suffix_ok s -> digits_then base (l ++ s) = (ds, s).
Proof.
  intros B F Hs. induction F as [|c d l ds [H H'] _ IH]; cbn [app].
  - destruct Hs as [->|(c & t & -> & Hc & _)]; [reflexivity|]. cbn [digits_then]. destruct (Z.ltb_spec (hex_value c) base); [lia|reflexivity].
  - cbn [digits_then]. rewrite H, IH. destruct (Z.ltb_spec d base); [reflexivity|lia].
Qed.
Lemma literal_value v m s : magnitude v m -> suffix_ok s -> exists decimal, integer_literal (v ++ s) =
  match find (fun t => fits t m) (literal_types decimal s) with Some t => Some (t, m) | None => None end.
Proof.
  intros H Hs. destruct H as [|c l ds N D|l ds D|x l ds X D].
  - exists false. destruct Hs as [->|(c & t & -> & Hc & N1 & N2)]; [reflexivity|].
    assert (Nx : (c =? 120) || (c =? 88) = false) by (destruct (Z.eqb_spec c 120); [congruence|]; destruct (Z.eqb_spec c 88); [congruence|reflexivity]).
    unfold integer_literal. cbn [app]. rewrite Z.eqb_refl, Nx. change (48 :: c :: t) with ([48] ++ (c :: t)).
    rewrite (digits_then_app 8 [48] [0]); [reflexivity|lia|constructor; [split; [reflexivity|lia]|constructor]|]. right. eauto 6.
  - exists true. unfold integer_literal. cbn [app]. destruct (Z.eqb_spec c 48); [congruence|].
    change (c :: l ++ s) with ((c :: l) ++ s). rewrite (digits_then_app 10 (c :: l) ds) by (lia || exact (proj2 D) || exact Hs).
    destruct ds; [destruct D as [_ D]; inversion D|]. reflexivity.
  - exists false. unfold integer_literal. cbn [app]. rewrite Z.eqb_refl. destruct l as [|x l]; [destruct D; congruence|]. cbn [app].
    assert (Nx : (x =? 120) || (x =? 88) = false).
    { apply digits_of_head in D. destruct (Z.eqb_spec x 120); [subst; vm_compute in D; discriminate|].
      destruct (Z.eqb_spec x 88); [subst; vm_compute in D; discriminate|reflexivity]. }
    rewrite Nx. change (48 :: x :: l ++ s) with ((48 :: x :: l) ++ s).
    rewrite (digits_then_app 8 (48 :: x :: l) (0 :: ds)); [|lia|constructor; [split; [reflexivity|lia]|apply D]|exact Hs]. reflexivity.
  - exists false. unfold integer_literal. cbn [app]. rewrite Z.eqb_refl.
    assert (Nx : (x =? 120) || (x =? 88) = true) by (destruct X as [-> | ->]; reflexivity). rewrite Nx.
    rewrite (digits_then_app 16 l ds) by (lia || exact (proj2 D) || exact Hs).
    destruct ds; [destruct D as [N D]; inversion D; congruence|]. reflexivity.
Qed.

Lemma expression_plain v m s : magnitude v m -> Forall alnum s ->
  integer_expression (v ++ s) = match integer_literal (v ++ s) with Some (t, x) => arith t x | None => None end.
Proof.
  intros H Hs. assert (A : Forall alnum (v ++ s)) by (apply Forall_app; split; [eapply magnitude_alnum; exact H|exact Hs]).
  destruct (magnitude_head _ _ H) as (c & t & -> & B). unfold integer_expression. cbn [app] in *. rewrite (sign_digit c B), pp_number_all by exact A.
  destruct (integer_literal (c :: t ++ s)) as [[ty x]|]; [|reflexivity]. destruct (arith ty x) as [[? ?]|]; reflexivity.
Qed.
Lemma expression_signed c v m s : sign c = true -> magnitude v m -> Forall alnum s ->
  integer_expression (c :: v ++ s) = match integer_literal (v ++ s) with Some (t, x) => arith t (if c =? 45 then - x else x) | None => None end.
Proof.
  intros Hc H Hs. assert (A : Forall alnum (v ++ s)) by (apply Forall_app; split; [eapply magnitude_alnum; exact H|exact Hs]).
  unfold integer_expression. rewrite Hc, pp_number_all by exact A.
  destruct (integer_literal (v ++ s)) as [[ty x]|]; [|reflexivity]. destruct (arith ty (if c =? 45 then - x else x)) as [[? ?]|]; reflexivity.
Qed.

Definition signed_type (w : Z) : ctype := if w =? 64 then I64 else I32.
Definition unsigned_type (w : Z) : ctype := if w =? 64 then U64 else U32.
Definition signed_suffix (w : Z) : bytes := if w =? 64 then txt "LL" else [].
Definition unsigned_suffix (w : Z) : bytes := if w =? 64 then txt "ULL" else txt "U".
Lemma signed_suffix_ok w : suffix_ok (signed_suffix w) /\ Forall alnum (signed_suffix w).
Proof.
  unfold signed_suffix. destruct (w =? 64).
  - change (txt "LL") with [76; 76]. split; [right; eexists _, _; split; [reflexivity|]; split; [reflexivity|split; lia]|].
    repeat (constructor; [right; unfold letter; lia|]). constructor.
  - split; [left; reflexivity|constructor].
Qed.
Lemma unsigned_suffix_ok w : suffix_ok (unsigned_suffix w) /\ Forall alnum (unsigned_suffix w).
Proof.
  unfold unsigned_suffix. destruct (w =? 64).
  - change (txt "ULL") with [85; 76; 76]. split; [right; eexists _, _; split; [reflexivity|]; split; [reflexivity|split; lia]|].
    repeat (constructor; [right; unfold letter; lia|]). constructor.
  - change (txt "U") with [85]. split; [right; eexists _, _; split; [reflexivity|]; split; [reflexivity|split; lia]|].
    repeat (constructor; [right; unfold letter; lia|]). constructor.
Qed.

Lemma fits_signed w v : w = 32 \/ w = 64 -> fits (signed_type w) v = (- 2 ^ (w - 1) <=? v) && (v <? 2 ^ (w - 1)).
Proof. intros [-> | ->]; reflexivity. Qed.
Lemma fits_unsigned w v : w = 32 \/ w = 64 -> fits (unsigned_type w) v = (0 <=? v) && (v <? 2 ^ w).
Proof. intros [-> | ->]; reflexivity. Qed.
Lemma signed_literal w v m : w = 32 \/ w = 64 -> magnitude v m -> m < 2 ^ (w - 1) ->
  integer_literal (v ++ signed_suffix w) = Some (signed_type w, m).
Proof.
  intros Hw H L. destruct (signed_suffix_ok w) as [S _]. destruct (literal_value v m _ H S) as (dec & ->).
  pose proof (magnitude_nonneg _ _ H) as P.
  assert (F : fits (signed_type w) m = true).
  { rewrite fits_signed by exact Hw. apply andb_true_intro. split; [apply Z.leb_le|apply Z.ltb_lt; exact L].
    assert (0 < 2 ^ (w - 1)) by (apply Z.pow_pos_nonneg; lia). lia. }
  destruct Hw as [-> | ->].
  - change (signed_suffix 32) with (@nil Z). change (signed_type 32) with I32 in *. destruct dec; unfold literal_types;
      change (same [] []) with true; cbn [find]; rewrite F; reflexivity.
  - change (signed_suffix 64) with (txt "LL"). change (signed_type 64) with I64 in *.
    assert (T : exists r, literal_types dec (txt "LL") = I64 :: r) by (destruct dec; eexists; reflexivity).
    destruct T as (r & ->). cbn [find]. rewrite F. reflexivity.
Qed.
Lemma unsigned_literal w v m : w = 32 \/ w = 64 -> magnitude v m -> m < 2 ^ w ->
  integer_literal (v ++ unsigned_suffix w) = Some (unsigned_type w, m).
Proof.
  intros Hw H L. destruct (unsigned_suffix_ok w) as [S _]. destruct (literal_value v m _ H S) as (dec & ->).
  pose proof (magnitude_nonneg _ _ H) as P.
  assert (F : fits (unsigned_type w) m = true).
  { rewrite fits_unsigned by exact Hw. apply andb_true_intro. split; [apply Z.leb_le; lia|apply Z.ltb_lt; exact L]. }
  assert (T : exists r, literal_types dec (unsigned_suffix w) = unsigned_type w :: r) by (destruct Hw as [-> | ->]; destruct dec; eexists; reflexivity).
  destruct T as (r & ->). cbn [find]. rewrite F. reflexivity.
Qed.

Lemma arith_signed w v : w = 32 \/ w = 64 -> - 2 ^ (w - 1) <= v < 2 ^ (w - 1) -> arith (signed_type w) v = Some (signed_type w, v).
Proof.
  intros Hw B. assert (F : fits (signed_type w) v = true) by (rewrite fits_signed by exact Hw; apply andb_true_intro; split; [apply Z.leb_le|apply Z.ltb_lt]; lia).
  destruct Hw as [-> | ->]; [change (signed_type 32) with I32 in *|change (signed_type 64) with I64 in *]; unfold arith; rewrite F; reflexivity.
Qed.
Lemma arith_unsigned w v : w = 32 \/ w = 64 -> 0 <= v < 2 ^ w -> arith (unsigned_type w) v = Some (unsigned_type w, v).
Proof.
  intros [-> | ->] B; [change (unsigned_type 32) with U32|change (unsigned_type 64) with U64]; unfold arith; rewrite Z.mod_small by exact B; reflexivity.
Qed.

(** Texts denoting negative numbers. *)
Lemma integer_text_cases t z : integer_text t z ->
  exists (neg : bool) m, z = (if neg then - m else m) /\ 0 <= m /\
    ((magnitude t m /\ neg = false) \/ exists v, magnitude v m /\ (t = 43 :: v /\ neg = false \/ t = 45 :: v /\ neg = true)).
Proof.
  destruct 1 as [l m H|l m H|l m H]; pose proof (magnitude_nonneg _ _ H).
  - exists false, m. auto.
  - exists false, m. split; [reflexivity|]. split; [assumption|]. right. exists l. auto.
  - exists true, m. split; [reflexivity|]. split; [assumption|]. right. exists l. auto.
Qed.

Theorem signed_denotes w t z : w = 32 \/ w = 64 -> integer_text t z -> - 2 ^ (w - 1) <= z < 2 ^ (w - 1) ->
  exists e, signed_integer t w = Some e /\ integer_expression e = Some (signed_type w, z).
Proof.
  intros Hw H B. destruct (integer_text_cases t z H) as (neg & m & -> & P & K).
  assert (Pw : 2 ^ (w - 1) < 2 ^ 64) by (apply Z.pow_lt_mono_r; lia).
  assert (L : m < 2 ^ 64) by (destruct neg; lia).
  unfold signed_integer. rewrite (proj2 (parse_integer_spec t neg m) (conj L K)).
  assert (C : (negb neg && (2 ^ (w - 1) - 1 <? m)) || (neg && (2 ^ (w - 1) <? m)) = false).
  { destruct neg; cbn [negb andb orb]; [apply Z.ltb_ge; lia|]. rewrite orb_false_r. apply Z.ltb_ge. lia. }
  rewrite C. clear C. destruct (neg && (m =? 2 ^ (w - 1))) eqn:M.
  - apply andb_true_iff in M. destruct M as [-> M]. apply Z.eqb_eq in M. subst m.
    destruct Hw as [-> | ->]; eexists; (split; [reflexivity|]); reflexivity.
  - exists (t ++ signed_suffix w). split; [reflexivity|].
    destruct (signed_suffix_ok w) as [_ A].
    destruct K as [[K ->]|(v & K & [[-> ->]|[-> ->]])].
    + rewrite (expression_plain t m), (signed_literal w t m) by (assumption || lia). apply arith_signed; assumption.
    + cbn [app]. rewrite (expression_signed 43 v m), (signed_literal w v m) by (assumption || reflexivity || lia). change (43 =? 45) with false.
      apply arith_signed; assumption.
    + cbn [app]. cbn [andb] in M. apply Z.eqb_neq in M.
      rewrite (expression_signed 45 v m), (signed_literal w v m) by (assumption || reflexivity || lia). change (45 =? 45) with true.
      apply arith_signed; assumption.
Qed.
Theorem signed_accepts w t e : w = 32 \/ w = 64 -> signed_integer t w = Some e ->
  exists z, integer_text t z /\ - 2 ^ (w - 1) <= z < 2 ^ (w - 1).
Proof.
  intros Hw. unfold signed_integer. destruct (parse_integer t true) as [[neg m]|] eqn:E; [|discriminate]. apply parse_integer_spec in E.
  destruct ((negb neg && (2 ^ (w - 1) - 1 <? m)) || (neg && (2 ^ (w - 1) <? m))) eqn:C; [discriminate|]. intros _.
  exists (if neg then - m else m). destruct E as [L K].
  assert (P : 0 <= m) by (destruct K as [[K _]|(v & K & _)]; eapply magnitude_nonneg; exact K).
  assert (PW : 0 < 2 ^ (w - 1)) by (apply Z.pow_pos_nonneg; lia).
  split.
  - destruct K as [[K ->]|(v & K & [[-> ->]|[-> ->]])]; constructor; exact K.
  - destruct neg; cbn [negb andb orb] in C; [apply Z.ltb_ge in C; lia|]. rewrite orb_false_r in C. apply Z.ltb_ge in C. lia.
Qed.
Theorem unsigned_denotes w t m : w = 32 \/ w = 64 -> magnitude t m -> m < 2 ^ w ->
  exists e, unsigned_integer t w = Some e /\ integer_expression e = Some (unsigned_type w, m).
Proof.
  intros Hw H B. pose proof (magnitude_nonneg _ _ H) as P.
  assert (L : m < 2 ^ 64) by (destruct Hw as [-> | ->]; [eapply Z.lt_trans; [exact B|reflexivity]|exact B]).
  unfold unsigned_integer. rewrite (proj2 (parse_unsigned_spec t false m)) by auto.
  assert (C : (w =? 32) && (2 ^ 32 - 1 <? m) = false).
  { destruct Hw as [-> | ->]; [|reflexivity]. cbn [Z.eqb Pos.eqb andb]. apply Z.ltb_ge. lia. }
  rewrite C. exists (t ++ unsigned_suffix w). split; [reflexivity|].
  destruct (unsigned_suffix_ok w) as [_ A]. rewrite (expression_plain t m), (unsigned_literal w t m) by assumption. apply arith_unsigned; [assumption|lia].
Qed.
Theorem unsigned_accepts w t e : w = 32 \/ w = 64 -> unsigned_integer t w = Some e -> exists m, magnitude t m /\ 0 <= m < 2 ^ w.
Proof.
  intros Hw. unfold unsigned_integer. destruct (parse_integer t false) as [[neg m]|] eqn:E; [|discriminate]. apply parse_unsigned_spec in E.
  destruct E as (_ & K & L). destruct ((w =? 32) && (2 ^ 32 - 1 <? m)) eqn:C; [discriminate|]. intros _. exists m. split; [exact K|].
  pose proof (magnitude_nonneg _ _ K). destruct Hw as [-> | ->]; [|lia]. cbn [Z.eqb Pos.eqb andb] in C. apply Z.ltb_ge in C. lia.
Qed.

(** ** Floating literals *)
Lemma span_digits_spec l : l = fst (span_digits l) ++ snd (span_digits l) /\ Forall decimal_digit (fst (span_digits l)) /\
  match snd (span_digits l) with c :: _ => ~ decimal_digit c | [] => True end.
Proof.
  induction l as [|c t (E & F & H)]; cbn [span_digits]; [split; [reflexivity|split; constructor]|].
  destruct (is_digit c) eqn:D.
  - destruct (span_digits t) as [a b]. cbn [fst snd] in *. split; [cbn [app]; f_equal; exact E|]. split; [|exact H].
    constructor; [apply is_digit_spec, D|exact F].
  - split; [reflexivity|]. split; [constructor|]. cbn [snd]. rewrite <- is_digit_spec. congruence.
Qed.
Lemma span_digits_app a b : Forall decimal_digit a -> match b with c :: _ => ~ decimal_digit c | [] => True end -> span_digits (a ++ b) = (a, b).
Proof.
  intros Fa Hb. induction Fa as [|c t Hc _ IH]; cbn [app].
  - destruct b as [|c t]; [reflexivity|]. cbn [span_digits]. destruct (is_digit c) eqn:D; [apply is_digit_spec in D; contradiction|reflexivity].
  - cbn [span_digits]. apply is_digit_spec in Hc. rewrite Hc, IH. reflexivity.
Qed.
Definition minus (neg : bool) : bytes := if neg then [45] else [].

Lemma float_shape_sound value : float_shape value = true -> exists neg d, value = minus neg ++ spelling d /\ legal_decimal d.
Proof.
  intros H. unfold float_shape in H.
  assert (V : exists neg v, value = minus neg ++ v /\ drop_minus value = v).
  { unfold drop_minus. destruct value as [|c t]; [exists false, []; auto|]. destruct (Z.eqb_spec c 45) as [->|]; [exists true, t|exists false, (c :: t)]; auto. }
  destruct V as (neg & v & -> & V). rewrite V in H. clear V. exists neg.
  destruct (span_digits_spec v) as (E1 & F1 & _). destruct (span_digits v) as [i r]. cbn [fst snd] in *. subst v.
  assert (R : exists fo r2, r = match fo with Some f => 46 :: f | None => [] end ++ r2 /\ Forall decimal_digit (match fo with Some f => f | None => [] end) /\
      take_fraction r = (match fo with Some f => f | None => [] end, r2)).
  { unfold take_fraction. destruct r as [|c t]; [exists None, []; split; [reflexivity|split; [constructor|reflexivity]]|].
    destruct (Z.eqb_spec c 46) as [->|].
    - destruct (span_digits_spec t) as (E2 & F2 & _). destruct (span_digits t) as [f r2]. cbn [fst snd] in *. subst t. exists (Some f), r2. auto.
    - exists None, (c :: t). split; [reflexivity|split; [constructor|reflexivity]]. }
  destruct R as (fo & r2 & -> & F2 & Er). rewrite Er in H. clear Er.
  assert (N : i <> [] \/ exists f, fo = Some f /\ f <> []).
  { destruct i; [|left; discriminate]. destruct fo as [[|x f]|]; cbn [app] in H; try discriminate. right. eexists; split; [reflexivity|discriminate]. }
  assert (X : exists xo, r2 = match xo with Some (e, sg, x) => e :: sg ++ x | None => [] end /\
      match xo with Some (e, sg, x) => (e = 101 \/ e = 69) /\ (sg = [] \/ sg = [43] \/ sg = [45]) /\ x <> [] /\ Forall decimal_digit x | None => True end).
  { destruct (i ++ match fo with Some f => f | None => [] end); [discriminate|]. destruct r2 as [|c t]; [exists None; auto|].
    apply andb_true_iff in H. destruct H as [Hc H]. apply orb_true_iff in Hc. rewrite !Z.eqb_eq in Hc.
    assert (G : forall x, match span_digits x with (_ :: _, []) => true | _ => false end = true -> x <> [] /\ Forall decimal_digit x).
    { intros x Hx. destruct (span_digits_spec x) as (E & F & _). destruct (span_digits x) as [[|a b] [|? ?]]; try discriminate. cbn [fst snd] in *.
      rewrite app_nil_r in E. subst x. split; [discriminate|exact F]. }
    destruct t as [|s t'].
    - apply G in H. destruct H; congruence.
    - destruct ((s =? 43) || (s =? 45)) eqn:Es.
      + apply orb_true_iff in Es. rewrite !Z.eqb_eq in Es. apply G in H. exists (Some (c, [s], t')). split; [reflexivity|].
        split; [exact Hc|]. split; [destruct Es as [-> | ->]; auto|exact H].
      + apply G in H. exists (Some (c, [], s :: t')). split; [reflexivity|]. split; [exact Hc|]. split; [auto|exact H]. }
  destruct X as (xo & -> & X). exists (Decimal i fo xo). split; [reflexivity|]. split; [exact F1|]. split; [exact F2|]. split; [exact N|exact X].
Qed.
Lemma float_shape_complete neg d : legal_decimal d -> float_shape (minus neg ++ spelling d) = true.
Proof.
  destruct d as [i fo xo]. intros (F1 & F2 & N & X). cbn [d_int d_frac d_exp] in *. unfold float_shape, spelling. cbn [d_int d_frac d_exp].
  set (tl2 := match xo with Some (e, sg, x) => e :: sg ++ x | None => [] end).
  set (tl1 := match fo with Some f => 46 :: f | None => [] end ++ tl2).
  assert (E : drop_minus (minus neg ++ i ++ tl1) = i ++ tl1).
  { unfold drop_minus. destruct neg; [reflexivity|]. cbn [minus app]. destruct i as [|c t]; cbn [app].
    - destruct N as [N|(f & -> & _)]; [congruence|]. reflexivity.
    - inversion F1 as [|? ? Hc _]; subst. unfold decimal_digit in Hc. destruct (Z.eqb_spec c 45); [lia|reflexivity]. }
  assert (H2 : match tl2 with c :: _ => ~ decimal_digit c /\ c <> 46 | [] => True end).
  { unfold tl2. destruct xo as [[[e sg] x]|]; [|exact I]. unfold decimal_digit. lia. }
  assert (H1 : match tl1 with c :: _ => ~ decimal_digit c | [] => True end).
  { unfold tl1. destruct fo as [f|]; cbn [app]; [unfold decimal_digit; lia|]. destruct tl2; tauto. }
  rewrite E, span_digits_app by assumption. clear E.
  assert (E : take_fraction tl1 = (match fo with Some f => f | None => [] end, tl2)).
  { unfold tl1, take_fraction. destruct fo as [f|]; cbn [app].
    - rewrite Z.eqb_refl. apply span_digits_app; [exact F2|]. destruct tl2; tauto.
    - destruct tl2 as [|c t]; [reflexivity|]. destruct (Z.eqb_spec c 46); [tauto|reflexivity]. }
  assert (Ne : exists f0, take_fraction tl1 = (f0, tl2) /\ i ++ f0 <> []).
  { eexists. split; [exact E|]. destruct N as [N|(f & -> & N)]; [destruct i; [congruence|discriminate]|]. destruct i; [exact N|discriminate]. }
  clear E. destruct Ne as (f0 & E & Ne). rewrite E. destruct (i ++ f0); [congruence|]. unfold tl2. destruct xo as [[[e sg] x]|]; [|reflexivity].
  destruct X as (He & Hs & Nx & Fx). apply andb_true_intro. split; [apply orb_true_iff; rewrite !Z.eqb_eq; exact He|].
  assert (G : match span_digits x with (_ :: _, []) => true | _ => false end = true).
  { rewrite <- (app_nil_r x), span_digits_app by (exact Fx || exact I). destruct x; [congruence|reflexivity]. }
  destruct Hs as [->|[->| ->]]; cbn [app]; [|exact G..]. destruct x as [|s x']; [congruence|].
  inversion Fx as [|? ? Hs _]; subst. unfold decimal_digit in Hs. destruct (Z.eqb_spec s 43); [lia|]. destruct (Z.eqb_spec s 45); [lia|]. exact G.
Qed.

(** Whether the point or exponent is there can be seen in the text. *)
Lemma contains_one c l : contains [c] l = true <-> In c l.
Proof. rewrite contains_spec by discriminate. split; [intros (a & b & ->); apply in_elt|apply in_split]. Qed.
Lemma no_point neg d : legal_decimal d -> contains [46] (minus neg ++ spelling d) = false -> contains [101] (minus neg ++ spelling d) = false ->
  contains [69] (minus neg ++ spelling d) = false -> d_frac d = None /\ d_exp d = None.
Proof.
  destruct d as [i fo xo]. intros (_ & _ & _ & X) A B C. cbn [d_int d_frac d_exp] in *. unfold spelling in *. cbn [d_int d_frac d_exp] in *. split.
  - destruct fo as [f|]; [|reflexivity]. exfalso.
    assert (K : contains [46] (minus neg ++ i ++ (46 :: f) ++ match xo with Some (e, sg, x) => e :: sg ++ x | None => [] end) = true).
    { apply contains_one. apply in_or_app; right. apply in_or_app; right. left. reflexivity. }
    congruence.
  - destruct xo as [[[e sg] x]|]; [|reflexivity]. exfalso. destruct X as ([-> | ->] & _).
    + assert (K : contains [101] (minus neg ++ i ++ match fo with Some f => 46 :: f | None => [] end ++ 101 :: sg ++ x) = true).
      { apply contains_one. apply in_or_app; right. apply in_or_app; right. apply in_or_app; right. left. reflexivity. }
      congruence.
    + assert (K : contains [69] (minus neg ++ i ++ match fo with Some f => 46 :: f | None => [] end ++ 69 :: sg ++ x) = true).
      { apply contains_one. apply in_or_app; right. apply in_or_app; right. apply in_or_app; right. left. reflexivity. }
      congruence.
Qed.
Lemma some_point neg d : legal_decimal d -> (contains [46] (minus neg ++ spelling d) = true \/ contains [101] (minus neg ++ spelling d) = true \/
  contains [69] (minus neg ++ spelling d) = true) -> has_point d.
Proof.
  destruct d as [i fo xo]. intros (F & _ & _ & _) H. rewrite !contains_one in H. unfold has_point. cbn [d_int d_frac d_exp] in *. unfold spelling in H.
  cbn [d_int d_frac d_exp] in H. destruct fo as [f|]; [left; discriminate|]. destruct xo as [x|]; [right; discriminate|]. exfalso.
  cbn [app] in H. rewrite app_nil_r in H. rewrite Forall_forall in F.
  assert (D : forall c, In c (minus neg ++ i) -> c = 45 \/ decimal_digit c).
  { intros c Hc. apply in_app_or in Hc. destruct Hc as [Hc|Hc]; [left|right; auto]. destruct neg; [destruct Hc as [<-|[]]; reflexivity|destruct Hc]. }
  unfold decimal_digit in D. destruct H as [H|[H|H]]; apply D in H; lia.
Qed.

Lemma number_app base a b : number base (a ++ b) = fold_left (fun v d => v * base + d) b (number base a).
Proof. unfold number. apply fold_left_app. Qed.

Theorem floating_denotes finite t is_float e : floating finite t is_float = Some e ->
  (t = txt "nan" /\ e = txt "std::numeric_limits<" ++ (if is_float then txt "float" else txt "double") ++ txt ">::quiet_NaN()") \/
  (exists neg, t = minus neg ++ txt "inf" /\ e = minus neg ++ txt "std::numeric_limits<" ++ (if is_float then txt "float" else txt "double") ++ txt ">::infinity()") \/
  exists neg d d', t = minus neg ++ spelling d /\ legal_decimal d /\ finite t is_float = true /\ same_value d d' /\ float_expression is_float neg d' e.
Proof.
  unfold floating. destruct (same t (txt "nan")) eqn:E1; [apply same_spec in E1; intros [= <-]; left; auto|].
  destruct (same t (txt "inf") || same t (txt "-inf")) eqn:E2.
  - apply orb_true_iff in E2. rewrite !same_spec in E2. intros [= <-]. right; left. destruct E2 as [-> | ->]; [exists false|exists true]; split; reflexivity.
  - destruct (float_shape t && finite t is_float) eqn:E3; cbn [negb]; [|discriminate]. apply andb_true_iff in E3. destruct E3 as [E3 E4].
    destruct (float_shape_sound t E3) as (neg & d & -> & L). intros H. right; right. exists neg, d.
    destruct (contains [46] (minus neg ++ spelling d)) eqn:C1; [|destruct (contains [101] (minus neg ++ spelling d)) eqn:C2; [|destruct (contains [69] (minus neg ++ spelling d)) eqn:C3]];
      cbn [andb negb] in H.
    1-3: exists d; assert (P : has_point d) by (apply (some_point neg); tauto); (split; [reflexivity|]); (split; [exact L|]); (split; [exact E4|]);
      (split; [unfold same_value; reflexivity|]); destruct is_float; cbn [negb] in H; injection H as <-;
      [rewrite <- app_assoc; apply FLiteral; assumption|rewrite <- app_assoc; apply FCast; (reflexivity || assumption)].
    destruct (no_point neg d L C1 C2 C3) as [Nf Nx]. exists (Decimal (d_int d) (Some [48]) None). injection H as <-.
    destruct d as [i fo xo]. cbn [d_int d_frac d_exp] in *. subst fo xo. destruct L as (F1 & _ & N & _). cbn [d_int d_frac d_exp] in *.
    split; [reflexivity|]. split; [split; [exact F1|]; split; [constructor|]; split; [exact N|exact I]|]. split; [exact E4|]. split.
    + unfold same_value, exponent, mantissa. cbn [d_int d_frac d_exp]. change (zlen [48]) with 1. change (Z.min (0 - 0) (0 - 1)) with (-1).
      change (0 - 0 - -1) with 1. change (0 - 1 - -1) with 0. unfold digit_values. rewrite app_nil_r, map_app, number_app. cbn [map fold_left].
      change (48 - 48) with 0. rewrite Z.pow_1_r, Z.pow_0_r. lia.
    + match goal with |- float_expression _ _ _ ?e => replace e with (minus neg ++ spelling (Decimal i (Some [48]) None) ++ (if is_float then [70] else [])) end.
      * apply (FLiteral is_float neg (Decimal i (Some [48]) None)); [|left; discriminate]. destruct N as [N|(f & N & _)]; [|discriminate].
        split; [exact F1|]. split; [constructor; [unfold decimal_digit; lia|constructor]|]. split; [left; exact N|exact I].
      * unfold spelling. cbn [d_int d_frac d_exp]. rewrite !app_nil_r, <- !app_assoc. reflexivity.
Qed.
Theorem floating_accepts finite neg d is_float : legal_decimal d -> finite (minus neg ++ spelling d) is_float = true ->
  exists e, floating finite (minus neg ++ spelling d) is_float = Some e.
Proof.
  intros L F. unfold floating. destruct (same _ _); [eauto|]. destruct (_ || _); [eauto|]. rewrite float_shape_complete, F by exact L. cbn [andb negb].
  destruct (_ && _); [eauto|]. destruct is_float; eexists; reflexivity.
Qed.
