From Coq Require Import Ascii String.
Require Import Verif.Bits Verif.CppText Verif.CppSpec.
Local Open Scope list_scope.

(** ** String literals *)
(** The shape of one escape. *)
Lemma escape_cases b : is_byte b ->
  (escape b = [b] /\ 32 <= b < 127 /\ b <> 34 /\ b <> 92 /\ b <> 63 /\ b <> 39) \/
  (exists c, escape b = [92; c] /\ simple_escape c = Some b /\ octal c = false /\ 33 <= c < 127) \/
  (escape b = [92; 48 + b / 64; 48 + (b / 8) mod 8; 48 + b mod 8]).
Proof.
  intros Hb. unfold is_byte in Hb. unfold escape.
  repeat match goal with |- context [if b =? ?k then _ else _] => destruct (Z.eqb_spec b k); [subst; right; left; eexists; repeat split; reflexivity || lia|] end.
  destruct (Z.ltb_spec b 32); [right; right; reflexivity|].
  destruct (Z.leb_spec 127 b); [right; right; reflexivity|].
  left. repeat split; lia.
Qed.

Lemma read_escape b r : is_byte b -> read_body (escape b ++ r) = put b (read_body r).
Proof.
  intros Hb. destruct (escape_cases b Hb) as [(E & H)|[(c & E & Hs & Ho & H)|E]]; rewrite E; cbn [app read_body].
  - destruct (Z.eqb_spec b 34); [lia|]. destruct (Z.eqb_spec b 10); [lia|]. destruct (Z.eqb_spec b 13); [lia|].
    destruct (Z.eqb_spec b 92); [lia|]. reflexivity.
  - change (92 =? 34) with false. change ((92 =? 10) || (92 =? 13)) with false. change (92 =? 92) with true.
    cbn match. rewrite Ho, Hs. reflexivity.
  - change (92 =? 34) with false. change ((92 =? 10) || (92 =? 13)) with false. change (92 =? 92) with true. cbn match.
    unfold is_byte in Hb.
    assert (O1 : octal (48 + b / 64) = true) by (unfold octal; apply andb_true_intro; split; apply Z.leb_le; lia).
    assert (O2 : octal (48 + (b / 8) mod 8) = true) by (unfold octal; apply andb_true_intro; split; apply Z.leb_le; lia).
    assert (O3 : octal (48 + b mod 8) = true) by (unfold octal; apply andb_true_intro; split; apply Z.leb_le; lia).
    rewrite O1, O2, O3. f_equal. lia.
Qed.

Lemma read_escapes bs r : all_bytes bs -> read_body (concat (map escape bs) ++ 34 :: r) = Some (bs, r).
Proof.
  induction 1 as [|b bs Hb _ IH]; [reflexivity|]. cbn [map concat]. rewrite <- app_assoc, read_escape, IH by assumption.
  unfold put. unfold is_byte in Hb. destruct (Z.ltb_spec b 256); [reflexivity|lia].
Qed.
Theorem literal_denotes bs r : all_bytes bs -> read_literal (string_literal bs ++ r) = Some (bs, r).
Proof. intros H. unfold string_literal. cbn [app read_literal]. rewrite <- app_assoc. apply read_escapes, H. Qed.

(** ** Phases 1 and 2 *)
Definition hd_not (c : Z) (l : bytes) : Prop := match l with x :: _ => x <> c | [] => True end.
Inductive no_qq : bytes -> Prop :=
| NQ_nil : no_qq []
| NQ_cons c t : (c <> 63 \/ (t <> [] /\ hd_not 63 t)) -> no_qq t -> no_qq (c :: t).

Lemma phase1_step c u : c <> 63 \/ hd_not 63 u -> phase1 (c :: u) = c :: phase1 u.
Proof.
  intros H. cbn [phase1]. destruct u as [|d [|e t]]; try reflexivity. cbn [hd_not] in H.
  destruct (Z.eqb_spec c 63); destruct (Z.eqb_spec d 63); cbn [andb]; try reflexivity. exfalso; intuition congruence.
Qed.
Lemma phase1_app l r : no_qq l -> phase1 (l ++ r) = l ++ phase1 r.
Proof.
  induction 1 as [|c t Hc Ht IH]; [reflexivity|]. cbn [app]. rewrite phase1_step, IH; [reflexivity|].
  destruct Hc as [Hc|[Hn Hc]]; [left; exact Hc|right]. destruct t; [congruence|exact Hc].
Qed.

Definition printable (c : Z) : Prop := 32 <= c < 127.
(** [l] followed by anything that neither is empty nor starts with a question mark. *)
Definition piece (l : bytes) : Prop := forall r, no_qq r -> hd_not 63 r -> r <> [] -> no_qq (l ++ r) /\ hd_not 63 (l ++ r).
Lemma escape_piece b : is_byte b -> piece (escape b).
Proof.
  intros Hb r Q H N. destruct (escape_cases b Hb) as [(E & B)|[(c & E & _ & _ & B)|E]]; rewrite E; cbn [app hd_not].
  - split; [constructor; [left; lia|assumption]|lia].
  - split; [constructor; [left; lia|constructor; [tauto|assumption]]|lia].
  - unfold is_byte in Hb. split; [|lia]. repeat (constructor; [left; lia|]). assumption.
Qed.
Lemma escape_printable b : is_byte b -> Forall printable (escape b).
Proof.
  intros Hb. destruct (escape_cases b Hb) as [(E & B)|[(c & E & _ & _ & B)|E]]; rewrite E; unfold is_byte in Hb;
    repeat (constructor; [unfold printable; lia|]); constructor.
Qed.

Lemma pieces bs tail : all_bytes bs -> no_qq tail -> hd_not 63 tail -> tail <> [] ->
  no_qq (concat (map escape bs) ++ tail) /\ hd_not 63 (concat (map escape bs) ++ tail).
Proof.
  intros Hp Q H N. induction Hp as [|b bs Hb Hp IH]; [cbn [map concat app]; auto|].
  destruct IH as (Q' & H').
  cbn [map concat]. rewrite <- app_assoc. apply (escape_piece b Hb); try assumption.
  destruct (concat (map escape bs)); [assumption|discriminate].
Qed.

Lemma literal_no_qq bs : all_bytes bs -> no_qq (string_literal bs).
Proof.
  intros Hb. unfold string_literal. constructor; [left; lia|]. apply pieces; [exact Hb| |cbn; lia|discriminate].
  constructor; [left; lia|constructor].
Qed.
Lemma literal_printable bs : all_bytes bs -> Forall printable (string_literal bs).
Proof.
  intros Hb. constructor; [unfold printable; lia|]. apply Forall_app. split; [|constructor; [unfold printable; lia|constructor]].
  apply Forall_concat, Forall_map. eapply Forall_impl; [|exact Hb]. apply escape_printable.
Qed.
Theorem literal_phase1 bs r : all_bytes bs -> phase1 (string_literal bs ++ r) = string_literal bs ++ phase1 r.
Proof. intros H. apply phase1_app, literal_no_qq, H. Qed.

Lemma blank_line_end_char c t : 33 <= c < 127 -> blank_line_end (c :: t) = false.
Proof.
  intros H. cbn [blank_line_end]. destruct (Z.eqb_spec c 10); [lia|]. destruct (Z.eqb_spec c 13); [lia|].
  destruct (Z.eqb_spec c 32); [lia|]. destruct (Z.eqb_spec c 9); [lia|]. reflexivity.
Qed.
Lemma blank_line_end_quote l r : Forall printable l -> blank_line_end (l ++ 34 :: r) = false.
Proof.
  induction 1 as [|c l Hc _ IH]; [reflexivity|]. cbn [app]. unfold printable in Hc.
  destruct (Z.eq_dec c 32) as [->|]; [exact IH|]. apply blank_line_end_char. lia.
Qed.
Theorem literal_no_splice bs r a b : all_bytes bs -> string_literal bs = a ++ 92 :: b -> blank_line_end (b ++ r) = false.
Proof.
  intros H E. pose proof (literal_printable bs H) as P. destruct (exists_last (l := b)) as (b' & z & ->).
  { intros ->. unfold string_literal in E. change (34 :: concat (map escape bs) ++ [34]) with ((34 :: concat (map escape bs)) ++ [34]) in E.
    apply app_inj_tail in E. destruct E as [_ E]. discriminate. }
  assert (z = 34) as ->.
  { unfold string_literal in E. change (34 :: concat (map escape bs) ++ [34]) with ((34 :: concat (map escape bs)) ++ [34]) in E.
    change (a ++ 92 :: b' ++ [z]) with (a ++ (92 :: b') ++ [z]) in E. rewrite app_assoc in E. apply app_inj_tail in E. symmetry. apply E. }
  rewrite E in P. apply Forall_app in P. destruct P as [_ P]. inversion P as [|? ? _ P']; subst. apply Forall_app in P'.
  rewrite <- app_assoc. apply blank_line_end_quote, P'.
Qed.

(** ** Comments *)
Lemma comment_cases b : is_byte b ->
  (comment_char b = [b] /\ 32 <= b < 127 /\ b <> 92 /\ b <> 63) \/
  (exists c, comment_char b = [92; c] /\ simple_escape c = Some b /\ octal c = false /\ 65 <= c < 127 /\ c <> 92) \/
  (comment_char b = [92; 48 + b / 64; 48 + (b / 8) mod 8; 48 + b mod 8]).
Proof.
  intros Hb. unfold comment_char.
  destruct (Z.eqb_spec b 13); [subst; right; left; eexists; repeat split; reflexivity || lia|].
  destruct (Z.eqb_spec b 10); [subst; right; left; eexists; repeat split; reflexivity || lia|].
  destruct (Z.eqb_spec b 92); [subst; right; right; reflexivity|].
  destruct (Z.eqb_spec b 63); [subst; right; right; reflexivity|].
  assert (L : forall c, simple_escape c = Some b -> b < 32 -> 65 <= c < 127 /\ c <> 92).
  { intros c. unfold simple_escape. repeat match goal with |- context [if c =? ?k then _ else _] => destruct (Z.eqb_spec c k); [intros [= <-]; lia|] end. discriminate. }
  assert (L' : forall c, simple_escape c = Some b -> b < 127).
  { intros c. unfold simple_escape. repeat match goal with |- context [if c =? ?k then _ else _] => destruct (Z.eqb_spec c k); [intros [= <-]; lia|] end. discriminate. }
  unfold is_byte in Hb.
  destruct (Z.ltb_spec b 32); cbn [orb].
  - destruct (escape_cases b Hb) as [(E & B)|[(c & E & Hs & Ho & B)|E]]; [lia| |right; right; exact E].
    right; left. exists c. specialize (L c Hs). split; [exact E|]. split; [exact Hs|]. split; [exact Ho|]. apply L. assumption.
  - destruct (Z.leb_spec 127 b).
    + destruct (escape_cases b Hb) as [(E & B)|[(c & E & Hs & Ho & B)|E]]; [lia| |right; right; exact E].
      specialize (L' c Hs). lia.
    + left. repeat split; lia.
Qed.
Lemma comment_chars bs : all_bytes bs -> Forall (fun c => printable c /\ c <> 63) (comment_text bs).
Proof.
  unfold comment_text. induction 1 as [|b bs Hb _ IH]; [constructor|]. cbn [map concat]. apply Forall_app. split; [|exact IH].
  destruct (comment_cases b Hb) as [(E & B)|[(c & E & _ & _ & B & B')|E]]; rewrite E; unfold is_byte in Hb;
    repeat (constructor; [unfold printable; lia|]); constructor.
Qed.

Ltac peel E := let K := fresh "K" in pose proof (f_equal (hd 0) E) as K; apply (f_equal (@tl Z)) in E; cbn [app hd tl] in K, E.
(** No backslash of a comment is at a line end, and no backslash follows another. *)
Lemma comment_backslash bs : all_bytes bs -> forall a b, comment_text bs = a ++ 92 :: b ->
  exists c t, b = c :: t /\ 33 <= c < 127 /\ c <> 92.
Proof.
  unfold comment_text. induction 1 as [|b0 bs Hb _ IH]; intros a b E; cbn [map concat] in E; [destruct a; discriminate|].
  unfold is_byte in Hb.
  destruct (comment_cases b0 Hb) as [(K & B)|[(c & K & _ & _ & B & B')|K]]; rewrite K in E; cbn [app] in E.
  - destruct a as [|x a]; peel E; [lia|]. eapply IH; exact E.
  - destruct a as [|x a]; peel E; [eexists _, _; split; [symmetry; exact E|lia]|].
    destruct a as [|y a]; peel E; [lia|]. eapply IH; exact E.
  - destruct a as [|x a]; peel E; [eexists _, _; split; [symmetry; exact E|lia]|].
    destruct a as [|y a]; peel E; [lia|].
    destruct a as [|z a]; peel E; [lia|].
    destruct a as [|t a]; peel E; [lia|]. eapply IH; exact E.
Qed.

(** Reading the escapes of a comment back. *)
Lemma comment_char_prefix a b x y : is_byte a -> is_byte b -> comment_char a ++ x = comment_char b ++ y -> a = b /\ x = y.
Proof.
  intros Ha Hb E.
  assert (Ho : forall c v, simple_escape c = Some v -> octal c = false -> forall k, 0 <= k < 8 -> c <> 48 + k).
  { intros c v _ F k Hk ->. unfold octal in F. apply andb_false_iff in F. destruct F as [F|F]; apply Z.leb_gt in F; lia. }
  unfold is_byte in *.
  destruct (comment_cases a Ha) as [(K & B)|[(c & K & S1 & O1 & B & _)|K]]; destruct (comment_cases b Hb) as [(K' & B2)|[(c' & K' & S2 & O2 & B2 & _)|K']];
    rewrite K, K' in E; cbn [app] in E; peel E; try lia.
  - auto.
  - peel E. split; [congruence|exact E].
  - peel E. exfalso. apply (Ho c a S1 O1 (b / 64)); [lia|assumption].
  - peel E. exfalso. apply (Ho c' b S2 O2 (a / 64)); [lia|symmetry; assumption].
  - do 3 peel E. split; [lia|exact E].
Qed.
Lemma comment_injective a : forall b, all_bytes a -> all_bytes b -> comment_text a = comment_text b -> a = b.
Proof.
  assert (N : forall b, is_byte b -> comment_char b <> []).
  { intros b Hb. destruct (comment_cases b Hb) as [(K & _)|[(c & K & _)|K]]; rewrite K; discriminate. }
  unfold comment_text. induction a as [|x a IH]; intros [|y b] Ha Hb E; cbn [map concat] in E; try reflexivity.
  - inversion Hb; subst. destruct (comment_char y) eqn:K; [exfalso; eapply N; [|exact K]; assumption|discriminate].
  - inversion Ha; subst. destruct (comment_char x) eqn:K; [exfalso; eapply N; [|exact K]; assumption|discriminate].
  - inversion Ha; inversion Hb; subst. destruct (comment_char_prefix x y _ _ ltac:(assumption) ltac:(assumption) E) as [-> E'].
    f_equal. apply IH; assumption.
Qed.

Lemma comment_phase1 bs r : all_bytes bs -> phase1 (comment_text bs ++ r) = comment_text bs ++ phase1 r.
Proof.
  intros H. apply phase1_app. induction (comment_chars bs H) as [|c l [_ Hc] _ IH]; constructor; [left; exact Hc|exact IH].
Qed.
Lemma comment_no_splice bs r a b : all_bytes bs -> comment_text bs = a ++ 92 :: b -> blank_line_end (b ++ r) = false.
Proof. intros H E. destruct (comment_backslash bs H a b E) as (c & t & -> & B & _). cbn [app]. apply blank_line_end_char, B. Qed.
