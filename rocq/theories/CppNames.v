From Coq Require Import Ascii String.
Require Import Verif.Bits Verif.CppText Verif.CppSpec.
Local Open Scope list_scope.

Lemma same_spec a b : same a b = true <-> a = b.
Proof. unfold same. destruct (list_eq_dec Z.eq_dec a b); split; congruence. Qed.
Lemma existsb_same n l : existsb (same n) l = true <-> In n l.
Proof.
  rewrite existsb_exists. split; [intros (x & Hx & E); apply same_spec in E; congruence|intros H; exists n; split; [exact H|apply same_spec; reflexivity]].
Qed.

(** ** Characters *)
Lemma is_alpha_spec b : is_alpha b = true <-> letter b.
Proof. unfold is_alpha, letter. rewrite orb_true_iff, !andb_true_iff, !Z.leb_le. tauto. Qed.
Lemma is_digit_spec b : is_digit b = true <-> decimal_digit b.
Proof. unfold is_digit, decimal_digit. rewrite andb_true_iff, !Z.leb_le. tauto. Qed.
Lemma id_start_spec b : id_start b = true <-> letter b \/ b = 95.
Proof. unfold id_start. rewrite orb_true_iff, Z.eqb_eq, is_alpha_spec. tauto. Qed.
Lemma id_continue_spec b : id_continue b = true <-> letter b \/ decimal_digit b \/ b = 95.
Proof. unfold id_continue. rewrite !orb_true_iff, Z.eqb_eq, is_alpha_spec, is_digit_spec. tauto. Qed.
Lemma well_formed_spec n : well_formed n = true <-> identifier n.
Proof.
  unfold well_formed, identifier. destruct n as [|c t]; [split; [discriminate|tauto]|].
  rewrite andb_true_iff, id_start_spec, forallb_forall, Forall_forall.
  split; intros [A B]; (split; [exact A|]); intros x Hx; apply id_continue_spec, B, Hx.
Qed.

(** ** Reserved names *)
Lemma starts_spec p : forall l, starts p l = true <-> exists r, l = p ++ r.
Proof.
  induction p as [|x p IH]; intros l; cbn [starts app]; [split; [intros _; eauto|reflexivity]|].
  destruct l as [|y l]; [split; [discriminate|intros (r & E); discriminate]|].
  rewrite andb_true_iff, Z.eqb_eq, IH. split.
  - intros (-> & r & ->). exists r. reflexivity.
  - intros (r & E). injection E as -> ->. split; [reflexivity|exists r; reflexivity].
Qed.
Lemma contains_spec p l : p <> [] -> contains p l = true <-> exists a b, l = a ++ p ++ b.
Proof.
  intros N. induction l as [|c t IH]; cbn [contains].
  - rewrite orb_false_r, starts_spec. split; [intros (r & E); exists [], r; exact E|].
    intros (a & b & E). destruct a; [exists b; exact E|discriminate].
  - rewrite orb_true_iff, starts_spec, IH. split.
    + intros [(r & E)|(a & b & ->)]; [exists [], r; exact E|exists (c :: a), b; reflexivity].
    + intros (a & b & E). destruct a as [|x a]; [left; exists b; exact E|]. injection E as -> ->. right. exists a, b. reflexivity.
Qed.
Lemma is_reserved_spec n : is_reserved n = true <-> reserved n.
Proof.
  unfold is_reserved, reserved. rewrite orb_true_iff, contains_spec by discriminate. apply or_iff_compat_l.
  destruct n as [|c [|d t]]; [split; [discriminate|intros (? & ? & ? & _); discriminate]..|].
  rewrite !andb_true_iff, Z.eqb_eq, !Z.leb_le. split.
  - intros ((-> & A) & B). exists d, t. auto.
  - intros (c' & t' & E & B). injection E as -> -> ->. lia.
Qed.
Lemma is_reserved_false n : is_reserved n = false <-> ~ reserved n.
Proof. rewrite <- is_reserved_spec. destruct (is_reserved n); split; congruence. Qed.

(** ** Keywords *)
Lemma keywords_covered : forallb (fun k => existsb (same k) cpp_keywords) keywords = true.
Proof. vm_compute. reflexivity. Qed.
Lemma keyword_known n : In n keywords -> is_keyword n = true.
Proof. intros H. pose proof keywords_covered as K. rewrite forallb_forall in K. apply K, H. Qed.
(** No keyword ends in an underscore, and none is a reserved name. *)
Lemma cpp_keywords_shape : forallb (fun k => well_formed k && negb (is_reserved k) && negb (last_is 95 k) && existsb (same k) keywords) cpp_keywords = true.
Proof. vm_compute. reflexivity. Qed.
Lemma keyword_shape n : is_keyword n = true -> identifier n /\ ~ reserved n /\ last_is 95 n = false /\ In n keywords.
Proof.
  unfold is_keyword. rewrite existsb_same. intros H. pose proof cpp_keywords_shape as K. rewrite forallb_forall in K. specialize (K n H).
  rewrite !andb_true_iff, !negb_true_iff, well_formed_spec, is_reserved_false, existsb_same in K. tauto.
Qed.
Lemma is_keyword_spec n : is_keyword n = true <-> In n keywords.
Proof. split; [apply keyword_shape|apply keyword_known]. Qed.

Lemma last_is_app c a x : last_is c (a ++ [x]) = (x =? c).
Proof. unfold last_is. rewrite rev_app_distr. reflexivity. Qed.
Lemma last_is_app2 c a x b : last_is c (a ++ x :: b) = last_is c (x :: b).
Proof. unfold last_is. rewrite rev_app_distr. cbn [rev]. destruct (rev b); reflexivity. Qed.
Lemma last_is_true c a : last_is c a = true -> exists b, a = b ++ [c].
Proof.
  unfold last_is. intros H. destruct (rev a) as [|x r] eqn:E; [discriminate|]. apply Z.eqb_eq in H. subst x.
  exists (rev r). rewrite <- (rev_involutive a), E. reflexivity.
Qed.

(** Appending to an identifier. *)
Lemma identifier_app n w : identifier n -> Forall (fun b => letter b \/ decimal_digit b \/ b = 95) w -> identifier (n ++ w).
Proof. destruct n as [|c t]; cbn [identifier app]; [tauto|]. intros [A B] C. split; [exact A|]. apply Forall_app. auto. Qed.
Lemma underscores_app a b : (forall x y, a ++ b <> x ++ [95; 95] ++ y) <->
  (forall x y, a <> x ++ [95; 95] ++ y) /\ (forall x y, b <> x ++ [95; 95] ++ y) /\ ~ (last_is 95 a = true /\ starts [95] b = true).
Proof.
  split.
  - intros H. split; [|split].
    + intros x y ->. apply (H x (y ++ b)). rewrite <- !app_assoc. reflexivity.
    + intros x y ->. apply (H (a ++ x) y). rewrite <- !app_assoc. reflexivity.
    + intros [A B]. apply last_is_true in A. destruct A as (a' & ->). apply starts_spec in B. destruct B as (r & ->).
      apply (H a' r). rewrite <- !app_assoc. reflexivity.
  - intros (A & B & C) x y. revert x A C. induction a as [|c a IH]; intros x A C E.
    + cbn [app] in E. exact (B x y E).
    + destruct x as [|d x]; cbn [app] in E.
      * injection E as -> E. destruct a as [|e a].
        { cbn [app] in E. apply C. split; [reflexivity|]. apply starts_spec. exists y. exact E. }
        { cbn [app] in E. injection E as -> E. apply (A [] a). reflexivity. }
      * injection E as -> E. apply (IH x).
        { intros x' y' ->. apply (A (d :: x') y'). reflexivity. }
        { intros [D F]. apply C. split; [|exact F]. destruct a as [|z a]; [discriminate|]. unfold last_is in *. cbn [rev] in *.
          destruct (rev a) as [|w r]; cbn [app] in *; exact D. }
        { exact E. }
Qed.
Lemma not_reserved_app n w : n <> [] -> ~ reserved n -> (forall x y, w <> x ++ [95; 95] ++ y) -> ~ (last_is 95 n = true /\ starts [95] w = true) ->
  (match w with c :: _ => ~ (65 <= c <= 90) \/ n <> [95] | [] => True end) -> ~ reserved (n ++ w).
Proof.
  intros N R W J U. unfold reserved in *. intros [(a & b & E)|(c & t & E & B)].
  - revert a b E. apply underscores_app. split; [|split; assumption]. intros x y ->. apply R. left. eauto.
  - destruct n as [|x [|y n]]; [congruence| |].
    + cbn [app] in E. injection E as -> ->. destruct U as [U|U]; [lia|congruence].
    + cbn [app] in E. injection E as -> -> E. apply R. right. eauto.
Qed.

(** ** from_proto *)
Lemma safe_identifier_usable n : identifier n -> ~ reserved n -> usable (safe_identifier n).
Proof.
  intros I R. unfold safe_identifier. destruct (is_keyword n) eqn:K.
  - destruct (keyword_shape n K) as (_ & _ & L & _).
    assert (n <> []) by (destruct n; [destruct I|discriminate]).
    split; [|split].
    + apply identifier_app; [exact I|]. constructor; [tauto|constructor].
    + intros Hin. apply keyword_known, keyword_shape in Hin. destruct Hin as (_ & _ & L' & _). rewrite last_is_app in L'. discriminate.
    + apply not_reserved_app; try assumption.
      * intros [|x [|y l]] r; cbn [app]; intros E; discriminate.
      * rewrite L. intros [D _]. discriminate.
      * left. lia.
  - split; [exact I|split; [|exact R]]. intros Hin. apply keyword_known in Hin. congruence.
Qed.
Theorem from_proto_usable n r : from_proto n = Some r -> usable r.
Proof.
  unfold from_proto. destruct (well_formed n) eqn:W; cbn [andb]; [|discriminate]. destruct (is_reserved n) eqn:R; cbn [negb]; [discriminate|].
  intros [= <-]. apply safe_identifier_usable; [apply well_formed_spec, W|apply is_reserved_false, R].
Qed.
Theorem from_proto_accepts n : (exists r, from_proto n = Some r) <-> identifier n /\ ~ reserved n.
Proof.
  unfold from_proto. rewrite <- well_formed_spec, <- is_reserved_false.
  destruct (well_formed n), (is_reserved n); cbn [andb negb]; split; (intros (r & H) || intros [A B]); try discriminate; eauto.
Qed.
Theorem from_proto_result n r : from_proto n = Some r -> (In n keywords -> r = n ++ [95]) /\ (~ In n keywords -> r = n).
Proof.
  unfold from_proto. destruct (well_formed n && negb (is_reserved n)); [|discriminate]. intros [= <-]. unfold safe_identifier.
  rewrite <- is_keyword_spec. destruct (is_keyword n); split; congruence.
Qed.
Theorem from_proto_collision a b r : from_proto a = Some r -> from_proto b = Some r ->
  a = b \/ (In a keywords /\ b = a ++ [95]) \/ (In b keywords /\ a = b ++ [95]).
Proof.
  intros A B. destruct (from_proto_result a r A) as [A1 A2]. destruct (from_proto_result b r B) as [B1 B2].
  destruct (is_keyword a) eqn:Ka; [apply is_keyword_spec in Ka|assert (~ In a keywords) by (rewrite <- is_keyword_spec; congruence)];
    (destruct (is_keyword b) eqn:Kb; [apply is_keyword_spec in Kb|assert (~ In b keywords) by (rewrite <- is_keyword_spec; congruence)]).
  - specialize (A1 Ka). specialize (B1 Kb). left. subst r. apply app_inj_tail in B1. symmetry. apply B1 || (destruct B1; congruence).
  - right; left. split; [exact Ka|]. rewrite <- B2 by assumption. apply A1, Ka.
  - right; right. split; [exact Kb|]. rewrite <- A2 by assumption. apply B1, Kb.
  - left. rewrite <- A2, <- B2 by assumption. reflexivity.
Qed.

(** ** Derived names *)
(** Words the generator appends: lower-case first letter, no double underscore. *)
Definition suffix_word (w : bytes) : Prop :=
  identifier w /\ ~ reserved w /\ (match w with c :: _ => 97 <= c <= 122 | [] => False end) /\
  (forall n, is_keyword (n ++ 95 :: w) = false).
Lemma word_chars w : identifier w -> Forall (fun b => letter b \/ decimal_digit b \/ b = 95) w.
Proof. destruct w as [|c t]; [constructor|]. intros [A B]. constructor; [tauto|exact B]. Qed.
Lemma append_word_split n w : append_word n w = n ++ w /\ last_is 95 n = true \/ append_word n w = n ++ 95 :: w /\ last_is 95 n = false.
Proof. unfold append_word. destruct (last_is 95 n); [left; auto|right]. rewrite <- app_assoc. auto. Qed.
Lemma append_word_usable n w : identifier n -> ~ reserved n -> suffix_word w -> usable (append_word n w).
Proof.
  intros I R (Iw & Rw & Lw & Kw).
  assert (N : n <> []) by (destruct n; [destruct I|discriminate]).
  assert (Ww : forall x y, w <> x ++ [95; 95] ++ y) by (intros x y ->; apply Rw; left; eauto).
  assert (Sw : starts [95] w = false).
  { destruct w as [|c t]; [reflexivity|]. cbn [starts]. destruct (Z.eqb_spec 95 c); [lia|reflexivity]. }
  destruct (append_word_split n w) as [[-> L]|[-> L]].
  - split; [apply identifier_app; [exact I|apply word_chars, Iw]|split].
    + intros Hin. apply keyword_known in Hin. destruct (last_is_true _ _ L) as (b & ->). rewrite <- app_assoc in Hin. cbn [app] in Hin.
      rewrite Kw in Hin. discriminate.
    + apply not_reserved_app; try assumption; [rewrite Sw; intros [_ D]; discriminate|]. destruct w; [exact Logic.I|left; lia].
  - split; [apply identifier_app; [exact I|constructor; [tauto|apply word_chars, Iw]]|split].
    + intros Hin. apply keyword_known in Hin. rewrite Kw in Hin. discriminate.
    + apply not_reserved_app; try assumption.
      * apply (underscores_app [95] w). split; [|split; [exact Ww|rewrite Sw; intros [_ D]; discriminate]].
        intros [|x [|y l]] r; cbn [app]; intros E; discriminate.
      * rewrite L. intros [D _]. discriminate.
      * left. lia.
Qed.
Lemma disambiguated_usable n w : identifier n -> ~ reserved n -> suffix_word w -> usable (disambiguated_with n w).
Proof.
  intros I R W. unfold disambiguated_with. destruct (last_is 95 n) eqn:L; [apply append_word_usable; assumption|].
  assert (N : n <> []) by (destruct n; [destruct I|discriminate]).
  split; [|split].
  - apply identifier_app; [exact I|]. constructor; [tauto|constructor].
  - intros Hin. apply keyword_known, keyword_shape in Hin. destruct Hin as (_ & _ & L' & _). rewrite last_is_app in L'. discriminate.
  - apply not_reserved_app; try assumption.
    + intros [|x [|y l]] r; cbn [app]; intros E; discriminate.
    + rewrite L. intros [D _]. discriminate.
    + left. lia.
Qed.

Fixpoint suffix_of (w n : bytes) : bool := same w n || match n with [] => false | _ :: t => suffix_of w t end.
Lemma suffix_of_app w a : suffix_of w (a ++ w) = true.
Proof.
  induction a as [|x a IH]; cbn [app].
  - destruct w; cbn [suffix_of]; apply orb_true_iff; left; apply same_spec; reflexivity.
  - cbn [suffix_of]. rewrite IH. apply orb_true_r.
Qed.
Lemma suffix_word_check w : well_formed w && negb (is_reserved w) && match w with c :: _ => (97 <=? c) && (c <=? 122) | [] => false end &&
  forallb (fun k => negb (suffix_of (95 :: w) k)) cpp_keywords = true -> suffix_word w.
Proof.
  rewrite !andb_true_iff, negb_true_iff, well_formed_spec, is_reserved_false, forallb_forall. intros (((A & B) & C) & D).
  split; [exact A|split; [exact B|split]].
  - destruct w as [|c t]; [discriminate|]. rewrite andb_true_iff, !Z.leb_le in C. exact C.
  - intros n. destruct (is_keyword (n ++ 95 :: w)) eqn:K; [|reflexivity]. apply existsb_same in K. specialize (D _ K).
    rewrite suffix_of_app in D. discriminate.
Qed.
Lemma suffix_words w : In w [txt "oneof_case"; txt "oneof_numbers"; txt "nested"] -> suffix_word w.
Proof. intros [<-|[<-|[<-|[]]]]; apply suffix_word_check; vm_compute; reflexivity. Qed.

Lemma append_word_injective a b w : append_word a w = append_word b w -> a = b \/ b = a ++ [95] \/ a = b ++ [95].
Proof.
  intros E. destruct (append_word_split a w) as [[Ea La]|[Ea La]]; destruct (append_word_split b w) as [[Eb Lb]|[Eb Lb]]; rewrite Ea, Eb in E.
  - left. apply app_inv_tail in E. exact E.
  - right; right. change (b ++ 95 :: w) with (b ++ [95] ++ w) in E. rewrite app_assoc in E. apply app_inv_tail in E. exact E.
  - right; left. change (a ++ 95 :: w) with (a ++ [95] ++ w) in E. rewrite app_assoc in E. apply app_inv_tail in E. symmetry. exact E.
  - left. apply app_inv_tail in E. exact E.
Qed.
Lemma disambiguated_injective a b w : w <> [] -> last_is 95 w = false -> disambiguated_with a w = disambiguated_with b w -> a = b.
Proof.
  intros N L. unfold disambiguated_with, append_word.
  assert (K : forall n, last_is 95 (n ++ w) = false) by (intros n; destruct w; [congruence|rewrite last_is_app2; exact L]).
  destruct (last_is 95 a) eqn:La, (last_is 95 b) eqn:Lb; intros E.
  - apply app_inv_tail in E. exact E.
  - exfalso. specialize (K a). rewrite E, last_is_app in K. discriminate.
  - exfalso. specialize (K b). rewrite <- E, last_is_app in K. discriminate.
  - apply app_inv_tail in E. exact E.
Qed.
Lemma disambiguated_differs n w : w <> [] -> disambiguated_with n w <> n.
Proof.
  intros N. unfold disambiguated_with, append_word. destruct (last_is 95 n); intros E; apply (f_equal (@length Z)) in E; rewrite app_length in E.
  - destruct w; [congruence|cbn [length] in E; lia].
  - cbn [length] in E. lia.
Qed.

Lemma suffix_words_nonempty w : In w [txt "oneof_case"; txt "oneof_numbers"; txt "nested"] -> w <> [].
Proof. intros W E. destruct (suffix_words w W) as (I & _). rewrite E in I. exact I. Qed.

(** ** Qualified names *)
Lemma join_qualified l : l <> [] -> qualified l (join l).
Proof.
  induction l as [|a [|b l] IH]; intros N; [congruence|constructor|]. change (join (a :: b :: l)) with (a ++ [58; 58] ++ join (b :: l)).
  constructor. apply IH. discriminate.
Qed.
Lemma all_some_spec {A} (l : list (option A)) r : all_some l = Some r <-> l = map Some r.
Proof.
  revert r. induction l as [|[x|] l IH]; intros r; cbn [all_some].
  - split; [intros [= <-]; reflexivity|]. destruct r; [reflexivity|discriminate].
  - destruct (all_some l) as [r'|] eqn:E.
    + split; [intros [= <-]; cbn [map]; f_equal; apply IH; reflexivity|]. destruct r as [|y r]; [discriminate|]. cbn [map]. intros [= -> H].
      apply IH in H. congruence.
    + split; [discriminate|]. destruct r as [|y r]; [discriminate|]. cbn [map]. intros [= -> H]. apply IH in H. discriminate.
  - split; [discriminate|]. destruct r; discriminate.
Qed.
(** [split] inverts joining with the separator. *)
Lemma split_spec sep l : unsplit sep (split sep l) = l /\ split sep l <> [] /\ Forall (fun w => ~ In sep w) (split sep l).
Proof.
  induction l as [|c t (U & N & F)]; cbn [split]; [split; [reflexivity|split; [discriminate|constructor; [intros []|constructor]]]|].
  destruct (Z.eqb_spec c sep) as [->|Hc].
  - split; [|split; [discriminate|constructor; [intros []|exact F]]]. destruct (split sep t) as [|w ws]; [congruence|].
    cbn [unsplit app]. cbn [unsplit] in U. rewrite U. reflexivity.
  - destruct (split sep t) as [|w ws]; [congruence|]. inversion F as [|? ? F1 F2]; subst. split; [|split; [discriminate|]].
    + destruct ws; cbn [unsplit app] in *; reflexivity.
    + constructor; [|exact F2]. intros [E|E]; [congruence|exact (F1 E)].
Qed.
Theorem from_dotted_spec n q : from_dotted n = Some q ->
  n = [] /\ q = [] \/
  exists names segs, n = unsplit 46 names /\ names <> [] /\ Forall (fun w => ~ In 46 w) names /\
    Forall2 (fun w s => from_proto w = Some s) names segs /\ Forall usable segs /\ qualified segs q.
Proof.
  unfold from_dotted. destruct n as [|c t]; [intros [= <-]; left; auto|]. intros H. right.
  destruct (all_some (map from_proto (split 46 (c :: t)))) as [l|] eqn:E; [|discriminate]. injection H as <-.
  apply all_some_spec in E. destruct (split_spec 46 (c :: t)) as (U & N & F). remember (split 46 (c :: t)) as names.
  assert (F2 : Forall2 (fun w s => from_proto w = Some s) names l).
  { clear -E. revert l E. induction names as [|w names IH]; intros [|s l] E; try discriminate; constructor; cbn [map] in E; injection E as E1 E2; auto. }
  exists names, l. split; [symmetry; exact U|]. split; [exact N|]. split; [exact F|]. split; [exact F2|]. split.
  - clear -F2. induction F2; constructor; [eapply from_proto_usable; eassumption|assumption].
  - apply join_qualified. destruct l; [destruct names; [congruence|inversion F2]|discriminate].
Qed.

Lemma qualified_app p segs q q' : qualified segs q -> qualified p q' -> qualified (p ++ segs) (q' ++ [58; 58] ++ q).
Proof.
  intros H. induction 1 as [s|s l q0 H0 IH]; [apply QMore, H|]. cbn [app]. rewrite <- !app_assoc. cbn [app]. apply (QMore s). exact IH.
Qed.

(** ** File namespaces *)
Lemma file_component_usable c i : file_component c = Some i -> usable i.
Proof.
  unfold file_component. destruct (map _ c) as [|b s]; [discriminate|]. unfold from_namespace. cbv zeta.
  generalize (if is_digit b then 95 :: b :: s else b :: s). intros n.
  destruct (well_formed n) eqn:W; [|discriminate]. destruct (is_reserved (safe_identifier n)) eqn:R; [discriminate|].
  intros [= <-]. apply well_formed_spec in W. apply is_reserved_false in R. unfold safe_identifier in *.
  destruct (is_keyword n) eqn:K.
  - split; [apply identifier_app; [exact W|constructor; [tauto|constructor]]|split; [|exact R]].
    intros Hin. apply keyword_known, keyword_shape in Hin. destruct Hin as (_ & _ & L' & _). rewrite last_is_app in L'. discriminate.
  - split; [exact W|split; [|exact R]]. intros Hin. apply keyword_known in Hin. congruence.
Qed.
Lemma file_override_usable c i : file_override c = Some i -> usable i.
Proof.
  unfold file_override, from_namespace. destruct (well_formed c) eqn:W; [|discriminate]. destruct (is_reserved (safe_identifier c)) eqn:R; [discriminate|].
  intros [= <-]. apply well_formed_spec in W. apply is_reserved_false in R. unfold safe_identifier in *.
  destruct (is_keyword c) eqn:K.
  - split; [apply identifier_app; [exact W|constructor; [tauto|constructor]]|split; [|exact R]].
    intros Hin. apply keyword_known, keyword_shape in Hin. destruct Hin as (_ & _ & L' & _). rewrite last_is_app in L'. discriminate.
  - split; [exact W|split; [|exact R]]. intros Hin. apply keyword_known in Hin. congruence.
Qed.
Lemma components_cons c d t over : components (c :: d :: t) over =
  match file_component c, components (d :: t) over with Some i, Some r => Some (i :: r) | _, _ => None end.
Proof. reflexivity. Qed.
Lemma components_spec over l : forall r, components l over = Some r -> length r = length l /\ Forall usable r.
Proof.
  induction l as [|c [|d t] IH]; intros r H.
  - injection H as <-. split; constructor.
  - cbn [components] in H. destruct over as [o|].
    + destruct (file_override o) eqn:E; [|discriminate]. injection H as <-. split; [reflexivity|]. constructor; [eapply file_override_usable; exact E|constructor].
    + destruct (file_component c) eqn:E; [|discriminate]. injection H as <-. split; [reflexivity|]. constructor; [eapply file_component_usable; exact E|constructor].
  - rewrite components_cons in H. destruct (file_component c) as [i|] eqn:E; [|discriminate]. destruct (components (d :: t) over) as [r'|] eqn:E2; [|discriminate].
    injection H as <-. destruct (IH r' eq_refl) as [L F]. split; [cbn [length] in *; lia|]. constructor; [eapply file_component_usable; exact E|exact F].
Qed.
Lemma fold_append l : forall q p, qualified p q -> q <> [] -> qualified (p ++ l) (fold_left append_segment l q).
Proof.
  induction l as [|s l IH]; intros q p H N; cbn [fold_left]; [rewrite app_nil_r; exact H|].
  replace (p ++ s :: l) with ((p ++ [s]) ++ l) by (rewrite <- app_assoc; reflexivity).
  assert (E : append_segment q s = q ++ [58; 58] ++ s) by (unfold append_segment; destruct q; [congruence|reflexivity]).
  apply IH; rewrite E; [apply qualified_app; [constructor|exact H]|]. destruct q; discriminate.
Qed.
Theorem file_namespace_spec file over q : file_namespace file over = Some q ->
  exists segs, qualified (txt "hpp_proto" :: txt "file_descriptors" :: segs) q /\ Forall usable segs /\
    length segs = length (split 47 file).
Proof.
  unfold file_namespace. destruct (_ || _); [discriminate|]. destruct (components (split 47 file) over) as [l|] eqn:E; [|discriminate].
  intros [= <-]. destruct (components_spec over _ _ E) as [L F]. exists l. split; [|split; assumption].
  apply (fold_append l _ [txt "hpp_proto"; txt "file_descriptors"]); [|discriminate]. apply join_qualified. discriminate.
Qed.

(** ** Include paths *)
Lemma before_last_spec c l p : before_last c l = Some p -> exists e, l = p ++ c :: e /\ ~ In c e.
Proof.
  revert p. induction l as [|x t IH]; intros p H; cbn [before_last] in H; [discriminate|].
  assert (Nn : before_last c t = None -> ~ In c t).
  { clear. induction t as [|y t IH]; cbn [before_last]; [intros _ []|]. destruct (before_last c t) eqn:E; [discriminate|].
    destruct (Z.eqb_spec y c); [discriminate|]. intros _ [K|K]; [congruence|]. exact (IH eq_refl K). }
  destruct (before_last c t) as [p'|] eqn:E.
  - injection H as <-. destruct (IH p' eq_refl) as (e & -> & Ne). exists e. auto.
  - destruct (Z.eqb_spec x c) as [->|]; [|discriminate]. injection H as <-. exists t. auto.
Qed.
Theorem include_path_spec file dir suffix p : all_bytes file -> all_bytes dir -> all_bytes suffix -> include_path file dir suffix = Some p ->
  exists stem ext path, file = stem ++ 46 :: ext /\ ~ In 46 ext /\ p = [34] ++ path ++ [34] /\ path <> [] /\
    Forall (fun b => 32 <= b < 256 /\ b <> 34 /\ b <> 92) path /\
    Forall2 (fun a b => b = a \/ (a = 92 /\ b = 47)) ((match dir with [] => [] | _ => dir ++ [47] end) ++ stem ++ suffix) path.
Proof.
  intros Bf Bd Bs. unfold include_path. destruct (before_last 46 file) as [stem|] eqn:E; [|discriminate].
  destruct (before_last_spec _ _ _ E) as (ext & Ef & Ne). set (raw := (match dir with [] => [] | _ => dir ++ [47] end) ++ stem ++ suffix).
  assert (Br : all_bytes raw).
  { unfold raw, all_bytes. rewrite !Forall_app. split; [|split; [|exact Bs]].
    - destruct dir; [constructor|]. apply Forall_app. split; [exact Bd|]. constructor; [unfold is_byte; lia|constructor].
    - rewrite Ef in Bf. apply Forall_app in Bf. apply Bf. }
  assert (Hr : raw = (match dir with [] => [] | _ => dir ++ [47] end) ++ stem ++ suffix) by reflexivity. clearbody raw. intros H. exists stem, ext, (map (fun b => if b =? 92 then 47 else b) raw). split; [exact Ef|]. split; [exact Ne|].
  assert (N : raw <> []) by (intros ->; discriminate).
  assert (X : existsb unsafe_header_byte raw = false /\ p = 34 :: map (fun b => if b =? 92 then 47 else b) raw ++ [34]).
  { destruct raw as [|r raw']; [congruence|]. destruct (existsb unsafe_header_byte (r :: raw')); [discriminate|]. injection H as <-. auto. }
  destruct X as [X ->]. clear H. split; [reflexivity|].
  assert (Sf : Forall (fun b => unsafe_header_byte b = false) raw).
  { clear -X. apply Forall_forall. intros b Hb. destruct (unsafe_header_byte b) eqn:U; [|reflexivity].
    assert (existsb unsafe_header_byte raw = true) by (apply existsb_exists; eauto). congruence. }
  split; [|split].
  - destruct raw; [congruence|discriminate].
  - apply Forall_map. apply Forall_forall. intros b Hb. unfold all_bytes in Br. rewrite Forall_forall in Br, Sf.
    specialize (Br b Hb). specialize (Sf b Hb). unfold is_byte in Br. unfold unsafe_header_byte in Sf.
    destruct (Z.eqb_spec b 34); [discriminate|]. destruct (Z.ltb_spec b 32); [rewrite orb_true_r in Sf; discriminate|].
    destruct (Z.eqb_spec b 92); lia.
  - rewrite <- Hr. clear. induction raw as [|b raw IH]; cbn [map]; constructor; [|exact IH]. destruct (Z.eqb_spec b 92); auto.
Qed.
