(** Proofs about the options of the code generator. *)
From Coq Require Import Ascii String.
Require Import Verif.Bits Verif.CppText Verif.PluginOptions Verif.PluginOptionsSpec.
Local Open Scope Z_scope.
Local Open Scope list_scope.

Lemma cut_none : forall d s, ~ In d s -> cut d s = (s, None).
Proof.
  induction s as [| c t IH]; intro H; [reflexivity |]. cbn [cut].
  destruct (Z.eqb_spec c d) as [-> | N]; [exfalso; apply H; left; reflexivity |].
  rewrite IH; [reflexivity |]. intro; apply H; right; assumption.
Qed.
Lemma cut_some : forall d a r, ~ In d a -> cut d (a ++ d :: r) = (a, Some r).
Proof.
  induction a as [| c t IH]; intros r H; cbn [cut app]; [rewrite Z.eqb_refl; reflexivity |].
  destruct (Z.eqb_spec c d) as [-> | N]; [exfalso; apply H; left; reflexivity |].
  rewrite IH; [reflexivity |]. intro; apply H; right; assumption.
Qed.
Lemma cut_inv : forall d s, match cut d s with
  | (a, None) => s = a /\ ~ In d a
  | (a, Some r) => s = a ++ d :: r /\ ~ In d a
  end.
Proof.
  induction s as [| c t IH]; cbn [cut]; [split; [reflexivity | intros []] |].
  destruct (Z.eqb_spec c d) as [-> | N]; [split; [reflexivity | intros []] |].
  destruct (cut d t) as [a [r |]]; destruct IH as [-> K]; (split; [reflexivity | intros [E | E]; [congruence | contradiction]]).
Qed.

Lemma split_more : forall d n s, (length s <= n)%nat -> split_loop n d s = split_loop (length s) d s.
Proof.
  intros d n s. revert s. induction n as [n IH] using lt_wf_ind. intros s L.
  destruct s as [| c t]; [destruct n; reflexivity |]. destruct n as [| n]; [cbn in L; lia |].
  cbn [length split_loop]. pose proof (cut_inv d (c :: t)) as K. destruct (cut d (c :: t)) as [a [r |]]; [| reflexivity].
  destruct K as [E _]. assert (length r <= length t)%nat.
  { apply (f_equal (@length Z)) in E. rewrite app_length in E. cbn in E. lia. }
  cbn in L. f_equal. transitivity (split_loop (length r) d r); [| symmetry]; apply IH; lia.
Qed.
Lemma split_next : forall d a r, ~ In d a -> split_loop (length (a ++ d :: r)) d (a ++ d :: r) = a :: split_loop (length r) d r.
Proof.
  intros d a r H. remember (a ++ d :: r) as s eqn:Es. destruct s as [| c t]; [destruct a; discriminate |].
  cbn [length split_loop]. rewrite Es, cut_some by assumption. f_equal. apply split_more.
  apply (f_equal (@length Z)) in Es. rewrite app_length in Es. cbn in Es. lia.
Qed.
Lemma split_end : forall d a, ~ In d a -> split_loop (length a) d a = match a with [] => [] | _ => [a] end.
Proof. intros d [| c t] H; [reflexivity |]. cbn [length split_loop]. rewrite cut_none by assumption. reflexivity. Qed.

(** What is read back from the segments: all of them, but an empty last one. *)
Lemma split_commas : forall l, Forall (fun a => ~ In 44 a) l ->
  split_parameters (commas l) = l \/ exists l', l = l' ++ [[]] /\ split_parameters (commas l) = l'.
Proof.
  unfold split_parameters. induction 1 as [| a l Ha Hl IH]; [left; reflexivity |].
  destruct l as [| b l].
  - cbn [commas]. rewrite split_end by assumption. destruct a; [right; exists []; split; reflexivity | left; reflexivity].
  - change (commas (a :: b :: l)) with (a ++ 44 :: commas (b :: l)). rewrite split_next by assumption.
    destruct IH as [-> | (l' & -> & ->)]; [left; reflexivity | right; exists (a :: l'); split; reflexivity].
Qed.
Lemma commas_of : forall s, exists l, Forall (fun a => ~ In 44 a) l /\ s = commas l.
Proof.
  intro s. remember (length s) as n eqn:En. revert s En. induction n as [n IH] using lt_wf_ind. intros s ->.
  pose proof (cut_inv 44 s) as K. destruct (cut 44 s) as [a [r |]]; destruct K as [-> K].
  - destruct (IH (length r)) with (s := r) as (l & F & ->); [rewrite app_length; cbn; lia | reflexivity |].
    destruct l as [| b l]; [exists [a; []] | exists (a :: b :: l)]; (split; [| reflexivity]).
    + constructor; [assumption |]. constructor; [intros [] | constructor].
    + constructor; assumption.
  - exists [a]. split; [repeat constructor; assumption | reflexivity].
Qed.
Lemma written_of : forall a, ~ In 44 a -> exists s, clean s /\ a = written s.
Proof.
  intros a H. pose proof (cut_inv 61 a) as K. destruct (cut 61 a) as [k [v |]]; destruct K as [-> K].
  - exists (k, Some v). split; [| reflexivity]. split; [assumption |]. split; cbn; intro E; apply H; apply in_or_app; [left | right; right]; assumption.
  - exists (k, None). split; [| reflexivity]. split; [assumption |]. split; [assumption | exact Logic.I].
Qed.
Theorem parameters_of : forall s, exists ps, Forall clean ps /\ s = parameters ps.
Proof.
  intro s. destruct (commas_of s) as (l & F & ->).
  assert (exists ps, Forall clean ps /\ l = map written ps) as (ps & C & ->).
  { induction F as [| a l Ha Hl IH]; [exists []; split; [constructor | reflexivity] |].
    destruct IH as (ps & C & ->), (written_of a Ha) as (s & Cs & ->).
    exists (s :: ps). split; [constructor; assumption | reflexivity]. }
  exists ps. split; [assumption | reflexivity].
Qed.

Lemma cut_written : forall s, clean s -> cut 61 (written s) = s.
Proof. intros [k [v |]] (H & _); cbn [written fst snd] in *; [apply cut_some | apply cut_none]; assumption. Qed.
Lemma written_comma : forall s, clean s -> ~ In 44 (written s).
Proof.
  intros [k [v |]] (_ & H & K); cbn [written fst snd] in *; [| assumption].
  intro E. apply in_app_or in E. destruct E as [E | [E | E]]; [contradiction | discriminate | contradiction].
Qed.

Lemma given_app : forall key a b, given key (a ++ b) = given key a ++ given key b.
Proof. induction a as [| [k v] a IH]; intro b; [reflexivity |]. cbn [given app]. destruct (list_eq_dec Z.eq_dec k key); [cbn; f_equal |]; apply IH. Qed.
Lemma final_snoc : forall l a, final (l ++ [a]) = Some a.
Proof. induction l as [| x l IH]; intro a; [reflexivity |]. cbn [app final]. destruct (l ++ [a]) eqn:E; [destruct l; discriminate |]. rewrite <- E. apply IH. Qed.

(** The state that the settings lead to before the default of the last lines. *)
Definition state (ps : list setting) (st : options * bool) : Prop :=
  let '(o, e) := st in
  (e = true <-> exists v, In v (given (txt "namespace_prefix") ps) /\ from_dotted v = None) /\
  (e = false -> namespace_prefix o = match final (given (txt "namespace_prefix") ps) with None => None | Some v => from_dotted v end) /\
  directory_prefix o = match final (given (txt "directory_prefix") ps) with None => [] | Some v => v end /\
  explicit_presences o = given (txt "proto2_explicit_presence") ps /\
  (preserve_names o = true <->
   final (given (txt "preserve_proto_field_names") ps) = Some [] \/
   final (given (txt "preserve_proto_field_names") ps) = Some (txt "true")) /\
  export_request o = final (given (txt "export_request") ps).

Lemma same_dec : forall a b, same a b = if list_eq_dec Z.eq_dec a b then true else false.
Proof. reflexivity. Qed.

Lemma state_step : forall ps s st, clean s -> state ps st -> state (ps ++ [s]) (one_option st (written s)).
Proof.
  intros ps [k v] [o e] C (E & N & D & P & K & X). unfold one_option. rewrite (cut_written _ C).
  set (w := match v with None => [] | Some v => v end). unfold same at 1 2 3 4 6.
  assert (G : forall key, given key (ps ++ [(k, v)]) = if list_eq_dec Z.eq_dec k key then given key ps ++ [w] else given key ps).
  { intro key. rewrite given_app. cbn [given]. destruct (list_eq_dec Z.eq_dec k key); [reflexivity | apply app_nil_r]. }
  destruct (list_eq_dec Z.eq_dec k (txt "directory_prefix")) as [-> | N1].
  { unfold state. rewrite !G. cbn [directory_prefix namespace_prefix explicit_presences preserve_names export_request].
    repeat (match goal with |- context [list_eq_dec Z.eq_dec ?a ?b] => destruct (list_eq_dec Z.eq_dec a b); [first [discriminate | idtac] |] end; try congruence).
    all: try (rewrite final_snoc). all: tauto. }
  destruct (list_eq_dec Z.eq_dec k (txt "namespace_prefix")) as [-> | N2].
  { destruct (from_dotted w) as [q |] eqn:Q; unfold state; rewrite !G; cbn [directory_prefix namespace_prefix explicit_presences preserve_names export_request].
    all: repeat (match goal with |- context [list_eq_dec Z.eq_dec ?a ?b] => destruct (list_eq_dec Z.eq_dec a b); [first [discriminate | idtac] |] end; try congruence).
    all: rewrite ?final_snoc.
    - split; [| split; [intros _; symmetry; exact Q | tauto]].
      rewrite E. split; intros (x & I1 & I2); exists x; (split; [| assumption]).
      + apply in_or_app; left; assumption.
      + apply in_app_or in I1. destruct I1 as [I1 | [<- | []]]; [assumption | congruence].
    - split; [| split; [intro; discriminate | tauto]].
      split; [intros _ | reflexivity]. exists w. split; [apply in_or_app; right; left; reflexivity | assumption]. }
  destruct (list_eq_dec Z.eq_dec k (txt "proto2_explicit_presence")) as [-> | N3].
  { unfold state. rewrite !G. cbn [directory_prefix namespace_prefix explicit_presences preserve_names export_request].
    repeat (match goal with |- context [list_eq_dec Z.eq_dec ?a ?b] => destruct (list_eq_dec Z.eq_dec a b); [first [discriminate | idtac] |] end; try congruence).
    all: rewrite <- ?P. all: tauto. }
  destruct (list_eq_dec Z.eq_dec k (txt "preserve_proto_field_names")) as [-> | N4].
  { unfold state. rewrite !G. cbn [directory_prefix namespace_prefix explicit_presences preserve_names export_request].
    repeat (match goal with |- context [list_eq_dec Z.eq_dec (txt ?a) ?b] => destruct (list_eq_dec Z.eq_dec (txt a) b); [first [discriminate | idtac] |] end; try congruence).
    all: rewrite ?final_snoc.
    split; [assumption |]. split; [assumption |]. split; [assumption |]. split; [assumption |]. split; [| assumption].
    unfold same. destruct (list_eq_dec Z.eq_dec w (txt "true")) as [-> | W]; [split; [right; reflexivity | reflexivity] |].
    destruct w; cbn [orb]; split; intro H; try reflexivity; try discriminate; [left; reflexivity |].
    destruct H as [H | H]; [discriminate | congruence]. }
  destruct (list_eq_dec Z.eq_dec k (txt "export_request")) as [-> | N5].
  { unfold state. rewrite !G. cbn [directory_prefix namespace_prefix explicit_presences preserve_names export_request].
    repeat (match goal with |- context [list_eq_dec Z.eq_dec ?a ?b] => destruct (list_eq_dec Z.eq_dec a b); [first [discriminate | idtac] |] end; try congruence).
    all: rewrite ?final_snoc. all: tauto. }
  unfold state. rewrite !G.
  repeat (match goal with |- context [list_eq_dec Z.eq_dec ?a ?b] => destruct (list_eq_dec Z.eq_dec a b); [first [discriminate | congruence] |] end).
  tauto.
Qed.

Lemma state_all : forall ps, Forall clean ps -> state ps (fold_left one_option (map written ps) (no_options, false)).
Proof.
  induction ps as [| s ps IH] using rev_ind; intro F.
  - cbn. split; [split; [discriminate | intros (v & [] & _)] |]. split; [reflexivity |]. split; [reflexivity |]. split; [reflexivity |].
    split; [| reflexivity]. split; [discriminate | intros [H | H]; discriminate].
  - apply Forall_app in F. destruct F as [F Fs]. inversion Fs; subst. rewrite map_app, fold_left_app. cbn [map fold_left].
    apply state_step; [assumption |]. apply IH. assumption.
Qed.

Lemma state_asks : forall ps st, state ps st ->
  asks ps (let '(o, e) := st in if e : bool then None
   else Some (match explicit_presences o with
              | [] => Options (directory_prefix o) (namespace_prefix o) [[46]] (preserve_names o) (export_request o)
              | _ => o end)).
Proof.
  intros ps [o e] (E & N & D & P & K & X). destruct e.
  - cbn [asks]. apply E. reflexivity.
  - cbn [asks]. split; [intros v I1 I2; assert (false = true) by (apply E; exists v; split; assumption); discriminate |].
    specialize (N eq_refl). rewrite <- P.
    destruct (explicit_presences o) eqn:Q; cbn [directory_prefix namespace_prefix explicit_presences preserve_names export_request]; tauto.
Qed.

Lemma empty_option : forall st, one_option st [] = st.
Proof. intros [o e]. reflexivity. Qed.

Theorem options_asked : forall ps, Forall clean ps -> asks ps (parse_plugin_options (parameters ps)).
Proof.
  intros ps F. unfold parse_plugin_options, parameters.
  assert (Forall (fun a => ~ In 44 a) (map written ps)) as W.
  { apply Forall_map. eapply Forall_impl; [apply written_comma | exact F]. }
  assert (fold_left one_option (split_parameters (commas (map written ps))) (no_options, false)
          = fold_left one_option (map written ps) (no_options, false)) as ->.
  { destruct (split_commas _ W) as [-> | (l' & -> & ->)]; [reflexivity |].
    rewrite fold_left_app. cbn [fold_left]. symmetry. apply empty_option. }
  apply (state_asks ps), state_all. exact F.
Qed.

(** The error of the options is that of one of the settings. *)
Theorem options_error : forall ps, Forall clean ps ->
  (parse_plugin_options (parameters ps) = None <-> exists v, In v (given (txt "namespace_prefix") ps) /\ from_dotted v = None).
Proof.
  intros ps F. pose proof (options_asked ps F) as K. destruct (parse_plugin_options (parameters ps)) as [o |]; cbn [asks] in K.
  - split; [discriminate |]. intros (v & I1 & I2). destruct K as (K & _). exfalso. exact (K v I1 I2).
  - split; [intros _; exact K | reflexivity].
Qed.

(** The settings alone decide. *)
Theorem options_determined : forall ps r r', asks ps r -> asks ps r' -> r = r'.
Proof.
  intros ps [o |] [o' |] H H'; cbn [asks] in H, H'.
  - destruct H as (_ & A & B & C & D & E), H' as (_ & A' & B' & C' & D' & E').
    destruct o, o'; cbn in *. rewrite <- A' in A. rewrite <- B' in B. rewrite <- C' in C. rewrite <- E' in E. subst.
    f_equal. f_equal. destruct preserve_names, preserve_names0; intuition congruence.
  - destruct H as (H & _), H' as (v & I1 & I2). exfalso; exact (H v I1 I2).
  - destruct H' as (H' & _), H as (v & I1 & I2). exfalso; exact (H' v I1 I2).
  - reflexivity.
Qed.
