(** Accepted names in namespaces *)
From Coq Require Import Ascii String.
From Coq Require Import ZArith List Bool Lia FinFun.
Import ListNotations.
Require Import Verif.Bits Verif.CppText Verif.CppSpec Verif.CppNames Verif.GenNameCheck Verif.GenNameProofs.
Local Open Scope string_scope.
Local Open Scope list_scope.
Local Open Scope Z_scope.

(** [within m x]: [x] is [m] or nested in it. *)
Inductive within (m : nmsg) : nmsg -> Prop :=
  | within_self : within m m
  | within_nested x y : within m x -> In y (n_msgs x) -> within m y.
Lemma within_ok m x : msg_ok m = true -> within m x -> msg_ok x = true.
Proof.
  intros H W. induction W as [|x y W IH Hy]; [exact H|]. pose proof (msg_ok_parts x IH) as (_ & _ & _ & _ & _ & _ & K). rewrite forallb_forall in K. exact (K y Hy).
Qed.
Lemma nmsg_induction (P : nmsg -> Prop) : (forall m, (forall x, In x (n_msgs m) -> P x) -> P m) -> forall m, P m.
Proof.
  intros H. fix IH 1. intros m. apply H. destruct m as [full name entry ranges fields oneofs msgs enums exts]. cbn [n_msgs].
  induction msgs as [|a l IHl]; [intros x []|]. intros x [E|Hx]; [rewrite <- E; apply IH|exact (IHl x Hx)].
Qed.
Lemma paths_eq m : paths m = [cpp (n_name m)] :: [scope_name (n_name m)] :: map (cons (scope_name (n_name m))) (flat_map paths (n_msgs m) ++ map (fun n => [n]) (enum_names (n_enums m))).
Proof. destruct m as [full name entry ranges fields oneofs msgs enums exts]. cbn [paths n_msgs n_enums n_name]. unfold enum_names. rewrite (map_map _ (fun n : bytes => [n])). reflexivity. Qed.

Lemma helper_in n : helper n = false <-> ~ In n functions.
Proof.
  unfold helper, functions. cbn [map In]. rewrite !orb_false_iff, !same_false. split; [intros ((A & B) & C) [K|[K|[K|[]]]]; congruence|].
  intros K. split; [split|]; intros ->; apply K; tauto.
Qed.
Lemma scope_not_helper n : helper (scope_name n) = false.
Proof.
  apply helper_in. unfold scope_name, disambiguated_with. destruct (last_is 95 (cpp n)).
  - intros K. destruct (rev_append_word (cpp n) (cpp (txt "nested"))) as (r & E). cbn [functions map In] in K.
    assert (Q : forall x y : bytes, x = y -> rev x = rev y) by (intros x y ->; reflexivity).
    destruct K as [K|[K|[K|[]]]]; apply Q in K; rewrite E in K; vm_compute in K; discriminate K.
  - intros K. assert (Q : forall x y : bytes, x = y -> rev x = rev y) by (intros x y ->; reflexivity).
    cbn [functions map In] in K. destruct K as [K|[K|[K|[]]]]; apply Q in K; rewrite rev_app_distr in K; vm_compute in K; discriminate K.
Qed.
Lemma scope_differs n : scope_name n <> cpp n.
Proof. apply disambiguated_differs. vm_compute. discriminate. Qed.
Lemma functions_nodup : NoDup functions.
Proof. unfold functions. cbn [map]. repeat (constructor; [cbn [In]; intros K; repeat (destruct K as [K|K]; [discriminate K|]); exact K|]). constructor. Qed.

Lemma both_in n l : In n (both_names l) <-> exists x, In x l /\ (n = cpp (n_name x) \/ n = scope_name (n_name x)).
Proof.
  unfold both_names. rewrite in_flat_map. split; intros (x & Hx & K); exists x; (split; [exact Hx|]); [destruct K as [<-|[<-|[]]]; tauto|destruct K as [->| ->]; cbn [In]; tauto].
Qed.
(** ** The namespace of nested types *)
Lemma nested_nodup m : msg_ok m = true -> NoDup (nested_names m).
Proof.
  intros H. pose proof (msg_ok_parts m H) as (_ & _ & Hm & _ & Hn & _ & _). unfold nested_ok in Hn. apply inserted_nodup in Hn. rewrite app_assoc in Hn. apply nodup_app in Hn. destruct Hn as (Hn & _).
  unfold members_ok in Hm. rewrite !andb_true_iff, !forallb_forall in Hm. destruct Hm as (((((_ & M1) & M2) & _) & _) & _).
  assert (K : forall n, member_ok m true false n = true -> ~ In n functions).
  { intros n Hk. unfold member_ok in Hk. rewrite !andb_true_iff, !negb_true_iff, andb_true_l in Hk. apply helper_in. tauto. }
  apply nodup_app in Hn. destruct Hn as (N1 & N2 & D).
  unfold nested_names. apply nodup_app. split; [exact functions_nodup|]. split.
  - apply nodup_app. split; [apply nodup_flat_map_filter; exact N1|]. split; [exact N2|]. intros n Hn. apply D. exact (in_flat_map_filter _ _ _ _ Hn).
  - intros n Hf Hn. apply in_app_or in Hn. destruct Hn as [Hn|Hn].
    + apply in_flat_map_filter in Hn. apply both_in in Hn. destruct Hn as (x & Hx & [->| ->]).
      * apply (K (cpp (n_name x))); [apply M1; unfold msg_names; apply (in_map (fun x => cpp (n_name x))); exact Hx|exact Hf].
      * exact (proj1 (helper_in _) (scope_not_helper _) Hf).
    + exact (K n (M2 n Hn) Hf).
Qed.

(** ** The namespace of files *)
Definition same_ns (ns : list bytes) (f : nfile) : bool := if list_eq_dec (list_eq_dec Z.eq_dec) (nl_ns f) ns then true else false.
Lemma pool_parts files : pool_ok files = true -> (forall f, In f files -> file_ok f = true) /\ NoDup (flat_map (fun f => map (pair (nl_ns f)) (file_names f)) files).
Proof.
  unfold pool_ok. rewrite !andb_true_iff, forallb_forall. intros ((A & _) & B). apply inserted_in_nodup in B. split; [exact A|apply B].
Qed.
(** A namespace is that of one package. *)
Lemma packages_seen files : forall seen, packages_ok seen files = true -> forall f, In f files ->
  (forall p q, find (fun p => if list_eq_dec (list_eq_dec Z.eq_dec) (fst p) (nl_ns f) then true else false) seen = Some (p, q) -> nl_package f = q) /\
  (forall g, In g files -> nl_ns g = nl_ns f -> nl_package g = nl_package f).
Proof.
  induction files as [|h t IH]; intros seen H f Hf; [contradiction Hf|]. cbn [packages_ok] in H.
  destruct (find (fun p => if list_eq_dec (list_eq_dec Z.eq_dec) (fst p) (nl_ns h) then true else false) seen) as [[pn pk]|] eqn:Fh.
  - apply andb_prop in H. destruct H as (H1 & H2). cbn [snd] in H1. unfold same in H1. destruct (list_eq_dec Z.eq_dec pk (nl_package h)) as [E0|]; [|discriminate H1]. subst pk.
    assert (Q : forall g, In g (h :: t) -> forall p q, find (fun p => if list_eq_dec (list_eq_dec Z.eq_dec) (fst p) (nl_ns g) then true else false) seen = Some (p, q) -> nl_package g = q).
    { intros g [ <- |Hg] p q Hp; [congruence|]. apply (proj1 (IH seen H2 g Hg) p q Hp). }
    split; [apply Q; exact Hf|]. intros g Hg E. destruct Hf as [ <- |Hf].
    + apply (Q g Hg pn). rewrite E. exact Fh.
    + destruct Hg as [ <- |Hg]; [symmetry; apply (Q f (or_intror Hf) pn); rewrite <- E; exact Fh|]. apply (proj2 (IH seen H2 f Hf) g Hg E).
  - assert (Q : forall g, In g t -> nl_ns g = nl_ns h -> nl_package g = nl_package h).
    { intros g Hg E. apply (proj1 (IH _ H g Hg) (nl_ns h) (nl_package h)). cbn [find fst]. rewrite E. destruct (list_eq_dec (list_eq_dec Z.eq_dec) (nl_ns h) (nl_ns h)); [reflexivity|contradiction]. }
    split.
    + intros p q Hp. destruct Hf as [ <- |Hf]; [congruence|]. destruct (list_eq_dec (list_eq_dec Z.eq_dec) (nl_ns h) (nl_ns f)) as [E|E].
      * exfalso. rewrite <- E in Hp. congruence.
      * apply (proj1 (IH _ H f Hf) p q). cbn [find fst]. destruct (list_eq_dec (list_eq_dec Z.eq_dec) (nl_ns h) (nl_ns f)); [contradiction|exact Hp].
    + intros g Hg E. destruct Hf as [ <- |Hf], Hg as [ <- |Hg]; [reflexivity|apply Q; assumption|symmetry; apply Q; [exact Hf|congruence]|apply (proj2 (IH _ H f Hf) g Hg E)].
Qed.
Lemma one_package files f g : pool_ok files = true -> In f files -> In g files -> nl_ns f = nl_ns g -> nl_package f = nl_package g.
Proof. unfold pool_ok. rewrite !andb_true_iff. intros ((_ & H) & _) Hf Hg E. apply (proj2 (packages_seen files [] H g Hg) f Hf E). Qed.
(** What is declared for nested types *)
Lemma nested_declared m n : In n (nested_names m) <->
  In n functions \/ (exists x, In x (n_msgs m) /\ n_entry x = false /\ (n = cpp (n_name x) \/ n = scope_name (n_name x))) \/ exists e, In e (n_enums m) /\ n = cpp (ne_name e).
Proof.
  unfold nested_names, both_names, enum_names, shown_msgs. rewrite !in_app_iff, in_flat_map, in_map_iff. split.
  - intros [H|[(x & Hx & H)|(e & <- & He)]]; [tauto| |eauto]. apply filter_In in Hx. destruct Hx as (Hx & K). right. left. exists x. split; [exact Hx|]. split; [destruct (n_entry x); [discriminate|reflexivity]|]. destruct H as [H|[H|[]]]; auto.
  - intros [H|[(x & Hx & K & H)|(e & He & ->)]]; [tauto| |eauto 6]. right. left. exists x. split; [apply filter_In; rewrite K; auto|]. destruct H as [-> | ->]; cbn; auto.
Qed.
Lemma file_parts f : file_ok f = true -> (forall x, In x (nl_msgs f) -> msg_ok x = true) /\ (forall s, In s (generated (nl_services f)) -> service_ok s = true) /\
  (forall e, In e (nl_enums f) -> enum_ok e = true) /\ forall n, In n (file_names f) -> ~ In n functions.
Proof.
  unfold file_ok. rewrite !andb_true_iff, !forallb_forall. intros ((((_ & A) & B) & C) & D). split; [exact D|]. split; [exact C|]. split.
  { intros e He. specialize (B e He). rewrite !andb_true_iff in B. tauto. }
  intros n Hn. unfold file_names in Hn. rewrite !in_app_iff in Hn. apply helper_in. destruct Hn as [Hn|[Hn|[Hn|Hn]]].
  - apply both_in in Hn. destruct Hn as (x & Hx & [->| ->]); [|apply scope_not_helper]. pose proof (msg_ok_parts x (D x Hx)) as (_ & (_ & K) & _). exact K.
  - apply in_map_iff in Hn. destruct Hn as (x & <- & Hx). specialize (A x Hx). rewrite andb_true_iff, negb_true_iff, orb_false_iff in A. tauto.
  - unfold enum_names in Hn. apply in_map_iff in Hn. destruct Hn as (x & <- & Hx). specialize (B x Hx). rewrite !andb_true_iff, negb_true_iff in B. tauto.
  - apply in_map_iff in Hn. destruct Hn as (x & <- & Hx). specialize (C x Hx). unfold service_ok in C. rewrite !andb_true_iff, negb_true_iff in C. tauto.
Qed.
Lemma flat_map_keyed ns (files : list nfile) : (forall f, In f files -> nl_ns f = ns) -> flat_map (fun f => map (pair (nl_ns f)) (file_names f)) files = map (pair ns) (flat_map file_names files).
Proof.
  induction files as [|f t IH]; intros H; cbn [flat_map map]; [reflexivity|]. rewrite map_app, IH by (intros g Hg; apply H; right; exact Hg). rewrite (H f (or_introl eq_refl)). reflexivity.
Qed.
Lemma namespace_nodup files ns : pool_ok files = true -> NoDup (functions ++ flat_map file_names (filter (same_ns ns) files)).
Proof.
  intros H. apply pool_parts in H. destruct H as (A & B). apply (nodup_flat_map_filter _ (same_ns ns)) in B.
  assert (S : forall f, In f (filter (same_ns ns) files) -> In f files /\ nl_ns f = ns).
  { intros f Hf. apply filter_In in Hf. destruct Hf as (Hf & E). split; [exact Hf|]. unfold same_ns in E. destruct (list_eq_dec (list_eq_dec Z.eq_dec) (nl_ns f) ns); [assumption|discriminate E]. }
  rewrite (flat_map_keyed ns) in B by (intros f Hf; apply S; exact Hf). apply nodup_of_map in B.
  apply nodup_app. split; [exact functions_nodup|]. split; [exact B|]. intros n Hf Hn. apply in_flat_map in Hn. destruct Hn as (f & Hin & Hn).
  destruct (S f Hin) as (Hi & _). destruct (file_parts f (A f Hi)) as (_ & _ & _ & K). exact (K n Hn Hf).
Qed.

(** ** Qualified names *)
Lemma paths_head m p : In p (paths m) -> exists h t, p = h :: t /\ (h = cpp (n_name m) \/ h = scope_name (n_name m)).
Proof.
  rewrite paths_eq. intros [<-|[<-|H]]; [exists (cpp (n_name m)), []; tauto|exists (scope_name (n_name m)), []; tauto|].
  apply in_map_iff in H. destruct H as (t & <- & _). exists (scope_name (n_name m)), t. tauto.
Qed.
Lemma scope_paths_nodup msgs others : (forall x, In x msgs -> NoDup (paths x)) -> NoDup (both_names msgs ++ others) -> NoDup (flat_map paths msgs ++ map (fun n : bytes => [n]) others).
Proof.
  intros Hp Hn. apply nodup_app in Hn. destruct Hn as (N1 & N2 & D). apply nodup_app. split; [|split].
  - apply (nodup_keyed paths (fun x => [cpp (n_name x); scope_name (n_name x)]) (fun p k => hd_error p = Some k)); [exact Hp|exact N1| |].
    + intros x p Hx H. apply paths_head in H. destruct H as (h & t & -> & K). exists h. split; [destruct K as [->| ->]; cbn [In]; tauto|reflexivity].
    + intros x y p k k' _ _ _ _ _ _ E E'. congruence.
  - apply Injective_map_NoDup; [intros a b E; congruence|exact N2].
  - intros p Hf Ho. apply in_map_iff in Ho. destruct Ho as (n & <- & Hn). apply in_flat_map in Hf. destruct Hf as (x & Hx & Hp'). apply paths_head in Hp'. destruct Hp' as (h & t & E & K). injection E as <- <-.
    apply (D n); [|exact Hn]. apply both_in. exists x. split; [exact Hx|exact K].
Qed.
Lemma paths_nodup m : msg_ok m = true -> NoDup (paths m).
Proof.
  induction m as [m IH] using nmsg_induction. intros H. rewrite paths_eq. pose proof (msg_ok_parts m H) as (_ & _ & _ & _ & Hn & _ & Hm). rewrite forallb_forall in Hm.
  unfold nested_ok in Hn. apply inserted_nodup in Hn. rewrite app_assoc in Hn. apply nodup_app in Hn. destruct Hn as (Hn & _).
  assert (N : NoDup (flat_map paths (n_msgs m) ++ map (fun n => [n]) (enum_names (n_enums m)))).
  { apply scope_paths_nodup; [|exact Hn]. intros x Hx. exact (IH x Hx (Hm x Hx)). }
  assert (Ne : forall t, In t (flat_map paths (n_msgs m) ++ map (fun n => [n]) (enum_names (n_enums m))) -> t <> []).
  { intros t Ht E. subst t. apply in_app_or in Ht. destruct Ht as [Ht|Ht]; [|apply in_map_iff in Ht; destruct Ht as (n & E & _); discriminate E].
    apply in_flat_map in Ht. destruct Ht as (x & _ & Ht). apply paths_head in Ht. destruct Ht as (h & t & E & _). discriminate E. }
  constructor; [|constructor].
  - intros [E|K]; [injection E as E; exact (scope_differs _ E)|]. apply in_map_iff in K. destruct K as (t & E & Ht). injection E as _ E. exact (Ne t Ht E).
  - intros K. apply in_map_iff in K. destruct K as (t & E & Ht). injection E as E. exact (Ne t Ht E).
  - apply Injective_map_NoDup; [intros a b E; congruence|exact N].
Qed.
Definition rel_paths (f : nfile) : list (list bytes) :=
  flat_map paths (nl_msgs f) ++ map (fun n => [n]) (map cpp (nl_exts f) ++ enum_names (nl_enums f) ++ map (fun s => cpp (ns_name s)) (generated (nl_services f))).
Lemma rel_paths_nodup f : file_ok f = true -> NoDup (file_names f) -> NoDup (rel_paths f).
Proof.
  intros H N. destruct (file_parts f H) as (Hm & _). apply scope_paths_nodup; [intros x Hx; apply paths_nodup; exact (Hm x Hx)|exact N].
Qed.
Lemma rel_paths_head f p : In p (rel_paths f) -> exists h t, p = h :: t /\ In h (file_names f).
Proof.
  unfold rel_paths, file_names. intros H. apply in_app_or in H. destruct H as [H|H].
  - apply in_flat_map in H. destruct H as (x & Hx & H). apply paths_head in H. destruct H as (h & t & -> & K). exists h, t. split; [reflexivity|]. apply in_or_app. left. apply both_in. exists x. split; assumption.
  - apply in_map_iff in H. destruct H as (n & <- & Hn). exists n, []. split; [reflexivity|]. apply in_or_app. right. exact Hn.
Qed.
Lemma app_eq {A} (a b c d : list A) : a ++ b = c ++ d -> (exists e, a = c ++ e /\ d = e ++ b) \/ (exists e, c = a ++ e /\ b = e ++ d).
Proof.
  revert c. induction a as [|x a IH]; intros c E; cbn [app] in E; [right; exists c; split; [reflexivity|exact E]|].
  destruct c as [|y c]; cbn [app] in E; [left; exists (x :: a); split; [reflexivity|symmetry; exact E]|]. injection E as <- E. destruct (IH c E) as [(e & -> & ->)|(e & -> & ->)]; [left|right]; exists e; split; reflexivity.
Qed.

(** No file has a namespace that continues that of another file with a name declared there. *)
Definition separated (files : list nfile) : Prop := forall f g h t, In f files -> In g files -> nl_ns g = nl_ns f ++ h :: t -> ~ In h (file_names f).
Lemma same_namespace files f g p q : separated files -> In f files -> In g files -> In p (rel_paths f) -> In q (rel_paths g) -> nl_ns f ++ p = nl_ns g ++ q -> nl_ns f = nl_ns g /\ p = q.
Proof.
  intros S Hf Hg Hp Hq E. destruct (rel_paths_head f p Hp) as (h & t & -> & Hh). destruct (rel_paths_head g q Hq) as (h' & t' & -> & Hh').
  destruct (app_eq _ _ _ _ E) as [(e & E1 & E2)|(e & E1 & E2)]; destruct e as [|x e].
  - rewrite app_nil_r in E1. split; [exact E1|symmetry; exact E2].
  - exfalso. injection E2 as <- _. exact (S g f h' e Hg Hf E1 Hh').
  - rewrite app_nil_r in E1. split; [symmetry; exact E1|exact E2].
  - exfalso. injection E2 as <- _. exact (S f g h e Hf Hg E1 Hh).
Qed.
Lemma flat_map_nodup_in {A B} (g : A -> list B) l x : NoDup (flat_map g l) -> In x l -> NoDup (g x).
Proof. induction l as [|a l IH]; [intros _ []|]. cbn [flat_map]. rewrite nodup_app. intros (H & H1 & _) [->|Hx]; [exact H|exact (IH H1 Hx)]. Qed.
Lemma all_paths_nodup files : pool_ok files = true -> separated files -> NoDup (flat_map file_paths files).
Proof.
  intros H S. apply pool_parts in H. destruct H as (A & B).
  apply (nodup_keyed file_paths (fun f => map (pair (nl_ns f)) (file_names f)) (fun p k => exists t, p = fst k ++ snd k :: t /\ exists f, In f files /\ nl_ns f = fst k /\ In (snd k :: t) (rel_paths f))).
  - intros f Hf. apply Injective_map_NoDup; [intros a b E; apply app_inv_head in E; exact E|]. apply rel_paths_nodup; [exact (A f Hf)|].
    pose proof (flat_map_nodup_in _ _ f B Hf) as N. exact (nodup_of_map (pair (nl_ns f)) _ N).
  - exact B.
  - intros f p Hf Hp. unfold file_paths in Hp. apply in_map_iff in Hp. destruct Hp as (q & <- & Hq). change (In q (rel_paths f)) in Hq. destruct (rel_paths_head f q Hq) as (h & t & -> & Hh).
    exists (nl_ns f, h). split; [apply in_map; exact Hh|]. exists t. split; [reflexivity|]. exists f. split; [exact Hf|]. split; [reflexivity|exact Hq].
  - intros f g p k k' _ _ _ _ _ _ (t & E & a & Ha & Na & Ka) (t' & E' & b & Hb & Nb & Kb). destruct k as [n x], k' as [n' x']. cbn [fst snd] in *. subst p.
    rewrite <- Na, <- Nb in E'. destruct (same_namespace files a b _ _ S Ha Hb Ka Kb E') as (E1 & E2). injection E2 as -> _. congruence.
Qed.
Lemma path_not_namespace files f g p k : separated files -> In f files -> In g files -> In p (file_paths f) -> firstn k (nl_ns g) <> p.
Proof.
  intros S Hf Hg Hp E. unfold file_paths in Hp. apply in_map_iff in Hp. destruct Hp as (q & <- & Hq). change (In q (rel_paths f)) in Hq. destruct (rel_paths_head f q Hq) as (h & t & -> & Hh).
  apply (S f g h (t ++ skipn k (nl_ns g)) Hf Hg); [|exact Hh]. rewrite <- (firstn_skipn k (nl_ns g)) at 1. rewrite E, <- app_assoc. reflexivity.
Qed.

(** ** Names of file descriptors *)
Lemma no_colon s : usable s -> ~ In 58 s.
Proof.
  intros (I & _) H. destruct s as [|c t]; [destruct I|]. destruct I as (A & B). unfold letter in A.
  destruct H as [->|H]; [destruct A as [A|A]; [unfold letter in A; lia|lia]|]. rewrite Forall_forall in B. destruct (B 58 H) as [K|[K|K]]; [unfold letter in K; lia|unfold decimal_digit in K; lia|lia].
Qed.
Lemma cut_segment s r s' r' : ~ In 58 s -> ~ In 58 s' -> s ++ [58; 58] ++ r = s' ++ [58; 58] ++ r' -> s = s' /\ r = r'.
Proof.
  revert s'. induction s as [|c s IH]; intros s' H H' E; destruct s' as [|c' s']; cbn [app] in E.
  - injection E as E. split; [reflexivity|exact E].
  - injection E as E _. exfalso. apply H'. left. congruence.
  - injection E as E _. exfalso. apply H. left. congruence.
  - injection E as -> E. destruct (IH s') as (-> & ->); [intros K; apply H; right; exact K|intros K; apply H'; right; exact K|exact E|split; reflexivity].
Qed.
Lemma qualified_nonempty l q : qualified l q -> l <> [].
Proof. intros H; destruct H; discriminate. Qed.
Lemma qualified_injective l q : qualified l q -> forall l', Forall usable l -> Forall usable l' -> qualified l' q -> l = l'.
Proof.
  induction 1 as [s|s l q H IH]; intros l' U U' H'; inversion H' as [s' E1 E2|s' k q' K E1 E2]; subst.
  - reflexivity.
  - exfalso. apply Forall_inv in U. apply (no_colon _ U). apply in_or_app. right. left. reflexivity.
  - exfalso. apply Forall_inv in U'. apply (no_colon _ U'). apply in_or_app. right. left. reflexivity.
  - inversion U as [|a b Ua Ub]; subst. inversion U' as [|a b Ua' Ub']; subst. destruct (cut_segment s' q' s q (no_colon _ Ua') (no_colon _ Ua) E2) as (-> & ->). f_equal. exact (IH k Ub Ub' K).
Qed.
Lemma qualified_prefix l q : qualified l q -> forall l' r, Forall usable l -> Forall usable l' -> qualified l' (q ++ [58; 58] ++ r) -> exists s t, l' = l ++ s :: t.
Proof.
  induction 1 as [s|s l q H IH]; intros l' r U U' H'.
  - inversion H' as [s' E1 E2|s' k q' K E1 E2].
    + exfalso. subst l'. apply Forall_inv in U'. apply (no_colon _ U'). rewrite E2. apply in_or_app. right. left. reflexivity.
    + subst l'. inversion U as [|a b Ua Ub]; subst. inversion U' as [|a b Ua' Ub']; subst.
      destruct (cut_segment s' q' s r (no_colon _ Ua') (no_colon _ Ua) E2) as (-> & ->). destruct k as [|x k]; [destruct (qualified_nonempty _ _ K eq_refl)|]. exists x, k. reflexivity.
  - rewrite <- !app_assoc in H'. inversion H' as [s' E1 E2|s' k q' K E1 E2].
    + exfalso. subst l'. apply Forall_inv in U'. apply (no_colon _ U'). rewrite E2. apply in_or_app. right. left. reflexivity.
    + subst l'. inversion U as [|a b Ua Ub]; subst. inversion U' as [|a b Ua' Ub']; subst.
      destruct (cut_segment s' q' s (q ++ [58; 58] ++ r) (no_colon _ Ua') (no_colon _ Ua)) as (-> & ->); [exact E2|]. destruct (IH k r Ub Ub' K) as (x & t & ->). exists x, t. reflexivity.
Qed.
Lemma qualified_extend l q : qualified l q -> forall s t q', qualified (l ++ s :: t) q' -> exists r, q' = q ++ [58; 58] ++ r /\ qualified (s :: t) r.
Proof.
  induction 1 as [s|s l q H IH]; intros x t q' H'.
  - cbn [app] in H'. inversion H' as [s' E1 E2|s' k r K E1 E2]; subst. exists r. split; [reflexivity|exact K].
  - cbn [app] in H'. inversion H' as [s' E1 E2|s' k r K E1 E2]; subst.
    + exfalso. destruct l; discriminate.
    + destruct (IH x t r K) as (r' & -> & K'). exists r'. split; [rewrite <- !app_assoc; reflexivity|exact K'].
Qed.
Lemma entity_prefix_spec la a lb b : qualified la a -> Forall usable la -> qualified lb b -> Forall usable lb -> entity_prefix a b = true <-> exists s t, lb = la ++ s :: t.
Proof.
  intros Qa Ua Qb Ub. unfold entity_prefix. rewrite !andb_true_iff. split.
  - intros ((_ & H1) & H2). apply starts_spec in H1. destruct H1 as (r & E). subst b. rewrite skipn_app, skipn_all, Nat.sub_diag in H2. cbn [app skipn] in H2. apply starts_spec in H2. destruct H2 as (r' & ->).
    exact (qualified_prefix la a Qa lb r' Ua Ub Qb).
  - intros (s & t & ->). destruct (qualified_extend la a Qa s t b Qb) as (r & -> & Qr). split; [split|].
    + apply Z.ltb_lt. rewrite !app_length. cbn [length]. rewrite !Nat2Z.inj_add. destruct r as [|c r]; [|cbn [length]; lia].
      exfalso. apply Forall_app in Ub. destruct Ub as (_ & Ub). apply Forall_inv in Ub. inversion Qr as [s' E1 E2|s' k q K E1 E2]; subst; [destruct Ub as (I & _); exact I|].
      match goal with E : _ ++ _ :: _ = [] |- _ => apply app_eq_nil in E; destruct E as (_ & E); discriminate E end.
    + apply starts_spec. eexists. reflexivity.
    + rewrite skipn_app, skipn_all, Nat.sub_diag. reflexivity.
Qed.
(** The segments of one name are those of the other, or the first of them. *)
Definition leading (a b : list bytes) : Prop := exists t, b = a ++ t.
Lemma collide_spec la a lb b : qualified la a -> Forall usable la -> qualified lb b -> Forall usable lb -> collide a b = true <-> leading la lb \/ leading lb la.
Proof.
  intros Qa Ua Qb Ub. unfold collide. rewrite !orb_true_iff, same_spec, (entity_prefix_spec la a lb b), (entity_prefix_spec lb b la a) by assumption. unfold leading. split.
  - intros [[->|(s & t & ->)]|(s & t & ->)]; [left; exists []; rewrite app_nil_r; symmetry; exact (qualified_injective la b Qa lb Ua Ub Qb)|left; exists (s :: t); reflexivity|right; exists (s :: t); reflexivity].
  - intros [([|s t] & ->)|([|s t] & ->)]; rewrite ?app_nil_r in *.
    + left. left. clear -Qa Qb. revert b Qb. induction Qa as [s|s l q H IH]; intros b Qb; inversion Qb as [s' E1 E2|s' k q' K E1 E2]; subst; [reflexivity|inversion K|inversion H|f_equal; f_equal; f_equal; exact (IH _ K)].
    + left. right. exists s, t. reflexivity.
    + left. left. clear -Qa Qb. revert b Qb. induction Qa as [s|s l q H IH]; intros b Qb; inversion Qb as [s' E1 E2|s' k q' K E1 E2]; subst; [reflexivity|inversion K|inversion H|f_equal; f_equal; f_equal; exact (IH _ K)].
    + right. exists s, t. reflexivity.
Qed.
Lemma apart_spec names : apart names = true <-> ForallOrdPairs (fun a b => collide a b = false) names.
Proof.
  induction names as [|n t IH]; cbn [apart]; [split; [constructor|reflexivity]|]. rewrite andb_true_iff, negb_true_iff, IH.
  assert (K : existsb (collide n) t = false <-> Forall (fun b => collide n b = false) t).
  { clear IH. induction t as [|x t IH]; cbn [existsb]; [split; [constructor|reflexivity]|]. rewrite orb_false_iff, IH. split; [intros (A & B); constructor; assumption|intros H; inversion H; split; assumption]. }
  rewrite K. split; [intros (A & B); constructor; assumption|intros H; inversion H; split; assumption].
Qed.
Lemma qualified_text l q : qualified l q -> q = [] -> l = [[]].
Proof. intros H. destruct H as [s|s l q H]; intros E; [rewrite E; reflexivity|]. apply app_eq_nil in E. destruct E as (_ & E). discriminate E. Qed.
Lemma descriptor_segments file over ns n : file_namespace file over = Some ns -> In n (descriptor_names ns) -> exists l, qualified l n /\ Forall usable l.
Proof.
  intros H Hn. destruct (file_namespace_spec file over ns H) as (segs & Q & U & _).
  assert (U2 : Forall usable (txt "hpp_proto" :: txt "file_descriptors" :: segs)).
  { constructor; [apply (from_proto_usable (txt "hpp_proto")); vm_compute; reflexivity|]. constructor; [apply (from_proto_usable (txt "file_descriptors")); vm_compute; reflexivity|exact U]. }
  assert (K : forall x, usable x -> exists l, qualified l (append_segment ns x) /\ Forall usable l).
  { intros x Ux. exists ((txt "hpp_proto" :: txt "file_descriptors" :: segs) ++ [x]). split; [|apply Forall_app; split; [exact U2|constructor; [exact Ux|constructor]]].
    unfold append_segment. destruct ns as [|c ns]; [apply qualified_text in Q; [discriminate Q|reflexivity]|]. exact (qualified_app _ [x] x _ (QOne x) Q). }
  cbn [descriptor_names In] in Hn. destruct Hn as [<-|[<-|[]]]; apply K; [apply (from_proto_usable (txt "file_descriptor_"))|apply (from_proto_usable (txt "file_descriptor_set"))]; vm_compute; reflexivity.
Qed.
Lemma apart_segments names segs : Forall2 qualified segs names -> Forall (Forall usable) segs -> apart names = true <-> ForallOrdPairs (fun a b => ~ leading a b /\ ~ leading b a) segs.
Proof.
  intros H U. rewrite apart_spec. induction H as [|l n ls ns Q H IH]; [split; constructor|]. inversion U as [|a b Ul Us]; subst. specialize (IH Us).
  assert (K : Forall (fun b => collide n b = false) ns <-> Forall (fun b => ~ leading l b /\ ~ leading b l) ls).
  { clear IH U. induction H as [|l' n' ls ns Q' H IH]; [split; constructor|]. inversion Us as [|a b Ul' Us']; subst. specialize (IH Us').
    pose proof (collide_spec l n l' n' Q Ul Q' Ul') as C.
    assert (C' : collide n n' = false <-> ~ leading l l' /\ ~ leading l' l) by (destruct (collide n n'); split; [discriminate|intros (A & B); destruct (proj1 C eq_refl); contradiction| |reflexivity]; intros _; split; intros L; assert (false = true) by tauto; discriminate).
    split; intros X; inversion X; subst; constructor; tauto. }
  split; intros X; inversion X; subst; constructor; tauto.
Qed.
Lemma descriptors_apart spaces : Forall (fun ns => exists file over, file_namespace file over = Some ns) spaces ->
  exists segs, Forall2 qualified segs (flat_map descriptor_names spaces) /\ Forall (Forall usable) segs /\
    (descriptors_ok spaces = true <-> ForallOrdPairs (fun a b => ~ leading a b /\ ~ leading b a) segs).
Proof.
  intros H.
  assert (E : exists segs, Forall2 qualified segs (flat_map descriptor_names spaces) /\ Forall (Forall usable) segs).
  { assert (A : forall n, In n (flat_map descriptor_names spaces) -> exists l, qualified l n /\ Forall usable l).
    { intros n Hn. apply in_flat_map in Hn. destruct Hn as (ns & Hns & Hn). rewrite Forall_forall in H. destruct (H ns Hns) as (file & over & F). exact (descriptor_segments file over ns n F Hn). }
    induction (flat_map descriptor_names spaces) as [|n l IH]; [exists []; split; constructor|].
    destruct (A n (or_introl eq_refl)) as (s & Q & U). destruct IH as (ss & Qs & Us); [intros x Hx; apply A; right; exact Hx|]. exists (s :: ss). split; constructor; assumption. }
  destruct E as (segs & Q & U). exists segs. split; [exact Q|]. split; [exact U|]. exact (apart_segments _ _ Q U).
Qed.
