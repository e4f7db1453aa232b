(** Accepted names are declared once in each scope. *)
From Coq Require Import Ascii String.
From Coq Require Import ZArith List Bool Lia.
Import ListNotations.
Require Import Verif.Bits Verif.CppText Verif.CppSpec Verif.CppNames Verif.GenNameCheck.
Local Open Scope string_scope.
Local Open Scope list_scope.
Local Open Scope Z_scope.

Lemma same_false a b : same a b = false <-> a <> b.
Proof. rewrite <- same_spec. destruct (same a b); split; congruence. Qed.
Lemma existsb_same_false n l : existsb (same n) l = false <-> ~ In n l.
Proof. rewrite <- existsb_same. destruct (existsb (same n) l); split; congruence. Qed.
Lemma inserted_spec names : forall seen, inserted seen names = true <-> NoDup names /\ forall n, In n names -> ~ In n seen.
Proof.
  induction names as [|n t IH]; intros seen; cbn [inserted].
  - split; [intros _; split; [constructor|intros n []]|reflexivity].
  - rewrite andb_true_iff, negb_true_iff, existsb_same_false, IH. split.
    + intros (H & Hn & Hd). split; [constructor; [intros Hi; exact (Hd _ Hi (or_introl eq_refl))|exact Hn]|].
      intros x [<-|Hx]; [exact H|intros Hi; exact (Hd _ Hx (or_intror Hi))].
    + intros (Hn & Hd). inversion Hn as [|a b Ha Hb]; subst. split; [apply Hd; left; reflexivity|]. split; [exact Hb|].
      intros x Hx [<-|Hi]; [exact (Ha Hx)|exact (Hd x (or_intror Hx) Hi)].
Qed.
Lemma inserted_nodup names : inserted [] names = true -> NoDup names.
Proof. intros H. apply inserted_spec in H. apply H. Qed.
Lemma same_key_spec a b : same_key a b = true <-> a = b.
Proof.
  destruct a as [n x], b as [k y]. unfold same_key. cbn [fst snd]. destruct (list_eq_dec (list_eq_dec Z.eq_dec) n k) as [->|N]; cbn [andb].
  - rewrite same_spec. split; [intros ->; reflexivity|intros H; inversion H; reflexivity].
  - split; [discriminate|intros H; inversion H; contradiction].
Qed.
Lemma existsb_key_false k l : existsb (same_key k) l = false <-> ~ In k l.
Proof.
  split.
  - intros H Hi. assert (existsb (same_key k) l = true) by (apply existsb_exists; exists k; split; [exact Hi|apply same_key_spec; reflexivity]). congruence.
  - intros H. destruct (existsb (same_key k) l) eqn:E; [|reflexivity]. apply existsb_exists in E. destruct E as (x & Hx & Hs). apply same_key_spec in Hs. subst x. contradiction.
Qed.
Lemma inserted_in_nodup keys : forall seen, inserted_in seen keys = true -> NoDup keys /\ forall k, In k keys -> ~ In k seen.
Proof.
  induction keys as [|k t IH]; intros seen; cbn [inserted_in].
  - intros _. split; [constructor|intros k []].
  - rewrite andb_true_iff, negb_true_iff, existsb_key_false. intros (H & Hi). destruct (IH _ Hi) as (Hn & Hd).
    split; [constructor; [intros Hx; exact (Hd _ Hx (or_introl eq_refl))|exact Hn]|].
    intros x [<-|Hx]; [exact H|intros Hy; exact (Hd _ Hx (or_intror Hy))].
Qed.

(** ** Lists without repetition *)
Lemma nodup_app {A} (a b : list A) : NoDup (a ++ b) <-> NoDup a /\ NoDup b /\ forall x, In x a -> ~ In x b.
Proof.
  induction a as [|x a IH]; cbn [app].
  - split; [intros H; split; [constructor|split; [exact H|intros x []]]|intros (_ & H & _); exact H].
  - split.
    + intros H. inversion H as [|y l Hx Hl]; subst. apply IH in Hl. destruct Hl as (Ha & Hb & Hd).
      split; [constructor; [intros Hi; apply Hx, in_or_app; left; exact Hi|exact Ha]|]. split; [exact Hb|].
      intros y [<-|Hy]; [intros Hi; apply Hx, in_or_app; right; exact Hi|exact (Hd y Hy)].
    + intros (Ha & Hb & Hd). inversion Ha as [|y l Hx Hl]; subst. constructor.
      * intros Hi. apply in_app_or in Hi. destruct Hi as [Hi|Hi]; [exact (Hx Hi)|exact (Hd x (or_introl eq_refl) Hi)].
      * apply IH. split; [exact Hl|]. split; [exact Hb|]. intros y Hy. apply Hd. right. exact Hy.
Qed.
Lemma nodup_flat_map {A B} (g : A -> list B) l : (forall x, In x l -> NoDup (g x)) -> NoDup l -> (forall x y b, In x l -> In y l -> In b (g x) -> In b (g y) -> x = y) -> NoDup (flat_map g l).
Proof.
  induction l as [|x l IH]; intros Hg Hn Hd; cbn [flat_map]; [constructor|]. inversion Hn as [|a b Ha Hb]; subst.
  apply nodup_app. split; [apply Hg; left; reflexivity|]. split.
  - apply IH; [intros y Hy; apply Hg; right; exact Hy|exact Hb|]. intros y z b Hy Hz. apply Hd; right; assumption.
  - intros b Hb1 Hb2. apply in_flat_map in Hb2. destruct Hb2 as (y & Hy & Hyb).
    assert (x = y) by (apply (Hd x y b); [left; reflexivity|right; exact Hy|exact Hb1|exact Hyb]). subst y. contradiction.
Qed.
(** The same with keys that are not repeated, so that the elements of the list may be. *)
Lemma nodup_keyed {A B K} (g : A -> list B) (keys : A -> list K) (R : B -> K -> Prop) l : (forall x, In x l -> NoDup (g x)) -> NoDup (flat_map keys l) ->
  (forall x b, In x l -> In b (g x) -> exists k, In k (keys x) /\ R b k) ->
  (forall x y b k k', In x l -> In y l -> In k (keys x) -> In k' (keys y) -> In b (g x) -> In b (g y) -> R b k -> R b k' -> k = k') -> NoDup (flat_map g l).
Proof.
  induction l as [|x l IH]; intros Hg Hn Hk Hd; cbn [flat_map] in *; [constructor|].
  apply nodup_app in Hn. destruct Hn as (H1 & H2 & H3). apply nodup_app. split; [apply Hg; left; reflexivity|]. split.
  - apply IH; [intros y Hy; apply Hg; right; exact Hy|exact H2|intros y b Hy; apply Hk; right; exact Hy|]. intros y z b k k' Hy Hz. apply Hd; right; assumption.
  - intros b Hb1 Hb2. apply in_flat_map in Hb2. destruct Hb2 as (y & Hy & Hyb).
    destruct (Hk x b (or_introl eq_refl) Hb1) as (k & Hk1 & Hr). destruct (Hk y b (or_intror Hy) Hyb) as (k' & Hk2 & Hr').
    assert (k = k') by (apply (Hd x y b k k'); auto; [left; reflexivity|right; exact Hy]). subst k'.
    apply (H3 k Hk1). apply in_flat_map. exists y. split; assumption.
Qed.
Lemma nodup_map_filter {A B} (g : A -> B) p l : NoDup (map g l) -> NoDup (map g (filter p l)).
Proof.
  induction l as [|x l IH]; cbn [map filter]; [auto|]. intros H. inversion H as [|a b Ha Hb]; subst. destruct (p x); [|exact (IH Hb)].
  cbn [map]. constructor; [|exact (IH Hb)]. intros Hi. apply Ha. apply in_map_iff in Hi. destruct Hi as (y & E & Hy). apply filter_In in Hy. apply in_map_iff. exists y. split; [exact E|apply Hy].
Qed.
Lemma in_flat_map_filter {A B} (g : A -> list B) p l b : In b (flat_map g (filter p l)) -> In b (flat_map g l).
Proof. rewrite !in_flat_map. intros (x & Hx & Hb). apply filter_In in Hx. exists x. split; [apply Hx|exact Hb]. Qed.
Lemma nodup_flat_map_filter {A B} (g : A -> list B) p l : NoDup (flat_map g l) -> NoDup (flat_map g (filter p l)).
Proof.
  induction l as [|x l IH]; cbn [flat_map filter]; [auto|]. rewrite nodup_app. intros (H1 & H2 & H3). destruct (p x); [|exact (IH H2)].
  cbn [flat_map]. apply nodup_app. split; [exact H1|]. split; [exact (IH H2)|]. intros b Hb Hi. exact (H3 b Hb (in_flat_map_filter g p l b Hi)).
Qed.

(** ** Scopes of enums and services *)
Lemma enum_nodup e : enum_ok e = true -> NoDup (map cpp (ne_values e)).
Proof. unfold enum_ok. rewrite andb_true_iff. intros (H & _). exact (inserted_nodup _ H). Qed.
Lemma service_nodup s : service_ok s = true -> ~ In (txt "_methods") (ns_methods s) -> NoDup (service_names s).
Proof.
  unfold service_ok, service_names. rewrite !andb_true_iff. intros (((_ & _) & Hs) & H) N. apply inserted_nodup in H. apply nodup_app. split; [exact H|]. split; [constructor; [intros []|constructor]|].
  intros x Hx [<-|[]]. apply in_map_iff in Hx. destruct Hx as (n & E & Hn).
  rewrite forallb_forall in Hs. specialize (Hs n Hn). apply andb_true_iff in Hs. destruct Hs as (Hok & _). apply N.
  unfold cpp_ok in Hok. unfold cpp in E. destruct (from_proto n) as [r|] eqn:F; [|discriminate Hok]. subst r.
  assert (F0 : from_proto (txt "_methods") = Some (txt "_methods")) by (vm_compute; reflexivity).
  destruct (from_proto_collision _ _ _ F F0) as [->|[[Hk E]|[Hk _]]]; [exact Hn| |].
  - exfalso. revert E. change (txt "_methods") with ([95] ++ txt "method" ++ [115]). rewrite app_assoc. intros E. apply app_inj_tail in E. destruct E as (_ & E). discriminate E.
  - exfalso. clear -Hk. vm_compute in Hk. repeat (destruct Hk as [Hk|Hk]; [discriminate Hk|]). exact Hk.
Qed.

(** ** The scope of a struct *)
Lemma msg_ok_parts m : msg_ok m = true ->
  spelled m = true /\ (fixed_member m (cpp (n_name m)) = false /\ helper (cpp (n_name m)) = false) /\ members_ok m = true /\ forallb (oneof_ok m) (n_oneofs m) = true /\ nested_ok m = true /\
  forallb enum_ok (n_enums m) = true /\ forallb msg_ok (n_msgs m) = true.
Proof.
  destruct m as [full name entry ranges fields oneofs msgs enums exts]. cbn [msg_ok n_msgs]. rewrite !andb_true_iff, negb_true_iff, orb_false_iff. tauto.
Qed.
Lemma members_parts m : members_ok m = true -> NoDup (schema_names m) /\ forall n, In n (schema_names m) -> fixed_member m n = false /\ n <> cpp (n_name m).
Proof.
  unfold members_ok. rewrite !andb_true_iff, !forallb_forall. intros (((((H1 & H2) & H3) & H4) & H5) & H6). split; [exact (inserted_nodup _ H6)|].
  assert (K : forall a b n, member_ok m a b n = true -> fixed_member m n = false /\ n <> cpp (n_name m)).
  { intros a b n. unfold member_ok. rewrite !andb_true_iff, !negb_true_iff, same_false. tauto. }
  intros n Hn. unfold schema_names in Hn. rewrite !in_app_iff in Hn.
  destruct Hn as [Hn|[Hn|[Hn|[Hn|Hn]]]]; [exact (K _ _ _ (H1 n Hn))|exact (K _ _ _ (H2 n Hn))|exact (K _ _ _ (H3 n Hn))|exact (K _ _ _ (H4 n Hn))|exact (K _ _ _ (H5 n Hn))].
Qed.
Lemma oneof_parts m o : oneof_ok m o = true -> (case_name o <> cpp (n_name m) /\ ~ In (case_name o) (schema_names m)) /\ table_name o <> cpp (n_name m) /\ ~ In (table_name o) (schema_names m).
Proof. unfold oneof_ok. rewrite andb_true_iff, !negb_true_iff, !orb_false_iff, !same_false, !existsb_same_false. tauto. Qed.

Lemma rev_append_word n w : exists r, rev (append_word n w) = rev w ++ r.
Proof. unfold append_word. rewrite rev_app_distr. eexists. reflexivity. Qed.
Lemma word_ends n w x : append_word n w = x -> exists r, rev x = rev w ++ r.
Proof. intros <-. apply rev_append_word. Qed.
Lemma case_not_table a b : case_name a <> table_name b.
Proof.
  unfold case_name, table_name. intros E. apply word_ends in E. destruct E as (r & E). destruct (rev_append_word (cpp b) (cpp (txt "oneof_numbers"))) as (r' & E').
  rewrite E' in E. vm_compute in E. discriminate E.
Qed.
Lemma helper_not_fixed m o : fixed_member m (case_name o) = false /\ fixed_member m (table_name o) = false.
Proof.
  assert (K : forall (w x : bytes), (exists r, rev x = rev w ++ r) -> forall y, y = rev x -> forall z, z = rev w -> firstn (length z) y = z).
  { intros w x (r & E) y -> z ->. rewrite E. rewrite firstn_app, firstn_all, Nat.sub_diag. cbn [firstn]. apply app_nil_r. }
  unfold fixed_member.
  assert (Q : forall w, w = cpp (txt "oneof_case") \/ w = cpp (txt "oneof_numbers") -> forall x, In x (map txt ["Traits"; "hpp_proto_traits_type"; "unknown_fields_"; "glaze_reflect"; "get_extension"; "set_extension"; "has_extension"]) ->
    same (append_word (cpp o) w) x = false).
  { intros w Hw x Hx. apply same_false. intros E. apply word_ends in E. pose proof (K w x E _ eq_refl _ eq_refl) as E'. clear -Hw Hx E'.
    cbn [map In] in Hx. destruct Hw as [->| ->]; (repeat (destruct Hx as [Hx|Hx]; [subst x; vm_compute in E'; discriminate E'|])); exact Hx. }
  unfold case_name, table_name.
  split; rewrite !Q; cbn [map In]; try tauto; rewrite ?andb_false_r; reflexivity.
Qed.

Definition leads (m : nmsg) (f g : nfield) : Prop :=
  match nf_oneof g with None => f = g | Some i => nf_oneof f = Some i /\ exists first rest, alternatives m i = first :: rest /\ nf_number f = nf_number first end.
Lemma alternatives_in m i g : In g (alternatives m i) <-> In g (n_fields m) /\ nf_oneof g = Some i.
Proof.
  unfold alternatives. rewrite filter_In. destruct (nf_oneof g) as [j|]; [|split; intros (_ & H); discriminate H].
  rewrite Nat.eqb_eq. split; intros (A & B); split; try exact A; congruence.
Qed.
Lemma members_kind m f n : In f (n_fields m) -> In n (field_members m f) ->
  (exists g, In g (n_fields m) /\ n = cpp (nf_name g) /\ leads m f g) \/
  (exists i o first rest, nf_oneof f = Some i /\ nth_error (n_oneofs m) i = Some o /\ alternatives m i = first :: rest /\ rest <> [] /\ nf_number f = nf_number first /\ (n = case_name o \/ n = table_name o \/ n = cpp o)).
Proof.
  intros Hf Hn. unfold field_members in Hn. destruct (nf_oneof f) as [i|] eqn:Ef.
  - destruct (nth_error (n_oneofs m) i) as [o|] eqn:Eo; [|destruct Hn]. destruct (alternatives m i) as [|first rest] eqn:Ea; [destruct Hn|].
    destruct (nf_number f =? nf_number first) eqn:En; [|destruct Hn]. apply Z.eqb_eq in En.
    assert (G : forall g, In g (first :: rest) -> In g (n_fields m) /\ leads m f g).
    { intros g Hg. rewrite <- Ea in Hg. apply alternatives_in in Hg. destruct Hg as (Hg & Eg). split; [exact Hg|]. unfold leads. rewrite Eg. split; [exact Ef|]. exists first, rest. split; assumption. }
    destruct rest as [|second rest].
    + destruct Hn as [<-|[]]. left. exists first. destruct (G first (or_introl eq_refl)) as (A & B). split; [exact A|]. split; [reflexivity|exact B].
    + destruct Hn as [<-|Hn]; [right; exists i, o, first, (second :: rest); split; [reflexivity|split; [exact Eo|split; [exact Ea|split; [discriminate|split; [exact En|left; reflexivity]]]]]|].
      apply in_app_or in Hn. destruct Hn as [Hn|Hn].
      * left. apply in_map_iff in Hn. destruct Hn as (g & E & Hg). exists g. destruct (G g Hg) as (A & B). split; [exact A|]. split; [symmetry; exact E|exact B].
      * right. exists i, o, first, (second :: rest). split; [reflexivity|split; [exact Eo|split; [exact Ea|split; [discriminate|split; [exact En|]]]]]. destruct Hn as [<-|[<-|[]]]; tauto.
  - destruct Hn as [<-|[]]. left. exists f. split; [exact Hf|]. split; [reflexivity|]. unfold leads. rewrite Ef. reflexivity.
Qed.

Lemma map_injective {A B} (g : A -> B) l x y : NoDup (map g l) -> In x l -> In y l -> g x = g y -> x = y.
Proof.
  induction l as [|a l IH]; cbn [map]; [intros _ []|]. intros H. inversion H as [|b c Hb Hc]; subst. intros [<-|Hx] [<-|Hy] E; [reflexivity| | |exact (IH Hc Hx Hy E)].
  - exfalso. apply Hb. rewrite E. apply in_map. exact Hy.
  - exfalso. apply Hb. rewrite <- E. apply in_map. exact Hx.
Qed.
Lemma nodup_of_map {A B} (g : A -> B) l : NoDup (map g l) -> NoDup l.
Proof. induction l as [|a l IH]; cbn [map]; [constructor|]. intros H. inversion H as [|b c Hb Hc]; subst. constructor; [intros Hi; apply Hb, in_map, Hi|exact (IH Hc)]. Qed.
Lemma nth_map_injective {A B} (g : A -> B) l i j x y : NoDup (map g l) -> nth_error l i = Some x -> nth_error l j = Some y -> g x = g y -> i = j.
Proof.
  intros H Hi Hj E. rewrite NoDup_nth_error in H. apply H.
  - rewrite map_length. apply nth_error_Some. congruence.
  - rewrite !nth_error_map, Hi, Hj. cbn. congruence.
Qed.

(** Names of oneofs that differ in a final underscore only *)
Lemma cpp_underscore a b : cpp_ok a = true -> cpp_ok b = true -> cpp b = cpp a ++ [95] -> b = a ++ [95].
Proof.
  unfold cpp_ok, cpp. destruct (from_proto a) as [r|] eqn:Fa; [|discriminate]. destruct (from_proto b) as [s|] eqn:Fb; [|discriminate]. intros _ _ ->.
  assert (U : usable (r ++ [95])) by exact (from_proto_usable b _ Fb).
  unfold from_proto in Fa, Fb. destruct (well_formed a && negb (is_reserved a)); [|discriminate Fa]. destruct (well_formed b && negb (is_reserved b)); [|discriminate Fb].
  injection Fa as <-. injection Fb as Fb. unfold safe_identifier in Fb, U. destruct (is_keyword a) eqn:Ka.
  - exfalso. destruct U as (_ & _ & U). apply U. left. exists a, []. rewrite <- app_assoc. reflexivity.
  - destruct (is_keyword b) eqn:Kb; [|exact Fb]. apply app_inj_tail in Fb. destruct Fb as (-> & _). congruence.
Qed.

Definition twins (m : nmsg) : Prop := exists i j a b, nth_error (n_oneofs m) i = Some a /\ nth_error (n_oneofs m) j = Some b /\
  (2 <= length (alternatives m i))%nat /\ (2 <= length (alternatives m j))%nat /\ b = a ++ [95].

Section Struct.
  Variable m : nmsg.
  Hypothesis Hok : msg_ok m = true.
  Hypothesis Hnum : NoDup (map nf_number (n_fields m)).
  Hypothesis Htwins : ~ twins m.

  Lemma schema_nodup : NoDup (schema_names m). Proof. apply members_parts. apply (msg_ok_parts m Hok). Qed.
  Lemma fields_nodup : NoDup (field_names m). Proof. pose proof schema_nodup as H. apply nodup_app in H. apply H. Qed.
  Lemma oneofs_nodup : NoDup (map cpp (n_oneofs m)).
  Proof. pose proof schema_nodup as H. apply nodup_app in H. destruct H as (_ & H & _). apply nodup_app in H. destruct H as (_ & H & _). apply nodup_app in H. destruct H as (_ & H & _). apply nodup_app in H. apply H. Qed.
  Lemma field_not_oneof n : In n (field_names m) -> ~ In n (map cpp (n_oneofs m)).
  Proof. intros Hn Ho. pose proof schema_nodup as H. apply nodup_app in H. destruct H as (_ & _ & H). apply (H n Hn). rewrite !in_app_iff. tauto. Qed.
  Lemma oneofs_spelled o : In o (n_oneofs m) -> cpp_ok o = true.
  Proof. pose proof (msg_ok_parts m Hok) as (H & _). unfold spelled in H. rewrite !andb_true_iff, !forallb_forall in H. intros Ho. destruct H as (((_ & H) & _) & _). exact (H o Ho). Qed.
  Lemma oneof_helpers o : In o (n_oneofs m) -> (case_name o <> cpp (n_name m) /\ ~ In (case_name o) (schema_names m)) /\ table_name o <> cpp (n_name m) /\ ~ In (table_name o) (schema_names m).
  Proof. intros Ho. apply oneof_parts. pose proof (msg_ok_parts m Hok) as (_ & _ & _ & H & _). rewrite forallb_forall in H. exact (H o Ho). Qed.
  Lemma in_schema_field g : In g (n_fields m) -> In (cpp (nf_name g)) (field_names m).
  Proof. intros H. unfold field_names. apply in_map_iff. exists g. split; [reflexivity|exact H]. Qed.
  Lemma in_schema n : In n (field_names m) \/ In n (map cpp (n_oneofs m)) -> In n (schema_names m).
  Proof. unfold schema_names. rewrite !in_app_iff. tauto. Qed.
  Lemma append_same i j a b w : nth_error (n_oneofs m) i = Some a -> nth_error (n_oneofs m) j = Some b -> (2 <= length (alternatives m i))%nat -> (2 <= length (alternatives m j))%nat ->
    append_word (cpp a) w = append_word (cpp b) w -> i = j.
  Proof.
    intros Ha Hb Hi Hj E. pose proof (oneofs_spelled a (nth_error_In _ _ Ha)) as Sa. pose proof (oneofs_spelled b (nth_error_In _ _ Hb)) as Sb.
    destruct (append_word_injective _ _ _ E) as [E1|[E1|E1]].
    - exact (nth_map_injective cpp _ i j a b oneofs_nodup Ha Hb E1).
    - exfalso. apply Htwins. exists i, j, a, b. split; [exact Ha|]. split; [exact Hb|]. split; [exact Hi|]. split; [exact Hj|]. exact (cpp_underscore a b Sa Sb E1).
    - exfalso. apply Htwins. exists j, i, b, a. split; [exact Hb|]. split; [exact Ha|]. split; [exact Hj|]. split; [exact Hi|]. exact (cpp_underscore b a Sb Sa E1).
  Qed.
  Lemma same_number f g : In f (n_fields m) -> In g (n_fields m) -> nf_number f = nf_number g -> f = g.
  Proof. exact (map_injective nf_number _ f g Hnum). Qed.

  Lemma one_leader f f' n : In f (n_fields m) -> In f' (n_fields m) -> In n (field_members m f) -> In n (field_members m f') -> f = f'.
  Proof.
    intros Hf Hf' Hn Hn'. apply (members_kind m f n Hf) in Hn. apply (members_kind m f' n Hf') in Hn'.
    destruct Hn as [(g & Hg & E & L)|(i & o & first & rest & Ef & Eo & Ea & Er & En & K)]; destruct Hn' as [(g' & Hg' & E' & L')|(i' & o' & first' & rest' & Ef' & Eo' & Ea' & Er' & En' & K')].
    - assert (g = g') by (apply (map_injective (fun f => cpp (nf_name f)) (n_fields m)); [exact fields_nodup|exact Hg|exact Hg'|congruence]). subst g'.
      unfold leads in L, L'. destruct (nf_oneof g) as [i|]; [|congruence]. destruct L as (_ & a & r & A & N). destruct L' as (_ & a' & r' & A' & N'). rewrite A in A'. injection A' as <- <-. apply same_number; [exact Hf|exact Hf'|congruence].
    - exfalso. pose proof (oneof_helpers o' (nth_error_In _ _ Eo')) as (H1 & H2). pose proof (in_schema_field g Hg) as Hs.
      destruct K' as [K'|[K'|K']]; rewrite E in K'.
      + apply H1. rewrite <- K'. apply in_schema. left. exact Hs.
      + apply H2. rewrite <- K'. apply in_schema. left. exact Hs.
      + apply (field_not_oneof _ Hs). rewrite K'. apply in_map. exact (nth_error_In _ _ Eo').
    - exfalso. pose proof (oneof_helpers o (nth_error_In _ _ Eo)) as (H1 & H2). pose proof (in_schema_field g' Hg') as Hs.
      destruct K as [K|[K|K]]; rewrite E' in K.
      + apply H1. rewrite <- K. apply in_schema. left. exact Hs.
      + apply H2. rewrite <- K. apply in_schema. left. exact Hs.
      + apply (field_not_oneof _ Hs). rewrite K. apply in_map. exact (nth_error_In _ _ Eo).
    - assert (i = i') as <-.
      { assert (L : (2 <= length (alternatives m i))%nat) by (rewrite Ea; destruct rest; [congruence|cbn [length]; lia]).
        assert (L' : (2 <= length (alternatives m i'))%nat) by (rewrite Ea'; destruct rest'; [congruence|cbn [length]; lia]).
        pose proof (oneof_helpers o (nth_error_In _ _ Eo)) as (H1 & H2). pose proof (oneof_helpers o' (nth_error_In _ _ Eo')) as (H1' & H2').
        assert (Io : In (cpp o) (schema_names m)) by (apply in_schema; right; apply in_map; exact (nth_error_In _ _ Eo)).
        assert (Io' : In (cpp o') (schema_names m)) by (apply in_schema; right; apply in_map; exact (nth_error_In _ _ Eo')).
        destruct K as [->|[->| ->]]; destruct K' as [K'|[K'|K']].
        - exact (append_same i i' o o' _ Eo Eo' L L' K').
        - exfalso. exact (case_not_table _ _ K').
        - exfalso. apply H1. rewrite K'. exact Io'.
        - exfalso. exact (case_not_table _ _ (eq_sym K')).
        - exact (append_same i i' o o' _ Eo Eo' L L' K').
        - exfalso. apply H2. rewrite K'. exact Io'.
        - exfalso. apply H1'. rewrite <- K'. exact Io.
        - exfalso. apply H2'. rewrite <- K'. exact Io.
        - exact (nth_map_injective cpp _ i i' o o' oneofs_nodup Eo Eo' K'). }
      rewrite Ea in Ea'. injection Ea' as <- <-. apply same_number; [exact Hf|exact Hf'|congruence].
  Qed.
  Lemma field_members_nodup f : In f (n_fields m) -> NoDup (field_members m f).
  Proof.
    intros Hf. unfold field_members. destruct (nf_oneof f) as [i|]; [|constructor; [intros []|constructor]].
    destruct (nth_error (n_oneofs m) i) as [o|] eqn:Eo; [|constructor]. destruct (alternatives m i) as [|first rest] eqn:Ea; [constructor|].
    destruct (nf_number f =? nf_number first); [|constructor]. destruct rest as [|second rest]; [constructor; [intros []|constructor]|].
    assert (Hin : forall n, In n (map (fun g => cpp (nf_name g)) (first :: second :: rest)) -> In n (field_names m)).
    { intros n Hn. apply in_map_iff in Hn. destruct Hn as (g & <- & Hg). apply in_schema_field. rewrite <- Ea in Hg. apply alternatives_in in Hg. apply Hg. }
    assert (Hnd : NoDup (map (fun g => cpp (nf_name g)) (first :: second :: rest))).
    { rewrite <- Ea. unfold alternatives. apply nodup_map_filter. exact fields_nodup. }
    pose proof (nth_error_In _ _ Eo) as Io. pose proof (oneof_helpers o Io) as (H1 & H2). pose proof (in_map cpp _ _ Io) as Ic.
    constructor.
    - intros Hi. apply in_app_or in Hi. destruct Hi as [Hi|[Hi|[Hi|[]]]].
      + apply H1. apply in_schema. left. exact (Hin _ Hi).
      + exact (case_not_table _ _ (eq_sym Hi)).
      + apply H1. rewrite <- Hi. apply in_schema. right. exact Ic.
    - apply nodup_app. split; [exact Hnd|]. split.
      + constructor; [|constructor; [intros []|constructor]]. intros [Hi|[]]. apply H2. rewrite <- Hi. apply in_schema. right. exact Ic.
      + intros n Hn [Hi|[Hi|[]]].
        * apply H2. rewrite Hi. apply in_schema. left. exact (Hin _ Hn).
        * apply (field_not_oneof n (Hin _ Hn)). rewrite <- Hi. exact Ic.
  Qed.
  Lemma all_members_nodup : NoDup (flat_map (field_members m) (n_fields m)).
  Proof.
    apply nodup_flat_map; [exact field_members_nodup|exact (nodup_of_map nf_number _ Hnum)|]. intros f g n Hf Hg. exact (one_leader f g n Hf Hg).
  Qed.
  (** A member is a field, a oneof or a helper of one. *)
  Lemma member_class n : In n (flat_map (field_members m) (n_fields m)) ->
    (In n (field_names m) \/ In n (map cpp (n_oneofs m))) \/ exists o, In o (n_oneofs m) /\ (n = case_name o \/ n = table_name o).
  Proof.
    intros H. apply in_flat_map in H. destruct H as (f & Hf & Hn). apply (members_kind m f n Hf) in Hn.
    destruct Hn as [(g & Hg & -> & _)|(i & o & first & rest & _ & Eo & _ & _ & _ & K)].
    - left. left. exact (in_schema_field g Hg).
    - pose proof (nth_error_In _ _ Eo) as Io. destruct K as [K|[K|K]]; [right; exists o; tauto|right; exists o; tauto|left; right; rewrite K; apply in_map; exact Io].
  Qed.
  Lemma member_free n : In n (flat_map (field_members m) (n_fields m)) -> fixed_member m n = false /\ n <> cpp (n_name m) /\ ~ In n (msg_names (n_msgs m)) /\ ~ In n (enum_names (n_enums m)) /\ ~ In n (map cpp (n_exts m)).
  Proof.
    intros H. apply member_class in H. pose proof (msg_ok_parts m Hok) as (_ & _ & Hm & _). apply members_parts in Hm. destruct Hm as (Hn & Hc).
    destruct H as [H|(o & Io & K)].
    - destruct (Hc n (in_schema n H)) as (A & B). split; [exact A|]. split; [exact B|]. unfold schema_names in Hn. apply nodup_app in Hn. destruct Hn as (_ & Hn & D1). apply nodup_app in Hn. destruct Hn as (_ & Hn & D2). apply nodup_app in Hn. destruct Hn as (_ & Hn & D3). apply nodup_app in Hn. destruct Hn as (_ & _ & D4).
      destruct H as [H|H].
      + specialize (D1 n H). rewrite !in_app_iff in D1. tauto.
      + split; [intros Hi; apply (D2 n Hi); rewrite !in_app_iff; tauto|]. split; [intros Hi; apply (D3 n Hi); rewrite !in_app_iff; tauto|]. exact (D4 n H).
    - pose proof (oneof_helpers o Io) as (H1 & H2). pose proof (helper_not_fixed m o) as (F1 & F2). unfold schema_names in H1, H2. rewrite !in_app_iff in H1, H2. destruct K as [->| ->]; tauto.
  Qed.
  Lemma fixed_texts : fixed_member m (txt "Traits") = true /\ fixed_member m (txt "hpp_proto_traits_type") = true /\ fixed_member m (txt "unknown_fields_") = true /\
    (well_known (n_full m) = true -> fixed_member m (txt "glaze_reflect") = true) /\
    (n_ranges m = true -> forall n, In n (map txt ["get_extension"; "set_extension"; "has_extension"]) -> fixed_member m n = true).
  Proof.
    unfold fixed_member. split; [reflexivity|]. split; [reflexivity|]. split; [reflexivity|]. split; [intros ->; rewrite (proj2 (same_spec _ _) eq_refl); rewrite !orb_true_r; reflexivity|].
    intros -> n Hn. cbn [map In] in Hn. destruct Hn as [<-|[<-|[<-|[]]]]; rewrite (proj2 (same_spec _ _) eq_refl); rewrite ?orb_true_r; cbn [andb]; rewrite ?orb_true_r; reflexivity.
  Qed.
  Lemma struct_nodup : NoDup (struct_names m).
  Proof.
    pose proof (msg_ok_parts m Hok) as (_ & (Hown & _) & Hm & _). apply members_parts in Hm. destruct Hm as (Hn & Hc).
    destruct fixed_texts as (T1 & T2 & T3 & T4 & T5).
    set (G := msg_names (filter (fun x => negb (n_entry x)) (n_msgs m))).
    assert (HG : forall n, In n G -> In n (msg_names (n_msgs m))).
    { intros n H. unfold G, msg_names in *. apply in_map_iff in H. destruct H as (x & E & Hx). apply filter_In in Hx. apply in_map_iff. exists x. split; [exact E|apply Hx]. }
    unfold schema_names in Hn. apply nodup_app in Hn. destruct Hn as (_ & Hn & D1). apply nodup_app in Hn. destruct Hn as (N2 & Hn & D2). apply nodup_app in Hn. destruct Hn as (N3 & Hn & D3). apply nodup_app in Hn. destruct Hn as (_ & N5 & D4).
    assert (NG : NoDup G) by (apply nodup_map_filter; exact N2).
    set (E := enum_names (n_enums m)) in *. set (X := map cpp (n_exts m)) in *. set (M := flat_map (field_members m) (n_fields m)).
    assert (FE : forall n, In n E -> fixed_member m n = false /\ n <> cpp (n_name m)) by (intros n H; apply Hc; unfold schema_names; rewrite !in_app_iff; unfold E in H; tauto).
    assert (FG : forall n, In n G -> fixed_member m n = false /\ n <> cpp (n_name m)) by (intros n H; apply HG in H; apply Hc; unfold schema_names; rewrite !in_app_iff; tauto).
    assert (FX : forall n, In n X -> fixed_member m n = false /\ n <> cpp (n_name m)) by (intros n H; apply Hc; unfold schema_names; rewrite !in_app_iff; unfold X in H; tauto).
    assert (FM : forall n, In n M -> fixed_member m n = false /\ n <> cpp (n_name m) /\ ~ In n (msg_names (n_msgs m)) /\ ~ In n E /\ ~ In n X) by (intros n H; exact (member_free n H)).
    set (R := if n_ranges m then map txt ["get_extension"; "set_extension"; "has_extension"] else []).
    assert (FR : forall n, In n R -> fixed_member m n = true).
    { intros n H. unfold R in H. destruct (n_ranges m); [exact (T5 eq_refl n H)|destruct H]. }
    assert (NR : NoDup (txt "unknown_fields_" :: R)).
    { unfold R. destruct (n_ranges m); [|constructor; [intros []|constructor]]. cbn [map]. repeat (constructor; [cbn [In]; intros K; repeat (destruct K as [K|K]; [discriminate K|]); exact K|]). constructor. }
    set (W := if well_known (n_full m) then [txt "glaze_reflect"] else []).
    assert (FW : forall n, In n W -> n = txt "glaze_reflect" /\ fixed_member m n = true).
    { intros n H. unfold W in H. destruct (well_known (n_full m)); [|destruct H]. destruct H as [<-|[]]. split; [reflexivity|exact (T4 eq_refl)]. }
    assert (NW : NoDup W) by (unfold W; destruct (well_known (n_full m)); [constructor; [intros []|constructor]|constructor]).
    assert (F0 : ~ In (txt "Traits") (txt "unknown_fields_" :: R) /\ ~ In (txt "hpp_proto_traits_type") (txt "unknown_fields_" :: R) /\ ~ In (txt "glaze_reflect") (txt "unknown_fields_" :: R)).
    { unfold R. destruct (n_ranges m); cbn [map In]; (split; [|split]); intros K; repeat (destruct K as [K|K]; [discriminate K|]); exact K. }
    destruct F0 as (U1 & U2 & U3).
    assert (FU : forall n, In n (txt "unknown_fields_" :: R) -> fixed_member m n = true) by (intros n [<-|H]; [exact T3|exact (FR n H)]).
    (* the part after the first three names *)
    assert (NT : NoDup (E ++ W ++ G ++ M ++ X ++ txt "unknown_fields_" :: R)).
    { apply nodup_app. split; [exact N3|]. split.
      - apply nodup_app. split; [exact NW|]. split.
        + apply nodup_app. split; [exact NG|]. split.
          * apply nodup_app. split; [exact all_members_nodup|]. split.
            -- apply nodup_app. split; [exact N5|]. split; [exact NR|]. intros n Hn' Hu. pose proof (FX n Hn') as (A & _). pose proof (FU n Hu). congruence.
            -- intros n Hn' Hu. pose proof (FM n Hn') as (A & _ & _ & _ & B). apply in_app_or in Hu. destruct Hu as [Hu|Hu]; [exact (B Hu)|pose proof (FU n Hu); congruence].
          * intros n Hn' Hu. pose proof (FG n Hn') as (A & _). rewrite !in_app_iff in Hu. destruct Hu as [Hu|[Hu|Hu]]; [exact (proj1 (proj2 (proj2 (FM n Hu))) (HG n Hn'))| |pose proof (FU n Hu); congruence].
            apply (D2 n (HG n Hn')). rewrite !in_app_iff. tauto.
        + intros n Hn' Hu. destruct (FW n Hn') as (-> & A). rewrite !in_app_iff in Hu. destruct Hu as [Hu|[Hu|[Hu|Hu]]]; [pose proof (FG _ Hu) as (B & _); congruence|pose proof (FM _ Hu) as (B & _); congruence|pose proof (FX _ Hu) as (B & _); congruence|exact (U3 Hu)].
      - intros n Hn' Hu. pose proof (FE n Hn') as (A & _). rewrite !in_app_iff in Hu. destruct Hu as [Hu|[Hu|[Hu|[Hu|Hu]]]]; [destruct (FW n Hu); congruence| |pose proof (FM n Hu); tauto| |pose proof (FU n Hu); congruence].
        + apply (D2 n (HG n Hu)). rewrite !in_app_iff. tauto.
        + apply (D3 n Hn'). rewrite !in_app_iff. tauto. }
    assert (FA : forall n, In n (E ++ W ++ G ++ M ++ X ++ txt "unknown_fields_" :: R) -> n <> cpp (n_name m) /\ n <> txt "Traits" /\ n <> txt "hpp_proto_traits_type").
    { intros n Hn'. rewrite !in_app_iff in Hn'.
      assert (Q : fixed_member m n = false -> n <> txt "Traits" /\ n <> txt "hpp_proto_traits_type") by (intros F; split; intros ->; congruence).
      destruct Hn' as [H|[H|[H|[H|[H|H]]]]].
      - destruct (FE n H) as (A & B). tauto.
      - destruct (FW n H) as (-> & A). split; [intros K; rewrite K in A; congruence|]. split; discriminate.
      - destruct (FG n H) as (A & B). tauto.
      - destruct (FM n H) as (A & B & _). tauto.
      - destruct (FX n H) as (A & B). tauto.
      - pose proof (FU n H) as A. split; [intros K; rewrite K in A; congruence|]. split; intros ->; contradiction. }
    unfold struct_names. fold E W G M X R. constructor.
    - intros [K|[K|K]]; [rewrite K in Hown; congruence|discriminate K|destruct (FA _ K); tauto].
    - constructor; [|constructor; [intros K; destruct (FA _ K); tauto|exact NT]]. intros [K|K]; [rewrite <- K in Hown; congruence|destruct (FA _ K); tauto].
  Qed.
End Struct.
