(** The headers with file descriptors. *)
From Coq Require Import Sorting.Sorted.
Require Import Verif.Bits Verif.Varint Verif.Schema Verif.CppText Verif.Pool Verif.PoolSpec Verif.KahnSpec Verif.PoolProofs Verif.PoolMain Verif.GenNameCheck Verif.GenNamePaths.
Require Import Verif.GenDesc Verif.GenDescSpec Verif.GenDesc1.
Local Open Scope nat_scope.

(** ** Distinct names *)
Lemma nodup_pairs {A} (R : A -> A -> Prop) l : (forall a, ~ R a a) -> ForallOrdPairs R l -> NoDup l.
Proof. intros H K. induction K as [|a t F K IH]; constructor; [|exact IH]. intros C. rewrite Forall_forall in F. exact (H a (F a C)). Qed.
Lemma apart_nodup l : apart l = true -> NoDup l.
Proof.
  intros H. apply apart_spec in H. apply (nodup_pairs (fun a b => collide a b = false)); [|exact H]. intros a C. unfold collide in C.
  assert (same a a = true) by (unfold same; destruct (list_eq_dec Z.eq_dec a a); congruence). rewrite H0 in C. discriminate.
Qed.
Lemma own_nodup sp : descriptors_ok sp = true -> NoDup (map own_name sp).
Proof.
  intros H. apply apart_nodup in H. induction sp as [|s t IH]; cbn in *; [constructor|]. inversion_clear H as [|x l N K]. inversion_clear K as [|x l N' K']. constructor; [|auto].
  intros C. apply N. right. apply in_map_iff in C. destruct C as (s' & E & C). apply in_flat_map. exists s'. split; [exact C|]. left. exact E.
Qed.
Lemma filter_apart {A B C} (p : A -> bool) (F : B -> C) : forall xs ys i j x x' y y', NoDup (map F (map snd (filter (fun z => p (fst z)) (combine xs ys)))) ->
  nth_error xs i = Some x -> nth_error xs j = Some x' -> nth_error ys i = Some y -> nth_error ys j = Some y' -> p x = true -> p x' = true -> F y = F y' -> i = j.
Proof.
  assert (Hin : forall xs ys i x y, nth_error xs i = Some x -> nth_error ys i = Some y -> p x = true -> In (F y) (map F (map snd (filter (fun z => p (fst z)) (combine xs ys))))).
  { intros xs ys i x y A1 A2 A3. apply in_map. apply in_map_iff. exists (x, y). split; [reflexivity|]. apply filter_In. split; [|exact A3].
    revert ys i A1 A2. induction xs as [|a xs IH]; intros [|b ys] [|i] A1 A2; cbn in *; try discriminate; [left; congruence|right; eauto]. }
  induction xs as [|a xs IH]; intros [|b ys] [|i] [|j] x x' y y' H A1 A2 A3 A4 A5 A6 E; cbn in *; try discriminate; auto.
  - injection A1 as ->. injection A3 as ->. rewrite A5 in H. cbn in H. inversion_clear H as [|z l N K]. exfalso. apply N. rewrite E. eauto.
  - injection A2 as ->. injection A4 as ->. rewrite A6 in H. cbn in H. inversion_clear H as [|z l N K]. exfalso. apply N. rewrite <- E. eauto.
  - f_equal. refine (IH ys i j x x' y y' _ A1 A2 A3 A4 A5 A6 E). destruct (p a); [|exact H]. cbn in H. inversion_clear H. auto.
Qed.

(** ** Imports *)
Section Graph.
  Variable fs : list fileproto.
  Hypothesis Hvalid : valid_files fs.
  Variable deps : list (list nat).
  Hypothesis Hlink : link fs fs = Some deps.

  Lemma link_f : Forall2 (fun f l => Forall2 (fun d k => exists g, nth_error fs k = Some g /\ fl_name g = d) (fl_deps f) l) fs deps.
  Proof. pose proof (link_spec fs fs) as H. rewrite Hlink in H. exact H. Qed.
  Lemma same_index i j f g : nth_error fs i = Some f -> nth_error fs j = Some g -> fl_name f = fl_name g -> i = j.
  Proof.
    intros A B C. pose proof (vf_distinct fs Hvalid) as N. rewrite NoDup_nth_error in N. apply N; [rewrite map_length; apply nth_error_Some; congruence|]. rewrite !nth_error_map, A, B. cbn. congruence.
  Qed.
  Lemma imports_iff i j : imports deps i j <-> exists f g, nth_error fs i = Some f /\ nth_error fs j = Some g /\ In (fl_name g) (fl_deps f).
  Proof.
    pose proof (Forall2_nth _ _ _ link_f i) as Hi. split.
    - intros (ds & E & K). rewrite E in Hi. destruct (nth_error fs i) as [f|]; [|contradiction]. destruct (Forall2_in_r _ _ _ _ Hi K) as (d & A & g & B & C). exists f, g. subst d. auto.
    - intros (f & g & A & B & C). rewrite A in Hi. destruct (nth_error deps i) as [l|] eqn:E; [|contradiction]. destruct (Forall2_in_l _ _ _ _ Hi C) as (k & K1 & g' & K2 & K3).
      exists l. split; [exact E|]. assert (k = j) by (apply (same_index k j g' g); auto). subst. auto.
  Qed.
  Lemma deps_length : length deps = length fs.
  Proof. pose proof link_f as H. clear - H. induction H; cbn; auto. Qed.
  Lemma deps_closed : closed_graph deps.
  Proof. intros i j K. apply imports_iff in K. destruct K as (f & g & _ & B & _). rewrite deps_length. apply nth_error_Some. congruence. Qed.
  Lemma deps_acyclic : ~ cyclic deps.
  Proof.
    intros [i Hi]. apply (vf_acyclic fs Hvalid).
    assert (T : forall i j, clos_trans nat (imports deps) i j -> exists f g, nth_error fs i = Some f /\ nth_error fs j = Some g /\ clos_trans bytes (depends fs) (fl_name f) (fl_name g)).
    { intros x y Ht. induction Ht as [x y K|x y z _ (f & g & A & B & C) _ (g' & h & A' & B' & C')].
      - apply imports_iff in K. destruct K as (f & g & A & B & C). exists f, g. split; [auto|]. split; [auto|]. apply t_step. exists f. split; [eapply nth_error_In; eauto|auto].
      - rewrite B in A'. injection A' as <-. exists f, h. split; [auto|]. split; [auto|]. eapply t_trans; eauto. }
    destruct (T i i Hi) as (f & g & A & B & C). rewrite A in B. injection B as <-. eauto.
  Qed.
  Lemma find_file n : In n (map fl_name fs) -> exists i f, nth_error fs i = Some f /\ fl_name f = n.
  Proof. intros H. apply in_map_iff in H. destruct H as (f & A & B). apply In_nth_error in B. destruct B as [i B]. eauto. Qed.
  Lemma reach_iff i j f g : nth_error fs i = Some f -> nth_error fs j = Some g ->
    clos_refl_trans nat (imports deps) i j <-> clos_refl_trans bytes (depends fs) (fl_name f) (fl_name g).
  Proof.
    intros A B. split.
    - intros H. apply clos_rt_rtn1 in H. revert g B. induction H as [|k j K H IH]; intros g B.
      + rewrite A in B. injection B as <-. apply rt_refl.
      + apply imports_iff in K. destruct K as (x & y & K1 & K2 & K3). rewrite B in K2. injection K2 as <-. eapply rt_trans; [apply (IH x K1)|]. apply rt_step. exists x. split; [eapply nth_error_In; eauto|auto].
    - intros H. apply clos_rt_rtn1 in H. remember (fl_name g) as n eqn:E. revert j g B E. induction H as [|m n K H IH]; intros j g B E.
      + rewrite (same_index i j f g A B E). apply rt_refl.
      + destruct K as (x & K1 & K2 & K3). apply In_nth_error in K1. destruct K1 as [k K1]. eapply rt_trans; [apply (IH k x K1); auto|]. apply rt_step. apply imports_iff. exists x, g. subst n. auto.
  Qed.
End Graph.

(** ** Headers *)
Lemma forall2_choose {A B} (R : A -> B -> Prop) l : (forall a, In a l -> exists b, R a b) -> exists l', Forall2 R l l'.
Proof.
  induction l as [|a t IH]; intros H; [exists []; constructor|]. destruct (H a (or_introl eq_refl)) as [b K]. destruct IH as [t' T]; [intros x X; apply H; now right|]. exists (b :: t'). constructor; auto.
Qed.
Lemma forall2_nodup {A B} (R : A -> B -> Prop) l l' : (forall a a' b, R a b -> R a' b -> a = a') -> Forall2 R l l' -> NoDup l -> NoDup l'.
Proof.
  intros Hf H. induction H as [|a b t t' K H IH]; intros N; [constructor|]. inversion_clear N as [|x y N1 N2]. constructor; [|auto]. intros C. destruct (Forall2_in_r _ _ _ _ H C) as (a' & X & Y). rewrite (Hf a a' b K Y) in N1. auto.
Qed.

Section Headers.
  Variable encode : fileproto -> bytes.
  Variable fs : list fileproto.
  Variable spaces : list bytes.
  Hypothesis Hvalid : valid_files fs.
  Hypothesis Hspaces : length spaces = length fs.
  Variable deps : list (list nat).
  Hypothesis Hlink : link fs fs = Some deps.
  Notation names := (map own_name spaces).

  Record made (h : header) (i : nat) (f : fileproto) : Prop := {
    md_at : nth_error fs i = Some f;
    md_messages : fl_messages f <> [];
    md_file : h_file h = fl_name f;
    md_includes : h_includes h = fl_deps f;
    md_name : h_name h = own_name (nth i spaces []);
    md_value : h_value h = encode f;
    md_set : good_set deps names i (h_set h) }.

  Lemma generate_made : forall requested c, incl requested (map fl_name fs) -> consistent deps names [] c ->
    exists hs, generate_files encode fs spaces deps c requested = Some hs /\
      (forall h, In h hs -> exists i f, made h i f /\ In (fl_name f) requested) /\
      (forall i f, nth_error fs i = Some f -> In (fl_name f) requested -> fl_messages f <> [] -> exists h, In h hs /\ made h i f) /\
      (NoDup requested -> NoDup (map h_file hs)).
  Proof.
    induction requested as [|n t IH]; intros c Hin Hc; cbn [generate_files].
    - exists []. split; [reflexivity|]. split; [intros h []|]. split; [intros i f _ []|constructor].
    - destruct (file_index n fs) as [i|] eqn:Ei.
      2: { apply file_index_none in Ei. exfalso. apply Ei, Hin. now left. }
      destruct (file_index_some n fs i Ei) as (f & Hf & Hn). rewrite Hf.
      assert (Ht : incl t (map fl_name fs)) by (intros x X; apply Hin; now right).
      unfold has_messages. destruct (fl_messages f) as [|m ms] eqn:Em; cbn [is_empty negb].
      + destruct (IH c Ht Hc) as (hs & A & B & C & D). exists hs. split; [exact A|]. split; [|split].
        * intros h H. destruct (B h H) as (j & g & M & K). exists j, g. split; [exact M|now right].
        * intros j g Hg [K|K] Hm; [|eauto]. assert (i = j) by (apply (same_index fs Hvalid i j f g); congruence). subst j. congruence.
        * intros N. inversion_clear N. auto.
      + assert (Hi : i < length deps) by (rewrite (deps_length fs deps Hlink); apply nth_error_Some; congruence).
        unfold process_desc.
        destruct (names_spec deps names (deps_closed fs Hvalid deps Hlink) (deps_acyclic fs Hvalid deps Hlink) ltac:(rewrite map_length, (deps_length fs deps Hlink); exact Hspaces)
          (S (length fs)) [] c i) as (c' & l & R & G & C' & _); auto.
        { constructor. } { intros x []. } { intros x []. } { rewrite (deps_length fs deps Hlink). cbn. lia. }
        rewrite R. destruct (IH c' Ht C') as (hs & A & B & C & D). rewrite A. eexists. split; [reflexivity|].
        assert (M : made (Header (fl_name f) (fl_deps f) (own_name (nth i spaces [])) (encode f) l) i f) by (constructor; cbn; auto; congruence).
        split; [|split].
        * intros h [<-|H].
          -- exists i, f. split; [exact M|]. left. auto.
          -- destruct (B h H) as (j & g & Mg & K). exists j, g. split; [exact Mg|now right].
        * intros j g Hg [K|K] Hm.
          -- assert (i = j) by (apply (same_index fs Hvalid i j f g); congruence). subst j. assert (g = f) by congruence. subst g. eexists. split; [now left|exact M].
          -- destruct (C j g Hg K Hm) as (h & X & Y). exists h. split; [now right|exact Y].
        * intros N. inversion_clear N as [|x y N1 N2]. cbn. constructor; [|auto]. intros K. apply in_map_iff in K. destruct K as (h & K1 & K2). destruct (B h K2) as (j & g & Mg & K).
          apply N1. rewrite <- Hn, <- K1, (md_file _ _ _ Mg). exact K.
  Qed.

  Variables (requested : list bytes) (hs : list header) (f : fileproto).
  Hypothesis Hok : descriptors_ok (checked_spaces fs spaces) = true.
  Hypothesis Hgen : generate_files encode fs spaces deps (repeat [] (length fs)) requested = Some hs.
  Hypothesis Hin : incl requested (map fl_name fs).
  Hypothesis Hnd : NoDup requested.
  Hypothesis Hf : In f fs.
  Hypothesis Hneeds : forall g, needs fs f g -> fl_messages g <> [] /\ In (fl_name g) requested.

  Lemma start_consistent : consistent deps names [] (repeat [] (length fs)).
  Proof.
    split; [rewrite repeat_length, (deps_length fs deps Hlink); reflexivity|]. intros k _ _. left. unfold at_file. clear. revert k. induction (length fs) as [|n IH]; intros [|k]; cbn; auto.
  Qed.
  Lemma hs_made : (forall h, In h hs -> exists i g, made h i g /\ In (fl_name g) requested) /\
      (forall i g, nth_error fs i = Some g -> In (fl_name g) requested -> fl_messages g <> [] -> exists h, In h hs /\ made h i g) /\ NoDup (map h_file hs).
  Proof.
    destruct (generate_made requested _ Hin start_consistent) as (hs' & A & B & C & D). rewrite Hgen in A. injection A as <-. auto.
  Qed.
  Lemma hs_same a b : In a hs -> In b hs -> h_file a = h_file b -> a = b.
  Proof.
    destruct hs_made as (_ & _ & N). clear - N. revert N. induction hs as [|h t IH]; intros N A B E; [destruct A|]. cbn in N. inversion_clear N as [|x y N1 N2].
    destruct A as [<-|A], B as [<-|B]; auto; exfalso; apply N1; [rewrite E|rewrite <- E]; apply in_map; auto.
  Qed.
  Lemma f_needed : needs fs f f. Proof. split; [exact Hf|apply rt_refl]. Qed.
  Lemma needed_header i g : nth_error fs i = Some g -> needs fs f g -> exists h, In h hs /\ made h i g.
  Proof. intros A B. destruct (Hneeds g B) as [X Y]. destruct hs_made as (_ & C & _). eauto. Qed.

  Lemma distinct_names i j g g' : nth_error fs i = Some g -> nth_error fs j = Some g' -> fl_messages g <> [] -> fl_messages g' <> [] ->
    own_name (nth i spaces []) = own_name (nth j spaces []) -> i = j.
  Proof.
    intros A B C D E.
    assert (Li : i < length spaces) by (rewrite Hspaces; apply nth_error_Some; congruence).
    assert (Lj : j < length spaces) by (rewrite Hspaces; apply nth_error_Some; congruence).
    refine (filter_apart has_messages own_name fs spaces i j g g' _ _ (own_nodup _ Hok) A B (nth_error_nth' spaces [] Li) (nth_error_nth' spaces [] Lj) _ _ E); unfold has_messages; [destruct (fl_messages g)|destruct (fl_messages g')]; cbn; congruence.
  Qed.

  Lemma headers_spec : exists h, In h hs /\ h_file h = fl_name f /\ complete hs h /\
    exists gs, NoDup gs /\ (forall g, In g gs <-> needs fs f g) /\ set_value hs h (map encode gs).
  Proof.
    apply In_nth_error in Hf as Hf'. destruct Hf' as [i Hi]. destruct (needed_header i f Hi f_needed) as (h & Hh & M).
    assert (Sees : forall a, sees hs h a -> In a hs /\ exists j g, made a j g /\ needs fs f g).
    { intros a H. apply clos_rt_rtn1 in H. induction H as [|a b [K1 K2] H (_ & j & g & Mg & Ng)].
      - split; [exact Hh|]. exists i, f. split; [exact M|exact f_needed].
      - split; [exact K1|]. destruct hs_made as (B & _ & _). destruct (B b K1) as (k & g' & Mb & _). exists k, g'. split; [exact Mb|].
        split; [eapply nth_error_In; apply (md_at _ _ _ Mb)|]. eapply rt_trans; [apply Ng|]. apply rt_step. exists g. split; [eapply nth_error_In; apply (md_at _ _ _ Mg)|]. split; [reflexivity|].
        rewrite (md_includes _ _ _ Mg), (md_file _ _ _ Mb) in K2. exact K2. }
    assert (Next : forall g n, needs fs f g -> In n (fl_deps g) -> exists k g', nth_error fs k = Some g' /\ fl_name g' = n /\ needs fs f g').
    { intros g n [G1 G2] K. assert (Dn : depends fs (fl_name g) n) by (exists g; auto). destruct (find_file fs n (vf_imports fs Hvalid _ _ Dn)) as (k & g' & A & B). exists k, g'. split; [exact A|]. split; [exact B|].
      split; [eapply nth_error_In; eauto|]. eapply rt_trans; [exact G2|]. apply rt_step. rewrite B. exact Dn. }
    assert (Seen : forall g j, needs fs f g -> nth_error fs j = Some g -> exists a, sees hs h a /\ made a j g).
    { intros g j [G1 G2] Hg. apply clos_rt_rtn1 in G2. remember (fl_name g) as n eqn:E. revert g j G1 Hg E. induction G2 as [|m n K G2 IH]; intros g j G1 Hg E.
      - assert (i = j) by (apply (same_index fs Hvalid i j f g); auto). subst j. assert (g = f) by congruence. subst g. exists h. split; [apply rt_refl|exact M].
      - destruct K as (x & K1 & K2 & K3). apply In_nth_error in K1 as K1'. destruct K1' as [k Hk]. destruct (IH x k K1 Hk (eq_sym K2)) as (a & A1 & A2).
        assert (Ng : needs fs f g).
        { split; [exact G1|]. eapply rt_trans; [apply clos_rtn1_rt; exact G2|]. apply rt_step. exists x. subst n. auto. }
        destruct (needed_header j g Hg Ng) as (b & B1 & B2). exists b. split; [|exact B2]. eapply rt_trans; [exact A1|]. apply rt_step. split; [exact B1|]. rewrite (md_file _ _ _ B2), (md_includes _ _ _ A2). congruence. }
    assert (Hil : i < length deps) by (rewrite (deps_length fs deps Hlink); apply nth_error_Some; congruence).
    assert (Hnl : length names = length deps) by (rewrite map_length, (deps_length fs deps Hlink); exact Hspaces).
    assert (NameAt : forall j n, nth_error names j = Some n -> exists g, nth_error fs j = Some g /\ own_name (nth j spaces []) = n).
    { intros j n E. rewrite nth_error_map in E. destruct (nth_error spaces j) as [s|] eqn:Es; [|discriminate]. assert (E' : own_name s = n) by (cbn [option_map] in E; congruence). subst n. clear E. destruct (nth_error fs j) as [g|] eqn:Eg.
      - exists g. split; [reflexivity|]. f_equal. apply nth_error_nth. exact Es.
      - apply nth_error_None in Eg. assert (j < length spaces) by (apply nth_error_Some; congruence). lia. }
    assert (AtName : forall j g, nth_error fs j = Some g -> nth_error names j = Some (own_name (nth j spaces []))).
    { intros j g E. rewrite nth_error_map. rewrite (nth_error_nth' spaces []); [reflexivity|]. rewrite Hspaces. apply nth_error_Some. congruence. }
    exists h. split; [exact Hh|]. split; [exact (md_file _ _ _ M)|]. split.
    { intros a n A K. destruct (Sees a A) as (_ & j & g & Mg & Ng). rewrite (md_includes _ _ _ Mg) in K. destruct (Next g n Ng K) as (k & g' & X & Y & Z). destruct (needed_header k g' X Z) as (b & B1 & B2). exists b. split; [exact B1|]. rewrite (md_file _ _ _ B2). exact Y. }
    pose proof (good_in deps names Hnl i (h_set h) Hil (md_set _ _ _ M)) as Hset.
    assert (N : NoDup (h_set h)).
    { destruct (md_set _ _ _ M) as (a & -> & Sa & Ia). pose proof (sorted_nodup a Sa) as Na.
      assert (Na' : ~ In (nth i names []) a).
      { intros C. apply Ia in C. destruct C as (j & J1 & J2). assert (Q : nth i names [] = own_name (nth i spaces [])) by (apply nth_error_nth; exact (AtName i f Hi)). rewrite Q in J2. destruct (NameAt j _ J2) as (g & G1 & G2).
        assert (Ng : needs fs f g).
        { split; [eapply nth_error_In; eauto|]. apply (reach_iff fs Hvalid deps Hlink i j f g Hi G1). clear - J1. induction J1; [apply rt_step; auto|eapply rt_trans; eauto]. }
        assert (i = j) by (apply (distinct_names i j f g Hi G1); [exact (md_messages _ _ _ M)|apply (Hneeds g Ng)|auto]). subst j.
        apply (deps_acyclic fs Hvalid deps Hlink). exists i. exact J1. }
      clear - Na Na'. induction a as [|x a IH]; cbn; [constructor; [intros []|constructor]|]. inversion_clear Na as [|y z N1 N2]. constructor.
      - intros C. apply in_app_or in C. destruct C as [C|[C|[]]]; [auto|]. apply Na'. left. auto.
      - apply IH; [exact N2|]. intros C. apply Na'. now right. }
    pose (R := fun (n : bytes) (g : fileproto) => needs fs f g /\ exists j, nth_error fs j = Some g /\ own_name (nth j spaces []) = n).
    destruct (forall2_choose R (h_set h)) as [gs G].
    { intros n Hn. apply Hset in Hn. destruct Hn as (j & J1 & J2). destruct (NameAt j n J2) as (g & G1 & G2). exists g. split; [|exists j; auto].
      split; [eapply nth_error_In; eauto|]. apply (reach_iff fs Hvalid deps Hlink i j f g Hi G1). exact J1. }
    exists gs. split; [|split].
    - apply (forall2_nodup R (h_set h) gs); [|exact G|exact N]. intros n n' g (_ & j & J1 & J2) (_ & k & K1 & K2). assert (j = k) by (apply (same_index fs Hvalid j k g g); auto). congruence.
    - intros g. split.
      + intros K. destruct (Forall2_in_r _ _ _ _ G K) as (n & _ & X & _). exact X.
      + intros K. destruct K as [K1 K2]. apply In_nth_error in K1 as K1'. destruct K1' as [j J].
        assert (Hn : In (own_name (nth j spaces [])) (h_set h)) by (apply Hset; exists j; split; [apply (reach_iff fs Hvalid deps Hlink i j f g Hi J); exact K2|exact (AtName j g J)]).
        destruct (Forall2_in_l _ _ _ _ G Hn) as (g' & X & Ng' & k & Y1 & Y2). assert (j = k).
        { apply (distinct_names j k g g' J Y1); [apply (Hneeds g); split; auto|apply (Hneeds g' Ng')|auto]. }
        subst k. assert (g' = g) by congruence. subst g'. exact X.
    - unfold set_value. clear N Hset. induction G as [|n g l gs (Ng & j & J1 & J2) G IH]; cbn; [constructor|]. constructor; [|exact IH].
      destruct (Seen g j Ng J1) as (a & A1 & A2). exists a. split; [exact A1|]. split; [rewrite (md_name _ _ _ A2); exact J2|]. split; [exact (md_value _ _ _ A2)|].
      intros b B E. destruct (Sees b B) as (Hb & k & g' & Mb & Nb). destruct (Sees a A1) as (Ha & _). apply hs_same; auto.
      assert (k = j). { apply (distinct_names k j g' g (md_at _ _ _ Mb) J1); [apply (Hneeds g' Nb)|apply (Hneeds g Ng)|]. rewrite <- (md_name _ _ _ Mb), E. auto. }
      subst k. assert (g' = g) by (pose proof (md_at _ _ _ Mb); congruence). subst g'. rewrite (md_file _ _ _ Mb), (md_file _ _ _ A2). reflexivity.
  Qed.
End Headers.
