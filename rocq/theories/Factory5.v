(** Proofs about the factory: what JSON knows of the types. *)
From Coq Require Import Ascii String.
Require Import Verif.Bits Verif.Varint Verif.CppText Verif.CppSpec Verif.Defaults Verif.Pool Verif.PoolSpec Verif.PoolProofs Verif.PoolMain Verif.PoolAttrs.
Require Import Verif.DynSlots Verif.DynSlotsProofs Verif.Dyn Verif.Schema Verif.DynWire Verif.DynJson Verif.DynJsonSpec Verif.Factory Verif.FactorySpec Verif.Factory1 Verif.Factory2 Verif.Factory3 Verif.Factory4 Verif.FactoryJson Verif.FactoryJsonSpec.
Local Open Scope list_scope.
Local Open Scope Z_scope.

(** ** The file of a message *)
Lemma nested_names_tree m : forall full, nested_names full m = map fst (tree full m).
Proof.
  induction m as [m IH] using mproto_nested. intros full. destruct m as [n0 fl0 ex0 ns es0 o0 en0 ft0]. cbn [nested_names tree map mp_nested fst] in *. f_equal.
  rewrite concat_map, map_map. f_equal. apply map_ext_Forall. revert IH. apply Forall_impl. intros k Hk. apply Hk.
Qed.
Lemma file_names f : file_message_names f = map fst (file_messages f).
Proof.
  unfold file_message_names, file_messages. rewrite concat_map, map_map. f_equal. apply map_ext. intros m. rewrite nested_names_tree. f_equal. f_equal. unfold in_scope, qualified, join_by_dot. destruct (fl_package f); reflexivity.
Qed.
Lemma concat_unique {A B} (g : A -> list B) l a b x : NoDup (concat (map g l)) -> In a l -> In b l -> In x (g a) -> In x (g b) -> a = b.
Proof.
  induction l as [|c l IH]; intros N Ha Hb Hxa Hxb; [destruct Ha|]. cbn [map concat] in N. assert (D : forall y, In y (g c) -> ~ In y (concat (map g l))).
  { intros y Hy Hc. clear - N Hy Hc. induction (g c) as [|z t IHt]; [destruct Hy|]. cbn in N. inversion N as [|? ? N1 N2]; subst. destruct Hy as [->|Hy]; [apply N1, in_or_app; auto|]. apply IHt; assumption. }
  assert (N2 : NoDup (concat (map g l))). { clear - N. induction (g c) as [|z t IHt]; [exact N|]. cbn in N. inversion N; auto. }
  assert (T : forall d, In d l -> In x (g d) -> In x (concat (map g l))) by (intros d Hd Hx; apply in_concat; exists (g d); split; [apply in_map; exact Hd|exact Hx]).
  destruct Ha as [<-|Ha], Hb as [<-|Hb]; [reflexivity| | |apply IH; assumption].
  - exfalso. eapply D; eauto.
  - exfalso. eapply D; eauto.
Qed.
Lemma has_name n l : existsb (name_eqb n) l = true <-> In n l.
Proof. rewrite existsb_exists. split; [intros (x & Hx & E); apply name_eqb_eq in E; congruence|intros H; exists n; split; [exact H|apply name_eqb_eq; reflexivity]]. Qed.

(** ** The files of protobuf *)
Definition wk_names : list (fileproto * bytes * known) := concat (map (fun f => concat (map (fun x => if existsb (name_eqb (fst x)) (file_message_names f) then [(f, fst x, snd x)] else []) wellknown_mappings)) wellknown_type_pbs).
Definition wk_expected : list (fileproto * string * known) :=
  [ (any_proto, "google.protobuf.Any"%string, KAny); (duration_proto, "google.protobuf.Duration"%string, KDuration); (field_mask_proto, "google.protobuf.FieldMask"%string, KFieldMask);
    (struct_proto, "google.protobuf.Value"%string, KValue); (struct_proto, "google.protobuf.ListValue"%string, KListValue); (struct_proto, "google.protobuf.Struct"%string, KStruct);
    (timestamp_proto, "google.protobuf.Timestamp"%string, KTimestamp) ] ++
  map (fun n => (wrappers_proto, ("google.protobuf." ++ n)%string, KWrapper)) ["DoubleValue"; "FloatValue"; "Int64Value"; "UInt64Value"; "Int32Value"; "UInt32Value"; "BoolValue"; "StringValue"; "BytesValue"]%string.
Lemma wk_names_expected : wk_names = map (fun x => (fst (fst x), txt (snd (fst x)), snd x)) wk_expected.
Proof. vm_compute. reflexivity. Qed.
Lemma own_form_expected f n k : own_form f n k <-> In (f, n, k) wk_expected.
Proof.
  split.
  - intros [| | | | | | |m H]; try (cbn; tauto). apply in_or_app. right. apply in_map_iff. exists m. auto.
  - unfold wk_expected. intros H. apply in_app_or in H. destruct H as [H|H].
    + cbn [In] in H. repeat (destruct H as [H|H]; [injection H as <- <- <-; constructor|]). destruct H.
    + apply in_map_iff in H. destruct H as (m & E & H). injection E as <- <- <-. constructor. exact H.
Qed.
Lemma validated_iff f : wellknown_validated f = true <-> In f wellknown_type_pbs.
Proof.
  unfold wellknown_validated. split.
  - destruct (find _ _) as [c|] eqn:E; [|discriminate]. apply find_some in E. destruct E as [E _]. destruct (fileproto_dec f c) as [->|]; [auto|discriminate].
  - intros H. cbn [In wellknown_type_pbs] in H. repeat (destruct H as [<-|H]; [vm_compute; reflexivity|]). destruct H.
Qed.
Lemma own_form_names f n k : (exists nm, own_form f nm k /\ n = txt nm) <-> In f wellknown_type_pbs /\ In n (file_message_names f) /\ In (n, k) wellknown_mappings.
Proof.
  transitivity (In (f, n, k) wk_names).
  - rewrite wk_names_expected, in_map_iff. split.
    + intros (nm & H & ->). exists (f, nm, k). split; [reflexivity|]. apply own_form_expected, H.
    + intros ([[f' nm] k'] & E & H). injection E as <- <- <-. exists nm. split; [apply own_form_expected, H|reflexivity].
  - unfold wk_names. rewrite in_concat. split.
    + intros (l & Hl & H). apply in_map_iff in Hl. destruct Hl as (g & <- & Hg). apply in_concat in H. destruct H as (l & Hl & H). apply in_map_iff in Hl. destruct Hl as ([m k'] & <- & Hm). cbn [fst snd] in H.
      destruct (existsb _ _) eqn:E; [|destruct H]. destruct H as [H|[]]. injection H as <- <- <-. apply has_name in E. auto.
    + intros (Hf & Hn & Hm). eexists. split; [apply in_map_iff; exists f; split; [reflexivity|exact Hf]|]. apply in_concat. eexists. split; [apply in_map_iff; exists (n, k); split; [reflexivity|exact Hm]|].
      cbn [fst snd]. apply has_name in Hn. rewrite Hn. cbn. auto.
Qed.
Fixpoint nodup_b (l : list bytes) : bool := match l with [] => true | x :: t => negb (existsb (name_eqb x) t) && nodup_b t end.
Lemma nodup_b_spec l : nodup_b l = true -> NoDup l.
Proof.
  induction l as [|x l IH]; cbn [nodup_b]; [constructor|]. intros H. apply andb_prop in H. destruct H as [H1 H2]. constructor; [|auto]. intros K. apply has_name in K. rewrite K in H1. discriminate.
Qed.
Lemma mappings_distinct : NoDup (map fst wellknown_mappings).
Proof. apply nodup_b_spec. vm_compute. reflexivity. Qed.
Lemma mapping_none k n : In (n, k) wellknown_mappings -> k <> KNone.
Proof. cbn [In wellknown_mappings]. intros H. repeat (destruct H as [H|H]; [injection H as _ <-; discriminate|]). destruct H. Qed.
Lemma mapping_find n k : find (fun x => name_eqb (fst x) n) wellknown_mappings = Some k <-> In k wellknown_mappings /\ fst k = n.
Proof.
  pose proof mappings_distinct as N. induction wellknown_mappings as [|x l IH]; cbn [find In map] in *; [split; [discriminate|tauto]|]. inversion N as [|? ? N1 N2]; subst.
  destruct (name_eqb (fst x) n) eqn:E.
  - apply name_eqb_eq in E. split; [intros K; injection K as <-; auto|]. intros [[->|H] K]; [reflexivity|]. exfalso. apply N1. rewrite E, <- K. apply in_map, H.
  - rewrite (IH N2). split; [tauto|]. intros [[->|H] K]; [|tauto]. apply name_eqb_eq in K. congruence.
Qed.

Section Pool.
  Variable fs : list fileproto.
  Variable pl : pool.
  Hypothesis Hrep : representable fs.
  Hypothesis Hpl : init fs = Done pl.

  Lemma parent_iff n f : parent_file pl n = Some f <-> In f fs /\ In n (map fst (file_messages f)).
  Proof.
    destruct (pool_contents fs pl Hrep Hpl) as (A & _). destruct (message_names fs pl Hrep Hpl) as [_ N]. unfold all_messages in N. rewrite concat_map, map_map in N. unfold parent_file. rewrite A. split.
    - intros H. apply find_some in H. destruct H as [H1 H2]. apply has_name in H2. rewrite file_names in H2. auto.
    - intros [H1 H2]. destruct (find _ fs) as [g|] eqn:E.
      + apply find_some in E. destruct E as [E1 E2]. apply has_name in E2. rewrite file_names in E2. f_equal. eapply (concat_unique _ _ _ _ _ N); eauto.
      + exfalso. pose proof (find_none _ _ E _ H1) as K. cbn beta in K. assert (T : existsb (name_eqb n) (file_message_names f) = true) by (apply has_name; rewrite file_names; exact H2). congruence.
  Qed.
  Lemma known_kind_iff n k : k <> KNone -> (known_kind pl n = k <-> exists f nm, In f fs /\ own_form f nm k /\ n = txt nm).
  Proof.
    intros Hk. transitivity (exists f, In f fs /\ In f wellknown_type_pbs /\ In n (file_message_names f) /\ In (n, k) wellknown_mappings).
    - unfold known_kind. split.
      + destruct (find _ _) as [[n' k']|] eqn:E; [|congruence]. apply mapping_find in E. cbn [fst snd] in *. destruct E as [E ->]. destruct (parent_file pl n) as [f|] eqn:P; [|congruence]. apply parent_iff in P. destruct P as [P1 P2].
        destruct (wellknown_validated f) eqn:V; [|congruence]. intros ->. apply validated_iff in V. exists f. rewrite file_names. auto.
      + intros (f & Hf & Hw & Hn & Hm). assert (E : find (fun x => name_eqb (fst x) n) wellknown_mappings = Some (n, k)) by (apply mapping_find; auto). rewrite E.
        rewrite file_names in Hn. rewrite (proj2 (parent_iff n f) (conj Hf Hn)). apply validated_iff in Hw. rewrite Hw. reflexivity.
    - split.
      + intros (f & Hf & R). apply own_form_names in R. destruct R as (nm & R). exists f, nm. tauto.
      + intros (f & nm & Hf & R). exists f. split; [exact Hf|]. apply own_form_names. eauto.
  Qed.

  (** ** Names *)
  Lemma enum_full p d : enum_of pl p = Some d -> ed_full d = tl (fp_type_name p).
  Proof. unfold enum_of, get_enum. intros H. apply find_some in H. destruct H as [_ H]. apply name_eqb_eq, H. Qed.
  Lemma enum_exists p : good_field fs p -> fp_type p = TYPE_ENUM -> exists n d sc, fp_type_name p = 46 :: n /\ enum_of pl p = Some d /\ ed_full d = n /\ In (n, ed_proto d, sc) (scoped_enums fs).
  Proof.
    intros [_ (_ & Re & _)] Hl. destruct (Re Hl) as (n & Hn & Hi). assert (Hne : enum_of pl p <> None).
    { apply in_map_iff in Hi. destruct Hi as ([m e] & <- & Hi). apply (pool_enum_lookup fs pl Hrep Hpl) in Hi. destruct Hi as (d & Hd & _). unfold enum_of. rewrite Hn. cbn [tl fst]. cbn [fst] in Hd. congruence. }
    destruct (enum_of_spec fs pl Hrep Hpl _ Hne) as (d & es & E & Hc & Hx). pose proof (enum_full _ _ E) as F. rewrite Hn in F, Hx. cbn [tl] in *. exists n, d, es. auto.
  Qed.
  Lemma shape_enum' p : 1 <= fp_type p <= 18 -> fp_type p <> TYPE_ENUM -> shape_of p <> SEnum.
  Proof. intros H N K. apply N. apply (shape_enum p H), K. Qed.
  Lemma signed_iff p : 1 <= fp_type p <= 18 -> (match shape_of p with SFix _ sg => sg | _ => false end = true <-> In (fp_type p) [15; 16]).
  Proof. intros H. unfold shape_of, runtime_traits_for. apply legal_types in H. cbn [In] in H. repeat (destruct H as [<-|H]; [vm_compute; intuition congruence|]). destruct H. Qed.
  Lemma string_iff p : 1 <= fp_type p <= 18 -> (match shape_of p with SString => true | _ => false end = true <-> fp_type p = TYPE_STRING).
  Proof. intros H. unfold shape_of, runtime_traits_for. apply legal_types in H. cbn [In] in H. repeat (destruct H as [<-|H]; [vm_compute; intuition congruence|]). destruct H. Qed.
  Lemma json_field_names p a : good_field fs p -> names_of fs p (json_field pl (FDsc p a)).
  Proof.
    intros G. pose proof (good_type fs p G) as T. unfold json_field. cbn [fd_proto]. constructor; cbn [j_name j_json j_signed j_string j_values j_null]; try reflexivity.
    - apply signed_iff, T.
    - apply string_iff, T.
    - intros e sc Ht O. rewrite (proj2 (shape_enum p T) Ht). destruct (of_enum_spec fs pl Hrep Hpl p e sc O) as (d & -> & K). exact (f_equal ep_values K).
    - intros N. pose proof (shape_enum' p T N) as K. destruct (shape_of p); try reflexivity. congruence.
    - destruct (Z.eq_dec (fp_type p) TYPE_ENUM) as [Ht|Ht].
      + rewrite (proj2 (shape_enum p T) Ht). destruct (enum_exists p G Ht) as (n & d & sc & Hn & -> & Hf & _). rewrite Hf, name_eqb_eq, Hn. split; [intros ->; auto|]. intros [_ K]. injection K as ->. reflexivity.
      + pose proof (shape_enum' p T Ht) as K. split; [|tauto]. destruct (shape_of p); try discriminate. congruence.
  Qed.
  Theorem json_types_mean : Forall2 (json_means fs) (concat (map scoped_messages fs)) (json_types pl).
  Proof.
    unfold json_types. rewrite (mmap_scoped fs pl Hrep Hpl), map_map. assert (H : forall x, In x (concat (map scoped_messages fs)) -> json_means fs x (json_type pl (dsc_of x))).
    { intros [[full m] s] Hx. unfold json_means, json_type. cbn [dsc_of md_full jt_fields jt_known]. split; [|intros k Hk; apply known_kind_iff, Hk].
      unfold fields_of. cbn [md_feat md_proto]. rewrite map_map. assert (G : forall p, In p (mp_fields m) -> good_field fs p) by (intros p Hp; apply (scoped_field fs pl Hrep Hpl _ _ _ _ Hx Hp)).
      clear Hx. induction (mp_fields m) as [|p l IH]; cbn [map]; constructor; [apply json_field_names, G; cbn; auto|]. apply IH. intros q Hq. apply G. cbn. auto. }
    induction (concat (map scoped_messages fs)) as [|x l IH]; cbn [map]; constructor; [apply H; cbn; auto|]. apply IH. intros y Hy. apply H. cbn. auto.
  Qed.
End Pool.
