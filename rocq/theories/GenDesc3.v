(** A factory made from the file descriptors of a header. *)
From Coq Require Import Ascii String.
Require Import Verif.Bits Verif.Varint Verif.Schema Verif.CppText Verif.Pool Verif.PoolSpec Verif.PoolProofs Verif.PoolProofs2 Verif.PoolMain Verif.PoolAttrs Verif.GenNameCheck.
Require Import Verif.DynSlots Verif.Dyn Verif.DynWire Verif.Factory Verif.FactorySpec Verif.Factory4 Verif.Factory5.
Require Import Verif.GenDesc Verif.GenDescSpec Verif.GenDesc2.
Local Open Scope list_scope.
Local Open Scope nat_scope.

(** ** The generator finishes *)
Lemma link_valid fs : valid_files fs -> exists deps, link fs fs = Some deps.
Proof.
  intros V. pose proof (link_spec fs fs) as H. destruct (link fs fs) as [deps|]; [eauto|]. exfalso. destruct H as (f & d & A & B & C). apply C. apply (vf_imports fs V (fl_name f)). exists f. auto.
Qed.
Lemma generates encode fs spaces requested : representable fs -> valid_files fs -> length spaces = length fs -> descriptors_ok (checked_spaces fs spaces) = true -> incl requested (map fl_name fs) ->
  exists hs, generate_desc encode fs spaces requested = Some hs.
Proof.
  intros R V L O K. destruct (proj2 (pool_accepts fs R) V) as [pl E]. destruct (link_valid fs V) as [deps D]. unfold generate_desc. rewrite E, D, O.
  destruct (generate_made encode fs spaces V L deps D requested _ K (start_consistent fs spaces deps D)) as (hs & A & _). eauto.
Qed.
Lemma described encode fs spaces requested hs f : representable fs -> length spaces = length fs -> generate_desc encode fs spaces requested = Some hs ->
  incl requested (map fl_name fs) -> NoDup requested -> In f fs -> (forall g, needs fs f g -> fl_messages g <> [] /\ In (fl_name g) requested) ->
  exists h, In h hs /\ h_file h = fl_name f /\ complete hs h /\ exists gs, NoDup gs /\ (forall g, In g gs <-> needs fs f g) /\ set_value hs h (map encode gs).
Proof.
  intros R L G I N F K. unfold generate_desc in G. destruct (init fs) as [pl| | |] eqn:E; try discriminate. assert (V : valid_files fs) by (apply (pool_accepts fs R); eauto).
  destruct (link fs fs) as [deps|] eqn:D; [|discriminate]. destruct (descriptors_ok (checked_spaces fs spaces)) eqn:O; [|discriminate].
  exact (headers_spec encode fs spaces V L deps D requested hs f O G I N F K).
Qed.

(** ** A file and what it imports *)
Lemma in_concat_map {A B} (g : A -> list B) l x : In x (concat (map g l)) <-> exists a, In a l /\ In x (g a).
Proof. rewrite <- flat_map_concat_map. apply in_flat_map. Qed.
Lemma nodup_part {A B} (g : A -> list B) l l' : NoDup (concat (map g l)) -> NoDup l' -> incl l' l -> NoDup (concat (map g l')).
Proof.
  intros N. assert (E : forall a, In a l -> NoDup (g a)).
  { induction l as [|b l IH]; intros a [].
    - subst b. cbn in N. clear - N. induction (g a) as [|x t IH]; [constructor|]. cbn in N. inversion_clear N as [|y z N1 N2]. constructor; [intros C; apply N1, in_or_app; auto|auto].
    - apply IH; [|assumption]. cbn in N. clear - N. induction (g b) as [|x t IH]; [exact N|]. cbn in N. inversion_clear N. auto. }
  induction l' as [|a l' IH]; intros N' I; cbn; [constructor|]. inversion_clear N' as [|y z N1 N2].
  assert (Na : NoDup (g a)) by (apply E, I; now left). assert (Nl : NoDup (concat (map g l'))) by (apply IH; [exact N2|intros x X; apply I; now right]).
  assert (D : forall x, In x (g a) -> ~ In x (concat (map g l'))).
  { intros x X C. apply in_concat_map in C. destruct C as (b & Hb & Y). assert (a = b) by (apply (concat_unique g l a b x N); auto; apply I; cbn; auto). subst b. auto. }
  clear - Na Nl D. induction (g a) as [|x t IH]; [exact Nl|]. inversion_clear Na as [|y z N1 N2]. cbn. constructor.
  - intros C. apply in_app_or in C. destruct C as [C|C]; [auto|]. apply (D x (or_introl eq_refl) C).
  - apply IH; [exact N2|]. intros y Y. apply D. now right.
Qed.

Lemma scoped_message_in f n m s : known_edition f -> In (n, m, s) (scoped_messages f) -> In (n, m) (file_messages f).
Proof.
  intros K H. pose proof (all_dscs [f]) as A. cbn in A. unfold all_messages in A. cbn in A. rewrite !app_nil_r in A. rewrite <- A, (dscs_scoped f K), map_map. apply in_map_iff. exists (n, m, s). auto.
Qed.
Lemma scoped_enum_in fs n e s : Forall known_edition fs -> In (n, e, s) (scoped_enums fs) -> exists g, In g fs /\ In (n, e, s) (scoped_enums [g]) /\ In n (map fst (file_enums g)).
Proof.
  intros K H. unfold scoped_enums in H. apply in_concat_map in H. destruct H as (g & G & H). exists g. split; [exact G|]. split.
  - unfold scoped_enums. cbn. rewrite app_nil_r. exact H.
  - apply in_map_iff. exists (n, e). split; [reflexivity|]. unfold file_enums. apply in_app_or in H. apply in_or_app. destruct H as [H|H].
    + left. apply in_concat_map in H. destruct H as (((full & m) & sc) & M & H). apply in_map_iff in H. destruct H as (e' & E & H). assert (e' = e /\ dotted full (ep_name e') = n) as [-> <-] by (split; congruence).
      apply in_concat_map. exists (full, m). split; [|apply in_map_iff; exists e; auto]. rewrite Forall_forall in K. eapply scoped_message_in; eauto.
    + right. apply in_map_iff in H. destruct H as (e' & E & H). apply in_map_iff. exists e'. split; [congruence|exact H].
Qed.
Lemma scoped_enum_of fs g x : In g fs -> In x (scoped_enums [g]) -> In x (scoped_enums fs).
Proof. intros G H. unfold scoped_enums in *. cbn in H. rewrite app_nil_r in H. apply in_concat_map. exists g. auto. Qed.

Section Part.
  Variable fc : bool -> bytes -> option Z.
  Variables (fs gs : list fileproto) (f : fileproto).
  Hypothesis Husable : usable fc fs.
  Hypothesis Htypes : types_imported fs.
  Hypothesis Hnd : NoDup gs.
  Hypothesis Hgs : forall g, In g gs <-> needs fs f g.

  Lemma part_incl : incl gs fs. Proof. intros g G. apply Hgs in G. apply G. Qed.
  Lemma part_messages x : In x (all_messages gs) -> In x (all_messages fs).
  Proof. unfold all_messages. rewrite !in_concat_map. intros (g & A & B). exists g. split; [apply part_incl; exact A|exact B]. Qed.
  Lemma part_enums x : In x (all_enums gs) -> In x (all_enums fs).
  Proof. unfold all_enums. rewrite !in_concat_map. intros (g & A & B). exists g. split; [apply part_incl; exact A|exact B]. Qed.
  Lemma message_field_of p : In p (message_fields gs) -> exists g, In g gs /\ In p (message_fields [g]).
  Proof.
    unfold message_fields. rewrite in_concat_map. intros (d & A & B). unfold all_messages in A. apply in_concat_map in A. destruct A as (g & G & A). exists g. split; [exact G|].
    apply in_concat_map. exists d. split; [|exact B]. unfold all_messages. cbn. rewrite app_nil_r. exact A.
  Qed.
  Lemma extension_of p : In p (extensions gs) -> exists g, In g gs /\ In p (extensions [g]).
  Proof.
    unfold extensions. intros H. apply in_app_or in H. destruct H as [H|H]; apply in_concat_map in H; destruct H as (d & A & B).
    - unfold all_messages in A. apply in_concat_map in A. destruct A as (g & G & A). exists g. split; [exact G|]. apply in_or_app. left. apply in_concat_map. exists d. split; [|exact B]. unfold all_messages. cbn. rewrite app_nil_r. exact A.
    - exists d. split; [exact A|]. apply in_or_app. right. cbn. rewrite app_nil_r. exact B.
  Qed.
  Lemma field_file p : In p (message_fields gs ++ extensions gs) -> exists g, In g gs /\ In p (message_fields [g] ++ extensions [g]).
  Proof.
    intros H. apply in_app_or in H. destruct H as [H|H]; [destruct (message_field_of p H) as (g & A & B)|destruct (extension_of p H) as (g & A & B)]; exists g; (split; [exact A|]); apply in_or_app; auto.
  Qed.
  Lemma single_message g x : In g fs -> In x (all_messages [g]) -> In x (all_messages fs).
  Proof. unfold all_messages. cbn. rewrite app_nil_r. intros A B. apply in_concat_map. exists g. auto. Qed.
  Lemma field_all g p : In g fs -> In p (message_fields [g] ++ extensions [g]) -> In p (message_fields fs ++ extensions fs).
  Proof.
    intros G H. apply in_app_or in H. apply in_or_app. destruct H as [H|H].
    - left. unfold message_fields in *. apply in_concat_map in H. destruct H as (d & A & B). apply in_concat_map. exists d. split; [eapply single_message; eauto|exact B].
    - right. unfold extensions in *. apply in_app_or in H. apply in_or_app. destruct H as [H|H]; apply in_concat_map in H; destruct H as (d & A & B).
      + left. apply in_concat_map. exists d. split; [eapply single_message; eauto|exact B].
      + right. apply in_concat_map. exists g. split; [exact G|]. destruct A as [<-|[]]. exact B.
  Qed.
  Lemma part_extensions p : In p (extensions gs) -> In p (extensions fs).
  Proof.
    unfold extensions. intros H. apply in_app_or in H. apply in_or_app. destruct H as [H|H]; apply in_concat_map in H; destruct H as (d & A & B).
    - left. apply in_concat_map. exists d. split; [apply part_messages; exact A|exact B].
    - right. apply in_concat_map. exists d. split; [apply part_incl; exact A|exact B].
  Qed.

  (** What a file of the part uses is declared in the part. *)
  Lemma part_uses g n g' : In g gs -> uses g n -> In g' fs -> declares g' n -> In g' gs.
  Proof.
    intros G U G' D. apply Hgs in G as [G1 G2]. apply Hgs. split; [exact G'|]. eapply rt_trans; [exact G2|]. exact (Htypes g g' n G1 G' U D).
  Qed.
  Lemma part_named g n : In g gs -> uses g n -> In n (map fst (all_messages fs)) -> In n (map fst (all_messages gs)).
  Proof.
    intros G U H. apply in_map_iff in H. destruct H as (d & E & H). unfold all_messages in H. apply in_concat_map in H. destruct H as (g' & G' & H). apply in_map_iff. exists d. split; [exact E|].
    unfold all_messages. apply in_concat_map. exists g'. split; [|exact H]. apply (part_uses g n g'); auto. left. apply in_map_iff. exists d. auto.
  Qed.
  Lemma part_enum_named g n : In g gs -> uses g n -> In n (map fst (all_enums fs)) -> In n (map fst (all_enums gs)).
  Proof.
    intros G U H. apply in_map_iff in H. destruct H as (d & E & H). unfold all_enums in H. apply in_concat_map in H. destruct H as (g' & G' & H). apply in_map_iff. exists d. split; [exact E|].
    unfold all_enums. apply in_concat_map. exists g'. split; [|exact H]. apply (part_uses g n g'); auto. right. apply in_map_iff. exists d. auto.
  Qed.
  Lemma part_of_enum g p e sc : In g gs -> In p (message_fields [g] ++ extensions [g]) -> of_enum fs p e sc -> of_enum gs p e sc.
  Proof.
    intros G P (n & A & B). exists n. split; [exact A|]. destruct (scoped_enum_in fs n e sc (vf_edition fs (proj1 Husable)) B) as (g' & G' & B' & D).
    apply (scoped_enum_of gs g'); [|exact B']. apply (part_uses g n g'); auto; [exists p; auto|right; exact D].
  Qed.
  Lemma part_default g p z : In g gs -> In p (message_fields [g] ++ extensions [g]) -> default_number fc fs True p z -> default_number fc gs True p z.
  Proof.
    intros G P H. pose proof (fun e sc => part_of_enum g p e sc G P) as O. destruct H.
    - now apply DnSigned. - now apply DnSigned64. - now apply DnUnsigned. - now apply DnUnsigned64. - now apply DnFixed. - now apply DnFixed64. - now apply DnSFixed. - now apply DnSFixed64.
    - now apply DnFloat. - now apply DnDouble. - now apply DnTrue. - now apply DnFalse. - now apply DnOther.
    - eapply DnNamed; eauto. - eapply DnFirst; eauto. - eapply DnZero; eauto.
  Qed.
  Lemma part_usable : usable fc gs.
  Proof.
    destruct Husable as (V & O & D). split; [|split].
    - constructor.
      + apply Forall_forall. intros g G. pose proof (vf_named fs V) as H. rewrite Forall_forall in H. apply H, part_incl, G.
      + pose proof (nodup_part (fun g => [fl_name g]) fs gs) as H. assert (E : forall l : list fileproto, concat (map (fun g => [fl_name g]) l) = map fl_name l) by (induction l as [|x l IH]; cbn; congruence).
        rewrite !E in H. apply H; [exact (vf_distinct fs V)|exact Hnd|exact part_incl].
      + apply Forall_forall. intros g G. pose proof (vf_edition fs V) as H. rewrite Forall_forall in H. apply H, part_incl, G.
      + destruct (vf_messages fs V) as [A B]. split.
        * apply Forall_forall. intros d H. rewrite Forall_forall in A. apply A, part_messages, H.
        * unfold all_messages in *. rewrite concat_map, map_map in *. exact (nodup_part _ fs gs B Hnd part_incl).
      + destruct (vf_enums fs V) as [A B]. split.
        * apply Forall_forall. intros d H. rewrite Forall_forall in A. apply A, part_enums, H.
        * unfold all_enums in *. rewrite concat_map, map_map in *. exact (nodup_part _ fs gs B Hnd part_incl).
      + intros a b (g & G & E & B). assert (Db : depends fs (fl_name g) b) by (exists g; split; [apply part_incl; exact G|auto]). destruct (find_file fs b (vf_imports fs V _ _ Db)) as (k & g' & X & Y). subst b. apply in_map. apply Hgs.
        apply Hgs in G as [G1 G2]. split; [eapply nth_error_In; eauto|]. eapply rt_trans; [exact G2|]. apply rt_step. exact Db.
      + intros [n H]. apply (vf_acyclic fs V). exists n. assert (T : forall a b, clos_trans bytes (depends gs) a b -> clos_trans bytes (depends fs) a b).
        { clear - Hgs. intros a b H. induction H as [a b (g & G & E)|a b c _ IH1 _ IH2]; [|eapply t_trans; eauto]. apply t_step. exists g. split; [apply part_incl; exact G|exact E]. }
        apply T. exact H.
      + apply Forall_forall. intros d H. pose proof (vf_fields fs V) as K. rewrite Forall_forall in K. apply K, part_messages, H.
      + apply Forall_forall. intros p H. pose proof (vf_extensions fs V) as K. rewrite Forall_forall in K. apply K, part_extensions, H.
      + apply Forall_forall. intros p H. destruct (field_file p H) as (g & G & P). pose proof (vf_types fs V) as K. rewrite Forall_forall in K.
        destruct (K p (field_all g p (part_incl g G) P)) as (K1 & K2 & K3). split; [|split].
        * intros T. destruct (K1 T) as (x & E & X). exists x. split; [exact E|]. apply (part_named g x G); [exists p; auto|exact X].
        * intros T. destruct (K2 T) as (x & E & X). exists x. split; [exact E|]. apply (part_enum_named g x G); [exists p; auto|exact X].
        * intros T. destruct (K3 T) as (x & E & X). exists x. split; [exact E|]. apply (part_named g x G); [exists p; auto|exact X].
    - apply Forall_forall. intros d H. rewrite Forall_forall in O. apply O, part_messages, H.
    - apply Forall_forall. intros p H. destruct (field_file p H) as (g & G & P). rewrite Forall_forall in D. destruct (D p (field_all g p (part_incl g G) P)) as [z Z]. exists z. exact (part_default g p z G P Z).
  Qed.
  Lemma part_representable : representable fs -> representable gs.
  Proof. unfold representable. rewrite !Forall_forall. intros H d K. apply H, part_messages, K. Qed.
End Part.

(** ** The factory *)
Lemma decode_all decode encode gs : (forall g, In g gs -> decode (encode g) = Some g) -> make_file_descriptor_set decode (map encode gs) = Some gs.
Proof.
  induction gs as [|g gs IH]; intros H; [reflexivity|]. cbn. rewrite (H g (or_introl eq_refl)), IH; [reflexivity|]. intros x X. apply H. now right.
Qed.
Lemma denotes_value hs h ns vs vs' : Forall2 (denotes hs h) ns vs -> Forall2 (denotes hs h) ns vs' -> vs = vs'.
Proof.
  intros H. revert vs'. induction H as [|n v ns vs (b & B1 & B2 & B3 & B4) H IH]; intros vs' K; inversion_clear K as [|a v' c vs2 (b' & C1 & C2 & C3 & C4) K']; [reflexivity|].
  rewrite (IH vs2 K'). f_equal. rewrite (B4 b' C1 C2) in C3. congruence.
Qed.
Lemma factory_made encode decode fc fs spaces requested hs f : representable fs -> length spaces = length fs -> generate_desc encode fs spaces requested = Some hs ->
  incl requested (map fl_name fs) -> NoDup requested -> In f fs -> (forall g, needs fs f g -> fl_messages g <> [] /\ In (fl_name g) requested) ->
  usable fc fs -> types_imported fs -> (forall g, In g fs -> decode (encode g) = Some g) ->
  exists h gs, In h hs /\ h_file h = fl_name f /\ NoDup gs /\ (forall g, In g gs <-> needs fs f g) /\
    forall vs, set_value hs h vs -> exists pl W, create_from_descs decode fc vs = Done (pl, W) /\ Forall2 (type_means fc gs) (concat (map scoped_messages gs)) W /\
      forall n m, In (n, m) (file_messages f) -> get_message_type pl n <> None.
Proof.
  intros R L G I N F K U T D. destruct (described encode fs spaces requested hs f R L G I N F K) as (h & H1 & H2 & _ & gs & G1 & G2 & G3).
  exists h, gs. split; [exact H1|]. split; [exact H2|]. split; [exact G1|]. split; [exact G2|]. intros vs V.
  rewrite (denotes_value hs h _ vs _ V G3). pose proof (part_usable fc fs gs f U T G1 G2) as Ug. pose proof (part_representable fs gs f G2 R) as Rg.
  destruct (proj2 (factory_accepts fc gs Rg) Ug) as [[pl W] E]. exists pl, W. split; [|split].
  - unfold create_from_descs. rewrite decode_all; [exact E|]. intros g Hg. apply D. apply (part_incl fs gs f G2 g Hg).
  - exact (factory_types fc gs Rg pl W E).
  - intros n m M C. apply (factory_unknown fc gs Rg pl W E n) in C. apply C. apply in_map_iff. exists (n, m). split; [reflexivity|]. unfold all_messages. apply in_concat_map. exists f. split; [|exact M]. apply G2. split; [exact F|apply rt_refl].
Qed.
Lemma create_unreadable decode fc descs d : In d descs -> decode d = None -> create_from_descs decode fc descs = Invalid.
Proof.
  intros H E. assert (K : make_file_descriptor_set decode descs = None).
  { induction descs as [|x t IH]; [destruct H|]. cbn. destruct H as [->|H]; [rewrite E; reflexivity|]. rewrite (IH H). destruct (decode x); reflexivity. }
  unfold create_from_descs. rewrite K. reflexivity.
Qed.
