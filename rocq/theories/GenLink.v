(** From the files to the schemas of Schema.v: the structs written for a set of message
    types are schemas for which the theorems about encoding and decoding hold. *)
Require Import Verif.Bits Verif.Varint Verif.Schema Verif.Archive Verif.DecodeSafe Verif.WellTyped Verif.EncodeProofs Verif.RoundTrip Verif.Decode Verif.Encode Verif.EncodeMain.
Require Import Verif.Pool Verif.PoolSpec Verif.GenMeta Verif.GenMetaSpec Verif.GenMetaProofs.
Local Open Scope Z_scope.

(** ** What the templates read is determined by the text *)
Section Unique.
  Variables (view : bool) (msg0 : nat -> val).
  Lemma card_unique e s c c' : card_of view msg0 e s c -> card_of view msg0 e s c' -> c = c'.
  Proof.
    intros [W X | W X Y | W X | W X | W X] [W' X' | W' X' Y' | W' X' | W' X' | W' X']; try reflexivity;
    repeat match goal with H : _ \/ _ |- _ => destruct H end; congruence.
  Qed.
  Lemma behaves_unique m f f' : behaves view msg0 m f -> behaves view msg0 m f' -> f = f'.
  Proof.
    intros H H'. destruct H as [s e c He Hc | ss es H]; inversion H' as [s' e' c' He' Hc' | ss' es' H1]; subst.
    - assert (e' = e) by congruence. subst. f_equal. eapply card_unique; eassumption.
    - f_equal. f_equal. clear H'. revert es' H1. induction H as [|s e ss es He _ IH]; intros es' H1; inversion H1; subst; [reflexivity|]. f_equal; [congruence|]. apply IH. assumption.
  Qed.
  Lemma members_unique ms fs fs' : Forall2 (behaves view msg0) ms fs -> Forall2 (behaves view msg0) ms fs' -> fs = fs'.
  Proof.
    intros H. revert fs'. induction H as [|m f ms fs Hm _ IH]; intros fs' H'; inversion H'; subst; [reflexivity|]. f_equal; [eapply behaves_unique; eassumption|auto].
  Qed.
End Unique.

(** ** Message types *)
(** A message written as a struct, or the entry of a map with its key and value. *)
Inductive gtype := GStruct (fs : list gfield) | GEntry (k v : gfield).
(** The struct; [unk] is the type of unknown_fields_ the traits give. *)
Inductive compiled (o : goptions) (view : bool) (unk : ukind) (msg0 : nat -> val) : gtype -> mdesc -> Prop :=
| CStruct fs ms : Forall2 (behaves view msg0) (emit_message o fs) ms -> compiled o view unk msg0 (GStruct fs) (MDesc ms unk false)
| CEntry k v fk fv : entry_field view msg0 o 1 k = Some fk -> entry_field view msg0 o 2 v = Some fv -> compiled o view unk msg0 (GEntry k v) (MDesc [fk; fv] UNone true).

Definition closed_enum (esc : gfield -> list features) (g : gfield) : Prop := fp_type (g_proto g) = TYPE_ENUM /\ feature ft_enum (esc g) = ENUM_CLOSED.
(** What the files must fulfil.  The bound on the numbers is that of C09. *)
Record well_formed (o : goptions) (sc esc : gfield -> list features) (unk : ukind) (types : list gtype) : Prop := {
  wf_regular : forall fs, In (GStruct fs) types -> Forall (fun x => regular o (sc x) (esc x) x) fs;
  wf_distinct : forall fs, In (GStruct fs) types -> NoDup (map num fs);
  wf_numbers : forall fs g, In (GStruct fs) types -> In g fs -> num g < 2 ^ 25;
  (** the key of a map is not a message *)
  wf_keys : forall k v, In (GEntry k v) types -> legal_field (g_proto k) /\ ~ is_message k;
  wf_values : forall k v, In (GEntry k v) types -> legal_field (g_proto v) /\ (is_message v -> exists fs, nth_error types (g_ty v) = Some (GStruct fs));
  (** fields refer to messages, maps to their entries; maps are not delimited (C73_map_delimited_refuted) *)
  wf_messages : forall fs g, In (GStruct fs) types -> In g fs -> is_message g -> g_map g = false -> exists fs', nth_error types (g_ty g) = Some (GStruct fs');
  wf_maps : forall fs g, In (GStruct fs) types -> In g fs -> g_map g = true ->
    (exists k v, nth_error types (g_ty g) = Some (GEntry k v)) /\ feature ft_encoding (sc g) <> DELIMITED;
  (** closed enums: not among several alternatives of a oneof, not with unknown fields held as pairs (C11) *)
  wf_oneofs : forall fs g i, In (GStruct fs) types -> In g fs -> closed_enum esc g -> fp_oneof (g_proto g) = Some i -> alternatives fs i = [g];
  wf_pairs : unk = UPairs -> forall fs g, In (GStruct fs) types -> In g fs -> ~ closed_enum esc g }.

(** ** Element types *)
Lemma types_cases t : 1 <= t <= 18 -> In t [1; 2; 3; 4; 5; 6; 7; 8; 9; 10; 11; 12; 13; 14; 15; 16; 17; 18].
Proof. intros H. cbn [In]. lia. Qed.
Lemma type_message o scopes escopes g view e ty d : legal_field (g_proto g) -> proto_type o scopes escopes g view e -> e = EMsg ty d ->
  ty = g_ty g /\ is_message g /\ (d = true -> fp_type (g_proto g) = TYPE_MESSAGE -> feature ft_encoding scopes = DELIMITED).
Proof.
  intros (L & _) (u & dl & en & _ & Hd & _ & H) ->. unfold is_message. apply types_cases in L. cbn [In] in L.
  repeat (destruct L as [L | L]; [rewrite <- L in *; cbn in H; try discriminate H|]); [| |destruct L].
  - injection H as <- <-. split; [reflexivity|]. split; [right; reflexivity|]. intros _ K. discriminate K.
  - injection H as <- <-. split; [reflexivity|]. split; [left; reflexivity|]. intros K _. apply Hd. exact K.
Qed.
Lemma type_closed o scopes escopes g view e : legal_field (g_proto g) -> proto_type o scopes escopes g view e -> elem_closed e = true ->
  fp_type (g_proto g) = TYPE_ENUM /\ feature ft_enum escopes = ENUM_CLOSED.
Proof.
  intros (L & _) (u & dl & en & _ & _ & He & H) K. apply types_cases in L. cbn [In] in L.
  repeat (destruct L as [L | L]; [rewrite <- L in *; cbn in H; injection H as <-; try discriminate K|]); [|destruct L].
  split; [reflexivity|]. destruct He as [(E1 & _) | (_ & ->)]; [exact E1|discriminate K].
Qed.
Lemma entry_scalar view msg0 o n g f : legal_field (g_proto g) -> ~ is_message g -> entry_field view msg0 o n g = Some f ->
  exists e d, f = Field n e (CPlain true d) /\ scalar e = true.
Proof.
  intros (L & _) M. unfold entry_field. destruct (source_elem view _) as [e|] eqn:E; [|discriminate]. intros [= <-]. exists e, (zero_value msg0 e). split; [reflexivity|].
  unfold source_elem in E. cbn [s_mtype s_ctype s_named s_options] in E. unfold named_type, g_type in E. unfold is_message in M. apply types_cases in L. cbn [In] in L.
  repeat (destruct L as [L | L]; [rewrite <- L in *; cbn in E; injection E as <-; try reflexivity; exfalso; apply M; (left; reflexivity) || (right; reflexivity)|]). destruct L.
Qed.
Lemma entry_message view msg0 o n g ty d c : legal_field (g_proto g) -> entry_field view msg0 o n g = Some (Field n (EMsg ty d) c) -> is_message g /\ ty = g_ty g /\ c = CPlain true (msg0 ty).
Proof.
  intros (L & _). unfold entry_field. destruct (source_elem view _) as [e|] eqn:E; [|discriminate]. intros [= -> <-]. cbn [zero_value].
  unfold source_elem in E. cbn [s_mtype s_ctype s_named s_options] in E. unfold named_type, g_type in E. unfold is_message. apply types_cases in L. cbn [In] in L.
  repeat (destruct L as [L | L]; [rewrite <- L in *; cbn in E; try discriminate E; injection E as <- <-; auto|]). destruct L.
Qed.
Lemma entry_member view msg0 o n g f : entry_field view msg0 o n g = Some f -> exists e d, f = Field n e (CPlain true d).
Proof. unfold entry_field. destruct (source_elem view _) as [e|]; [|discriminate]. intros [= <-]. eauto. Qed.

(** ** The schema *)
Lemma Forall2_nth {A B} (R : A -> B -> Prop) l k n a : Forall2 R l k -> nth_error l n = Some a -> exists b, nth_error k n = Some b /\ R a b.
Proof. intros H. revert n. induction H as [|x y l k Hx _ IH]; intros [|n] K; try discriminate K; [injection K as <-; exists y; auto|apply IH; exact K]. Qed.
Lemma Forall2_nth' {A B} (R : A -> B -> Prop) l k n b : Forall2 R l k -> nth_error k n = Some b -> exists a, nth_error l n = Some a /\ R a b.
Proof. intros H. revert n. induction H as [|x y l k Hx _ IH]; intros [|n] K; try discriminate K; [injection K as <-; exists x; auto|apply IH; exact K]. Qed.
Lemma Forall2_in {A B} (R : A -> B -> Prop) l k b : Forall2 R l k -> In b k -> exists a, In a l /\ R a b.
Proof. induction 1 as [|x y l k Hx _ IH]; intros K; [destruct K|]. destruct K as [-> | K]; [exists x; split; [left; reflexivity|exact Hx]|]. destruct (IH K) as (a & Ha & Hr). exists a. split; [right; exact Ha|exact Hr]. Qed.
Lemma leaders_in seen fs g : In g (leaders seen fs) -> In g fs.
Proof.
  revert seen. induction fs as [|x fs IH]; intros seen; [intros []|]. cbn [leaders]. destruct (fp_oneof (g_proto x)) as [i|]; [destruct (in_dec Z.eq_dec i seen)|];
  intros H; try (right; eapply IH; exact H); destruct H as [-> | H]; try (left; reflexivity); right; eapply IH; exact H.
Qed.
Lemma alternatives_in fs i g : In g (alternatives fs i) <-> In g fs /\ fp_oneof (g_proto g) = Some i.
Proof. unfold alternatives. rewrite filter_In. destruct (option_eq_dec Z.eq_dec (fp_oneof (g_proto g)) (Some i)); split; intros (H1 & H2); split; try assumption; try reflexivity; congruence. Qed.

Section Schema.
  Variables (o : goptions) (sc esc : gfield -> list features) (view : bool) (unk : ukind) (types : list gtype) (E : env).
  Hypothesis W : well_formed o sc esc unk types.
  Hypothesis C : Forall2 (compiled o view unk (default_msg E)) types E.
  Notation msg0 := (default_msg E).

  (** A type that is not in the list has no members. *)
  Lemma desc_cases ty : desc_of E ty = empty_desc \/ exists t, nth_error types ty = Some t /\ compiled o view unk msg0 t (desc_of E ty).
  Proof.
    unfold desc_of. destruct (nth_error E ty) as [d|] eqn:N.
    - right. rewrite (nth_error_nth _ _ _ N). exact (Forall2_nth' _ _ _ _ _ C N).
    - left. apply nth_overflow. apply nth_error_None. exact N.
  Qed.
  Lemma desc_at ty t : nth_error types ty = Some t -> compiled o view unk msg0 t (desc_of E ty).
  Proof. intros H. destruct (Forall2_nth _ _ _ _ _ C H) as (d & Hd & K). unfold desc_of. rewrite (nth_error_nth _ _ _ Hd). exact K. Qed.
  Lemma legal_in fs g : In (GStruct fs) types -> In g fs -> legal_field (g_proto g).
  Proof. intros H K. pose proof (proj1 (Forall_forall _ _) (wf_regular _ _ _ _ _ W fs H) g K) as R. exact (fh_legal _ _ _ (rg_faithful _ _ _ _ R)). Qed.
  Lemma regular_in fs g : In (GStruct fs) types -> In g fs -> regular o (sc g) (esc g) g.
  Proof. intros H K. exact (proj1 (Forall_forall _ _) (wf_regular _ _ _ _ _ W fs H) g K). Qed.

  (** The members of a struct are those described. *)
  Lemma members fs ms : In (GStruct fs) types -> Forall2 (behaves view msg0) (emit_message o fs) ms -> Forall2 (described o sc esc view msg0 fs) (leaders [] fs) ms.
  Proof.
    intros H B. destruct (message_meets o sc esc view msg0 fs (wf_distinct _ _ _ _ _ W fs H) (wf_regular _ _ _ _ _ W fs H)) as (ms' & B' & D).
    rewrite (members_unique view msg0 _ _ _ B B'). exact D.
  Qed.
  Lemma member_of fs ms f : In (GStruct fs) types -> Forall2 (behaves view msg0) (emit_message o fs) ms -> In f ms ->
    exists g, In g fs /\ described o sc esc view msg0 fs g f.
  Proof.
    intros H B K. destruct (Forall2_in _ _ _ _ (members fs ms H B) K) as (g & Hg & D). exists g. split; [eapply leaders_in; exact Hg|exact D].
  Qed.
  Lemma alternative_of fs i es n e : Forall2 (fun x e => proto_type o (sc x) (esc x) x view e) (alternatives fs i) es ->
    In (n, e) (combine (map num (alternatives fs i)) es) -> exists g, In g (alternatives fs i) /\ n = num g /\ proto_type o (sc g) (esc g) g view e.
  Proof.
    generalize (alternatives fs i). intros l H. induction H as [|g e' l es Hg _ IH]; [intros []|]. cbn. intros [K | K].
    - injection K as <- <-. exists g. auto.
    - destruct (IH K) as (g' & I1 & I2). exists g'. split; [right; exact I1|exact I2].
  Qed.

  Theorem schema_safe : safe_env E.
  Proof.
    intros ty. destruct (desc_cases ty) as [-> | (t & Ht & K)]; [constructor|]. pose proof (nth_error_In _ _ Ht) as I. inversion K as [fs ms B E1 E2|k v fk fv Hk Hv E1 E2]; subst t; cbn [m_unk m_fields].
    - apply Forall_forall. intros f Hf. destruct (member_of fs ms f I B Hf) as (g & Hg & D). pose proof (legal_in fs g I Hg) as L. destruct D as [e c Ho Hp _ | i e Ho Ha Hp | i es Ho H2 Hp]; cbn [field_safe].
      + intros Hc U. exact (wf_pairs _ _ _ _ _ W U fs g I Hg (type_closed _ _ _ _ _ _ L Hp Hc)).
      + intros Hc U. exact (wf_pairs _ _ _ _ _ W U fs g I Hg (type_closed _ _ _ _ _ _ L Hp Hc)).
      + apply Forall_forall. intros (n & e) Hn. destruct (alternative_of fs i es n e Hp Hn) as (x & Hx & _ & Px). cbn [snd]. apply not_true_is_false. intros Hc.
        pose proof Hx as Hx'. apply alternatives_in in Hx'. destruct Hx' as (X1 & X2).
        pose proof (wf_oneofs _ _ _ _ _ W fs x i I X1 (type_closed _ _ _ _ _ _ (legal_in fs x I X1) Px Hc) X2) as A. rewrite A in H2. cbn in H2. lia.
    - destruct (entry_member _ _ _ _ _ _ Hk) as (e1 & d1 & ->), (entry_member _ _ _ _ _ _ Hv) as (e2 & d2 & ->). repeat constructor; cbn; discriminate.
  Qed.

  Theorem schema_generated : generated E.
  Proof.
    constructor.
    - exact schema_safe.
    - intros ty f n Hf Hn. destruct (desc_cases ty) as [K | (t & Ht & K)]; [rewrite K in Hf; destruct Hf|]. pose proof (nth_error_In _ _ Ht) as I.
      inversion K as [fs ms B E1 E2|k v fk fv Hk Hv E1 E2]; subst t; rewrite <- E2 in Hf; cbn [m_fields] in Hf.
      + destruct (message_numbers o sc esc view msg0 fs ms (wf_distinct _ _ _ _ _ W fs I) (members fs ms I B)) as (_ & N).
        assert (Q : In n (map num fs)) by (apply N, in_concat; exists (numbers f); split; [apply in_map; exact Hf|destruct f; exact Hn]).
        apply in_map_iff in Q. destruct Q as (g & <- & Hg). destruct (legal_in fs g I Hg) as (_ & _ & L & _). split; [unfold num; lia|exact (wf_numbers _ _ _ _ _ W fs g I Hg)].
      + destruct (entry_member _ _ _ _ _ _ Hk) as (e1 & d1 & ->), (entry_member _ _ _ _ _ _ Hv) as (e2 & d2 & ->). destruct Hf as [<- | [<- | []]]; destruct Hn as [<- | []]; lia.
    - intros ty. destruct (desc_cases ty) as [-> | (t & Ht & K)]; [constructor|]. pose proof (nth_error_In _ _ Ht) as I. inversion K as [fs ms B E1 E2|k v fk fv Hk Hv E1 E2]; subst t; cbn [m_fields].
      + destruct (message_numbers o sc esc view msg0 fs ms (wf_distinct _ _ _ _ _ W fs I) (members fs ms I B)) as (N & _). exact N.
      + destruct (entry_member _ _ _ _ _ _ Hk) as (e1 & d1 & ->), (entry_member _ _ _ _ _ _ Hv) as (e2 & d2 & ->). cbn. repeat constructor; cbn; lia.
    - intros ty n e assoc Hf. destruct (desc_cases ty) as [K | (t & Ht & K)]; [rewrite K in Hf; destruct Hf|]. pose proof (nth_error_In _ _ Ht) as I.
      inversion K as [fs ms B E1 E2|k v fk fv Hk Hv E1 E2]; subst t; rewrite <- E2 in Hf; cbn [m_fields] in Hf.
      + destruct (member_of fs ms _ I B Hf) as (g & Hg & D). inversion D as [e' c' Ho Hp Hc | i' e' Ho Ha Hp|]; subst. inversion Hc as [L M | | | | |]; subst.
        pose proof (rg_coherent _ _ _ _ (regular_in fs g I Hg)) as Co. destruct (co_map _ _ _ Co M) as (T & _). destruct (wf_maps _ _ _ _ _ W fs g I Hg M) as ((k & v & Hkv) & ND).
        assert (Q : exists d, e = EMsg (g_ty g) d). { destruct Hp as (u & dl & en & _ & _ & _ & H). rewrite T in H. cbn in H. injection H as <-. eauto. }
        destruct Q as (d & ->). destruct (type_message _ _ _ _ _ _ _ _ (legal_in fs g I Hg) Hp eq_refl) as (_ & _ & Hd). destruct d; [exfalso; apply ND, Hd; [reflexivity|exact T]|].
        pose proof (desc_at _ _ Hkv) as Z. inversion Z as [|k' v' fk fv Hk Hv E1 E3]; subst k' v'. destruct (wf_keys _ _ _ _ _ W k v (nth_error_In _ _ Hkv)) as (Lk & Mk).
        destruct (entry_scalar _ _ _ _ _ _ Lk Mk Hk) as (e1 & d1 & -> & S1), (entry_member _ _ _ _ _ _ Hv) as (e2 & d2 & ->). exists (g_ty g), e1, d1, e2, d2. auto.
      + destruct (entry_member _ _ _ _ _ _ Hk) as (e1 & d1 & ->), (entry_member _ _ _ _ _ _ Hv) as (e2 & d2 & ->). destruct Hf as [Hf | [Hf | []]]; discriminate Hf.
    - assert (NE : forall ty fs, nth_error types ty = Some (GStruct fs) -> m_entry (desc_of E ty) = false).
      { intros ty fs H. pose proof (desc_at _ _ H) as Z. inversion Z. reflexivity. }
      intros ty f Hf. destruct (desc_cases ty) as [K | (t & Ht & K)]; [rewrite K in Hf; destruct Hf|]. pose proof (nth_error_In _ _ Ht) as I.
      inversion K as [fs ms B E1 E2|k v fk fv Hk Hv E1 E2]; subst t; rewrite <- E2 in Hf; cbn [m_fields] in Hf.
      + destruct (member_of fs ms _ I B Hf) as (g & Hg & D). destruct D as [e c Ho Hp Hc | i e Ho Ha Hp | i es Ho H2 Hp].
        * destruct e as [| | | | |ty' d]; try (destruct c; exact Logic.I). destruct (type_message _ _ _ _ _ _ _ _ (legal_in fs g I Hg) Hp eq_refl) as (-> & M & _).
          destruct c as [ex d0| | |]; try exact Logic.I.
          -- assert (Q : g_map g = false /\ d0 = proto_default g msg0).
             { assert (P : fp_label (g_proto g) <> LABEL_REPEATED) by (intros X; inversion Hc; try contradiction; match goal with H : fp_label _ = LABEL_OPTIONAL |- _ => rewrite X in H; discriminate H end). split; [|inversion Hc; reflexivity].
               destruct (g_map g) eqn:G; [|reflexivity]. exfalso. apply P. exact (proj2 (co_map _ _ _ (rg_coherent _ _ _ _ (regular_in fs g I Hg)) G)). }
             destruct Q as (Q1 & ->). destruct (wf_messages _ _ _ _ _ W fs g I Hg M Q1) as (fs' & N). split; [eapply NE; exact N|].
             unfold proto_default. destruct (rg_text _ _ _ _ (regular_in fs g I Hg)) as [X | ->]; [contradiction|]. destruct M as [-> | ->]; reflexivity.
          -- split; [|exact Logic.I]. destruct (g_map g) eqn:G.
             ++ exfalso. pose proof (proj2 (co_map _ _ _ (rg_coherent _ _ _ _ (regular_in fs g I Hg)) G)) as X. inversion Hc; try contradiction; match goal with H : fp_label _ = LABEL_OPTIONAL |- _ => rewrite X in H; discriminate H end.
             ++ destruct (wf_messages _ _ _ _ _ W fs g I Hg M G) as (fs' & N). eapply NE; exact N.
          -- split; [|exact Logic.I]. assert (G : g_map g = false) by (inversion Hc; assumption). destruct (wf_messages _ _ _ _ _ W fs g I Hg M G) as (fs' & N). eapply NE; exact N.
        * destruct e as [| | | | |ty' d]; try exact Logic.I. destruct (type_message _ _ _ _ _ _ _ _ (legal_in fs g I Hg) Hp eq_refl) as (-> & M & _). split; [|exact Logic.I].
          pose proof (rg_coherent _ _ _ _ (regular_in fs g I Hg)) as Co. destruct (g_map g) eqn:G.
          -- exfalso. pose proof (proj2 (co_map _ _ _ Co G)) as X. rewrite (co_oneof _ _ _ Co) in X by congruence. discriminate X.
          -- destruct (wf_messages _ _ _ _ _ W fs g I Hg M G) as (fs' & N). eapply NE; exact N.
        * intros n ty' d Hn. destruct (alternative_of fs i es n _ Hp Hn) as (x & Hx & _ & Px). apply alternatives_in in Hx. destruct Hx as (X1 & X2).
          destruct (type_message _ _ _ _ _ _ _ _ (legal_in fs x I X1) Px eq_refl) as (-> & M & _).
          pose proof (rg_coherent _ _ _ _ (regular_in fs x I X1)) as Co. destruct (g_map x) eqn:G.
          -- exfalso. pose proof (proj2 (co_map _ _ _ Co G)) as X. rewrite (co_oneof _ _ _ Co) in X by congruence. discriminate X.
          -- destruct (wf_messages _ _ _ _ _ W fs x I X1 M G) as (fs' & N). eapply NE; exact N.
      + destruct (wf_keys _ _ _ _ _ W k v I) as (Lk & Mk). destruct (wf_values _ _ _ _ _ W k v I) as (Lv & Mv).
        destruct (entry_scalar _ _ _ _ _ _ Lk Mk Hk) as (e1 & d1 & -> & S1), (entry_member _ _ _ _ _ _ Hv) as (e2 & d2 & ->).
        destruct Hf as [<- | [<- | []]]; [destruct e1; try exact Logic.I; discriminate S1|]. destruct e2 as [| | | | |ty' d]; try exact Logic.I.
        destruct (entry_message _ _ _ _ _ _ _ _ Lv Hv) as (M & -> & D). injection D as ->. destruct (Mv M) as (fs' & N). split; [eapply NE; exact N|reflexivity].
  Qed.
End Schema.

(** ** Map entries *)
Lemma entry_bit o g x : x <> OExplicit -> has_option (joined (OExplicit :: meta_options o g)) x = has_option (joined (meta_options o g)) x.
Proof.
  unfold meta_options. destruct (is_cpp_optional o g || fa_required (g_attrs g) || is_some (fp_oneof (g_proto g)) || (g_closed g && g_ext g && g_label g LABEL_OPTIONAL)),
    (fa_packed (g_attrs g)), (fa_delimited (g_attrs g)), (fa_utf8 (g_attrs g)), (emit_closed o g), x; intros K; try reflexivity; congruence.
Qed.
(** The element types of keys and values. *)
Theorem entry_meets o scopes escopes g view msg0 n : faithful scopes escopes g -> g_in_entry g = true ->
  exists e, entry_field view msg0 o n g = Some (Field n e (CPlain true (zero_value msg0 e))) /\
    exists utf8 delim enum,
      (utf8 = true <-> feature ft_utf8 scopes = UTF8_VERIFY) /\ (delim = true <-> feature ft_encoding scopes = DELIMITED) /\
      enum = (if Z.eq_dec (feature ft_enum escopes) ENUM_CLOSED then Some (g_enum g) else None) /\
      proto_elem (fp_type (g_proto g)) utf8 delim view enum (g_ty g) = Some e.
Proof.
  intros F Hn. pose proof (fh_attrs _ _ _ F) as A. pose proof (fh_legal _ _ _ F) as (Ht & _). pose proof (at_utf8 _ _ _ _ A) as U. pose proof (at_delimited _ _ _ _ A) as D. pose proof (fh_closed _ _ _ F) as K.
  set (utf8 := feature ft_utf8 scopes =? UTF8_VERIFY). set (delim := feature ft_encoding scopes =? DELIMITED).
  set (enum := if Z.eq_dec (feature ft_enum escopes) ENUM_CLOSED then Some (g_enum g) else None).
  assert (Hu : utf8 = true <-> feature ft_utf8 scopes = UTF8_VERIFY) by apply Z.eqb_eq. assert (Hd : delim = true <-> feature ft_encoding scopes = DELIMITED) by apply Z.eqb_eq.
  assert (Q : exists e, entry_field view msg0 o n g = Some (Field n e (CPlain true (zero_value msg0 e))) /\ proto_elem (fp_type (g_proto g)) utf8 delim view enum (g_ty g) = Some e);
    [|destruct Q as (e & Q1 & Q2); exists e; split; [exact Q1|]; exists utf8, delim, enum; split; [exact Hu|]; split; [exact Hd|]; split; [reflexivity|exact Q2]].
  assert (B1 : fp_type (g_proto g) = TYPE_STRING -> has_option (joined (OExplicit :: meta_options o g)) OUtf8 = utf8).
  { intros T. rewrite entry_bit, has_utf8 by discriminate. assert (Hdl : fa_delimited (g_attrs g) = false) by (apply not_true_is_false; rewrite D, T; intros [Q | (Q & _)]; discriminate Q).
    rewrite Hdl. cbn [negb andb]. apply eq_true_iff_eq. rewrite U, Hu. tauto. }
  assert (B2 : fp_type (g_proto g) = TYPE_BYTES -> has_option (joined (OExplicit :: meta_options o g)) OUtf8 = false).
  { intros T. rewrite entry_bit, has_utf8 by discriminate. assert (Hf : fa_utf8 (g_attrs g) = false) by (apply not_true_is_false; rewrite U, T; intros (Q & _); discriminate Q). rewrite Hf. apply andb_false_r. }
  assert (B3 : fp_type (g_proto g) = TYPE_GROUP -> has_option (joined (OExplicit :: meta_options o g)) OGroup = true).
  { intros T. rewrite entry_bit, has_group by discriminate. apply D. left. exact T. }
  assert (B4 : fp_type (g_proto g) = TYPE_MESSAGE -> has_option (joined (OExplicit :: meta_options o g)) OGroup = delim).
  { intros T. rewrite entry_bit, has_group by discriminate. apply eq_true_iff_eq. rewrite D, Hd, T. unfold TYPE_MESSAGE, TYPE_GROUP. intuition discriminate. }
  assert (B5 : fp_type (g_proto g) = TYPE_ENUM -> (if has_option (joined (OExplicit :: meta_options o g)) OClosed then Some (g_enum g) else None) = enum).
  { intros T. rewrite entry_bit, has_closed by discriminate. assert (Hdl : fa_delimited (g_attrs g) = false) by (apply not_true_is_false; rewrite D, T; intros [Q | (Q & _)]; discriminate Q).
    assert (Hf : fa_utf8 (g_attrs g) = false) by (apply not_true_is_false; rewrite U, T; intros (Q & _); discriminate Q). rewrite Hdl, Hf. cbn [negb andb].
    unfold emit_closed. rewrite Hn. cbn [negb]. rewrite andb_false_r. cbn [andb negb]. rewrite andb_true_r. unfold enum. destruct (Z.eq_dec (feature ft_enum escopes) ENUM_CLOSED) as [Z0 | Z0].
    - rewrite (proj2 K (conj T Z0)). reflexivity.
    - destruct (g_closed g); [|reflexivity]. exfalso. apply Z0. apply K. reflexivity. }
  unfold entry_field, source_elem. cbn [s_mtype s_ctype s_options s_named]. unfold named_type, g_type. clear -Ht B1 B2 B3 B4 B5.
  set (bits := joined (OExplicit :: meta_options o g)) in *. apply types_cases in Ht. cbn [In] in Ht.
  repeat (destruct Ht as [T | Ht]; [rewrite <- T in *|]); [..|destruct Ht].
  all: cbn [cpp_type fst snd]; try solve [eexists; split; reflexivity].
  - rewrite <- (B1 eq_refl). eexists. split; reflexivity.
  - rewrite (B3 eq_refl). eexists. split; reflexivity.
  - rewrite <- (B4 eq_refl). eexists. split; reflexivity.
  - rewrite (B2 eq_refl). eexists. split; reflexivity.
  - rewrite <- (B5 eq_refl). eexists. split; reflexivity.
Qed.

Theorem emitted_numbers o sc esc view msg0 fs ms : NoDup (map num fs) -> Forall (fun x => regular o (sc x) (esc x) x) fs ->
  Forall2 (behaves view msg0) (emit_message o fs) ms ->
  NoDup (concat (map numbers ms)) /\ forall n, In n (concat (map numbers ms)) <-> In n (map num fs).
Proof.
  intros N R B. destruct (message_meets o sc esc view msg0 fs N R) as (ms' & B' & D). rewrite (members_unique view msg0 _ _ _ B B'). exact (message_numbers o sc esc view msg0 fs ms' N D).
Qed.
Theorem schema_round_trip o sc esc view unk types E utf8_ok maxd limit ty fs v bs : well_formed o sc esc unk types ->
  Forall2 (compiled o view unk (default_msg E)) types E -> nth_error types ty = Some (GStruct fs) -> maxd <= limit ->
  wt_msg E utf8_ok ty v -> canonical E limit 1 ty v -> encode_bytes E utf8_ok maxd ty v = Ok bs -> decode_bytes E utf8_ok limit ty (default_msg E ty) bs = Ok v.
Proof.
  intros W C N. apply (EncodeMain.round_trip E utf8_ok maxd limit ty v bs (schema_generated o sc esc view unk types E W C)).
  pose proof (desc_at o view unk types E C ty _ N) as Z. inversion Z. reflexivity.
Qed.
