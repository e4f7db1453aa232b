(** Names, unknown members, null and repeated members in JSON of generated messages. *)
Require Import Verif.Bits Verif.Varint.
Require Import Verif.Schema Verif.Archive Verif.Decode Verif.Encode Verif.DynJson Verif.DynJsonSpec Verif.DynJsonTree Verif.DynJson1 Verif.DynJson2 Verif.DynJson6 Verif.DynJson7 Verif.GenJson Verif.GenJsonSpec Verif.GenJson2 Verif.GenJsonTree Verif.GenJson3.

Section Names.
  Context (E : env) (G : list gtype) (utf8_ok : bytes -> bool) (fparse : bool -> bytes -> option Z) (lenient strict : bool).
  Notation gread := (gread E G utf8_ok fparse lenient strict).
  Notation gset := (gset E G utf8_ok fparse lenient strict).
  Notation gread_json := (gread_json E G utf8_ok fparse lenient strict).

  Lemma gen_tree n ty j : gread_json n ty (render j) = gset n ty (default_msg E ty) j.
  Proof. unfold GenJson.gread_json. rewrite <- (app_nil_r (render j)), follow. unfold leaving. destruct (gset n ty (default_msg E ty) j); reflexivity. Qed.
  Lemma gen_trailing n ty j r v : r <> [] -> gread_json n ty (render j ++ r) <> Ok v.
  Proof. intros Hr. unfold GenJson.gread_json. rewrite follow. unfold leaving. destruct (gset n ty (default_msg E ty) j); try discriminate. cbn [bind]. destruct r; [congruence|discriminate]. Qed.

  Lemma gset_object n ty fs u ps : gknown G ty = KNone -> gset (S n) ty (VMsg fs u) (JObj ps) = (fs' <- in_turn (gmember_of E G utf8_ok fparse lenient strict (gset n) ty) fs ps ;; Ok (VMsg fs' u)).
  Proof. intros K. cbn [GenJsonTree.gset gbody_of]. rewrite K. reflexivity. Qed.
  Lemma gset_app n ty cur ps qs : gknown G ty = KNone -> gset n ty cur (JObj (ps ++ qs)) = (v <- gset n ty cur (JObj ps) ;; gset n ty v (JObj qs)).
  Proof.
    intros K. destruct n as [|n]; [reflexivity|]. destruct cur as [| |fs u|]; try reflexivity. rewrite !gset_object, in_turn_app by exact K.
    destruct (in_turn (gmember_of E G utf8_ok fparse lenient strict (gset n) ty) fs ps) as [fs'| | | |]; try reflexivity. cbn [bind]. rewrite gset_object by exact K. reflexivity.
  Qed.
  Lemma locate_none key bs : ~ In key (flat_map labels (flat_map fields_of bs)) -> forall i, locate key bs i = None.
  Proof.
    assert (N : forall jf, ~ In key (labels jf) -> named key jf = false).
    { intros jf Hj. destruct (named key jf) eqn:Q; [apply named_labels in Q; contradiction|reflexivity]. }
    induction bs as [|b bs IH]; intros H i; [reflexivity|]. cbn [flat_map] in H. rewrite flat_map_app in H. assert (H2 : ~ In key (flat_map labels (flat_map fields_of bs))) by (intros K; apply H, in_or_app; auto).
    assert (H1 : ~ In key (flat_map labels (fields_of b))) by (intros K; apply H, in_or_app; auto). destruct b as [jf std|jfs]; cbn [locate].
    - cbn [fields_of flat_map] in H1. rewrite app_nil_r in H1. rewrite (N _ H1). apply IH. exact H2.
    - assert (A : forall k, alt_named key jfs k = None). { cbn [fields_of] in H1. clear -H1 N. induction jfs as [|jf jfs IH]; intros k; [reflexivity|]. cbn [flat_map] in H1. cbn [alt_named]. rewrite N by (intros K; apply H1, in_or_app; auto). apply IH. intros K. apply H1, in_or_app. auto. }
      rewrite A. apply IH. exact H2.
  Qed.
  Lemma gset_unknown n ty cur ps key j qs : gknown G ty = KNone -> ~ In key (flat_map labels (flat_map fields_of (g_members (gty G ty)))) ->
    gset n ty cur (JObj (ps ++ (key, j) :: qs)) = (v <- gset n ty cur (JObj ps) ;; if strict then (match n, v with S _, VMsg _ _ => Err BadMessage | O, _ => NoFuel | _, _ => UB end) else gset n ty v (JObj qs)).
  Proof.
    intros K H. rewrite gset_app by exact K. destruct (gset n ty cur (JObj ps)) as [v| | | |]; try reflexivity. cbn [bind]. destruct n as [|n]; [generalize strict; intros []; reflexivity|]. destruct v as [| |fs u|]; try (generalize strict; intros []; reflexivity).
    rewrite !gset_object by exact K. cbn [in_turn]. unfold gmember_of at 1. cbn [fst]. rewrite (locate_none _ _ H). generalize strict. intros []; reflexivity.
  Qed.
  Lemma gen_unknown n ty ps key j qs : gknown G ty = KNone -> ~ In key (flat_map labels (flat_map fields_of (g_members (gty G ty)))) ->
    if strict then forall v, gread_json n ty (render (JObj (ps ++ (key, j) :: qs))) <> Ok v
    else gread_json n ty (render (JObj (ps ++ (key, j) :: qs))) = gread_json n ty (render (JObj (ps ++ qs))).
  Proof.
    intros K H. pose proof (gset_unknown n ty (default_msg E ty) ps key j qs K H) as U. pose proof (gset_app n ty (default_msg E ty) ps qs K) as A. rewrite !gen_tree, U, A. clear.
    generalize strict. intros []; [|reflexivity]. intros v. destruct (GenJsonTree.gset _ _ _ _ _ _ _ _ _ _) as [w| | | |]; try discriminate. cbn [bind]. destruct n; [discriminate|]. destruct w; discriminate.
  Qed.
  Lemma gen_in_turn n ty ps qs : gknown G ty = KNone ->
    gread_json n ty (render (JObj (ps ++ qs))) = ('(v, _) <- gread n ty (default_msg E ty) (render (JObj ps)) ;; '(w, _) <- gread n ty v (render (JObj qs)) ;; Ok w).
  Proof.
    intros K. rewrite gen_tree, gset_app by exact K. rewrite <- (app_nil_r (render (JObj ps))), follow. unfold leaving at 1. destruct (gset n ty (default_msg E ty) (JObj ps)) as [v| | | |]; try reflexivity. cbn [bind].
    rewrite <- (app_nil_r (render (JObj qs))), follow. unfold leaving. destruct (gset n ty v (JObj qs)); reflexivity.
  Qed.
  Lemma locate_same ty b jf k1 k2 : NoDup (flat_map labels (flat_map fields_of (g_members (gty G ty)))) -> In b (g_members (gty G ty)) -> In jf (fields_of b) -> named k1 jf = true -> named k2 jf = true ->
    locate k1 (g_members (gty G ty)) 0 = locate k2 (g_members (gty G ty)) 0.
  Proof.
    intros Hd Hb Hj H1 H2. apply in_split in Hb. destruct Hb as (pre & post & Hb). rewrite Hb in *. destruct b as [jf0 std|jfs].
    - destruct Hj as [->|[]]. rewrite !locate_field by assumption. reflexivity.
    - apply In_nth_error in Hj. destruct Hj as (q & Hq). rewrite !(locate_alt _ _ _ _ q jf) by assumption. reflexivity.
  Qed.
  Lemma gen_either_name n ty b jf ps j qs : gtypes_ok E G -> gknown G ty = KNone -> In b (g_members (gty G ty)) -> In jf (fields_of b) ->
    gread_json n ty (render (JObj (ps ++ (j_name jf, j) :: qs))) = gread_json n ty (render (JObj (ps ++ (j_json jf, j) :: qs))).
  Proof.
    intros HG K Hb Hj. rewrite !gen_tree, !gset_app by exact K. destruct (gset n ty (default_msg E ty) (JObj ps)) as [v| | | |]; try reflexivity. cbn [bind]. destruct n as [|n]; [reflexivity|]. destruct v as [| |fs u|]; try reflexivity. rewrite !gset_object by exact K.
    cbn [in_turn]. unfold gmember_of at 1 3. cbn [fst snd]. destruct (HG ty) as (_ & Hd & _). rewrite (locate_same ty b jf (j_name jf) (j_json jf) Hd Hb Hj); [reflexivity| |]; unfold named; rewrite eqb_bytes_refl; [apply orb_true_r|reflexivity].
  Qed.
  (** null for a member that is not required, in a message that may have been read into *)
  Lemma gen_null n ty fs u i b f jf key r : gtypes_ok E G -> gknown G ty = KNone -> nth_error (g_members (gty G ty)) i = Some b -> nth_error (m_fields (desc_of E ty)) i = Some f -> length fs = length (m_fields (desc_of E ty)) ->
    In jf (fields_of b) -> key = j_name jf \/ key = j_json jf -> (forall num e d, f <> Field num e (CPlain true d)) ->
    gread (S n) ty (VMsg fs u) (render (JObj [(key, JNull)]) ++ r) = Ok (VMsg (Schema.set_nth i (field_default f) fs) u, r).
  Proof.
    intros HG K Hb Hf Hl Hj Hk Hr. rewrite follow, gset_object by exact K. cbn [in_turn]. unfold gmember_of. cbn [fst snd]. assert (Hn : named key jf = true) by (unfold named; destruct Hk as [-> | ->]; rewrite eqb_bytes_refl; [apply orb_true_r|reflexivity]).
    destruct (HG ty) as (Hm & Hd & _). destruct (nth_error fs i) as [cur|] eqn:Hc; [|apply nth_error_None in Hc; assert (i < length (m_fields (desc_of E ty)))%nat by (apply nth_error_Some; rewrite Hf; discriminate); lia].
    assert (Mf : member_ok E G b f). { clear -Hm Hb Hf. revert i Hb Hf. induction Hm as [|x y l l' Hxy _ IH]; intros [|i] Hb Hf; try discriminate Hb; [injection Hb as <-; injection Hf as <-; exact Hxy|exact (IH i Hb Hf)]. }
    pose proof Hb as Hb'. apply nth_error_split in Hb'. destruct Hb' as (pre & post & Hs & Hi). rewrite Hs in Hd. destruct b as [jf0 std|jfs].
    - destruct Hj as [->|[]]. rewrite Hs, locate_field by assumption. rewrite Hi. unfold gtarget_of. rewrite Hb, Hf. destruct f as [num e c|alts]; [|contradiction]. rewrite Hc.
      assert (X : gfield_of E G utf8_ok fparse lenient (gset n) jf std e c cur JNull = Ok (field_default (Field num e c))).
      { destruct c as [[] d| |p|a]; try reflexivity. exfalso. exact (Hr num e d eq_refl). }
      rewrite X. reflexivity.
    - apply In_nth_error in Hj. destruct Hj as (q & Hq). rewrite Hs, (locate_alt _ _ _ _ q jf) by assumption. rewrite Hi. unfold gtarget_of. rewrite Hb, Hf. destruct f as [num e c|alts]; [contradiction|]. destruct Mf as [Ml _]. cbn [fields_of] in Hq. rewrite Hq.
      destruct (nth_error alts q) as [[num e]|] eqn:Ha; [reflexivity|]. apply nth_error_None in Ha. assert (q < length jfs)%nat by (apply nth_error_Some; rewrite Hq; discriminate). lia.
  Qed.
End Names.
