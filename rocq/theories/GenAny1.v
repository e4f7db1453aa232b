(** Proofs about google.protobuf.Any in the JSON of generated messages. *)
Require Import Verif.Bits Verif.Varint.
Require Import Verif.DynSlots Verif.Dyn Verif.Schema Verif.Archive Verif.Decode Verif.Encode Verif.WellTyped Verif.DynWire Verif.DynDecode Verif.DynEncode3 Verif.DynConvert Verif.DynView Verif.DynJson Verif.DynJsonSpec Verif.DynJsonTree Verif.DynJson1 Verif.DynJson2 Verif.DynJson5 Verif.DynJson6 Verif.DynJson7 Verif.DynJsonSafe Verif.DynAny Verif.DynAnySpec Verif.DynAny1 Verif.DynAny2 Verif.DynAnySafe.
Require Import Verif.GenJson Verif.GenJsonSpec Verif.GenJsonTree Verif.GenJson2 Verif.GenJson3 Verif.GenJsonSafe Verif.GenAny Verif.GenAnySpec.

Section Any.
  Context (E : env) (G : list gtype) (utf8_ok : bytes -> bool) (le : bool).
  Context (fshow : bool -> Z -> bytes) (fparse : bool -> bytes -> option Z) (lenient preserve always strict : bool).
  Context (W : list wtype) (J : list jtype) (maxd : Z) (find_type : bytes -> option nat) (deep : nat).
  Notation gawrite := (gawrite E G utf8_ok le fshow preserve W J maxd find_type deep always).
  Notation garead := (garead E G utf8_ok fparse lenient W J maxd find_type deep strict).
  Notation garead_json := (garead_json E G utf8_ok fparse lenient W J maxd find_type deep strict).
  Notation gaset := (gaset E G utf8_ok fparse lenient strict W J maxd find_type deep).
  Notation gaprintable := (gaprintable E G utf8_ok fshow fparse lenient W J maxd find_type deep).
  Hypothesis HJ : jtypes_ok W J.
  Hypothesis HA : atypes_ok W J.

  (** ** What is read *)
  Lemma ga_follow n : forall ty cur j r, garead n ty cur (render j ++ r) = leaving r (gaset n ty cur j).
  Proof.
    induction n as [|n IH]; intros ty cur j r; [reflexivity|]. cbn [GenAny.garead GenAnySpec.gaset]. pose proof (follow_body E G utf8_ok fparse lenient strict _ _ IH ty cur j r) as B.
    destruct (gknown G ty); try exact B. destruct cur as [| |fs u|]; try reflexivity. unfold gread_any.
    pose proof (fun t m => tree_aread W J utf8_ok maxd fparse find_type strict (all_fields_ok W J HJ) (fun ty => proj1 (HA ty)) deep 0 t m) as A.
    rewrite (tree_parts W J find_type _ _ (fun t m j r => proj1 (A t m) j r) _ _ (fun t m ps r => proj2 (proj2 (A t m)) ps r) (fun ty => proj1 (HA ty))).
    unfold leaving. destruct (parts_of _ _ _ _ _ _ j) as [[url data]| | | |]; reflexivity.
  Qed.
  Lemma ga_tree n ty j : garead_json n ty (render j) = gaset n ty (default_msg E ty) j.
  Proof. unfold GenAny.garead_json. rewrite <- (app_nil_r (render j)), ga_follow. unfold leaving. destruct (gaset n ty (default_msg E ty) j); reflexivity. Qed.
  Lemma ga_nothing_follows n ty j r : r <> [] -> forall v, garead_json n ty (render j ++ r) <> Ok v.
  Proof. intros Hr v. unfold GenAny.garead_json. rewrite ga_follow. unfold leaving. destruct (gaset n ty (default_msg E ty) j); cbn; try discriminate. destruct r; [congruence|discriminate]. Qed.

  (** ** What is written is read back *)
  Hypothesis HG : gtypes_ok E G.
  Hypothesis HY : ganys_ok E G.
  Hypothesis HW : wtypes_ok W.
  Lemma ga_value n ty v : gaprintable n ty v -> gknown G ty = KValue -> exists i x u, v = VMsg [[VAlt i x]] u.
  Proof. destruct n as [|n]; [contradiction|]. intros H Hk. destruct v as [| |fs u|]; try contradiction. cbn [GenAnySpec.gaprintable] in H. rewrite Hk in H. exact (value_shape E G utf8_ok fshow fparse lenient _ ty fs u Hk H). Qed.
  Lemma ga_any_back url data ts : held W J utf8_ok maxd find_type deep (aprintable W J utf8_ok maxd fshow fparse find_type deep) url data -> gwrite_any utf8_ok le fshow W J maxd find_type deep url data = Ok ts ->
    (exists ms, ts = render (JObj ((type_key, JStr url) :: ms)) /\ Forall (fun p => fst p <> type_key) ms) /\ forall r, gread_any utf8_ok fparse W J maxd find_type deep strict (ts ++ r) = Ok ((url, data), r).
  Proof.
    intros Hh H. apply (parts_back W J utf8_ok le maxd fshow fparse find_type HJ HA strict deep (-1) url data ts); [apply (amsg_back W J utf8_ok le maxd fshow fparse find_type HW HJ HA)| |exact Hh|exact H].
    revert Hh H. destruct deep as [|k]; [intros _ _ t p x _ _ Tp; destruct Tp|]. intros _ _ t p x Sh Kt Tp Pp X. apply (payload_back W J utf8_ok le maxd fshow fparse find_type HW HJ HA strict k (-1 + 1) t p x); auto. intros d. apply (amsg_back W J utf8_ok le maxd fshow fparse find_type HW HJ HA).
  Qed.
  Theorem ga_back n : forall ty v ts, wt_msg E utf8_ok ty v -> gaprintable n ty v -> gawrite n ty v = Ok ts ->
    (exists j, ts = render j /\ (j = JNull -> gknown G ty = KValue /\ is_null v = true)) /\
    forall r, garead n ty (default_msg E ty) (ts ++ r) = Ok (bare E G always n ty v, r).
  Proof.
    induction n as [|n RT]; intros ty v ts Hw Hp H; [contradiction|]. destruct v as [| |fs u|]; try contradiction. cbn [GenAny.gawrite GenAny.garead GenAnySpec.gaprintable bare] in *.
    assert (B : body_printable E G utf8_ok fshow fparse lenient (gaprintable n) ty fs -> gwrite_body E G le fshow preserve always (gawrite n) ty (VMsg fs u) = Ok ts ->
      (exists j, ts = render j /\ (j = JNull -> gknown G ty = KValue /\ is_null (VMsg fs u) = true)) /\
      forall r, gread_body E G utf8_ok fparse lenient strict (garead n) ty (default_msg E ty) (ts ++ r) = Ok (VMsg (bare_body E G always (bare E G always n) ty fs) [], r))
      by (apply (body_back E G utf8_ok le fshow fparse lenient preserve always strict HG (gawrite n) (garead n) (gaprintable n) (bare E G always n) RT (ga_value n) ty fs u ts Hw)).
    destruct (gknown G ty) eqn:K; try (apply B; assumption). destruct Hp as (url & data & -> & Hh). destruct (ga_any_back url data ts Hh H) as [(ms & -> & _) R].
    split; [eexists; split; [reflexivity|discriminate]|]. intros r. cbn [default_msg]. rewrite R. cbn [bind fst snd]. do 2 f_equal. unfold bare_body. rewrite K. destruct (HY ty K) as (n1 & n2 & v1 & v2 & ->). cbn [bare_members bare_member map].
    assert (D : forall b e w, (if false || always || negb (is_default (EBytes b w) (VBytes []) (VBytes e)) then bare_elem (bare E G always n) (EBytes b w) (VBytes e) else VBytes []) = VBytes e) by (intros b [|? ?] w; cbn; destruct always; reflexivity).
    rewrite !D. reflexivity.
  Qed.

  (** ** Writing an Any *)
  Lemma ga_any_shown n ty v ts : gknown G ty = KAny -> wt_msg E utf8_ok ty v -> gaprintable n ty v -> gawrite n ty v = Ok ts ->
    exists url data u ms, v = VMsg [[VBytes url]; [VBytes data]] u /\ ts = render (JObj ((type_key, JStr url) :: ms)) /\ Forall (fun p => fst p <> type_key) ms.
  Proof.
    intros K Hw Hp H. destruct n as [|n]; [contradiction|]. destruct v as [| |fs u|]; try contradiction. cbn [GenAny.gawrite GenAnySpec.gaprintable] in *. rewrite K in *. destruct Hp as (url & data & -> & Hh).
    destruct (ga_any_back url data ts Hh H) as [(ms & -> & Hm) _]. exists url, data, u, ms. auto.
  Qed.
  Lemma ga_any_defined n ty v : gknown G ty = KAny -> gaprintable n ty v -> settled (gawrite n ty v).
  Proof.
    intros K Hp. destruct n as [|n]; [contradiction|]. destruct v as [| |fs u|]; try contradiction. cbn [GenAny.gawrite GenAnySpec.gaprintable] in *. rewrite K in *. destruct Hp as (url & data & -> & Hh).
    apply (object_settled W J utf8_ok le maxd fshow fparse find_type HJ HA); [|exact Hh]. intros. apply (awrite_settled W J utf8_ok le maxd fshow fparse find_type HJ HA); assumption.
  Qed.
  Lemma ga_any_refused n ty url data u : gknown G ty = KAny ->
    (forall t, type_of find_type url <> Ok t) \/ (exists t e, type_of find_type url = Ok t /\ dyn_read W utf8_ok maxd t data = Err e) -> gawrite (S n) ty (VMsg [[VBytes url]; [VBytes data]] u) = Err BadMessage.
  Proof. intros K H. cbn [GenAny.gawrite]. rewrite K. apply object_refused. exact H. Qed.
  Lemma ga_type_anywhere n ty url ps qs : gknown G ty = KAny -> Forall (fun p => fst p <> type_key) (ps ++ qs) ->
    garead_json n ty (render (JObj (ps ++ (type_key, JStr url) :: qs))) = garead_json n ty (render (JObj ((type_key, JStr url) :: ps ++ qs))).
  Proof. intros K F. rewrite !ga_tree. destruct n as [|n]; [reflexivity|]. cbn [GenAnySpec.gaset]. rewrite K. cbn [default_msg]. rewrite parts_anywhere by exact F. reflexivity. Qed.

  (** ** Reading is defined *)
  Hypothesis HE : genums_fit G.
  Hypothesis HF : floats_fit fparse.
  Hypothesis HD : wt_defaults E utf8_ok.
  Hypothesis HEJ : enums_fit J.
  Hypothesis HN : nulls_ok W J /\ lists_ok J find_type.
  Hypothesis HL : maxd + 2 <= Z.of_nat deep.
  Hypothesis HL0 : 0 < Z.of_nat deep.
  Notation wt' := (wt (relaxed E) utf8_ok).
  Lemma ga_fine n : forall ty cur ts, wt' (EMsg ty false) cur -> text ts -> (length ts < n)%nat -> gfine true (wt' (EMsg ty false)) ts (garead n ty cur ts).
  Proof.
    induction n as [|n IH]; intros ty cur ts Hw Ht Hl; [lia|]. cbn [GenAny.garead].
    assert (B : gfine true (wt' (EMsg ty false)) ts (gread_body E G utf8_ok fparse lenient strict (garead n) ty cur ts)).
    { apply (gfine_body E G utf8_ok fparse lenient strict HG HE HF HD true n); [|exact Hw|exact Ht|lia]. intros ty' cur' ts' Hw' [Ht' Hl']. apply IH; assumption. }
    destruct (gknown G ty) eqn:K; try exact B. clear B. inversion Hw as [| | | | |? ? fs u Hc Hu Hb]; subst. unfold gread_any.
    destruct (aread_fine W J utf8_ok maxd fparse find_type strict HW HJ HA HEJ HF deep 0 ltac:(lia) HL0) as [R1 R2].
    pose proof (fine_parts W J utf8_ok maxd find_type HW deep _ ltac:(lia) R1 _ R2 ts (conj Ht (or_introl HN))) as F. unfold fine in F.
    destruct (any_parts _ _ _ _ _ _ ts) as [[[url data] r]|e| | |]; try contradiction; [|destruct e; reflexivity]. destruct F as [[F1 F2] F3]. cbn [bind fst snd] in *. apply gfine_ok; [|exact F3].
    constructor; [|exact Hu|exact Hb]. rewrite fields_relaxed. destruct (HY ty K) as (n1 & n2 & v1 & v2 & ->). cbn [map relax_field relax_elem]. repeat constructor; cbn; try assumption; discriminate.
  Qed.
  Lemma ga_defined ty ts : text ts ->
    (exists v, garead_json (S (length ts)) ty ts = Ok v /\ wt_msg (relaxed E) utf8_ok ty v) \/ exists e, garead_json (S (length ts)) ty ts = Err e.
  Proof.
    intros Ht. pose proof (ga_fine (S (length ts)) ty (default_msg E ty) ts (default_wt E utf8_ok HD ty false) Ht (Nat.lt_succ_diag_r _)) as H.
    unfold GenAny.garead_json. destruct (GenAny.garead _ _ _ _ _ _ _ _ _ _ _ _ _ _ _) as [[v r]|e| | |]; try contradiction; cbn [bind]; [|right; exists e; reflexivity].
    destruct H as [Hv _]. destruct r; [left; exists v; split; [reflexivity|exact Hv]|right; exists BadMessage; reflexivity].
  Qed.
End Any.
