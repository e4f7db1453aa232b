(** Reading back whole messages. *)
From Coq Require Import Sorted.
Require Import Verif.Bits Verif.Varint Verif.VarintSpec Verif.VarintProofs Verif.VarintFacts Verif.VarintMain.
Require Import Verif.Schema Verif.Archive Verif.Decode Verif.DecodeSafe Verif.Wire Verif.WireFacts Verif.WireGrammar Verif.GrammarFacts Verif.DecodeSpec1 Verif.DecodeSpec4.
Require Import Verif.DecodeLaws Verif.DecodeLaws2 Verif.FieldSpec Verif.DecodeOcc Verif.WellTyped Verif.DecodeTerms Verif.DecodeMain Verif.Encode Verif.EncodeSpec Verif.EncodeProofs Verif.EncodeProofs2 Verif.RoundTrip.

Lemma set_nth_twice i x y l : set_nth i x (set_nth i y l) = set_nth i x l.
Proof. revert l. induction i as [|i IH]; intros [|h t]; cbn; f_equal; auto. Qed.
Lemma nth_set_nth i x l : nth i (set_nth i x l) [] = x.
Proof. revert l. induction i as [|i IH]; intros [|h t]; cbn; auto. Qed.
Lemma set_nth_mid a x y b : set_nth (length a) x (a ++ y :: b) = a ++ x :: b.
Proof. induction a as [|h t IH]; cbn; [reflexivity|]. f_equal. exact IH. Qed.
Lemma nth_mid (a : list (list val)) y b : nth (length a) (a ++ y :: b) [] = y.
Proof. induction a; cbn; auto. Qed.

Lemma has_num_nums n f : has_num n f = true <-> In n (nums f).
Proof.
  destruct f as [num e c|alts]; cbn.
  - rewrite Z.eqb_eq. tauto.
  - rewrite existsb_exists, in_map_iff. setoid_rewrite Z.eqb_eq. firstorder.
Qed.

Lemma find_field_at n f : In n (nums f) -> forall fds i k, NoDup (concat (map nums fds)) -> nth_error fds i = Some f ->
  find_field n fds k = Some ((k + i)%nat, f).
Proof.
  intros Hn. induction fds as [|g t IH]; intros [|i] k Hd H; cbn [nth_error] in H; try discriminate; cbn [find_field].
  - injection H as ->. rewrite (proj2 (has_num_nums n f) Hn), Nat.add_0_r. reflexivity.
  - cbn [map concat] in Hd. destruct (has_num n g) eqn:K.
    + exfalso. apply has_num_nums in K. revert Hd K. generalize (nums g) as l. intros l. induction l as [|a l IHl]; [intros _ []|].
      cbn [app]. intros Hd [->|K]; inversion Hd as [|? ? Hd1 Hd2]; subst; [|auto].
      apply Hd1. apply in_or_app. right. apply in_concat. exists (nums f). split; [|exact Hn]. apply in_map. eapply nth_error_In; eauto.
    + rewrite (IH i (S k)); [f_equal; f_equal; lia| |exact H]. revert Hd. generalize (nums g) as l. intros l.
      induction l as [|a l IHl]; [auto|]. cbn [app]. intros Hd; inversion Hd; auto.
Qed.

Lemma find_alt_at alts : forall j num e k, NoDup (map fst alts) -> nth_error alts j = Some (num, e) -> find_alt num alts k = Some ((k + j)%nat, e).
Proof.
  induction alts as [|[n x] t IH]; intros [|j] num e k Hd H; cbn [nth_error] in H; try discriminate; cbn [find_alt].
  - injection H as -> ->. rewrite Z.eqb_refl, Nat.add_0_r. reflexivity.
  - cbn [map fst] in Hd. inversion Hd as [|? ? H1 H2]; subst. destruct (Z.eqb_spec n num) as [->|].
    + exfalso. apply H1. apply in_map_iff. exists (num, e). split; [reflexivity|]. eapply nth_error_In; eauto.
    + rewrite (IH j num e (S k) H2 H). f_equal. f_equal. lia.
Qed.

Lemma nodup_concat_in {A B} (g : A -> list B) l x : NoDup (concat (map g l)) -> In x l -> NoDup (g x).
Proof.
  induction l as [|y t IH]; cbn; [intros _ []|]. intros H [->|Hi].
  - revert H. generalize (g x) as a. intros a. induction a as [|b a IHa]; [constructor|]. cbn. intros H. inversion H as [|? ? H1 H2]; subst.
    constructor; [|auto]. intros K. apply H1. apply in_or_app. auto.
  - apply IH; [|exact Hi]. revert H. generalize (g y) as a. intros a. induction a as [|b a IHa]; [auto|]. cbn. intros H; inversion H; auto.
Qed.

Lemma map_put_last v l : StronglySorted key_lt (map entry_key (l ++ [v])) -> map_put v l = l ++ [v].
Proof.
  induction l as [|h t IH]; [reflexivity|]. cbn [app map map_put]. intros H. inversion H as [|? ? H1 H2]; subst.
  rewrite Forall_forall in H2. rewrite (H2 (entry_key v)); [|apply in_map; apply in_or_app; right; left; reflexivity].
  f_equal. auto.
Qed.

Lemma sorted_prefix {A} (R : A -> A -> Prop) a b : StronglySorted R (a ++ b) -> StronglySorted R a.
Proof.
  induction a as [|h t IH]; [constructor|]. cbn. intros H. inversion H as [|? ? H1 H2]; subst. constructor; [auto|].
  rewrite Forall_forall in *. intros x Hx. apply H2. apply in_or_app. auto.
Qed.

Lemma zlen_concat_in {A} (g : A -> bytes) l x : In x l -> zlen (g x) <= zlen (concat (map g l)).
Proof.
  induction l as [|y t IH]; [intros []|]. cbn [map concat In]. rewrite zlen_app. intros [->|H].
  - pose proof (zlen_nonneg (concat (map g t))). lia.
  - specialize (IH H). pose proof (zlen_nonneg (g y)). lia.
Qed.

Lemma find_field_lt n fds : forall k i f, find_field n fds k = Some (i, f) -> (k <= i < k + length fds)%nat.
Proof.
  induction fds as [|g t IH]; intros k i f; cbn; [discriminate|]. destruct (has_num n g); [intros [= <- <-]; lia|].
  intros H. apply IH in H. lia.
Qed.

Section RoundTrip2.
  Context (E : env) (utf8_ok : bytes -> bool) (limit : Z).
  Hypothesis G : generated E.
  Notation wt := (wt E utf8_ok).
  Notation cell := (cell E utf8_ok).
  Notation cells := (cells E utf8_ok).
  Notation tokB := (tokB limit).
  Notation apb := (ap_body E utf8_ok limit).
  Notation runs := (runs E utf8_ok limit).
  Notation sub_ok := (sub_ok E utf8_ok limit).

  Lemma member_at ty i f n : nth_error (m_fields (desc_of E ty)) i = Some f -> In n (nums f) -> member E ty n i f.
  Proof. intros H Hn. unfold member. rewrite (find_field_at n f Hn _ i 0%nat (gen_distinct E G ty) H). reflexivity. Qed.

  Lemma payload_le num e v : zlen (payload_of E num e v) <= zlen (enc_elem (enc_msg E) num e v).
  Proof. rewrite enc_elem_split, zlen_app. pose proof (zlen_nonneg (tagb num (elem_wt e))). lia. Qed.

  Lemma rep_run d ty i num e pk u : member E ty num i (Field num e (CRep pk)) -> 1 <= num < 2 ^ 25 -> forall vs fs,
    Forall (wt e) vs -> zlen (concat (map (enc_elem (enc_msg E) num e) vs)) < 2 ^ 31 ->
    (forall ty' delim v, e = EMsg ty' delim -> In v vs -> sub_ok d ty' v) -> (i < length fs)%nat ->
    runs d ty (fs, u) (concat (map (enc_elem (enc_msg E) num e) vs)) (set_nth i (nth i fs [] ++ vs) fs, u).
  Proof.
    intros Hm Hn. induction vs as [|v vs IH]; intros fs Hw Hl Hs Hi.
    - rewrite app_nil_r, set_nth_same by exact Hi. apply runs_nil.
    - cbn [map concat] in *. rewrite zlen_app in Hl. inversion Hw as [|? ? Hw1 Hw2]; subst.
      pose proof (zlen_nonneg (enc_elem (enc_msg E) num e v)). pose proof (zlen_nonneg (concat (map (enc_elem (enc_msg E) num e) vs))).
      pose proof (payload_le num e v).
      eapply runs_app.
      + apply (elem_run E utf8_ok limit d ty num i e (CRep pk) v fs u); auto; try lia.
        intros ty' delim He. apply (Hs ty' delim v He). left; reflexivity.
      + pose proof (IH (set_nth i (nth i fs [] ++ [v]) fs) Hw2 ltac:(lia)) as K.
        rewrite nth_set_nth, set_nth_twice, <- app_assoc in K. apply K.
        * intros ty' delim w He Hin. apply (Hs ty' delim w He). right; exact Hin.
        * rewrite set_nth_length by exact Hi. exact Hi.
  Qed.

  Lemma map_run d ty i num e assoc u : member E ty num i (Field num e (CMap assoc)) -> 1 <= num < 2 ^ 25 -> scalar e = false -> forall vs fs,
    Forall (wt e) vs -> zlen (concat (map (enc_elem (enc_msg E) num e) vs)) < 2 ^ 31 ->
    (assoc = true -> StronglySorted key_lt (map entry_key (nth i fs [] ++ vs))) ->
    (forall ty' delim v, e = EMsg ty' delim -> In v vs -> sub_ok d ty' v) -> (i < length fs)%nat ->
    runs d ty (fs, u) (concat (map (enc_elem (enc_msg E) num e) vs)) (set_nth i (nth i fs [] ++ vs) fs, u).
  Proof.
    intros Hm Hn Hsc. induction vs as [|v vs IH]; intros fs Hw Hl Hso Hs Hi.
    - rewrite app_nil_r, set_nth_same by exact Hi. apply runs_nil.
    - cbn [map concat] in *. rewrite zlen_app in Hl. inversion Hw as [|? ? Hw1 Hw2]; subst.
      pose proof (zlen_nonneg (enc_elem (enc_msg E) num e v)). pose proof (zlen_nonneg (concat (map (enc_elem (enc_msg E) num e) vs))).
      pose proof (payload_le num e v).
      assert (Hput : (if assoc then map_put v (nth i fs []) else nth i fs [] ++ [v]) = nth i fs [] ++ [v]).
      { destruct assoc; [|reflexivity]. apply map_put_last. specialize (Hso eq_refl).
        replace (nth i fs [] ++ v :: vs) with ((nth i fs [] ++ [v]) ++ vs) in Hso by (rewrite <- app_assoc; reflexivity).
        rewrite map_app in Hso. apply sorted_prefix in Hso. exact Hso. }
      eapply runs_app.
      + apply (elem_run E utf8_ok limit d ty num i e (CMap assoc) v fs u); auto; try lia.
        intros ty' delim He. apply (Hs ty' delim v He). left; reflexivity.
      + rewrite Hput. pose proof (IH (set_nth i (nth i fs [] ++ [v]) fs) Hw2 ltac:(lia)) as K.
        rewrite nth_set_nth, set_nth_twice, <- app_assoc in K. apply K.
        * exact Hso.
        * intros ty' delim w He Hin. apply (Hs ty' delim w He). right; exact Hin.
        * rewrite set_nth_length by exact Hi. exact Hi.
  Qed.

  Lemma kept_wt e vs : Forall (wt e) vs -> filter (kept e) vs = vs /\ forall k num u, drop_unknown e k num vs u = u.
  Proof.
    induction 1 as [|v vs Hv Hvs [IH1 IH2]]; [split; reflexivity|].
    assert (K : kept e v = true) by (inversion Hv; subst; cbn; auto).
    cbn [filter]. rewrite K, IH1. split; [reflexivity|]. intros. cbn [drop_unknown fold_left]. unfold drop_unknown in *. cbn [fold_left]. rewrite K. apply IH2.
  Qed.

  Lemma packed_run d ty i num e pk u vs fs : member E ty num i (Field num e (CRep pk)) -> 1 <= num < 2 ^ 25 -> packable e = true ->
    (elem_closed e = true -> m_unk (desc_of E ty) <> UPairs) ->
    Forall (wt e) vs -> zlen (enc_packed num e vs) < 2 ^ 31 -> (i < length fs)%nat ->
    runs d ty (fs, u) (enc_packed num e vs) (set_nth i (nth i fs [] ++ vs) fs, u).
  Proof.
    intros Hm Hn Hp Hk Hw Hl Hi. unfold enc_packed in *. set (p := concat (map (enc_scalar e) vs)) in *.
    assert (Hs : scalar e = true) by (destruct e; try discriminate; reflexivity).
    rewrite !zlen_app in Hl. pose proof (zlen_nonneg (tagb num WT_LEN)). pose proof (zlen_nonneg (vint (zlen p))). pose proof (zlen_nonneg p).
    destruct (tag_parts num WT_LEN ltac:(lia) ltac:(unfold WT_LEN; lia)) as [T1 T2].
    eapply (runs_rec E utf8_ok limit _ _ _ _ _ _ _ p [] _ _ 0); eauto; [unfold WT_LEN; lia| |].
    - pose proof (tok_pay_lenb utf8_ok (grpB limit d) num (vint (zlen p)) p [] ltac:(lia) ltac:(apply vint_len; lia)) as K.
      rewrite app_nil_r in K. exact K.
    - cbn [ap_field r_tag r_pay]. rewrite T1, Hp. change (WT_LEN =? WT_LEN) with true. cbn [andb].
      rewrite (ap_packed_ok utf8_ok _ num e (map (enc_scalar e) vs) vs); auto.
      + destruct (kept_wt e vs Hw) as [-> ->]. reflexivity.
      + assert (Hb : forall v, In v vs -> zlen (enc_scalar e v) < 2 ^ 31).
        { intros v Hv. pose proof (zlen_concat_in (enc_scalar e) vs v Hv). fold p in H2. lia. }
        clear - Hw Hs Hb. induction Hw as [|v vs Hv Hvs IH]; cbn [map]; constructor.
        * apply (scalar_encoded E); auto. apply Hb. left; reflexivity.
        * apply IH. intros w Hin. apply Hb. right; exact Hin.
  Qed.

  Lemma oneof_run d ty i alts j num e v u fs : member E ty num i (Oneof alts) -> 1 <= num < 2 ^ 25 -> find_alt num alts 0 = Some (j, e) ->
    elem_closed e = false -> wt e v -> zlen (enc_elem (enc_msg E) num e v) < 2 ^ 31 -> nth i fs [] = [] ->
    (forall ty' delim, e = EMsg ty' delim -> sub_ok d ty' v) ->
    runs d ty (fs, u) (enc_elem (enc_msg E) num e v) (set_nth i [VAlt j v] fs, u).
  Proof.
    intros Hm Hn Ha Hc Hw Hl Hd Hs. pose proof (payload_le num e v). rewrite enc_elem_split.
    destruct (value_run E utf8_ok limit d num e v Hn Hw ltac:(lia) Hs) as (p & sub & k & x & H1 & H2 & H3).
    eapply (runs_rec E utf8_ok limit _ _ _ _ _ _ _ _ _ _ _ k); eauto using wt_range. cbn [ap_field r_tag].
    destruct (tag_parts num (elem_wt e) ltac:(lia) (wt_range e)) as [_ T]. rewrite T, Ha, Hd. cbv zeta.
    rewrite H3 by reflexivity. cbn [tbind]. replace (is_closed e) with false by (symmetry; exact Hc). rewrite H2. reflexivity.
  Qed.

  (** One member. *)
  Lemma field_run d ty i f c fs u : nth_error (m_fields (desc_of E ty)) i = Some f -> cell f c -> omit f c = false ->
    zlen (enc_field (enc_msg E) f c) < 2 ^ 31 -> (forall ty' v', sub_msg f c ty' v' -> sub_ok d ty' v') ->
    (i < length fs)%nat -> nth i fs [] = field_default f ->
    runs d ty (fs, u) (enc_field (enc_msg E) f c) (set_nth i c fs, u).
  Proof.
    intros Hi Hc Ho Hl Hs Hlen Hd. pose proof (nth_error_In _ _ Hi) as Hin.
    assert (Hm : forall n, In n (nums f) -> member E ty n i f /\ 1 <= n < 2 ^ 25).
    { intros n Hn. split; [eapply member_at; eauto|eapply gen_numbers; eauto]. }
    assert (Hsf : field_safe (m_unk (desc_of E ty)) f) by (apply (proj1 (Forall_forall _ _) (gen_safe E G ty)); exact Hin).
    pose proof (gen_messages E G ty f Hin) as Hgm.
    inversion Hc; subst; cbn [omit] in Ho; try discriminate; cbn [nums In] in Hm; cbn [field_default] in Hd; cbn [enc_field] in *.
    - destruct (Hm num (or_introl eq_refl)) as [Hm1 Hn]. cbn [map concat] in *. rewrite app_nil_r in *. pose proof (payload_le num e v).
      apply (elem_run E utf8_ok limit d ty num i e (CPlain ex d0) v fs u); auto; try lia.
      + intros ty' delim ->. apply Hs. constructor. left; reflexivity.
      + split; [assumption|]. intros Hsc. destruct e as [| | | | |ty' delim]; try discriminate. destruct Hgm as [_ ->]. exact Hd.
    - destruct (Hm num (or_introl eq_refl)) as [Hm1 Hn]. cbn [map concat] in *. rewrite app_nil_r in *. pose proof (payload_le num e v).
      apply (elem_run E utf8_ok limit d ty num i e COpt v fs u); auto; try lia.
      intros ty' delim ->. apply Hs. constructor. left; reflexivity.
    - destruct (Hm num (or_introl eq_refl)) as [Hm1 Hn].
      match goal with H : elems _ _ _ _ |- _ => apply elems_forall in H; rename H into Hw end.
      replace (set_nth i c fs) with (set_nth i (nth i fs [] ++ c) fs) by (rewrite Hd; reflexivity).
      assert (Hrep : zlen (concat (map (enc_elem (enc_msg E) num e) c)) < 2 ^ 31 ->
        runs d ty (fs, u) (concat (map (enc_elem (enc_msg E) num e) c)) (set_nth i (nth i fs [] ++ c) fs, u)).
      { intros Hl'. eapply rep_run; eauto. intros ty' delim v -> Hv. apply Hs. constructor. exact Hv. }
      destruct pk; [|apply Hrep; exact Hl]. destruct (packable e) eqn:Hp; [|apply Hrep; exact Hl].
      eapply packed_run; eauto.
    - destruct (Hm num (or_introl eq_refl)) as [Hm1 Hn].
      match goal with H : elems _ _ _ _ |- _ => apply elems_forall in H; rename H into Hw end.
      replace (set_nth i c fs) with (set_nth i (nth i fs [] ++ c) fs) by (rewrite Hd; reflexivity).
      destruct (gen_maps E G ty num e assoc Hin) as (ty' & ek & dk & ev & dv & -> & _).
      eapply map_run; eauto.
      + intros Ha. rewrite Hd. cbn [app]. auto.
      + intros ty2 delim v [= <- <-] Hv. apply Hs. constructor. exact Hv.
    - assert (Hnum : In num (map fst alts)) by (apply in_map_iff; exists (num, e); split; [reflexivity|eapply nth_error_In; eauto]).
      destruct (Hm num Hnum) as [Hm1 Hn].
      match goal with H : nth_error alts j = _ |- _ => rewrite H in *; rename H into Hj end.
      eapply oneof_run; eauto.
      + rewrite (find_alt_at alts j num e 0%nat); auto. apply (nodup_concat_in nums _ (Oneof alts) (gen_distinct E G ty) Hin).
      + cbn [field_safe] in Hsf. rewrite Forall_forall in Hsf. apply (Hsf (num, e)). eapply nth_error_In; eauto.
      + intros ty' delim ->. apply Hs. econstructor. exact Hj.
  Qed.

  (** All members. *)
  Lemma fields_run d ty u : forall fds fs dn dfds, m_fields (desc_of E ty) = dfds ++ fds -> length dn = length dfds -> cells fds fs ->
    (forall f c, In (f, c) (combine fds fs) -> omit f c = true -> c = field_default f) ->
    (forall f c ty' v', In (f, c) (combine fds fs) -> sub_msg f c ty' v' -> sub_ok d ty' v') ->
    zlen (enc_fields (enc_msg E) fds fs) < 2 ^ 31 ->
    runs d ty (dn ++ map field_default fds, u) (enc_fields (enc_msg E) fds fs) (dn ++ fs, u).
  Proof.
    induction fds as [|f fds IH]; intros fs dn dfds Hf Hlen Hc Ho Hs Hl; inversion Hc; subst; [apply runs_nil|].
    cbn [enc_fields map] in *. rewrite zlen_app in Hl. rename c into c0, fs0 into fs.
    pose proof (zlen_nonneg (if omit f c0 then [] else enc_field (enc_msg E) f c0)). pose proof (zlen_nonneg (enc_fields (enc_msg E) fds fs)).
    eapply (runs_app E utf8_ok limit d ty _ _ (dn ++ c0 :: map field_default fds, u)).
    - destruct (omit f c0) eqn:Hom.
      + rewrite <- (Ho f c0 (or_introl eq_refl) Hom). apply runs_nil.
      + replace (dn ++ c0 :: map field_default fds) with (set_nth (length dn) c0 (dn ++ field_default f :: map field_default fds)) by apply set_nth_mid.
        apply field_run; auto; try lia.
        * rewrite Hf, Hlen, nth_error_app2, Nat.sub_diag by lia. reflexivity.
        * intros ty' v' Hsub. eapply Hs; [left; reflexivity|exact Hsub].
        * rewrite app_length. cbn. lia.
        * apply nth_mid.
    - replace (dn ++ c0 :: map field_default fds) with ((dn ++ [c0]) ++ map field_default fds) by (rewrite <- app_assoc; reflexivity).
      replace (dn ++ c0 :: fs) with ((dn ++ [c0]) ++ fs) by (rewrite <- app_assoc; reflexivity).
      apply (IH fs (dn ++ [c0]) (dfds ++ [f])); auto; try lia.
      + rewrite <- app_assoc. exact Hf.
      + rewrite !app_length. cbn. lia.
      + intros f1 c1 Hin. apply Ho. right; exact Hin.
      + intros f1 c1 ty' v' Hin. apply Hs. right; exact Hin.
  Qed.

  (** ** Unknown fields *)
  Lemma unknown_field_run d ty num f fs u : short_field limit d num f -> unknown_to E ty num -> m_unk (desc_of E ty) <> UNone ->
    runs d ty (fs, u) f (fs, unk_add (m_unk (desc_of E ty)) num f u).
  Proof.
    intros (tb & tag & p & -> & Ht & Hn & Hp & Hsh) [Hn0 Hu] Hk.
    destruct (proj1 (grammar_complete limit) _ _ _ Hp []) as (q & sub & K). rewrite app_nil_r in K.
    exists 0%nat, [Rec tb tag p q sub]. split.
    - rewrite tokB_eq. pose proof (tok_tag_reads _ _ p Ht) as Kt.
      destruct (tb ++ p) eqn:Kb; [destruct Ht as (Hv & _); destruct tb; [destruct Hv|discriminate]|]. rewrite <- Kb in *. rewrite Kt. cbn [tbind].
      rewrite K. cbn [tbind]. rewrite tokB_eq. cbn [tbind]. replace (used p []) with p; [reflexivity|]. unfold used. rewrite Nat.sub_0_r, firstn_all. reflexivity.
    - cbn [ap_recs ap_rec r_tag]. rewrite Hn. destruct (Z.eqb_spec num 0); [contradiction|]. rewrite find_field_none by exact Hu.
      unfold ap_unknown. cbn [r_tb r_tag]. rewrite (shortest_size tb tag Ht Hsh), Z.eqb_refl, Hn. unfold r_raw. cbn [r_tb r_pb].
      destruct (m_unk (desc_of E ty)); [contradiction|reflexivity..].
  Qed.

  Lemma enum_store_run d ty num i l c z fs u : generated E -> member E ty num i (Field num (EEnum (Some l)) c) -> in_vtype VI64 z ->
    enum_valid (Some l) (to_enum z) = false -> match c with COpt => True | CRep _ => in_vtype VI32 z | _ => False end -> (i < length fs)%nat ->
    runs d ty (fs, u) (tagb num WT_VARINT ++ pack_varint VI64 z) (fs, unk_add (m_unk (desc_of E ty)) num (tagb num WT_VARINT ++ pack_varint VI64 z) u).
  Proof.
    intros _ Hm Hz Hv Hc Hi. destruct (find_field_spec _ _ _ _ _ Hm) as [Hin _].
    assert (Hn : 1 <= num < 2 ^ 25) by (eapply gen_numbers; eauto; left; reflexivity).
    assert (Hsf : m_unk (desc_of E ty) <> UPairs) by (apply (proj1 (Forall_forall _ _) (gen_safe E G ty) _ Hin); reflexivity).
    destruct (pack_varint_spec VI64 z) as (A & B & _). pose proof (pack_varint_len VI64 z) as L.
    assert (Hmean : meaning VI64 (b128 (pack_varint VI64 z)) = z) by (rewrite B; apply meaning_pack; exact Hz).
    destruct (tag_parts num WT_VARINT ltac:(lia) ltac:(unfold WT_VARINT; lia)) as [T1 T2].
    rewrite <- (set_nth_same i fs Hi) at 2.
    eapply (runs_rec E utf8_ok limit _ _ _ _ _ _ _ (pack_varint VI64 z) [] _ _ 0); eauto; [unfold WT_VARINT; lia| |].
    - rewrite tok_pay_wt by (unfold WT_VARINT; lia). rewrite T1, Z.eqb_refl.
      pose proof (scan_is_varint 10 (pack_varint VI64 z) [] A ltac:(unfold zlen in L; lia)) as K. rewrite app_nil_r in K. rewrite K, firstn_all, skipn_all. reflexivity.
    - assert (Hu : forall n u, n = num -> unknown_enum (m_unk (desc_of E ty)) n z u =
        Ok (unk_add (m_unk (desc_of E ty)) num (tagb num WT_VARINT ++ pack_varint VI64 z) u)).
      { intros n u0 ->. unfold unknown_enum. replace (pack_varint VU32 (make_tag num WT_VARINT)) with (tagb num WT_VARINT).
        - destruct (m_unk (desc_of E ty)); try reflexivity. congruence.
        - unfold tagb. rewrite make_tag_sum by (unfold WT_VARINT; lia). symmetry. apply pack_small; [reflexivity|unfold WT_VARINT; change (2 ^ enc_bits VU32) with (128 * 2 ^ 25); lia]. }
      destruct c as [| |pk|]; try tauto; cbn [ap_field].
      + unfold ap_value. cbn [r_tag r_pay elem_wt]. rewrite T1, Z.eqb_refl. cbn [negb tbind int_of]. rewrite Hmean, Hv, Hu by reflexivity. reflexivity.
      + cbn [packable r_tag]. rewrite T1. change (WT_VARINT =? WT_LEN) with false. cbn [andb].
        unfold ap_value. cbn [r_tag r_pay elem_wt]. rewrite T1, Z.eqb_refl. cbn [negb tbind int_of]. rewrite Hmean, Hv, T2.
        replace (to_enum z) with z; [rewrite Hu by reflexivity; reflexivity|]. unfold to_enum. symmetry. apply wrapS_id; [lia|exact Hc].
  Qed.

  Definition adds (k : ukind) (l u : list (Z * bytes)) : list (Z * bytes) := fold_left (fun u x => unk_add k (fst x) (snd x) u) l u.

  Lemma unknown_fields_run d ty fs : m_unk (desc_of E ty) <> UNone -> length fs = length (m_fields (desc_of E ty)) -> forall l u,
    Forall (fun x => stored_field E limit d ty (fst x) (snd x)) l ->
    runs d ty (fs, u) (bytes_of l) (fs, adds (m_unk (desc_of E ty)) l u).
  Proof.
    intros Hk Hlen. induction l as [|[n f] l IH]; intros u Hl; [apply runs_nil|]. inversion Hl as [|? ? H1 H3]; subst.
    unfold bytes_of. cbn [map concat snd fst] in *. eapply runs_app; [|apply (IH (unk_add (m_unk (desc_of E ty)) n f u) H3)].
    destruct H1 as [[H1 H2]|(i & el & c & z & Hm & Hz & Hv & Hc & ->)]; [apply unknown_field_run; auto|].
    eapply enum_store_run; eauto. rewrite Hlen. apply find_field_lt in Hm. lia.
  Qed.

  Lemma adds_bytes : forall l b, adds UBytes l [(0, b)] = [(0, b ++ bytes_of l)].
  Proof.
    induction l as [|[n f] l IH]; intros b; unfold bytes_of in *; cbn; [rewrite app_nil_r; reflexivity|].
    unfold adds in IH. rewrite IH, <- app_assoc. reflexivity.
  Qed.
  Lemma adds_map n : forall l u b, (forall m, In m (map fst u) -> m < n) -> Forall (fun x => fst x = n) l ->
    adds UMap l (u ++ [(n, b)]) = u ++ [(n, b ++ bytes_of l)].
  Proof.
    induction l as [|[m f] l IH]; intros u b Hu Hl; unfold bytes_of in *; cbn [map concat snd adds fold_left]; [rewrite app_nil_r; reflexivity|].
    inversion Hl as [|? ? H1 H2]; cbn [fst snd] in *; subst m. cbn [unk_add].
    replace (umap_add n f (u ++ [(n, b)])) with (u ++ [(n, b ++ f)]); [unfold adds in IH; rewrite IH, <- app_assoc by auto; reflexivity|].
    clear - Hu. induction u as [|[m c] u IHu]; cbn; [rewrite Z.eqb_refl; reflexivity|].
    pose proof (Hu m (or_introl eq_refl)). destruct (Z.eqb_spec m n); [lia|]. destruct (Z.ltb_spec n m); [lia|]. f_equal. apply IHu.
    intros x Hx. apply Hu. right; exact Hx.
  Qed.
  Lemma adds_pairs n : forall l u b, ~ In n (map fst u) -> Forall (fun x => fst x = n) l ->
    adds UPairs l (u ++ [(n, b)]) = u ++ [(n, b ++ bytes_of l)].
  Proof.
    induction l as [|[m f] l IH]; intros u b Hu Hl; unfold bytes_of in *; cbn [map concat snd adds fold_left]; [rewrite app_nil_r; reflexivity|].
    inversion Hl as [|? ? H1 H2]; cbn [fst snd] in *; subst m. cbn [unk_add].
    replace (upairs_add n f (u ++ [(n, b)])) with (u ++ [(n, b ++ f)]); [unfold adds in IH; rewrite IH, <- app_assoc by auto; reflexivity|].
    clear - Hu. induction u as [|[m c] u IHu]; cbn; [rewrite Z.eqb_refl; reflexivity|].
    destruct (Z.eqb_spec m n); [subst; cbn in Hu; tauto|]. f_equal. apply IHu. cbn in Hu. tauto.
  Qed.

  (** The first field of a number opens its entry. *)
  Lemma umap_new n f u : (forall m, In m (map fst u) -> m < n) -> umap_add n f u = u ++ [(n, f)].
  Proof.
    induction u as [|[m c] u IH]; intros Hu; [reflexivity|]. cbn. pose proof (Hu m (or_introl eq_refl)).
    destruct (Z.eqb_spec m n); [lia|]. destruct (Z.ltb_spec n m); [lia|]. f_equal. apply IH. intros x Hx. apply Hu. right; exact Hx.
  Qed.
  Lemma upairs_new n f u : ~ In n (map fst u) -> upairs_add n f u = u ++ [(n, f)].
  Proof.
    induction u as [|[m c] u IH]; intros Hu; [reflexivity|]. cbn in *. destruct (Z.eqb_spec m n); [tauto|]. f_equal. tauto.
  Qed.

  Lemma adds_one k n l u : l <> [] -> Forall (fun x => fst x = n) l ->
    match k with UMap => forall m, In m (map fst u) -> m < n | UPairs => ~ In n (map fst u) | _ => False end ->
    adds k l u = u ++ [(n, bytes_of l)].
  Proof.
    intros Hne Hl Hk. destruct l as [|[m f] l]; [congruence|]. inversion Hl as [|? ? H1 H2]; cbn [fst snd] in *; subst m.
    destruct k; try tauto; unfold adds; cbn [fold_left unk_add fst snd].
    - rewrite umap_new by auto. change (adds UMap l (u ++ [(n, f)]) = u ++ [(n, bytes_of ((n, f) :: l))]). rewrite adds_map; auto.
    - rewrite upairs_new by auto. change (adds UPairs l (u ++ [(n, f)]) = u ++ [(n, bytes_of ((n, f) :: l))]). rewrite adds_pairs; auto.
  Qed.

  Lemma unknown_run d ty fs u : length fs = length (m_fields (desc_of E ty)) -> store_ok (m_unk (desc_of E ty)) u -> stored_ok E limit d ty u ->
    runs d ty (fs, []) (enc_unknown (m_unk (desc_of E ty)) u) (fs, u).
  Proof.
    intros Hlf Hst Hs. unfold stored_ok in Hs. pose proof (fun H => unknown_fields_run d ty fs H Hlf) as Hrun. unfold enc_unknown. destruct (m_unk (desc_of E ty)) eqn:Hk.
    - cbn in Hst. subst. apply runs_nil.
    - destruct Hst as [Hlen H0]. destruct u as [|[n b] [|p0 u0]]; cbn in Hlen; [apply runs_nil| |lia]. apply Forall_inv in H0. cbn in H0; subst n.
      apply Forall_inv in Hs. destruct Hs as (ll & Hb & Hne & Hl). cbn [snd fst] in *; subst b. cbn [map concat snd]. rewrite app_nil_r.
      assert (Hf : Forall (fun x => stored_field E limit d ty (fst x) (snd x)) ll) by (eapply Forall_impl; [|exact Hl]; cbn; tauto).
      pose proof (Hrun ltac:(discriminate) ll [] Hf) as R. destruct ll as [|[m f] ll]; [congruence|].
      unfold adds in R. cbn [fold_left unk_add ubytes_add fst snd] in R. change (fold_left _ ll _) with (adds UBytes ll [(0, f)]) in R. rewrite adds_bytes in R. exact R.
    - assert (K : forall u2 u1, StronglySorted Z.lt (map fst (u1 ++ u2)) ->
        Forall (fun p => exists l, snd p = bytes_of l /\ l <> [] /\
          Forall (fun x => stored_field E limit d ty (fst x) (snd x) /\ (UMap = UBytes \/ fst x = fst p)) l) u2 ->
        runs d ty (fs, u1) (concat (map snd u2)) (fs, u1 ++ u2)).
      { induction u2 as [|[n b] u2 IH]; intros u1 Hso Hf; [rewrite app_nil_r; apply runs_nil|]. pose proof (Forall_inv Hf) as (l & Hb & Hne & Hl). pose proof (Forall_inv_tail Hf) as Hf2. clear Hf.
        cbn [map concat snd fst] in *. replace (u1 ++ (n, b) :: u2) with ((u1 ++ [(n, b)]) ++ u2) in * by (rewrite <- app_assoc; reflexivity).
        eapply runs_app; [|apply IH; eauto]. subst b. pose proof (Hrun ltac:(discriminate) l u1) as R. rewrite (adds_one UMap n) in R; auto.
        - apply R. eapply Forall_impl; [|exact Hl]; cbn; tauto.
        - eapply Forall_impl; [|exact Hl]. cbn. intros x [_ [?|?]]; [discriminate|assumption].
        - intros m Hm. rewrite !map_app in Hso. apply sorted_prefix in Hso. cbn [map fst] in Hso. clear - Hso Hm.
          induction (map fst u1) as [|x t IHt]; [destruct Hm|]. cbn in Hso. inversion Hso as [|? ? H1 H2]; subst. destruct Hm as [->|Hm]; [|auto].
          rewrite Forall_forall in H2. apply H2. apply in_or_app. right; left; reflexivity. }
      apply (K u []); auto.
    - assert (K : forall u2 u1, NoDup (map fst (u1 ++ u2)) ->
        Forall (fun p => exists l, snd p = bytes_of l /\ l <> [] /\
          Forall (fun x => stored_field E limit d ty (fst x) (snd x) /\ (UPairs = UBytes \/ fst x = fst p)) l) u2 ->
        runs d ty (fs, u1) (concat (map snd u2)) (fs, u1 ++ u2)).
      { induction u2 as [|[n b] u2 IH]; intros u1 Hso Hf; [rewrite app_nil_r; apply runs_nil|]. pose proof (Forall_inv Hf) as (l & Hb & Hne & Hl). pose proof (Forall_inv_tail Hf) as Hf2. clear Hf.
        cbn [map concat snd fst] in *. assert (Hnd : ~ In n (map fst u1)).
        { rewrite map_app in Hso. cbn [map fst] in Hso. apply NoDup_remove_2 in Hso. intros K. apply Hso. apply in_or_app. auto. }
        replace (u1 ++ (n, b) :: u2) with ((u1 ++ [(n, b)]) ++ u2) in * by (rewrite <- app_assoc; reflexivity).
        eapply runs_app; [|apply IH; eauto]. subst b. pose proof (Hrun ltac:(discriminate) l u1) as R. rewrite (adds_one UPairs n) in R; auto.
        - apply R. eapply Forall_impl; [|exact Hl]; cbn; tauto.
        - eapply Forall_impl; [|exact Hl]. cbn. intros x [_ [?|?]]; [discriminate|assumption]. }
      apply (K u []); auto.
  Qed.

  (** ** Whole messages *)
  Lemma sub_len f c ty' v' : sub_msg f c ty' v' -> zlen (enc_msg E ty' v') <= zlen (enc_field (enc_msg E) f c).
  Proof.
    intros H. inversion H; subst.
    - assert (K : zlen (enc_msg E ty' v') <= zlen (enc_elem (enc_msg E) num (EMsg ty' delim) v')).
      { rewrite enc_elem_split, zlen_app. pose proof (zlen_nonneg (tagb num (elem_wt (EMsg ty' delim)))). cbn [payload_of].
        destruct delim; rewrite zlen_app; [pose proof (zlen_nonneg (tagb num WT_EGROUP))|pose proof (zlen_nonneg (vint (zlen (enc_msg E ty' v'))))]; lia. }
      pose proof (zlen_concat_in (enc_elem (enc_msg E) num (EMsg ty' delim)) c v' ltac:(assumption)) as K2.
      cbn [enc_field packable]. destruct c0 as [| |[|]|]; lia.
    - cbn [enc_field]. rewrite H0. rewrite enc_elem_split, zlen_app. pose proof (zlen_nonneg (tagb num (elem_wt (EMsg ty' delim)))). cbn [payload_of].
      destruct delim; rewrite zlen_app; [pose proof (zlen_nonneg (tagb num WT_EGROUP))|pose proof (zlen_nonneg (vint (zlen (enc_msg E ty' v'))))]; lia.
  Qed.

  Lemma fields_len f c : omit f c = false -> forall fds fs, In (f, c) (combine fds fs) ->
    zlen (enc_field (enc_msg E) f c) <= zlen (enc_fields (enc_msg E) fds fs).
  Proof.
    intros Ho. induction fds as [|g fds IH]; intros [|c1 fs] H; cbn in H; try contradiction. cbn [enc_fields]. rewrite zlen_app. destruct H as [H|H].
    - injection H as -> ->. rewrite Ho. pose proof (zlen_nonneg (enc_fields (enc_msg E) fds fs)). lia.
    - specialize (IH _ H). match goal with |- _ <= zlen ?a + _ => pose proof (zlen_nonneg a) end. lia.
  Qed.

  Lemma entry_head ek v rest : scalar ek = true -> tag_number (hd 0 (enc_elem (enc_msg E) 1 ek v ++ rest)) = 1.
  Proof. destruct ek as [| |[|]| | |]; try discriminate; intros _; reflexivity. Qed.

  Theorem message_run : forall ty v d, wt (EMsg ty false) v -> canonical E limit (d + 1) ty v ->
    (forall n, nested E ty v n -> scope_ok limit (d + Z.of_nat n - 1) = true) -> zlen (enc_msg E ty v) < 2 ^ 31 ->
    runs (d + 1) ty (msg_fields (default_msg E ty), []) (enc_msg E ty v) (msg_fields v, msg_unk v).
  Proof.
    apply (nested_ind_msg E (fun ty v => forall d, wt (EMsg ty false) v -> canonical E limit (d + 1) ty v ->
    (forall n, nested E ty v n -> scope_ok limit (d + Z.of_nat n - 1) = true) -> zlen (enc_msg E ty v) < 2 ^ 31 ->
    runs (d + 1) ty (msg_fields (default_msg E ty), []) (enc_msg E ty v) (msg_fields v, msg_unk v))).
    intros ty v IH d Hw Hc Hd Hl. inversion Hw; subst. inversion Hc as [? ? ? [Hc1 Hc2] Hc3]; subst. cbn [enc_msg msg_fields msg_unk] in *.
    rewrite zlen_app in Hl. pose proof (zlen_nonneg (enc_fields (enc_msg E) (m_fields (desc_of E ty)) fs)). pose proof (zlen_nonneg (enc_unknown (m_unk (desc_of E ty)) u)).
    eapply runs_app; [|apply unknown_run; eauto; eapply cells_length; eauto].
    apply (fields_run (d + 1) ty [] (m_fields (desc_of E ty)) fs [] []); auto; [|lia].
    intros f c ty' v' Hin Hsub.
    assert (Hh : holds E ty (VMsg fs u) f c) by exact Hin.
    assert (Hcell : cell f c) by (eapply cells_in; eauto).
    assert (Hw' : wt (EMsg ty' false) v') by (eapply cell_sub; eauto).
    assert (Hf : In f (m_fields (desc_of E ty))) by (eapply in_combine_l; eauto).
    assert (Hdep : forall n, nested E ty' v' n -> scope_ok limit (d + 1 + Z.of_nat n - 1) = true).
    { intros n Hn. specialize (Hd (S n)). rewrite Nat2Z.inj_succ in Hd. replace (d + 1 + Z.of_nat n - 1) with (d + Z.succ (Z.of_nat n) - 1) by lia.
      apply Hd. eapply NStep; eauto. }
    inversion Hw' as [| | | | |? ? fs' u' Hcs' Hst' Hab']; subst.
    split; [|split; [|split]].
    - specialize (Hdep 1%nat (NOne E ty' fs' u')). replace (d + 1 + Z.of_nat 1 - 1) with (d + 1) in Hdep by lia. exact Hdep.
    - intros Hent. pose proof (gen_messages E G ty f Hf) as Hgm. inversion Hsub; subst.
      + destruct c0 as [ex d0| |pk|assoc]; try (destruct Hgm; congruence).
        destruct (gen_maps E G ty num (EMsg ty' delim) assoc Hf) as (ty2 & ek & dk & ev & dv & He & Hsk & Hdesc). injection He as <- ->.
        rewrite Hdesc in Hcs'. cbn [m_fields] in Hcs'.
        inversion Hcs' as [|? ? ck ? Hk Hcs2]; subst. inversion Hk; subst. cbn [enc_msg]. rewrite Hdesc. cbn [m_fields enc_fields omit enc_field].
        cbn [map concat]. rewrite <- !app_assoc. apply entry_head. exact Hsk.
      + rewrite (Hgm num ty' delim) in Hent; [discriminate|]. eapply nth_error_In; eauto.
    - reflexivity.
    - apply (IH f c ty' _ Hh Hsub (d + 1)); auto.
      + eapply Hc3; eauto.
      + pose proof (sub_len _ _ _ _ Hsub). pose proof (fields_len f c (sub_not_omitted _ _ _ _ Hsub) _ _ Hin). lia.
  Qed.
End RoundTrip2.
