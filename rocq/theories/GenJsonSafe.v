(** Reading JSON into generated messages, whatever the text, is defined and leaves a
    well-formed message. *)
From Coq Require Import Sorted.
Require Import Verif.Bits Verif.Varint Verif.Base64 Verif.TextNum Verif.Timestamp Verif.Duration Verif.TimestampProofs Verif.DurationProofs Verif.CppSpec Verif.Defaults Verif.FieldMask.
Require Import Verif.Schema Verif.Archive Verif.Decode Verif.Encode Verif.WellTyped Verif.DynView Verif.DynJson Verif.DynJsonSpec Verif.DynJson1 Verif.DynJsonSafe Verif.GenJson Verif.GenJsonSpec Verif.GenJson1 Verif.GenJson2.

(** ** Specification *)
(** The types without the values of enums and without validation of strings: JSON does not look
    at the former, and at the latter only in some members (C90_enum_refuted, C90_utf8_refuted). *)
Definition relax_elem (e : elem) : elem := match e with EEnum _ => EEnum None | EBytes _ v => EBytes false v | _ => e end.
Definition relax_field (f : field) : field :=
  match f with Field n e c => Field n (relax_elem e) c | Oneof alts => Oneof (map (fun a => (fst a, relax_elem (snd a))) alts) end.
Definition relax_desc (d : mdesc) : mdesc := MDesc (map relax_field (m_fields d)) (m_unk d) (m_entry d).
Definition relaxed (E : env) : env := map relax_desc E.
Definition genums_fit (G : list gtype) : Prop := forall ty b jf, In b (g_members (gty G ty)) -> In jf (fields_of b) -> Forall (fun p => fits_s 32 (snd p)) (j_values jf).

(** ** Relaxed types *)
Lemma desc_relaxed E ty : desc_of (relaxed E) ty = relax_desc (desc_of E ty).
Proof. unfold desc_of, relaxed. change empty_desc with (relax_desc empty_desc) at 1. apply map_nth. Qed.
Lemma fields_relaxed E ty : m_fields (desc_of (relaxed E) ty) = map relax_field (m_fields (desc_of E ty)).
Proof. rewrite desc_relaxed. reflexivity. Qed.
Lemma default_relaxed E ty : default_msg (relaxed E) ty = default_msg E ty.
Proof. unfold default_msg. rewrite fields_relaxed, map_map. f_equal. apply map_ext. intros [n e [| | |]|alts]; reflexivity. Qed.
Lemma loosen_relax ex e : loosen ex (relax_elem e) = relax_elem e.
Proof. destruct e; reflexivity. Qed.
Lemma wt_relax E utf8_ok : (forall e v, wt E utf8_ok e v -> wt (relaxed E) utf8_ok (relax_elem e) v) /\
  (forall fds fs, cells E utf8_ok fds fs -> cells (relaxed E) utf8_ok (map relax_field fds) fs) /\
  (forall f c, cell E utf8_ok f c -> cell (relaxed E) utf8_ok (relax_field f) c) /\
  (forall e vs, elems E utf8_ok e vs -> elems (relaxed E) utf8_ok (relax_elem e) vs).
Proof.
  apply (wt_mutind E utf8_ok); intros; cbn [relax_elem relax_field map]; try (constructor; assumption).
  - constructor; [assumption|reflexivity].
  - constructor; [assumption|discriminate].
  - constructor; [rewrite fields_relaxed|rewrite desc_relaxed|]; assumption.
  - constructor. rewrite loosen_relax. destruct e as [| | |[?|]| |]; destruct ex; assumption.
  - econstructor; [|eassumption]. rewrite nth_error_map, H. reflexivity.
Qed.
Lemma store_nil k : store_ok k [].
Proof. destruct k; cbn; repeat constructor. Qed.

Section Safe.
  Context (E : env) (G : list gtype) (utf8_ok : bytes -> bool) (fparse : bool -> bytes -> option Z) (lenient strict : bool).
  Hypothesis HG : gtypes_ok E G.
  Hypothesis HE : genums_fit G.
  Hypothesis HF : floats_fit fparse.
  Hypothesis HD : wt_defaults E utf8_ok.
  Notation E' := (relaxed E).
  Notation wt' := (wt E' utf8_ok).
  Notation cells' := (cells E' utf8_ok).
  Notation cell' := (cell E' utf8_ok).
  Notation elems' := (elems E' utf8_ok).
  (** [deep]: whether a limit on the nesting may be exceeded. *)
  Context (deep : bool).

  Definition gfine {T} (P : T -> Prop) (ts : list tok) (x : res (T * list tok)) : Prop :=
    match x with Ok (v, r) => P v /\ suffix r ts | Err e => (match e with BadMessage => true | TooLarge => deep end) = true | _ => False end.
  Lemma gfine_ok {T} (P : T -> Prop) ts v r : P v -> suffix r ts -> gfine P ts (Ok (v, r)).
  Proof. split; assumption. Qed.
  Lemma gfine_bind {A B} (P : A -> Prop) (Q : B -> Prop) ts ts' x (k : A -> list tok -> res (B * list tok)) : gfine P ts' x -> suffix ts' ts -> (forall v r, P v -> suffix r ts' -> gfine Q r (k v r)) -> gfine Q ts (bind x (fun p => let '(v, r) := p in k v r)).
  Proof.
    intros H S K. destruct x as [[v r]| | | |]; try exact H. destruct H as [Hv Hr]. specialize (K v r Hv Hr). cbn [bind]. destruct (k v r) as [[w r']| | | |]; try exact K. destruct K as [K1 K2]. split; [exact K1|].
    eapply suffix_trans; [exact K2|]. eapply suffix_trans; eauto.
  Qed.
  Lemma gfine_weaken {T} (P Q : T -> Prop) ts ts' x : (forall v, P v -> Q v) -> suffix ts' ts -> gfine P ts' x -> gfine Q ts x.
  Proof. intros H S F. destruct x as [[v r]| | | |]; try exact F. destruct F as [F1 F2]. split; [auto|eapply suffix_trans; eauto]. Qed.
  Lemma text_suffix a b : suffix a b -> text b -> text a.
  Proof. intros (p & ->) H x Hx. apply H. rewrite in_app_iff. auto. Qed.
  Lemma text_tail t r : text (t :: r) -> text r.
  Proof. apply text_suffix. apply suffix_cons. Qed.

  Lemma gvalue_fits jf t z : Forall (fun p => fits_s 32 (snd p)) (j_values jf) -> value_of (j_values jf) t = Some z -> fits_s 32 z.
  Proof. intros H. unfold value_of. destruct (find _ _) as [p|] eqn:F; [|discriminate]. intros [= <-]. apply find_some in F. rewrite Forall_forall in H. apply H. tauto. Qed.
  Lemma gfine_scalar checked q jf e ts : scalar e = true -> Forall (fun p => fits_s 32 (snd p)) (j_values jf) -> text ts -> gfine (fits e) ts (gread_scalar utf8_ok fparse lenient checked q jf e ts).
  Proof.
    intros Hs Hv Ht. assert (NF : forall e t z, number_value fparse jf e t = Some z -> match e with EVar _ | EFix _ _ => fits e (VInt z) | _ => True end) by (exact (number_fits utf8_ok 0 fparse strict HF jf)).
    destruct e as [t| |b fl|c|u vw|ty d]; try discriminate Hs; cbn [gread_scalar].
    - destruct ts as [|[] r]; try reflexivity; [destruct q|destruct (negb q || lenient)]; try reflexivity; destruct (number_value _ _ _ _) eqn:N; try reflexivity; (apply gfine_ok; [exact (NF _ _ _ N)|apply suffix_cons]).
    - destruct ts as [|[] r]; try reflexivity; destruct q; try reflexivity; try (apply gfine_ok; [cbn; auto|apply suffix_cons]). destruct (eqb_bytes b true_text); [apply gfine_ok; [cbn; auto|apply suffix_cons]|]. destruct (eqb_bytes b false_text); [apply gfine_ok; [cbn; auto|apply suffix_cons]|reflexivity].
    - destruct ts as [|[] r]; try reflexivity; [destruct q|destruct (negb q || lenient)]; try reflexivity; destruct (number_value _ _ _ _) eqn:N; try reflexivity; (apply gfine_ok; [exact (NF _ _ _ N)|apply suffix_cons]).
    - destruct ts as [|[] r]; try reflexivity.
      + destruct (j_null jf); [reflexivity|]. destruct (value_of _ _) eqn:V; [|reflexivity]. apply gfine_ok; [|apply suffix_cons]. apply (gvalue_fits _ _ _ Hv) in V. exact V.
      + destruct checked; [|reflexivity]. destruct (number_value _ _ _ _) eqn:N; [|reflexivity]. apply gfine_ok; [exact (NF _ _ _ N)|apply suffix_cons].
      + destruct (j_null jf && negb checked); [|reflexivity]. apply gfine_ok; [|apply suffix_cons]. cbn. unfold fits_s. lia.
    - destruct ts as [|[] r]; try reflexivity. destruct (j_string jf).
      + destruct (negb checked || utf8_ok b); [|reflexivity]. apply gfine_ok; [apply Ht; left; reflexivity|apply suffix_cons].
      + destruct (b64_decode b) eqn:B; [|reflexivity]. apply gfine_ok; [exact (b64_bytes _ _ B)|apply suffix_cons].
  Qed.
  Lemma fits_wt e v : scalar e = true -> fits e v -> wt' (relax_elem e) v.
  Proof.
    intros Hs H. destruct e as [t| |b fl|c|u vw|ty d]; try discriminate Hs; destruct v as [z|bs| |]; try contradiction; cbn [relax_elem]; constructor; try exact H; try reflexivity. discriminate.
  Qed.
  Lemma default_wt ty d : wt' (EMsg ty d) (default_msg E ty).
  Proof. pose proof (proj1 (wt_relax E utf8_ok) _ _ (HD ty)) as H. cbn [relax_elem] in H. inversion H; subst. constructor; assumption. Qed.
  Lemma elem_default_wt ty d : wt' (EMsg ty d) (elem_default E (EMsg ty d)).
  Proof. apply default_wt. Qed.

  Section Rec.
    Variable n : nat.
    Variable rec : nat -> val -> list tok -> res (val * list tok).
    Definition good (ts : list tok) : Prop := text ts /\ (length ts < n)%nat.
    Hypothesis R : forall ty cur ts, wt' (EMsg ty false) cur -> good ts -> gfine (wt' (EMsg ty false)) ts (rec ty cur ts).
    Lemma good_suffix a b : suffix a b -> good b -> good a.
    Proof. intros S [H1 H2]. split; [eapply text_suffix; eauto|]. apply suffix_len in S. lia. Qed.
    Lemma good_tail t r : good (t :: r) -> good r.
    Proof. apply good_suffix. apply suffix_cons. Qed.

    Lemma redelim ty d d' v : wt' (EMsg ty d) v -> wt' (EMsg ty d') v.
    Proof. intros H. inversion H; subst. constructor; assumption. Qed.
    Lemma gfine_elem checked q jf e cur ts : Forall (fun p => fits_s 32 (snd p)) (j_values jf) -> (scalar e = false -> wt' e cur) -> good ts ->
      gfine (wt' (relax_elem e)) ts (gread_elem utf8_ok fparse lenient rec checked q jf e cur ts).
    Proof.
      intros Hv Hc Hg. destruct (scalar e) eqn:S.
      - apply (gfine_weaken (fits e) _ ts ts); [intros v; apply fits_wt; exact S|apply suffix_refl|]. destruct e; try discriminate S; apply gfine_scalar; try reflexivity; try exact Hv; apply Hg.
      - destruct e as [| | | | |ty d]; try discriminate S. cbn [gread_elem relax_elem]. apply (gfine_weaken (wt' (EMsg ty false)) _ ts ts); [intros v; apply redelim|apply suffix_refl|]. apply R; [|exact Hg]. eapply redelim. apply Hc. reflexivity.
    Qed.

    Lemma gfine_elems {X} (P : X -> Prop) one : (forall ts, good ts -> gfine P ts (one ts)) -> forall k ts, good ts -> gfine (Forall P) ts (read_elems one k ts).
    Proof.
      intros H. induction k as [|k IH]; intros ts Hg; cbn [read_elems]; [apply gfine_ok; [constructor|apply suffix_refl]|]. eapply gfine_bind; [apply H; exact Hg|apply suffix_refl|]. intros v r Hv Hr. destruct k as [|k]; [apply gfine_ok; [repeat constructor; exact Hv|apply suffix_refl]|].
      destruct r as [|[] r]; try reflexivity. eapply gfine_bind; [apply IH; apply (good_tail Comma); eapply good_suffix; eauto|apply suffix_cons|]. intros vs r' Hvs _. apply gfine_ok; [constructor; assumption|apply suffix_refl].
    Qed.
    Lemma count_bad brace ts : forall c sk, match count_elems brace c sk ts with Ok _ => True | Err e => (match e with BadMessage => true | TooLarge => deep end) = true | _ => False end.
    Proof.
      induction ts as [|t r IH]; intros c sk; cbn [count_elems]; [reflexivity|]. destruct sk as [[b d]|]; [destruct (opens b t); [apply IH|destruct (closes b t); apply IH]|]. destruct t; try apply IH; try (destruct (closes brace _); [exact I|apply IH]).
    Qed.
    (** What is behind the bracket is good. *)
    Lemma gfine_repeated {X} (P : X -> Prop) brace one ts : (forall ts, good ts -> gfine P ts (one ts)) -> (forall t r, ts = t :: r -> good r) -> gfine (Forall P) ts (read_repeated brace one ts).
    Proof.
      intros H Hg. unfold read_repeated. destruct ts as [|t r]; [reflexivity|]. specialize (Hg t r eq_refl). destruct (opens brace t); [|reflexivity]. pose proof (count_bad brace r 1%nat None) as C. unfold number_of_elements.
      destruct r as [|t' r']; [reflexivity|]. assert (S : forall k, gfine (Forall P) (t :: t' :: r') ('(xs, r1) <- read_elems one k (t' :: r') ;; match r1 with t'' :: r2 => if closes brace t'' then Ok (xs, r2) else Err BadMessage | [] => Err BadMessage end) \/ True) by auto. clear S.
      destruct (closes brace t') eqn:C0.
      - cbn [bind read_elems]. rewrite C0. apply gfine_ok; [constructor|]. exists [t; t']. reflexivity.
      - destruct (count_elems brace 1 None (t' :: r')) as [k| | | |]; try contradiction; [|cbn [bind]; exact C]. cbn [bind]. eapply gfine_bind; [apply gfine_elems; [exact H|exact Hg]|apply suffix_cons|]. intros vs r1 Hvs _.
        destruct r1 as [|t1 r2]; [apply gfine_ok; [exact Hvs|apply suffix_refl] || reflexivity|]. destruct (closes brace t1); [apply gfine_ok; [exact Hvs|apply suffix_cons]|]. apply gfine_ok; [exact Hvs|apply suffix_refl] || reflexivity.
    Qed.
    Lemma elems_forall e vs : Forall (wt' e) vs -> elems' e vs.
    Proof. induction 1; constructor; assumption. Qed.
    Lemma forall_elems e vs : elems' e vs -> Forall (wt' e) vs.
    Proof. induction 1; constructor; assumption. Qed.

    Lemma gfine_array jf e ts : Forall (fun p => fits_s 32 (snd p)) (j_values jf) -> (forall t r, ts = t :: r -> good r) -> gfine (elems' (relax_elem e)) ts (gread_array E utf8_ok fparse lenient rec jf e ts).
    Proof.
      intros Hv Hg. eapply gfine_weaken; [apply elems_forall|apply suffix_refl|]. apply gfine_repeated; [|exact Hg]. intros ts' Hg'. apply gfine_elem; [exact Hv| |exact Hg']. intros S. destruct e; try discriminate S. apply elem_default_wt.
    Qed.

    Context (te : nat) (n1 n2 : Z) (ek ev : elem) (dk dv : val) (kj : jfield) (ks : bool) (vj : jfield) (vs0 : bool).
    Hypothesis Hfs : m_fields (desc_of E te) = [Field n1 ek (CPlain true dk); Field n2 ev (CPlain true dv)].
    Hypothesis Hbs : g_members (gty G te) = [GField kj ks; GField vj vs0].
    Hypothesis Hkey : key_kind kj ek = true.
    Definition entry_fine (v : val) : Prop := wt' (EMsg te false) v /\ is_key (entry_key v).
    Lemma entry_enums : Forall (fun p => fits_s 32 (snd p)) (j_values kj) /\ Forall (fun p => fits_s 32 (snd p)) (j_values vj).
    Proof. split; [apply (HE te (GField kj ks))|apply (HE te (GField vj vs0))]; try rewrite Hbs; cbn; auto. Qed.
    Lemma gfine_pair ts : good ts -> match gread_pair E G utf8_ok fparse lenient rec te ts with Ok (v, r) => entry_fine v /\ suffix r ts /\ (length r < length ts)%nat | Err e => (match e with BadMessage => true | TooLarge => deep end) = true | _ => False end.
    Proof.
      intros Hg. unfold gread_pair. rewrite (entry_is E G te n1 n2 ek ev dk dv kj ks vj vs0 Hfs Hbs). destruct entry_enums as [Ek Ev].
      pose proof (gfine_scalar true true kj ek ts (key_scalar _ _ Hkey) Ek (proj1 Hg)) as K. destruct (gread_scalar utf8_ok fparse lenient true true kj ek ts) as [[k r]| | | |]; try exact K. destruct K as [Fk Sr]. cbn [bind].
      destruct r as [|[] r1]; try reflexivity. assert (G1 : good r1) by (apply (good_tail Colon); eapply good_suffix; eauto).
      assert (D : scalar ev = false -> wt' ev (elem_default E ev)) by (intros S; destruct ev; try discriminate S; apply elem_default_wt).
      pose proof (gfine_elem true (wide vj ev) vj ev (elem_default E ev) r1 Ev D G1) as V. destruct (gread_elem utf8_ok fparse lenient rec true (wide vj ev) vj ev (elem_default E ev) r1) as [[x r2]| | | |]; try exact V. destruct V as [Fx S2]. cbn [bind].
      split; [|split].
      - split.
        + constructor; [|apply store_nil|constructor]. rewrite fields_relaxed, Hfs. cbn [map relax_field]. constructor; [constructor; rewrite loosen_relax; apply fits_wt; [apply (key_scalar _ _ Hkey)|exact Fk]|]. constructor; [constructor; rewrite loosen_relax; exact Fx|constructor].
        + cbn [entry_key]. clear -Fk Hkey. destruct ek, k; try contradiction; exact I.
      - eapply suffix_trans; [exact S2|]. eapply suffix_trans; [apply suffix_cons|exact Sr].
      - apply suffix_len in S2, Sr. cbn [length] in Sr. lia.
    Qed.
    Definition map_fine (assoc : bool) (vs : list val) : Prop := elems' (EMsg te false) vs /\ (assoc = true -> StronglySorted key_lt (map entry_key vs)).
    Lemma entry_is_key v : wt' (EMsg te false) v -> is_key (entry_key v).
    Proof.
      intros H. inversion H as [| | | | |? ? ? ? Hc _ _]; subst. rewrite fields_relaxed, Hfs in Hc. cbn [map relax_field] in Hc. inversion Hc as [|? ? c1 ? C1 _]; subst. inversion C1 as [? ? ? ? k Wk| | | | | |]; subst. rewrite loosen_relax in Wk. cbn [entry_key].
      clear -Wk Hkey. destruct ek; try discriminate Hkey; cbn [relax_elem] in Wk; inversion Wk; subst; exact I.
    Qed.
    Lemma gfine_entries k : forall first cur ts, (length ts < k)%nat -> good ts -> map_fine true cur -> gfine (map_fine true) ts (gread_entries E G utf8_ok fparse lenient rec k first te cur ts).
    Proof.
      induction k as [|k IH]; intros first cur ts Hk Hg Hc; [lia|]. cbn [gread_entries].
      assert (STEP : forall ts1, suffix ts1 ts -> gfine (map_fine true) ts ('(e, r) <- gread_pair E G utf8_ok fparse lenient rec te ts1 ;; gread_entries E G utf8_ok fparse lenient rec k false te (map_put e cur) r)).
      { intros ts1 S1. pose proof (gfine_pair ts1 (good_suffix _ _ S1 Hg)) as Q. destruct (gread_pair E G utf8_ok fparse lenient rec te ts1) as [[e r]| | | |]; try exact Q. destruct Q as ([We Ke] & Sr & Lr). cbn [bind].
        pose proof (suffix_len _ _ S1) as L1. eapply gfine_weaken; [intros v Hv; exact Hv| |apply IH].
        - eapply suffix_trans; eauto.
        - lia.
        - eapply good_suffix; [|exact Hg]. eapply suffix_trans; eauto.
        - destruct Hc as [Hc1 Hc2]. apply forall_elems in Hc1. split.
          + apply elems_forall. apply Forall_forall. intros x Hx. apply map_put_in in Hx. destruct Hx as [->|Hx]; [exact We|]. rewrite Forall_forall in Hc1. auto.
          + intros _. apply map_put_sorted; [exact Ke| |apply Hc2; reflexivity]. eapply Forall_impl; [|exact Hc1]. apply entry_is_key. }
      destruct ts as [|t r]; [destruct first; [apply STEP; apply suffix_refl|reflexivity]|]. destruct t; try (apply gfine_ok; [exact Hc|apply suffix_cons]); destruct first; cbn [bind]; try reflexivity; try (apply STEP; apply suffix_refl). apply STEP. apply suffix_cons.
    Qed.
    Lemma gfine_map assoc cur ts : (forall t r, ts = t :: r -> good r) -> map_fine assoc cur -> gfine (map_fine assoc) ts (gread_map E G utf8_ok fparse lenient rec assoc te cur ts).
    Proof.
      intros Hg Hc. unfold gread_map. destruct assoc.
      - destruct ts as [|[] r]; try reflexivity. eapply gfine_weaken; [intros v Hv; exact Hv|apply suffix_cons|]. apply gfine_entries; [lia|apply (Hg LBrace); reflexivity|exact Hc].
      - eapply (gfine_bind (Forall entry_fine)); [apply gfine_repeated; [|exact Hg]|apply suffix_refl|].
        + intros ts' G'. pose proof (gfine_pair ts' G') as Q. unfold gfine. destruct (gread_pair E G utf8_ok fparse lenient rec te ts') as [[e r]| | | |]; try exact Q. tauto.
        + intros vs r Hvs _. apply gfine_ok; [|apply suffix_refl]. split; [|discriminate]. destruct Hc as [Hc _]. apply elems_forall. apply forall_elems in Hc. apply Forall_app. split; [exact Hc|]. eapply Forall_impl; [|exact Hvs]. intros v [H _]. exact H.
    Qed.
  End Rec.

  Section Body.
    Variable n : nat.
    Variable rec : nat -> val -> list tok -> res (val * list tok).
    Hypothesis R : forall ty cur ts, wt' (EMsg ty false) cur -> good n ts -> gfine (wt' (EMsg ty false)) ts (rec ty cur ts).
    Lemma behind ts : good n ts -> forall t r, ts = t :: r -> good n r.
    Proof. intros H t r ->. eapply good_tail; eauto. Qed.

    Lemma gfine_field jf std num e c cur ts : member_ok E G (GField jf std) (Field num e c) -> Forall (fun p => fits_s 32 (snd p)) (j_values jf) -> cell' (Field num (relax_elem e) c) (field_default (Field num e c)) -> cell' (Field num (relax_elem e) c) cur -> good n ts ->
      gfine (cell' (Field num (relax_elem e) c)) ts (gread_field E G utf8_ok fparse lenient rec jf std e c cur ts).
    Proof.
      intros [Hn Hm] Hv Hdf Hc Hg. destruct c as [ex d| |pk|assoc].
      - assert (CD : scalar e = false -> wt' e (match cur with [v] => v | _ => elem_default E e end)).
        { intros S. inversion Hc as [? ? ? ? v Wv| | | | | |]; subst. rewrite loosen_relax in Wv. destruct e; try discriminate S. exact Wv. }
        assert (M : gfine (cell' (Field num (relax_elem e) (CPlain ex d))) ts ('(v, r) <- gread_elem utf8_ok fparse lenient rec (negb ex) (wide jf e) jf e (match cur with [v] => v | _ => elem_default E e end) ts ;; Ok ([v], r))).
        { eapply gfine_bind; [apply (gfine_elem n rec R); [exact Hv|exact CD|exact Hg]|apply suffix_refl|]. intros v r W _. apply gfine_ok; [|apply suffix_refl]. constructor. rewrite loosen_relax. exact W. }
        cbn [gread_field]. destruct ts as [|[] r]; try exact M. destruct ex; [exact M|]. apply gfine_ok; [exact Hdf|apply suffix_cons].
      - assert (CD : scalar e = false -> wt' e (match cur with [v] => v | _ => elem_default E e end)).
        { intros S. destruct e; try discriminate S. cbn [relax_elem] in Hc. inversion Hc as [| |? ? v Wv| | | |]; subst; [apply elem_default_wt|exact Wv]. }
        assert (M : gfine (cell' (Field num (relax_elem e) COpt)) ts ('(v, r) <- gread_elem utf8_ok fparse lenient rec (negb std) (negb std && wide jf e) jf e (match cur with [v] => v | _ => elem_default E e end) ts ;; Ok ([v], r))).
        { eapply gfine_bind; [apply (gfine_elem n rec R); [exact Hv|exact CD|exact Hg]|apply suffix_refl|]. intros v r W _. apply gfine_ok; [|apply suffix_refl]. constructor. exact W. }
        cbn [gread_field]. destruct ts as [|[] r]; try exact M. apply gfine_ok; [constructor|apply suffix_cons].
      - assert (M : gfine (cell' (Field num (relax_elem e) (CRep pk))) ts ('(vs, r) <- gread_array E utf8_ok fparse lenient rec jf e ts ;; Ok (cur ++ vs, r))).
        { eapply gfine_bind; [apply (gfine_array n rec R); [exact Hv|apply behind; exact Hg]|apply suffix_refl|]. intros vs r W _. apply gfine_ok; [|apply suffix_refl]. constructor. inversion Hc as [| | |? ? ? ? Wc| | |]; subst. apply elems_forall. apply forall_elems in W, Wc. apply Forall_app. auto. }
        cbn [gread_field]. destruct ts as [|[] r]; try exact M. apply gfine_ok; [constructor; constructor|apply suffix_cons].
      - destruct Hm as (te & m1 & m2 & ek & ev & dk & dv & kj & ks & vj & vs0 & -> & Hfs & Hbs & Hk). cbn [relax_elem] in *. inversion Hc as [| | | |? ? ? ? Wc Sc| |]; subst.
        pose proof (gfine_map n rec R te m1 m2 ek ev dk dv kj ks vj vs0 Hfs Hbs Hk assoc cur ts (behind ts Hg) (conj Wc Sc)) as M.
        assert (M' : gfine (cell' (Field num (EMsg te false) (CMap assoc))) ts (gread_map E G utf8_ok fparse lenient rec assoc te cur ts)) by (eapply gfine_weaken; [|apply suffix_refl|exact M]; intros v [H1 H2]; constructor; assumption).
        cbn [gread_field]. destruct ts as [|[] r]; try exact M'. apply gfine_ok; [constructor; [constructor|intros _; constructor]|apply suffix_cons].
    Qed.
    Lemma gfine_alt jf k num e alts ts : nth_error alts k = Some (num, e) -> Forall (fun p => fits_s 32 (snd p)) (j_values jf) -> good n ts ->
      gfine (cell' (relax_field (Oneof alts))) ts (gread_alt E utf8_ok fparse lenient rec jf k e ts).
    Proof.
      intros Hk Hv Hg. assert (CD : scalar e = false -> wt' e (elem_default E e)) by (intros S; destruct e; try discriminate S; apply elem_default_wt).
      assert (M : gfine (cell' (relax_field (Oneof alts))) ts ('(v, r) <- gread_elem utf8_ok fparse lenient rec true (wide jf e) jf e (elem_default E e) ts ;; Ok ([VAlt k v], r))).
      { eapply gfine_bind; [apply (gfine_elem n rec R); [exact Hv|exact CD|exact Hg]|apply suffix_refl|]. intros v r W _. apply gfine_ok; [|apply suffix_refl]. cbn [relax_field]. econstructor; [|exact W]. rewrite nth_error_map, Hk. reflexivity. }
      unfold gread_alt. destruct ts as [|[] r]; try exact M. apply gfine_ok; [constructor|apply suffix_cons].
    Qed.

    Lemma alt_named_some key jfs : forall i k, alt_named key jfs i = Some k -> exists j jf, k = (i + j)%nat /\ nth_error jfs j = Some jf.
    Proof. induction jfs as [|a l IH]; intros i k; cbn; [discriminate|]. destruct (named key a); [intros [= <-]; exists O, a; split; [lia|reflexivity]|]. intros H. destruct (IH _ _ H) as (j & jf & -> & Hj). exists (S j), jf. split; [lia|exact Hj]. Qed.
    Lemma locate_some key bs : forall i t, locate key bs i = Some t ->
      match t with
      | TField m => exists j jf s, m = (i + j)%nat /\ nth_error bs j = Some (GField jf s)
      | TAlt m k => exists j jfs jf, m = (i + j)%nat /\ nth_error bs j = Some (GOneof jfs) /\ nth_error jfs k = Some jf
      end.
    Proof.
      induction bs as [|b bs IH]; intros i t; cbn; [discriminate|]. destruct b as [jf s|jfs].
      - destruct (named key jf); [intros [= <-]; exists O, jf, s; split; [lia|reflexivity]|]. intros H. specialize (IH _ _ H). destruct t as [m|m k].
        + destruct IH as (j & jf' & s' & -> & Hj). exists (S j), jf', s'. split; [lia|exact Hj].
        + destruct IH as (j & jfs' & jf' & -> & Hj). exists (S j), jfs', jf'. split; [lia|exact Hj].
      - destruct (alt_named key jfs 0) as [k|] eqn:A; [intros [= <-]; destruct (alt_named_some _ _ _ _ A) as (j & jf & -> & Hj); exists O, jfs, jf; split; [lia|split; [reflexivity|exact Hj]]|]. intros H. specialize (IH _ _ H). destruct t as [m|m k].
        + destruct IH as (j & jf' & s' & -> & Hj). exists (S j), jf', s'. split; [lia|exact Hj].
        + destruct IH as (j & jfs' & jf' & -> & Hj). exists (S j), jfs', jf'. split; [lia|exact Hj].
    Qed.
    Lemma Forall2_at {X Y} (P : X -> Y -> Prop) a b : Forall2 P a b -> forall i x, nth_error a i = Some x -> exists y, nth_error b i = Some y /\ P x y.
    Proof. induction 1 as [|x y a b H _ IH]; intros [|i] z Hz; try discriminate Hz; cbn in *; [injection Hz as <-; eauto|eauto]. Qed.
    Lemma cells_at fds fs : cells' fds fs -> forall i f, nth_error fds i = Some f -> exists vs, nth_error fs i = Some vs /\ cell' f vs.
    Proof. induction 1 as [|f fds c fs H _ IH]; intros [|i] g Hg; try discriminate Hg; cbn in *; [injection Hg as <-; eauto|eauto]. Qed.
    Lemma cells_set fds fs : cells' fds fs -> forall i f vs, nth_error fds i = Some f -> cell' f vs -> cells' fds (set_nth i vs fs).
    Proof. induction 1 as [|f fds c fs H Hs IH]; intros [|i] g vs Hg Hv; try discriminate Hg; cbn in *; [injection Hg as <-; constructor; assumption|constructor; eauto]. Qed.
    Lemma default_cell ty i f : nth_error (m_fields (desc_of E ty)) i = Some f -> cell' (relax_field f) (field_default f).
    Proof.
      intros H. pose proof (default_wt ty false) as D. unfold default_msg in D. inversion D as [| | | | |? ? ? ? Hc _ _]; subst. rewrite fields_relaxed in Hc.
      destruct (cells_at _ _ Hc i (relax_field f)) as (vs & Hv & Cv); [rewrite nth_error_map, H; reflexivity|]. rewrite nth_error_map, H in Hv. injection Hv as <-. exact Cv.
    Qed.

    Notation mcells ty := (cells' (map relax_field (m_fields (desc_of E ty)))).
    Lemma gfine_target key t ty fs ts : locate key (g_members (gty G ty)) 0 = Some t -> mcells ty fs -> good n ts -> gfine (mcells ty) ts (gread_target E G utf8_ok fparse lenient rec t ty fs ts).
    Proof.
      intros Hl Hc Hg. apply locate_some in Hl. destruct (HG ty) as (F & _). unfold gread_target. destruct t as [i|i k].
      - destruct Hl as (j & jf & s & -> & Hj). cbn [Nat.add]. destruct (Forall2_at _ _ _ F _ _ Hj) as (f & Hf & Mf). destruct f as [num e c|]; [|contradiction]. rewrite Hj, Hf.
        destruct (cells_at _ _ Hc j (relax_field (Field num e c))) as (cur & Hcur & Cc); [rewrite nth_error_map, Hf; reflexivity|]. rewrite Hcur.
        eapply gfine_bind; [apply (gfine_field jf s num e c cur ts); [exact Mf|apply (HE ty _ jf (nth_error_In _ _ Hj)); left; reflexivity|exact (default_cell ty j _ Hf)|exact Cc|exact Hg]|apply suffix_refl|].
        intros vs r W _. apply gfine_ok; [|apply suffix_refl]. eapply cells_set; [exact Hc|rewrite nth_error_map, Hf; reflexivity|exact W].
      - destruct Hl as (j & jfs & jf & -> & Hj & Hk). cbn [Nat.add]. destruct (Forall2_at _ _ _ F _ _ Hj) as (f & Hf & Mf). destruct f as [num e c|alts]; [contradiction|]. rewrite Hj, Hf, Hk. destruct Mf as [La _].
        destruct (nth_error alts k) as [[num e]|] eqn:Ha; [|apply nth_error_None in Ha; assert (k < length jfs)%nat by (apply nth_error_Some; congruence); lia].
        eapply gfine_bind; [apply (gfine_alt jf k num e alts ts Ha); [apply (HE ty _ jf (nth_error_In _ _ Hj)); apply (nth_error_In _ _ Hk)|exact Hg]|apply suffix_refl|].
        intros vs r W _. apply gfine_ok; [|apply suffix_refl]. eapply cells_set; [exact Hc|rewrite nth_error_map, Hf; reflexivity|exact W].
    Qed.
    Lemma skip_bad b ts : forall d, match skip_closed b d ts with Ok _ => True | Err e => (match e with BadMessage => true | TooLarge => deep end) = true | _ => False end.
    Proof. induction ts as [|t r IH]; intros d; cbn [skip_closed]; [reflexivity|]. destruct (opens b t); [apply IH|]. destruct (closes b t); [destruct d; [exact I|apply IH]|apply IH]. Qed.
    Lemma gskip ts : match skip_value ts with Ok r => suffix r ts | Err e => (match e with BadMessage => true | TooLarge => deep end) = true | _ => False end.
    Proof.
      pose proof (skip_value_fine ts) as S. destruct (skip_value ts) eqn:K; try exact S. unfold skip_value in K. destruct ts as [|[] r]; try discriminate K; try (injection K as <-; reflexivity); [pose proof (skip_bad true r 0%nat) as B|pose proof (skip_bad false r 0%nat) as B]; rewrite K in B; exact B.
    Qed.
    Lemma gfine_members k : forall first ty fs ts, (length ts < k)%nat -> good n ts -> mcells ty fs -> gfine (mcells ty) ts (gread_members E G utf8_ok fparse lenient strict rec k first ty fs ts).
    Proof.
      induction k as [|k IH]; intros first ty fs ts Hk Hg Hc; [lia|]. cbn [gread_members].
      assert (STEP : forall ts1, suffix ts1 ts -> gfine (mcells ty) ts
        (match ts1 with
         | Str key :: Colon :: r =>
             '(fs1, r1) <- (match locate key (g_members (gty G ty)) 0 with
                            | Some t => gread_target E G utf8_ok fparse lenient rec t ty fs r
                            | None => if strict then Err BadMessage else r1 <- skip_value r ;; Ok (fs, r1)
                            end) ;;
             gread_members E G utf8_ok fparse lenient strict rec k false ty fs1 r1
         | _ => Err BadMessage
         end)).
      { intros ts1 S1. destruct ts1 as [|[] [|[] r]]; try reflexivity. assert (Sr : suffix r ts) by (eapply suffix_trans; [|exact S1]; exists [Str b; Colon]; reflexivity). assert (Gr : good n r) by (split; [eapply text_suffix; [exact Sr|apply Hg]|destruct Hg as [_ Hg2]; apply suffix_len in Sr; lia]).
        assert (Lr : (length r < k)%nat) by (apply suffix_len in S1; cbn [length] in S1; lia).
        assert (M : gfine (mcells ty) r (match locate b (g_members (gty G ty)) 0 with Some t => gread_target E G utf8_ok fparse lenient rec t ty fs r | None => if strict then Err BadMessage else r1 <- skip_value r ;; Ok (fs, r1) end)).
        { destruct (locate b _ 0) as [t|] eqn:L; [apply (gfine_target b); assumption|]. destruct strict; [reflexivity|]. pose proof (gskip r) as K. destruct (skip_value r); try exact K. cbn [bind]. apply gfine_ok; assumption. }
        eapply gfine_bind; [exact M|exact Sr|]. intros fs1 r1 W S. apply IH; [apply suffix_len in S; lia|eapply good_suffix; eauto|exact W]. }
      destruct ts as [|t r]; [destruct first; reflexivity|]. destruct t; try (apply gfine_ok; [exact Hc|apply suffix_cons]); destruct first; cbn [bind]; try reflexivity; try (apply (STEP _ (suffix_refl _))); apply (STEP _ (suffix_cons _ _)).
    Qed.

    Lemma gfine_kind ty i ts : gknown G ty = KValue -> (1 <= i <= 5)%nat -> text ts -> (forall t r, ts = t :: r -> good n r) -> gfine (mcells ty) ts (gread_kind E G utf8_ok fparse lenient rec ty i ts).
    Proof.
      intros Hk Hi Ht Hg. destruct (HG ty) as (F & _ & Ko). unfold gknown_ok in Ko. rewrite Hk in Ko.
      destruct Ko as (alts & jn & jd & js & jb & jt & jl & c & u & v & st & sl & d1 & d2 & Hf & Ha & Hb & Hn & Hs & Kt & Kl).
      unfold gread_kind. rewrite Hf, Hb. assert (EN : forall jf, In jf [jn; jd; js; jb; jt; jl] -> Forall (fun p => fits_s 32 (snd p)) (j_values jf)) by (intros jf Hj; apply (HE ty (GOneof [jn; jd; js; jb; jt; jl])); [rewrite Hb; left; reflexivity|exact Hj]).
      destruct alts as [|[m0 e0] [|[m1 e1] [|[m2 e2] [|[m3 e3] [|[m4 e4] [|[m5 e5] [|? ?]]]]]]]; try discriminate Ha. cbn [map snd] in Ha. injection Ha as -> -> -> -> -> ->.
      set (alts := [(m0, EEnum c); (m1, EFix true true); (m2, EBytes u v); (m3, EBool); (m4, EMsg st d1); (m5, EMsg sl d2)]).
      assert (ONE : forall k num e x, nth_error alts k = Some (num, e) -> wt' (relax_elem e) x -> cells' (map relax_field [Oneof alts]) [[VAlt k x]]).
      { intros k num e x Hx W. constructor; [|constructor]. cbn [relax_field]. econstructor; [|exact W]. rewrite nth_error_map, Hx. reflexivity. }
      assert (MSG : forall st fs, mcells st fs -> wt' (EMsg st false) (VMsg fs [])) by (intros st' fs Hc; constructor; [rewrite fields_relaxed; exact Hc|apply store_nil|constructor]).
      subst alts. destruct i as [|[|[|[|[|[|i]]]]]]; try lia; cbn [nth_error].
      - eapply gfine_bind; [apply gfine_scalar; [reflexivity|apply EN; cbn; auto|exact Ht]|apply suffix_refl|]. intros x r W _. apply gfine_ok; [|apply suffix_refl]. apply (ONE 1%nat m1 (EFix true true)); [reflexivity|apply fits_wt; [reflexivity|exact W]].
      - eapply gfine_bind; [apply gfine_scalar; [reflexivity|apply EN; cbn; auto|exact Ht]|apply suffix_refl|]. intros x r W _. apply gfine_ok; [|apply suffix_refl]. apply (ONE 2%nat m2 (EBytes u v)); [reflexivity|apply fits_wt; [reflexivity|exact W]].
      - eapply gfine_bind; [apply gfine_scalar; [reflexivity|apply EN; cbn; auto|exact Ht]|apply suffix_refl|]. intros x r W _. apply gfine_ok; [|apply suffix_refl]. apply (ONE 3%nat m3 EBool); [reflexivity|apply fits_wt; [reflexivity|exact W]].
      - destruct (HG st) as (Fs & _ & Ks). unfold gknown_ok in Ks. rewrite Kt in Ks. destruct Ks as (q1 & te & a & kj & ek & vj & tv & d & Hfs & He & Kv). rewrite Hfs. rewrite Hfs in Fs. inversion Fs as [|b ? bs ? Mb Mbs E1]; subst. destruct b as [jf std|]; [|contradiction Mb].
        destruct Mb as [_ (te' & m6 & m7 & ek' & ev' & dk & dv & kj' & ks & vj' & vs0 & Et & Hte & Hbe & Hke)]. injection Et as <-.
        eapply gfine_bind; [apply (gfine_map n rec R te m6 m7 ek' ev' dk dv kj' ks vj' vs0 Hte Hbe Hke a [] ts Hg); split; [constructor|intros _; constructor]|apply suffix_refl|]. intros es r [W1 W2] _. apply gfine_ok; [|apply suffix_refl].
        apply (ONE 4%nat m4 (EMsg st d1)); [reflexivity|]. eapply redelim. apply MSG. rewrite Hfs. cbn [map relax_field relax_elem]. constructor; [constructor; assumption|constructor].
      - destruct (HG sl) as (Fs & _ & Ks). unfold gknown_ok in Ks. rewrite Kl in Ks. destruct Ks as (q1 & tv & d & p & Hfs & Kv). rewrite Hfs. rewrite Hfs in Fs. inversion Fs as [|b ? bs ? Mb Mbs E1]; subst. inversion Mbs; subst. destruct b as [jf std|]; [|contradiction Mb].
        eapply gfine_bind; [apply (gfine_array n rec R); [apply (HE sl (GField jf std)); [rewrite <- E1; left; reflexivity|left; reflexivity]|exact Hg]|apply suffix_refl|]. intros es r W _. apply gfine_ok; [|apply suffix_refl].
        apply (ONE 5%nat m5 (EMsg sl d2)); [reflexivity|]. eapply redelim. apply MSG. rewrite Hfs. cbn [map relax_field relax_elem]. constructor; [constructor; exact W|constructor].
    Qed.
    Lemma mask_fill_bytes k : forall t, all_bytes t -> Forall all_bytes (mask_fill k t).
    Proof.
      assert (U : forall t p q, all_bytes t -> until_comma t = (p, q) -> all_bytes p /\ all_bytes q).
      { induction t as [|c t IH]; intros p q Ht H; cbn [until_comma] in H; [injection H as <- <-; split; constructor|]. inversion Ht as [|? ? Hc Ht']; subst. destruct (c =? 44); [injection H as <- <-; split; [constructor|exact Ht]|]. destruct (until_comma t) as [a b]. injection H as <- <-. destruct (IH a b Ht' eq_refl). split; [constructor; assumption|assumption]. }
      induction k as [|k IH]; intros t Ht; cbn [mask_fill]; [constructor|]. destruct (until_comma t) as [p q] eqn:K. destruct (U t p q Ht K) as [Hp Hq]. constructor; [exact Hp|]. apply IH. destruct q as [|c q]; [exact Ht|]. inversion Hq; assumption.
    Qed.

    Lemma gfine_body ty cur ts : wt' (EMsg ty false) cur -> text ts -> (length ts <= n)%nat -> gfine (wt' (EMsg ty false)) ts (gread_body E G utf8_ok fparse lenient strict rec ty cur ts).
    Proof.
      intros Hw Ht Hl. assert (Hg : forall t r, ts = t :: r -> good n r) by (intros t r ->; split; [eapply text_tail; eauto|cbn [length] in Hl; lia]).
      inversion Hw as [| | | | |? ? fs u Hc Hu Hb]; subst. rewrite fields_relaxed in Hc. unfold gread_body. destruct (HG ty) as (F & _ & Ko). unfold gknown_ok in Ko.
      assert (STEP : forall x, gfine (mcells ty) ts x -> gfine (wt' (EMsg ty false)) ts ('(fs', r) <- x ;; Ok (VMsg fs' u, r))).
      { intros x H. eapply gfine_bind; [exact H|apply suffix_refl|]. intros fs' r W _. apply gfine_ok; [|apply suffix_refl]. constructor; [rewrite fields_relaxed; exact W|exact Hu|exact Hb]. }
      apply STEP. clear STEP. destruct (gknown G ty) eqn:K.
      - destruct ts as [|[] r]; try reflexivity. eapply gfine_weaken; [intros v Hv; exact Hv|apply suffix_cons|]. apply gfine_members; [lia|apply (Hg LBrace); reflexivity|exact Hc].
      - reflexivity.
      - destruct Ko as (q1 & q2 & Hf). rewrite Hf. destruct ts as [|[] r]; try reflexivity. destruct (timestamp_decode b) as [[s k]|] eqn:T; [|reflexivity]. apply gfine_ok; [|apply suffix_cons].
        apply timestamp_decode_spec, timestamp_text_valid in T. destruct T as [H1 H2]. apply seconds_range in H1. cbn [map relax_field relax_elem]. repeat constructor; cbn; unfold fits_s; lia.
      - destruct Ko as (q1 & q2 & Hf). rewrite Hf. destruct ts as [|[] r]; try reflexivity. destruct (duration_decode b) as [[s k]|] eqn:T; [|reflexivity]. apply gfine_ok; [|apply suffix_cons].
        apply duration_decode_spec in T. destruct T as [A B]. destruct (duration_text_valid b s k A B) as (H1 & H2 & _). cbn [map relax_field relax_elem]. repeat constructor; cbn; unfold fits_s; lia.
      - destruct Ko as (q1 & uu & vv & p & Hf). rewrite Hf. destruct ts as [|[] r]; try reflexivity. apply gfine_ok; [|apply suffix_cons]. cbn [map relax_field relax_elem]. constructor; [|constructor]. constructor. apply elems_forall.
        assert (MB : Forall all_bytes (mask_decode b)) by (unfold mask_decode; destruct b; [constructor|apply mask_fill_bytes; apply Ht; left; reflexivity]).
        apply Forall_forall. intros x Hx. apply in_map_iff in Hx. destruct Hx as (y & <- & Hy). rewrite Forall_forall in MB. constructor; [apply MB; exact Hy|discriminate].
      - unfold gread_value. destruct ts as [|[] r]; try reflexivity; try (apply gfine_kind; [exact K|lia|exact Ht|exact Hg]).
        apply gfine_ok; [|apply suffix_cons]. destruct Ko as (alts & jn & jd & js & jb & jt & jl & c & u' & v & st & sl & d1 & d2 & Hf & Ha & _). rewrite Hf. cbn [map relax_field]. constructor; [|constructor]. destruct alts as [|[m0 e0] alts]; [discriminate Ha|]. cbn [map fst snd] in *. injection Ha as -> _.
        eapply (CLone1 _ _ _ O); [reflexivity|]. constructor; [cbn; unfold fits_s; lia|reflexivity].
      - destruct Ko as (q1 & te & a & kj & ek & vj & tv & d & Hf & He & Kv). rewrite Hf in *. cbn [map relax_field relax_elem] in *. inversion Hc as [|? ? es ? C1 C2]; subst. inversion C2; subst. inversion C1 as [| | | |? ? ? ? W1 W2| |]; subst.
        inversion F as [|b ? bs ? Mb Mbs E1]; subst. destruct b as [jf std|]; [|contradiction Mb]. destruct Mb as [_ (te' & m6 & m7 & ek' & ev' & dk & dv & kj' & ks & vj' & vs0 & Et & Hte & Hbe & Hke)]. injection Et as <-.
        eapply gfine_bind; [apply (gfine_map n rec R te m6 m7 ek' ev' dk dv kj' ks vj' vs0 Hte Hbe Hke a es ts Hg); split; assumption|apply suffix_refl|]. intros es' r [W3 W4] _. apply gfine_ok; [|apply suffix_refl]. constructor; [constructor; assumption|constructor].
      - destruct Ko as (q1 & tv & d & p & Hf & Kv). rewrite Hf in *. cbn [map relax_field relax_elem] in *. inversion Hc as [|? ? es ? C1 C2]; subst. inversion C2; subst. inversion C1 as [| | |? ? ? ? W1| | |]; subst.
        inversion F as [|b ? bs ? Mb Mbs E1]; subst. inversion Mbs; subst. destruct b as [jf std|]; [|contradiction Mb].
        eapply gfine_bind; [apply (gfine_array n rec R); [apply (HE ty (GField jf std)); [rewrite <- E1; left; reflexivity|left; reflexivity]|exact Hg]|apply suffix_refl|]. intros es' r W _. apply gfine_ok; [|apply suffix_refl].
        constructor; [constructor|constructor]. apply elems_forall. apply forall_elems in W, W1. apply Forall_app. auto.
      - destruct Ko as (q1 & e & d & Hf & Se). rewrite Hf in *. inversion F as [|b ? bs ? Mb Mbs E1]; subst. inversion Mbs; subst. destruct b as [jf std|]; [|contradiction Mb]. destruct Mb as [_ Sc].
        eapply gfine_bind; [apply gfine_scalar; [exact Sc|apply (HE ty (GField jf std)); [rewrite <- E1; left; reflexivity|left; reflexivity]|exact Ht]|apply suffix_refl|]. intros x r W _. apply gfine_ok; [|apply suffix_refl].
        cbn [map relax_field]. constructor; [|constructor]. constructor. rewrite loosen_relax. apply fits_wt; assumption.
    Qed.
  End Body.

  Theorem gread_fine n : forall ty cur ts, wt' (EMsg ty false) cur -> text ts -> (length ts < n)%nat -> gfine (wt' (EMsg ty false)) ts (gread E G utf8_ok fparse lenient strict n ty cur ts).
  Proof.
    induction n as [|n IH]; intros ty cur ts Hw Ht Hl; [lia|]. cbn [gread]. apply (gfine_body n); [|exact Hw|exact Ht|lia]. intros ty' cur' ts' Hw' [Ht' Hl']. apply IH; assumption.
  Qed.
End Safe.
