(** Validation of strings by the decoder (for every archive) and the encoder. *)
Require Import Verif.Bits Verif.Varint Verif.Schema Verif.Archive Verif.Decode Verif.Encode Verif.Utf8Spec Verif.WellTyped.

Lemma bind_ok {A B} (r : res A) (k : A -> res B) y : bind r k = Ok y -> exists x, r = Ok x /\ k x = Ok y.
Proof. destruct r; cbn; try discriminate; eauto. Qed.

Section Read.
  Context {A : Type} (AR : aops A) (E : env) (utf8_ok : bytes -> bool) (maxd : Z).

  Definition good (e : elem) (v : val) : Prop := forall b, holds E e v b -> utf8_ok b = true.
  Definition good_cell (f : field) (c : list val) : Prop := forall x e y, In x c -> occupant f x e y -> good e y.
  Definition good_fields (ty : nat) (fs : list (list val)) : Prop :=
    forall k f c, nth_error (m_fields (desc_of E ty)) k = Some f -> nth_error fs k = Some c -> good_cell f c.

  Lemma good_msg ty d fs u : good_fields ty fs -> good (EMsg ty d) (VMsg fs u).
  Proof. intros H b Hb. inversion Hb; subst. eapply H; eauto. Qed.
  Lemma good_msg_inv ty d fs u : good (EMsg ty d) (VMsg fs u) -> good_fields ty fs.
  Proof. intros H k f c Hf Hc x e y Hx Ho b Hb. apply H. eapply HMember; eauto. Qed.
  Lemma good_fields_of ty d v : good (EMsg ty d) v -> good_fields ty (msg_fields v).
  Proof.
    destruct v; intros H; try (intros k f c _ Hc; destruct k; discriminate).
    eapply good_msg_inv; exact H.
  Qed.
  Lemma good_delim ty d d' v : good (EMsg ty d) v -> good (EMsg ty d') v.
  Proof. intros H b Hb. apply H. inversion Hb; subst. eapply HMember; eauto. Qed.
  Lemma good_scalar e v : (match e with EBytes true _ | EMsg _ _ => False | _ => True end) -> good e v.
  Proof. intros H b Hb. destruct Hb; contradiction. Qed.
  Lemma good_enum_val e v : good e v -> good e (enum_val e v).
  Proof. destruct e; cbn [enum_val]; auto. intros _. apply good_scalar. exact I. Qed.

  Hypothesis Hdef : valid_defaults E utf8_ok.

  Lemma good_default ty d : good (EMsg ty d) (default_msg E ty).
  Proof. apply (good_delim ty false). exact (Hdef ty). Qed.

  Definition good_rec (rec : recT (A := A)) : Prop :=
    forall mode ty fs u depth a v a', good_fields ty fs -> rec mode ty fs u depth a = Ok (v, a') -> good (EMsg ty false) v.

  Section Rec.
    Variable rec : recT (A := A).
    Hypothesis Hrec : good_rec rec.

    Lemma good_dec_msg ty cur depth a v a' : good_fields ty (msg_fields cur) ->
      dec_msg AR E maxd rec ty cur depth a = Ok (v, a') -> good (EMsg ty false) v.
    Proof.
      intros Hc. unfold dec_msg. destruct (negb _); [discriminate|]. intros H. apply bind_ok in H.
      destruct H as (_ & _ & H). eapply Hrec; eauto.
    Qed.

    Lemma good_dec_message ty delim cur tag depth a v a' : good (EMsg ty delim) cur ->
      dec_message AR E maxd rec ty delim cur tag depth a = Ok (v, a') -> good (EMsg ty delim) v.
    Proof.
      intros Hc. unfold dec_message. destruct (negb _); [discriminate|]. apply good_fields_of in Hc. destruct delim.
      - unfold dec_group. destruct (scope_ok maxd depth); [|discriminate]. intros H. eapply good_delim, Hrec; eauto.
      - unfold dec_sized. intros H. apply bind_ok in H. destruct H as ([len a1] & _ & H).
        destruct ((len =? 0) && _); [discriminate|]. destruct (len <? _).
        + destruct (a_split AR len a1) as [sub rest]. apply bind_ok in H. destruct H as ([v1 a2] & H1 & H2).
          injection H2 as -> ->. eapply good_dec_msg; eauto.
        + destruct (len =? _); [|discriminate]. eapply good_dec_msg; eauto.
    Qed.

    Lemma good_dec_bytes utf8 view a v a' : dec_bytes AR utf8_ok utf8 view a = Ok (v, a') -> good (EBytes utf8 view) v.
    Proof.
      assert (K : forall b, utf8 && negb (utf8_ok b) = false -> good (EBytes utf8 view) (VBytes b)).
      { intros b Hb c Hc. inversion Hc; subst. destruct (utf8_ok c); [reflexivity|discriminate]. }
      unfold dec_bytes. intros H. apply bind_ok in H. destruct H as ([len a1] & _ & H).
      destruct (a_padded AR && view).
      - destruct (a_view AR len a1) as [[b|] a2].
        + destruct (utf8 && negb (utf8_ok b)) eqn:Hb; [discriminate|]. injection H as <- _. auto.
        + destruct utf8; [discriminate|]. injection H as <- _. apply good_scalar. exact I.
      - destruct (len =? 0).
        + destruct (utf8 && negb (utf8_ok [])) eqn:Hb; [discriminate|]. injection H as <- _. auto.
        + apply bind_ok in H. destruct H as ([b a2] & _ & H).
          destruct (utf8 && negb (utf8_ok b)) eqn:Hb; [discriminate|]. injection H as <- _. auto.
    Qed.

    Lemma good_dec_value e cur tag depth a v a' : (forall ty d, e = EMsg ty d -> good e cur) ->
      dec_value AR E utf8_ok maxd rec e cur tag depth a = Ok (v, a') -> good e v.
    Proof.
      intros Hc. destruct e; cbn [dec_value]; try (intros _; apply good_scalar; exact I).
      - unfold dec_scalar. destruct (negb _); [discriminate|]. apply good_dec_bytes.
      - apply good_dec_message. eauto.
    Qed.

    Lemma good_elem_default e ty d : e = EMsg ty d -> good e (elem_default E e).
    Proof. intros ->. apply good_default. Qed.

    Lemma good_start e cur ty d : Forall (good e) cur -> e = EMsg ty d -> good e (start_val E e cur).
    Proof. intros H He. destruct H; [eapply good_elem_default; eauto|assumption]. Qed.

    Lemma good_cell_field num e c l : good_cell (Field num e c) l <-> Forall (good e) l.
    Proof.
      rewrite Forall_forall. split.
      - intros H x Hx. eapply H; [exact Hx|split; reflexivity].
      - intros H x e' y Hx [-> ->]. auto.
    Qed.

    Lemma filter_enum_good k num closed vs : forall unk r unk' e, filter_enum k num closed vs unk = Ok (r, unk') ->
      e = EEnum closed -> Forall (good e) r.
    Proof.
      intros unk r unk' e _ ->. apply Forall_forall. intros x _. apply good_scalar. exact I.
    Qed.

    Lemma good_packed k num e cur unk a cur' unk' a' : Forall (good e) cur ->
      dec_packed AR k num e cur unk a = Ok (cur', unk', a') -> Forall (good e) cur'.
    Proof.
      intros Hc H. destruct e; try (apply Forall_forall; intros x _; apply good_scalar; exact I).
      - unfold dec_packed in H. apply bind_ok in H. destruct H as ([len a1] & _ & H).
        destruct (len =? 0); [injection H as <- _ _; assumption|]. apply bind_ok in H. destruct H as ([n|] & _ & H); discriminate.
      - unfold dec_packed in H. apply bind_ok in H. destruct H as ([len a1] & _ & H).
        destruct (len =? 0); [injection H as <- _ _; assumption|]. apply bind_ok in H. destruct H as ([n|] & _ & H); discriminate.
    Qed.

    Lemma good_one k e tag depth cur unk a cur' unk' a' : Forall (good e) cur ->
      dec_one AR E utf8_ok maxd rec k e tag depth cur unk a = Ok (cur', unk', a') -> Forall (good e) cur'.
    Proof.
      intros Hc H. unfold dec_one in H. apply bind_ok in H. destruct H as ([v a1] & Hv & H).
      pose proof (good_dec_value e _ tag depth a v a1 (good_elem_default e) Hv) as G.
      assert (K : forall w, good e w -> Forall (good e) (cur ++ [w])).
      { intros w Hw. apply Forall_app. split; [assumption|]. constructor; [assumption|constructor]. }
      destruct e as [| | |[l|]| |]; try (injection H as <- _ _; apply K; assumption); try (injection H as <- _ _; apply K, good_scalar; exact I).
      apply Forall_forall; intros x _; apply good_scalar; exact I.
    Qed.

    Lemma in_map_put v l x : In x (map_put v l) -> x = v \/ In x l.
    Proof.
      induction l as [|h t IH]; cbn [map_put].
      - intros [H|[]]; auto.
      - destruct (key_ltb _ _); [intros [H|H]; [right; left; auto|destruct (IH H); [auto|right; right; auto]]|].
        destruct (key_ltb _ _); (intros [H|H]; [left; auto|right]); [exact H|right; exact H].
    Qed.

    Lemma good_map_one assoc e tag depth cur unk a cur' unk' a' : Forall (good e) cur ->
      dec_map_one AR E utf8_ok maxd rec assoc e tag depth cur unk a = Ok (cur', unk', a') -> Forall (good e) cur'.
    Proof.
      intros Hc H. unfold dec_map_one in H. apply bind_ok in H. destruct H as ([v a1] & Hv & H).
      pose proof (good_dec_value e _ tag depth a v a1 (good_elem_default e) Hv) as G.
      injection H as <- _ _. apply Forall_forall. intros x Hx. rewrite Forall_forall in Hc. destruct assoc.
      - apply in_map_put in Hx. destruct Hx as [->|Hx]; auto.
      - apply in_app_or in Hx. destruct Hx as [Hx|[<-|[]]]; auto.
    Qed.

    Lemma good_elements one (P : list val -> Prop) :
      (forall cur unk a cur' unk' a', P cur -> one cur unk a = Ok (cur', unk', a') -> P cur') ->
      forall n cur unk a cur' unk' a', P cur -> dec_elements AR one n cur unk a = Ok (cur', unk', a') -> P cur'.
    Proof.
      intros Hone. induction n as [|n IH]; intros cur unk a cur' unk' a' Hc; cbn [dec_elements].
      - intros [= <- _ _]. assumption.
      - intros H. apply bind_ok in H. destruct H as ([[c1 u1] a1] & H1 & H). pose proof (Hone _ _ _ _ _ _ Hc H1) as P1.
        destruct n as [|n]; [injection H as <- _ _; assumption|].
        apply bind_ok in H. destruct H as ([? a2] & _ & H). eapply IH; eauto.
    Qed.

    Lemma good_unpacked one (P : list val -> Prop) fuel e tag depth cur unk a cur' unk' a' :
      (forall cur unk a cur' unk' a', P cur -> one cur unk a = Ok (cur', unk', a') -> P cur') ->
      P cur -> dec_unpacked AR maxd one fuel e tag depth cur unk a = Ok (cur', unk', a') -> P cur'.
    Proof.
      intros Hone Hc. unfold dec_unpacked. destruct (negb _); [discriminate|]. intros H. apply bind_ok in H.
      destruct H as (n & _ & H). eapply good_elements; eauto.
    Qed.

    Lemma find_alt_nth num alts : forall k i e, find_alt num alts k = Some (i, e) ->
      exists m, nth_error alts (i - k) = Some (m, e) /\ (k <= i)%nat.
    Proof.
      induction alts as [|[m e0] t IH]; intros k i e; cbn [find_alt]; [discriminate|].
      destruct (m =? num).
      - intros [= <- <-]. exists m. rewrite Nat.sub_diag. split; [reflexivity|lia].
      - intros H. destruct (IH _ _ _ H) as (m' & H1 & H2). exists m'.
        replace (i - k)%nat with (S (i - S k)) by lia. split; [exact H1|lia].
    Qed.

    Lemma good_field fuel k f tag depth cur unk a cur' unk' a' : good_cell f cur ->
      dec_field AR E utf8_ok maxd rec fuel k f tag depth cur unk a = Ok (cur', unk', a') -> good_cell f cur'.
    Proof.
      intros Hc. destruct f as [num e c|alts]; cbn [dec_field].
      - apply good_cell_field in Hc. rewrite good_cell_field. destruct c as [ex d| |pk|assoc].
        + intros H. apply bind_ok in H. destruct H as ([v a1] & Hv & H).
          pose proof (good_dec_value e _ tag depth a v a1 (fun ty d0 => good_start e cur ty d0 Hc) Hv) as G.
          apply good_enum_val in G.
          destruct e as [| | |[l|]| |]; try (injection H as <- _ _; constructor; [assumption|constructor]).
          apply Forall_forall; intros x _; apply good_scalar; exact I.
        + intros H. apply bind_ok in H. destruct H as ([v a1] & Hv & H).
          pose proof (good_dec_value e _ tag depth a v a1 (fun ty d0 => good_start e cur ty d0 Hc) Hv) as G.
          apply good_enum_val in G.
          destruct e as [| | |[l|]| |]; try (injection H as <- _ _; constructor; [assumption|constructor]).
          apply Forall_forall; intros x _; apply good_scalar; exact I.
        + destruct (packable e && _); [apply good_packed; assumption|].
          apply good_unpacked; [|assumption]. intros *. apply good_one.
        + apply good_unpacked; [|assumption]. intros *. apply good_map_one.
      - destruct (find_alt (tag_number tag) alts 0) as [[i e]|] eqn:Hf; [|discriminate].
        destruct (find_alt_nth _ _ _ _ _ Hf) as (m & Hm & _). rewrite Nat.sub_0_r in Hm.
        unfold dec_oneof. intros H. apply bind_ok in H. destruct H as ([v a1] & Hv & H).
        assert (Ha : Forall (good e) (match cur with VAlt j v :: _ => if Nat.eqb i j then [v] else [] | _ => [] end)).
        { destruct cur as [|[| | |j w] t]; try constructor. destruct (Nat.eqb_spec i j) as [<-|]; [|constructor].
          constructor; [|constructor]. eapply (Hc (VAlt i w)); [left; reflexivity|]. exists i, m. split; [reflexivity|exact Hm]. }
        pose proof (good_dec_value e _ tag depth a v a1 (fun ty d0 => good_start e _ ty d0 Ha) Hv) as G.
        apply good_enum_val in G.
        assert (K : good_cell (Oneof alts) [VAlt i (enum_val e v)]).
        { intros x e' y [<-|[]] (j & n & [= <- <-] & Hn). rewrite Hm in Hn. injection Hn as _ <-. exact G. }
        destruct e as [| | |[l|]| |]; try (injection H as <- _ _; exact K).
        destruct (enum_valid _ _).
        + destruct (match cur with VAlt j v :: _ => if Nat.eqb i j then [v] else [] | _ => [] end); [discriminate|].
          injection H as <- _ _. exact K.
        + apply bind_ok in H. destruct H as (? & _ & H). injection H as <- _ _. exact Hc.
    Qed.

    Lemma nth_set_cell i c : forall fs k c', nth_error (set_nth i c fs) k = Some c' ->
      (k = i /\ c' = c) \/ c' = [] \/ nth_error fs k = Some c'.
    Proof.
      induction i as [|i IH]; intros fs k c'; destruct fs as [|h t]; cbn [set_nth]; destruct k as [|k]; cbn [nth_error]; intros H.
      - injection H as <-. auto.
      - destruct k; discriminate.
      - injection H as <-. auto.
      - auto.
      - injection H as <-. auto.
      - destruct (IH _ _ _ H) as [[-> ->]|[->|H1]]; auto. destruct k; discriminate.
      - auto.
      - destruct (IH _ _ _ H) as [[-> ->]|[->|H1]]; auto.
    Qed.

    Lemma find_field_nth num fds : forall k i f, find_field num fds k = Some (i, f) ->
      nth_error fds (i - k) = Some f /\ (k <= i)%nat.
    Proof.
      induction fds as [|f0 t IH]; intros k i f; cbn [find_field]; [discriminate|].
      destruct (has_num num f0).
      - intros [= <- <-]. rewrite Nat.sub_diag. split; [reflexivity|lia].
      - intros H. destruct (IH _ _ _ H) as [H1 H2]. replace (i - k)%nat with (S (i - S k)) by lia. split; [exact H1|lia].
    Qed.

    Lemma good_by_tag fuel ty tag depth fs unk a fs' unk' a' : good_fields ty fs ->
      dec_by_tag AR E utf8_ok maxd rec fuel ty tag depth fs unk a = Ok (fs', unk', a') -> good_fields ty fs'.
    Proof.
      intros Hg. unfold dec_by_tag. destruct (_ =? 0); [discriminate|].
      destruct (find_field _ _ _) as [[i f]|] eqn:Hf.
      - destruct (find_field_nth _ _ _ _ _ Hf) as [Hn _]. rewrite Nat.sub_0_r in Hn.
        intros H. apply bind_ok in H. destruct H as ([[c u1] a1] & H1 & H). injection H as <- _ _.
        assert (Hc : good_cell f (nth i fs [])).
        { destruct (nth_error fs i) as [c0|] eqn:Hi.
          - rewrite (nth_error_nth _ _ [] Hi). eapply Hg; eauto.
          - apply nth_error_None in Hi. rewrite nth_overflow by exact Hi. intros x e y []. }
        pose proof (good_field _ _ _ _ _ _ _ _ _ _ _ Hc H1) as Hc'.
        intros k f' c' Hk Hk'. destruct (nth_set_cell _ _ _ _ _ Hk') as [[-> ->]|[->|H2]].
        + rewrite Hn in Hk. injection Hk as <-. exact Hc'.
        + intros x e y [].
        + eapply Hg; eauto.
      - destruct (0 <? _); [|discriminate]. intros H. apply bind_ok in H. destruct H as ([u1 a1] & _ & H).
        injection H as <- _ _. exact Hg.
    Qed.
  End Rec.

  Lemma good_loop fuel : good_rec (dec_loop AR E utf8_ok maxd fuel).
  Proof.
    induction fuel as [|fuel IH]; intros mode ty fs u depth a v a' Hg; cbn [dec_loop]; [discriminate|].
    destruct (a_avail AR a <=? 0).
    - destruct mode; [discriminate|]. destruct (_ =? 0); [|discriminate]. intros [= <- _]. apply good_msg. exact Hg.
    - intros H. apply bind_ok in H. destruct H as ([tag a1] & _ & H).
      destruct (match mode with Some num => _ | None => false end).
      + injection H as <- _. apply good_msg. exact Hg.
      + apply bind_ok in H. destruct H as ([[fs1 u1] a2] & H1 & H). eapply IH; [|exact H].
        eapply good_by_tag; eauto.
  Qed.

  Theorem read_valid fuel ty cur a v a' : valid_strings E utf8_ok ty cur ->
    decode AR E utf8_ok maxd fuel ty cur a = Ok (v, a') -> valid_strings E utf8_ok ty v.
  Proof. intros Hc H. eapply (good_dec_msg _ (good_loop fuel)); [|exact H]. apply (good_fields_of ty false). exact Hc. Qed.
End Read.

(** ** Writing *)
Fixpoint vsize (v : val) : nat :=
  match v with
  | VMsg fs _ => S (list_sum (map (fun c => list_sum (map vsize c)) fs))
  | VAlt _ w => S (vsize w)
  | _ => 1%nat
  end.

Lemma in_list_sum n l : In n l -> (n <= list_sum l)%nat.
Proof. induction l as [|m l IH]; [intros []|]. change (list_sum (m :: l)) with (m + list_sum l)%nat. intros [->|H]; [lia|]. specialize (IH H). lia. Qed.

Lemma vsize_in fs u c x : In c fs -> In x c -> (vsize x < vsize (VMsg fs u))%nat.
Proof.
  intros Hc Hx. cbn [vsize].
  pose proof (in_list_sum _ _ (in_map vsize c x Hx)) as H1.
  pose proof (in_list_sum _ _ (in_map (fun c => list_sum (map vsize c)) fs c Hc)) as H2. cbn beta in H2. lia.
Qed.

Definition plain_elem (e : elem) : Prop := match e with EBytes true _ | EMsg _ _ => False | _ => True end.
Lemma plain_elem_dec e : plain_elem e \/ ~ plain_elem e.
Proof. destruct e as [| | | |[|]|]; cbn; auto. Qed.

Section Write.
  Context (E : env) (utf8_ok : bytes -> bool) (maxd : Z).
  Notation good := (good E utf8_ok).
  Notation all_ok := (fun _ : bytes => true).
  Hypothesis Hdef : valid_defaults E utf8_ok.

  Definition ser_good (rec : nat -> val -> list Z -> serr) (v : val) : Prop :=
    forall ty d c r, wt E all_ok (EMsg ty d) v -> rec ty v c = Ok r -> good (EMsg ty d) v.

  Lemma seq_ok (a : serr) k r : seq_s a k = Ok r -> exists w c r', a = Ok (w, c) /\ k c = Ok r'.
  Proof.
    unfold seq_s. intros H. apply bind_ok in H. destruct H as ([w c] & H1 & H). apply bind_ok in H.
    destruct H as (r' & H2 & _). eauto.
  Qed.

  Lemma elem_good rec num e v c r : ser_good rec v -> wt E all_ok e v ->
    ser_elem utf8_ok rec num e v c = Ok r -> good e v.
  Proof.
    intros Hrec Hw H. destruct e; try (apply good_scalar; exact I).
    - cbn [ser_elem] in H. apply bind_ok in H. destruct H as (ws & H & _). inversion Hw; subst. cbn [scalar_ops] in H.
      intros b' Hb. inversion Hb; subst. destruct (utf8_ok b'); [reflexivity|discriminate].
    - cbn [ser_elem] in H. destruct delim.
      + apply bind_ok in H. destruct H as ([ws c'] & H & _). eapply Hrec; eauto.
      + destruct c; [discriminate|]. apply bind_ok in H. destruct H as ([ws c'] & H & _). eapply Hrec; eauto.
  Qed.

  Lemma list_good rec num e vs : (forall v, In v vs -> ser_good rec v) -> (forall v, In v vs -> wt E all_ok e v) ->
    forall c r, ser_list utf8_ok rec num e vs c = Ok r -> Forall (good e) vs.
  Proof.
    induction vs as [|v vs IH]; intros Hrec Hw c r; [constructor|]. cbn [ser_list]. intros H.
    apply seq_ok in H. destruct H as (w & c1 & r' & H1 & H2). constructor.
    - eapply elem_good; [apply Hrec; left; reflexivity|apply Hw; left; reflexivity|exact H1].
    - eapply IH; [intros u Hu; apply Hrec; right; exact Hu|intros u Hu; apply Hw; right; exact Hu|exact H2].
  Qed.

  Lemma bytes_eqb_true a : forall b, bytes_eqb a b = true -> a = b.
  Proof.
    induction a as [|x a IH]; intros [|y b] H; try discriminate; [reflexivity|]. cbn in H. apply andb_true_iff in H.
    destruct H as [H1 H2]. apply Z.eqb_eq in H1. subst. f_equal. auto.
  Qed.

  Lemma cell_elems f c : cell E all_ok f c -> forall x e y, In x c -> occupant f x e y -> wt E all_ok e y \/ (scalar e = true /\ match e with EBytes true _ => False | _ => True end).
  Proof.
    intros Hc. inversion Hc as [num e0 ex d w Hw|num e0|num e0 w Hw|num e0 pk vs Hv|num e0 assoc vs Hv Hs|alts|alts j num e0 w Hn Hw]; subst; intros x e y Hx Ho; cbn in Hx.
    - destruct Hx as [<-|[]]. destruct Ho as [<- <-]. destruct e0 as [| | |[l|]| |]; try (left; exact Hw). right. split; reflexivity || exact I.
    - contradiction.
    - destruct Hx as [<-|[]]. destruct Ho as [<- <-]. auto.
    - destruct Ho as [<- <-]. apply elems_forall in Hv. rewrite Forall_forall in Hv. auto.
    - destruct Ho as [<- <-]. apply elems_forall in Hv. rewrite Forall_forall in Hv. auto.
    - contradiction.
    - destruct Hx as [<-|[]]. destruct Ho as (j' & n' & [= <- <-] & Hn'). rewrite Hn in Hn'. injection Hn' as _ <-. auto.
  Qed.

  Lemma field_good rec ty f c : In f (m_fields (desc_of E ty)) -> cell E all_ok f c ->
    (forall x y e, In x c -> occupant f x e y -> ser_good rec y) ->
    forall cs r, (if omit f c then Ok ([], cs) else ser_field utf8_ok rec f c cs) = Ok r -> good_cell E utf8_ok f c.
  Proof.
    intros Hin Hc Hrec cs r H x e y Hx Ho. pose proof (cell_elems f c Hc x e y Hx Ho) as Hw.
    destruct Hw as [Hw|[Hs Hb]]; [|apply good_scalar; destruct e as [| | | |[|]|]; try exact I; try contradiction; discriminate].
    destruct (omit f c) eqn:Ho'.
    - destruct f as [num e0 [ex d| |pk|assoc]|alts]; destruct c as [|h t]; cbn [omit] in Ho'; try discriminate; try contradiction;
        try (destruct ex; discriminate). destruct ex; [discriminate|].
      inversion Hc; subst. destruct Hx as [<-|[]]. destruct Ho as [<- <-].
      destruct e0 as [| | | |utf8 view|]; try (apply good_scalar; exact I); [|discriminate].
      destruct h as [|bh| |]; try (intros b Hb; inversion Hb; fail).
      destruct d as [|bd| |]; try discriminate. cbn [is_default] in Ho'. apply bytes_eqb_true in Ho'. subst bh.
      destruct (In_nth_error _ _ Hin) as [k Hk].
      intros b Hb. apply (Hdef ty). eapply (HMember E ty false _ [] k _ [VBytes bd]); [exact Hk| |left; reflexivity|split; reflexivity|exact Hb].
      rewrite nth_error_map, Hk. reflexivity.
    - destruct f as [num e0 cd|alts].
      + destruct Ho as [<- <-].
        assert (G : ser_list utf8_ok rec num e0 c cs = Ok r -> good e0 x).
        { intros Hl. assert (F : Forall (good e0) c).
          { destruct (plain_elem_dec e0) as [Hsc|Hsc]; [apply Forall_forall; intros z _; apply good_scalar; exact Hsc|].
            eapply list_good; [| |exact Hl].
            - intros v Hv. apply (Hrec v v e0 Hv). split; reflexivity.
            - intros v Hv. destruct (cell_elems _ _ Hc v e0 v Hv ltac:(split; reflexivity)) as [K|[K1 K2]]; [exact K|].
              exfalso. destruct e0 as [| | | |[|]|]; try contradiction; try discriminate; apply Hsc; exact I. }
          rewrite Forall_forall in F. auto. }
        destruct cd as [ex d| |pk|assoc]; try (apply G; exact H).
        cbn [ser_field] in H. destruct (pk && packable e0) eqn:Hp; [|apply G; exact H].
        apply good_scalar. destruct e0 as [| | | |[|]|]; try exact I; apply andb_true_iff in Hp; destruct Hp; discriminate.
      + destruct Ho as (j & n & -> & Hn). cbn [ser_field] in H.
        inversion Hc; subst; [contradiction|]. destruct Hx as [Hx|[]]. injection Hx as -> ->. rewrite Hn in H.
        eapply elem_good; [|exact Hw|exact H]. eapply Hrec; [left; reflexivity|]. exists j, n. split; [reflexivity|exact Hn].
  Qed.

  Lemma fields_good rec ty fds : forall fs, (forall f, In f fds -> In f (m_fields (desc_of E ty))) -> cells E all_ok fds fs ->
    (forall f c x y e, In c fs -> In x c -> occupant f x e y -> ser_good rec y) ->
    forall cs r, ser_fields utf8_ok rec fds fs cs = Ok r ->
    forall k f c, nth_error fds k = Some f -> nth_error fs k = Some c -> good_cell E utf8_ok f c.
  Proof.
    induction fds as [|f0 fds IH]; intros fs Hin Hw Hrec cs r H k f c Hk Hk'; [destruct k; discriminate|].
    inversion Hw as [|? ? c0 fs0 Hc0 Hw0]; subst. cbn [ser_fields] in H. apply seq_ok in H.
    destruct H as (w & c1 & r' & H1 & H2). destruct k as [|k]; cbn [nth_error] in *.
    - injection Hk as <-. injection Hk' as <-. eapply field_good; [apply Hin; left; reflexivity|exact Hc0| |exact H1].
      intros x y e Hx Ho. eapply Hrec; [left; reflexivity|exact Hx|exact Ho].
    - eapply IH; [intros g Hg; apply Hin; right; exact Hg|exact Hw0| |exact H2|exact Hk|exact Hk'].
      intros g d x y e Hd Hx Ho. eapply Hrec; [right; exact Hd|exact Hx|exact Ho].
  Qed.

  Lemma ser_msg_good n : forall v depth, (vsize v < n)%nat -> ser_good (fun ty v c => ser_msg E utf8_ok maxd depth ty v c) v.
  Proof.
    induction n as [|n IH]; intros v depth Hn; [lia|]. intros ty d c r Hw H.
    destruct v as [| |fs u|]; try discriminate. cbn [ser_msg] in H. destruct (scope_ok maxd depth); [|discriminate].
    apply bind_ok in H. destruct H as ([ws c'] & H & _). inversion Hw; subst. apply good_msg.
    intros k f cl Hk Hk'. eapply fields_good; [intros g Hg; exact Hg|eassumption| |exact H|exact Hk|exact Hk'].
    intros g d' x y e Hd Hx Ho. apply IH. pose proof (vsize_in fs u d' x Hd Hx) as Hlt.
    assert (vsize y <= vsize x)%nat; [|lia]. destruct g as [? ? ?|?]; [destruct Ho as [_ <-]; lia|].
    destruct Ho as (j & m & -> & _). cbn [vsize]. lia.
  Qed.

  Theorem write_valid ty v bs : wt_msg E all_ok ty v -> encode_bytes E utf8_ok maxd ty v = Ok bs -> valid_strings E utf8_ok ty v.
  Proof.
    intros Hw H. unfold encode_bytes in H. apply bind_ok in H. destruct H as ([s ws] & H & _). unfold plan in H.
    destruct (cnt_msg E maxd 0 ty v) as [n|]; [|discriminate]. destruct (sz_msg E ty v) as [s' c].
    destruct (n <? length c)%nat; [discriminate|]. destruct (max_message_size <=? s'); [discriminate|].
    apply bind_ok in H. destruct H as ([ws' c'] & H & _).
    exact (ser_msg_good (S (vsize v)) v 0 ltac:(lia) ty false _ _ Hw H).
  Qed.
End Write.
