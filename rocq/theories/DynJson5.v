(** Messages that are the same have the same binary form; writing JSON is defined. *)
Require Import Verif.Bits Verif.Varint Verif.Base64 Verif.Base64Proofs Verif.FieldMask Verif.FieldMaskProofs.
Require Import Verif.DynSlots Verif.Dyn Verif.Schema Verif.Archive Verif.Decode Verif.Encode Verif.DynWire Verif.DynDecode Verif.DynView Verif.DynEncode1 Verif.DynEncode3 Verif.DynJson Verif.DynJsonSpec Verif.DynJson1 Verif.DynJson2 Verif.DynJson3 Verif.DynJson4.

Section Same.
  Context (W : list wtype) (utf8_ok : bytes -> bool) (maxd : Z).

  (** Fields, for functions that look at the value of a field that is present. *)
  Lemma same_fields n ty m m' : same W (S n) ty m m' -> forall f l, In (f, l) (w_fields (wty W ty)) -> same_slot (same W n) f l (slot_at m l) (slot_at m' l).
  Proof. intros (_ & F) f l H. rewrite Forall_forall in F. apply (F (f, l) H). Qed.
  Definition same_use {T} (n : nat) (g g' : nat -> list slot -> T) : Prop := forall ty m m', same W n ty m m' -> g ty m = g' ty m'.

  Lemma same_dcnt_list n g ty x y : same_use n g g -> Forall2 (same W n ty) x y -> dcnt_list g ty x = dcnt_list g ty y.
  Proof. intros G F. induction F as [|a b x y H _ IH]; [reflexivity|]. cbn [dcnt_list]. rewrite (G _ _ _ H), IH. reflexivity. Qed.
  Lemma same_dcnt_field n g f l s s' : same_use n g g -> same_slot (same W n) f l s s' -> present f l s = true -> dcnt_field g f l s = dcnt_field g f l s'.
  Proof.
    intros G (_ & E) P. specialize (E P). unfold dcnt_field. destruct (w_elem f) as [| | | | |ty d]; try reflexivity. destruct (w_rep f), (value (dyn_of f) l s), (value (dyn_of f) l s'); try contradiction; try reflexivity.
    - assert (L : length l0 = length l1) by (clear - E; induction E; cbn; congruence). rewrite (same_dcnt_list n g ty _ _ G E), L. reflexivity.
    - rewrite (G _ _ _ E). reflexivity.
  Qed.
  Lemma same_dcnt k : forall n d, same_use n (dcnt W maxd k d) (dcnt W maxd k d).
  Proof.
    induction k as [|k IH]; intros n d ty m m' H; [reflexivity|]. destruct n as [|n]; [destruct H|]. cbn [dcnt]. destruct (scope_ok maxd d); [|reflexivity].
    pose proof (same_fields _ _ _ _ H) as F. clear H. induction (w_fields (wty W ty)) as [|[f l] t IHt]; [reflexivity|]. cbn [dcnt_fields]. pose proof (F f l (or_introl eq_refl)) as S. rewrite <- (proj1 S). rewrite IHt by (intros f' l' H'; apply F; right; exact H').
    destruct (present f l (slot_at m l)) eqn:P; [|reflexivity]. rewrite (same_dcnt_field n _ f l _ _ (IH n (d + 1)) S P). reflexivity.
  Qed.

  Lemma same_single n f l s s' : same_slot (same W n) f l s s' -> present f l s = true -> not_message f -> single f l s = single f l s' /\ several f l s = several f l s'.
  Proof. intros (_ & E) P N. specialize (E P). unfold single, several, not_message in *. destruct (w_elem f); try contradiction; rewrite E; auto. Qed.

  Lemma same_dsz_messages n g f ty d x y : same_use n g g -> Forall2 (same W n ty) x y -> dsz_messages g f ty d x = dsz_messages g f ty d y.
  Proof. intros G F. induction F as [|a b x y H _ IH]; [reflexivity|]. cbn [dsz_messages]. unfold dsz_message. rewrite (G _ _ _ H), IH. reflexivity. Qed.
  Lemma same_dsz_field n g f l s s' : same_use n g g -> same_slot (same W n) f l s s' -> present f l s = true -> dsz_field g f l s = dsz_field g f l s'.
  Proof.
    intros G S P. pose proof (same_single n f l s s' S P) as V. destruct S as (_ & E). specialize (E P). unfold dsz_field, not_message in *. destruct (w_elem f) as [| | | | |ty d]; try (destruct (V I) as [-> ->]; reflexivity).
    destruct (w_rep f), (value (dyn_of f) l s), (value (dyn_of f) l s'); try contradiction; try reflexivity; [apply (same_dsz_messages n); assumption|]. unfold dsz_message. rewrite (G _ _ _ E). reflexivity.
  Qed.
  Lemma same_dsz k : forall n, same_use n (dsz W k) (dsz W k).
  Proof.
    induction k as [|k IH]; intros n ty m m' H; [reflexivity|]. destruct n as [|n]; [destruct H|]. cbn [dsz].
    pose proof (same_fields _ _ _ _ H) as F. clear H. induction (w_fields (wty W ty)) as [|[f l] t IHt]; [reflexivity|]. cbn [dsz_fields]. pose proof (F f l (or_introl eq_refl)) as S. rewrite <- (proj1 S). rewrite IHt by (intros f' l' H'; apply F; right; exact H').
    destruct (present f l (slot_at m l)) eqn:P; [|reflexivity]. rewrite (same_dsz_field n _ f l _ _ (IH n) S P). reflexivity.
  Qed.

  Definition same_use_c {T} (n : nat) (g : nat -> list slot -> list Z -> T) : Prop := forall ty m m' c, same W n ty m m' -> g ty m c = g ty m' c.
  Lemma seq_ext a k k' : (forall c, k c = k' c) -> seq_d a k = seq_d a k'.
  Proof. intros H. unfold seq_d. destruct a as [[ws c]| | | |]; try reflexivity. cbn [bind]. rewrite H. reflexivity. Qed.
  Lemma same_dser_message n g f ty d m m' c : same_use_c n g -> same W n ty m m' -> dser_message g f ty d m c = dser_message g f ty d m' c.
  Proof. intros G H. unfold dser_message. destruct d; [rewrite (G _ _ _ c H); reflexivity|]. destruct c as [|len c]; [reflexivity|]. rewrite (G _ _ _ c H). reflexivity. Qed.
  Lemma same_dser_messages n g f ty d x y : same_use_c n g -> Forall2 (same W n ty) x y -> forall c, dser_messages g f ty d x c = dser_messages g f ty d y c.
  Proof. intros G F. induction F as [|a b x y H _ IH]; intros c; [reflexivity|]. cbn [dser_messages]. rewrite (same_dser_message n g f ty d a b c G H). apply seq_ext. exact IH. Qed.
  Lemma same_dser_field n g f l s s' c : same_use_c n g -> same_slot (same W n) f l s s' -> present f l s = true -> dser_field utf8_ok g f l s c = dser_field utf8_ok g f l s' c.
  Proof.
    intros G S P. pose proof (same_single n f l s s' S P) as V. destruct S as (_ & E). specialize (E P). unfold dser_field, not_message in *. destruct (w_elem f) as [| | | | |ty d]; try (destruct (V I) as [-> ->]; reflexivity).
    destruct (w_rep f), (value (dyn_of f) l s), (value (dyn_of f) l s'); try contradiction; try reflexivity; [apply (same_dser_messages n); assumption|apply (same_dser_message n); assumption].
  Qed.
  Lemma same_dser k : forall n d, same_use_c n (dser W utf8_ok maxd k d).
  Proof.
    induction k as [|k IH]; intros n d ty m m' c H; [reflexivity|]. destruct n as [|n]; [destruct H|]. cbn [dser]. destruct (scope_ok maxd d); [|reflexivity].
    pose proof (same_fields _ _ _ _ H) as F. clear H. revert c. induction (w_fields (wty W ty)) as [|[f l] t IHt]; intros c; [reflexivity|]. cbn [dser_fields]. pose proof (F f l (or_introl eq_refl)) as S. rewrite <- (proj1 S).
    rewrite (seq_ext _ _ (dser_fields utf8_ok (dser W utf8_ok maxd k (d + 1)) t m')) by (apply IHt; intros f' l' H'; apply F; right; exact H').
    destruct (present f l (slot_at m l)) eqn:P; [|reflexivity]. rewrite (same_dser_field n _ f l _ _ c (IH n (d + 1)) S P). reflexivity.
  Qed.
  Lemma same_encode n k ty m m' : same W n ty m m' -> dyn_encode W utf8_ok maxd k ty m = dyn_encode W utf8_ok maxd k ty m'.
  Proof. intros H. unfold dyn_encode, dplan. rewrite (same_dcnt k n 0 ty m m' H), (same_dsz k n ty m m' H). destruct (dcnt W maxd k 0 ty m') as [a| | | |]; try reflexivity. cbn [bind]. destruct (dsz W k ty m') as [[s c]| | | |]; try reflexivity. cbn [bind]. destruct (a <? length c)%nat; [reflexivity|]. destruct (max_message_size <=? s); [reflexivity|]. rewrite (same_dser k n 0 ty m m' _ H). reflexivity. Qed.
End Same.

(** ** Writing is defined *)
Definition settled {T} (r : res T) : Prop := match r with Ok _ | Err _ => True | _ => False end.
Lemma settled_bind {A B} (r : res A) (k : A -> res B) : settled r -> (forall x, r = Ok x -> settled (k x)) -> settled (bind r k).
Proof. destruct r; cbn; auto. Qed.

Section Settled.
  Context (W : list wtype) (J : list jtype) (utf8_ok : bytes -> bool) (le : bool) (maxd : Z) (fshow : bool -> Z -> bytes) (fparse : bool -> bytes -> option Z).
  Hypothesis HW : wtypes_ok W.
  Hypothesis HJ : jtypes_ok W J.
  Notation printable := (printable W J utf8_ok fshow fparse).
  Notation slot_printable := (slot_printable utf8_ok fshow fparse).

  Lemma settled_scalar q jf e v : fits e v -> settled (write_scalar le fshow q jf e v).
  Proof.
    destruct e, v; cbn; try contradiction; try exact (fun _ => I).
    - destruct (j_null jf); [exact (fun _ => I)|]. destruct (name_of (j_values jf) z); exact (fun _ => I).
    - destruct (j_string jf); [exact (fun _ => I)|]. intros H. rewrite b64_encode_spec by exact H. exact I.
  Qed.
  Lemma settled_scalars q jf e vs : Forall (fits e) vs -> settled (write_scalars le fshow q jf e vs).
  Proof. induction 1 as [|v vs H _ IH]; [exact I|]. cbn [write_scalars]. apply settled_bind; [apply settled_scalar; exact H|]. intros x _. apply settled_bind; [exact IH|]. intros; exact I. Qed.

  Section Rec.
    Context (n : nat) (Pr : nat -> list slot -> Prop) (recw : bool -> nat -> list slot -> res (list tok)).
    Hypothesis R : forall q ty m, typed W n ty m -> Pr ty m -> settled (recw q ty m).
    Lemma settled_messages q ty x : Forall (typed W n ty) x -> Forall (Pr ty) x -> settled (write_messages W recw q ty x).
    Proof.
      intros T P. unfold write_messages. apply settled_bind; [|intros; exact I]. induction T as [|m x Hm _ IH]; [exact I|]. inversion P; subst. cbn [write_all]. apply settled_bind; [apply R; assumption|]. intros a _. apply settled_bind; [apply IH; assumption|]. intros; exact I.
    Qed.
    Lemma settled_field q jf f l s : has_value (dyn_of f) l s = true -> slot_ok (typed W n) f l s -> slot_printable Pr jf f l s -> settled (write_field W le fshow recw q jf f l s).
    Proof.
      intros Hh Ho Hp. specialize (Ho Hh). unfold slot_printable, DynJsonSpec.slot_printable in Hp.
      assert (C : not_message f \/ exists ty d, w_elem f = EMsg ty d) by (unfold not_message; destruct (w_elem f); eauto). destruct C as [N|(ty & d & E)].
      - assert (Wp : write_field W le fshow recw q jf f l s =
          match w_rep f with
          | None => v <- single f l s ;; write_scalar le fshow q jf (w_elem f) v
          | Some _ => vs <- several f l s ;; xs <- write_scalars le fshow (elem_quote q (w_elem f)) jf (w_elem f) vs ;; Ok (LBrack :: commas xs ++ [RBrack])
          end) by (unfold write_field, not_message in *; destruct (w_elem f), (w_rep f); try contradiction; reflexivity).
        rewrite Wp. unfold single, several. assert (K : match w_rep f, value (dyn_of f) l s with None, (FInt _ | FBytes _) | Some _, (FInts _ | FStrs _) => True | _, _ => False end).
        { unfold not_message in N. revert Ho. unfold value, dyn_of, is_rep. destruct (w_elem f) eqn:E; try contradiction; destruct (w_rep f); cbn [y_kind kind_of];
            repeat match goal with |- context [if ?b then _ else _] => destruct b | |- context [match ?c with CZero => _ | _ => _ end] => destruct c end; intros Ho; try exact I; try contradiction; cbn in Ho; try contradiction; try (destruct Ho as [_ Ho]; inversion Ho; subst; try contradiction). }
        destruct (w_rep f), (value (dyn_of f) l s); try contradiction; cbn [bind]; try (apply settled_scalar; exact Ho); (apply settled_bind; [apply settled_scalars, Forall_map, Ho|intros; exact I]).
      - unfold write_field. rewrite E. destruct (w_rep f) eqn:Rf, (value (dyn_of f) l s) eqn:V; try contradiction; try (rewrite E in Ho; cbn in Ho; contradiction).
        all: try (exfalso; revert V; unfold value, dyn_of, is_rep; rewrite E, Rf; cbn [y_kind kind_of]; repeat match goal with |- context [if ?b then _ else _] => destruct b | |- context [match ?c with CZero => _ | _ => _ end] => destruct c end; discriminate).
        + rewrite E in Ho. apply settled_messages; [apply Ho|apply (Hp _ _ E)].
        + rewrite E in Ho. apply R; [exact Ho|apply (Hp _ _ E)].
    Qed.
    Lemma settled_members q ty m fs : forall first, (forall x, In x fs -> In x (jfields W J ty)) -> typed W (S n) ty m -> (forall jf f l, In (jf, (f, l)) (jfields W J ty) -> has (f, l) m = true -> slot_printable Pr jf f l (slot_at m l)) ->
      settled (write_members W le fshow recw q first fs m) /\ settled (write_entry_fields W le fshow recw q first fs m).
    Proof.
      induction fs as [|[jf [f l]] fs IH]; intros first Hi Ht Hp; [split; exact I|]. cbn [write_members write_entry_fields]. destruct (has_value (dyn_of f) l (slot_at m l)) eqn:Hh; [|apply IH; auto; intros x Hx; apply Hi; right; exact Hx].
      assert (Hin : In (jf, (f, l)) (jfields W J ty)) by (apply Hi; left; reflexivity). pose proof (typed_slot W n ty m f l Ht (jfield_in W J HJ _ _ _ _ Hin)) as Ho. pose proof (Hp _ _ _ Hin Hh) as Hq.
      split; (apply settled_bind; [apply settled_field; assumption|]); intros x _; (apply settled_bind; [apply (IH false); auto; intros z Hz; apply Hi; right; exact Hz|]); intros; exact I.
    Qed.
    Lemma settled_body q ty m : typed W (S n) ty m -> printable_body W J utf8_ok fshow fparse Pr ty m -> settled (write_body W J le fshow recw q ty m).
    Proof.
      intros Ht Hp. unfold printable_body in Hp. unfold write_body. pose proof (HJ ty) as (_ & _ & _ & Ko & En). pose proof Ko as Ko'. unfold known_ok in Ko. destruct (w_entry (wty W ty)) eqn:He.
      { destruct Hp as [Hp Ha]. unfold write_entry. apply settled_bind; [|intros [] _; [exact I|apply (settled_members q ty m (jfields W J ty) true); auto]].
        destruct (En eq_refl) as (kj & kf & kl & vj & vf & vl & Hj & _ & Rv & _). pose proof (jfields_fields W J HJ ty) as Hw. rewrite Hj in Hw. cbn [map snd] in Hw. unfold unset_value. rewrite <- Hw in *. cbn [nth_error].
        inversion Ha as [|? ? _ Ha']; subst. inversion Ha' as [|? ? Hv _]; subst. destruct (w_elem vf) as [| | | | |tv dv] eqn:Ev; try exact I. rewrite Rv.
        assert (Hin : In (vf, vl) (w_fields (wty W ty))) by (rewrite <- Hw; right; left; reflexivity). pose proof (typed_slot W n ty m vf vl Ht Hin Hv) as Ho.
        unfold has in Hv. cbn [fst snd] in Hv. unfold value in Ho. rewrite Hv in Ho. unfold dyn_of, is_rep in Ho. cbn [y_kind] in Ho. rewrite Ev, Rv in Ho. cbn [kind_of] in Ho. destruct (snd (slot_at m vl)) as [| | |x| | | |]; try contradiction.
        destruct (known_of J tv) eqn:Kt; try exact I. destruct (HJ tv) as (_ & _ & _ & Kv & _). destruct (value_layout W J tv Kv Kt) as (f0 & ? & ? & ? & ? & ? & ? & ? & ? & ? & ? & ? & ? & ? & ? & ? & ? & ? & Hw2 & _). rewrite Hw2. exact I. }
      destruct (known_of J ty) eqn:K; try contradiction.
      - apply settled_bind; [|intros; exact I]. apply (settled_members q ty m (jfields W J ty) true); auto.
      - unfold write_time. destruct (w_fields (wty W ty)) as [|a [|b [|? ?]]]; try exact I. apply settled_bind; [unfold number_of; destruct (value _ _ _); exact I|]. intros s _. apply settled_bind; [unfold number_of; destruct (value _ _ _); exact I|]. intros k _. destruct (Timestamp.timestamp_encode s k); exact I.
      - unfold write_time. destruct (w_fields (wty W ty)) as [|a [|b [|? ?]]]; try exact I. apply settled_bind; [unfold number_of; destruct (value _ _ _); exact I|]. intros s _. apply settled_bind; [unfold number_of; destruct (value _ _ _); exact I|]. intros k _. destruct (Duration.duration_encode s k); exact I.
      - unfold write_mask. destruct (w_fields (wty W ty)) as [|[f l] [|? ?]]; try exact I. destruct (value _ _ _); try exact I. destruct (json_unescape _); exact I.
      - destruct Hp as (i & jf & f & l & Hi & Hh & H0 & Hp). destruct (value_active W J HJ ty m i jf f l K Hi Hh) as (f0 & Hhd & Ha). unfold write_value. destruct (w_fields (wty W ty)) as [|[f0' l0] tl] eqn:Hw; [exact I|]. cbn [hd_error] in Hhd. injection Hhd as -> ->. rewrite Ha. replace (Z.of_nat i <? 0) with false by lia. rewrite Nat2Z.id, Hi.
        unfold write_cref. destruct (has_value (dyn_of f) l (slot_at m l)) eqn:Hh'; [|exact I].
        destruct i as [|i].
        + specialize (H0 eq_refl). destruct (value_layout W J ty Ko' K) as (g0 & g1 & g2 & g3 & g4 & g5 & jn & jd & js & jb & jt & jl & c & v & st & sl & d1 & d2 & Hw2 & Hj2 & _ & _ & E0 & _ & _ & _ & _ & _ & (R0 & _) & _). unfold jfields in Hi. rewrite Hj2, Hw2 in Hi. cbn [combine nth_error] in Hi. injection Hi as <- <- <-.
          unfold write_field. rewrite E0, R0. unfold single. rewrite H0. cbn [bind]. unfold write_scalar. destruct (j_null jn); [exact I|]. destruct (name_of (j_values jn) 0); exact I.
        + apply settled_field; [exact Hh'| |apply Hp; discriminate]. apply (typed_slot W n ty m f l Ht). apply nth_error_In in Hi. apply (jfield_in W J HJ _ _ _ _ Hi).
      - destruct Ko as (te & d & Ks & Ne). destruct Hp as [Hp Hz]. destruct (shapes_one W J HJ _ _ _ _ _ Ks) as (jf & f & l & Hj & Hw & Ef & Er & _). rewrite Hj, Ef. unfold is_rep in Er. destruct (w_rep f) as [p|] eqn:Rf; [|discriminate Er]. assert (Hin : In (jf, (f, l)) (jfields W J ty)) by (rewrite Hj; left; reflexivity).
        rewrite Hw in Hz. inversion Hz as [|? ? Hz0 _]; subst. cbn [snd] in Hz0. destruct (has_value (dyn_of f) l (slot_at m l)) eqn:Hh.
        + pose proof (settled_field q jf f l (slot_at m l) Hh (typed_slot W n ty m f l Ht (jfield_in W J HJ _ _ _ _ Hin)) (Hp _ _ _ Hin Hh)) as K1. unfold write_field in K1. rewrite Ef, Rf in K1. exact K1.
        + rewrite (rep_word f l _ p Rf) in Hh. unfold value, dyn_of, is_rep. cbn [y_kind]. rewrite Ef, Rf. cbn [kind_of]. replace (fst (slot_at m l) =? 0) with true by lia. apply settled_messages; constructor.
      - destruct Ko as (te & d & Ks & Ne). destruct Hp as [Hp Hz]. destruct (shapes_one W J HJ _ _ _ _ _ Ks) as (jf & f & l & Hj & Hw & Ef & Er & _). rewrite Hj, Ef. unfold is_rep in Er. destruct (w_rep f) as [p|] eqn:Rf; [|discriminate Er]. assert (Hin : In (jf, (f, l)) (jfields W J ty)) by (rewrite Hj; left; reflexivity).
        rewrite Hw in Hz. inversion Hz as [|? ? Hz0 _]; subst. cbn [snd] in Hz0. destruct (has_value (dyn_of f) l (slot_at m l)) eqn:Hh.
        + pose proof (settled_field q jf f l (slot_at m l) Hh (typed_slot W n ty m f l Ht (jfield_in W J HJ _ _ _ _ Hin)) (Hp _ _ _ Hin Hh)) as K1. unfold write_field in K1. rewrite Ef, Rf in K1. exact K1.
        + rewrite (rep_word f l _ p Rf) in Hh. unfold value, dyn_of, is_rep. cbn [y_kind]. rewrite Ef, Rf. cbn [kind_of]. replace (fst (slot_at m l) =? 0) with true by lia. apply settled_messages; constructor.
      - destruct Ko as (e & Ks & Ke). destruct Hp as [Hp Ha]. destruct (shapes_one W J HJ _ _ _ _ _ Ks) as (jf & f & l & Hj & Hw & Ef & _). rewrite Hj. unfold write_cref. assert (Hin : In (jf, (f, l)) (jfields W J ty)) by (rewrite Hj; left; reflexivity).
        destruct (has_value (dyn_of f) l (slot_at m l)) eqn:Hh; [|exact I]. apply settled_field; [exact Hh|apply (typed_slot W n ty m f l Ht (jfield_in W J HJ _ _ _ _ Hin))|apply (Hp _ _ _ Hin Hh)].
    Qed.
  End Rec.
  Lemma write_settled n : forall d q ty m, typed W n ty m -> printable n ty m -> settled (write_msg W J le maxd fshow n d q ty m).
  Proof.
    induction n as [|n IH]; intros d q ty m Ht Hp; [destruct Ht|]. cbn [write_msg]. destruct (scope_ok maxd d); [|exact I]. apply (settled_body n (printable n)); auto.
  Qed.
End Settled.
