(** Messages with Any are read back from the JSON written for them. *)
Require Import Verif.Bits Verif.Varint.
Require Import Verif.DynSlots Verif.Dyn Verif.Schema Verif.Archive Verif.Decode Verif.Encode Verif.DynWire Verif.DynDecode Verif.DynView Verif.DynEncode1 Verif.DynDecode1 Verif.DynEncode3.
Require Import Verif.DynJson Verif.DynJsonSpec Verif.DynJsonTree Verif.DynJson1 Verif.DynJson2 Verif.DynJson3 Verif.DynJson4 Verif.DynJson5 Verif.DynJson6 Verif.DynJson7 Verif.DynAny Verif.DynAnySpec Verif.DynAny1.

(** Writing depends on the messages of the fields only *)
Section Ext.
  Context (W : list wtype) (J : list jtype) (le : bool) (fshow : bool -> Z -> bytes).
  Context (w1 w2 : bool -> nat -> list slot -> res (list tok)).
  Definition agree (t : nat) : Prop := forall q m, w1 q t m = w2 q t m.
  Lemma write_all_ext q t x : agree t -> write_all w1 q t x = write_all w2 q t x.
  Proof. intros A. induction x as [|m x IH]; [reflexivity|]. cbn [write_all]. rewrite A, IH. reflexivity. Qed.
  Lemma write_messages_ext q t x : agree t -> write_messages W w1 q t x = write_messages W w2 q t x.
  Proof. intros A. unfold write_messages. rewrite write_all_ext by exact A. reflexivity. Qed.
  Lemma write_field_ext q jf f l s : (forall t d, w_elem f = EMsg t d -> agree t) -> write_field W le fshow w1 q jf f l s = write_field W le fshow w2 q jf f l s.
  Proof.
    intros A. unfold write_field. destruct (w_elem f) as [| | | | |t d] eqn:E; try reflexivity. specialize (A t d eq_refl). destruct (w_rep f), (value (dyn_of f) l s); try reflexivity; [apply write_messages_ext; exact A|apply A].
  Qed.
  Lemma write_members_ext q m fs : (forall jf f l t d, In (jf, (f, l)) fs -> w_elem f = EMsg t d -> agree t) -> forall first, write_members W le fshow w1 q first fs m = write_members W le fshow w2 q first fs m.
  Proof.
    induction fs as [|[jf [f l]] fs IH]; intros A first; [reflexivity|]. cbn [write_members]. rewrite (write_field_ext q jf f l) by (intros t d; apply (A jf f l t d); left; reflexivity).
    rewrite !IH by (intros jf' f' l' t d H; apply (A jf' f' l' t d); right; exact H). reflexivity.
  Qed.
  Lemma write_body_ext q ty m : w_entry (wty W ty) = false -> (forall jf f l t d, In (jf, (f, l)) (jfields W J ty) -> w_elem f = EMsg t d -> agree t) -> write_body W J le fshow w1 q ty m = write_body W J le fshow w2 q ty m.
  Proof.
    intros En A. unfold write_body. rewrite En. destruct (known_of J ty); try reflexivity.
    - rewrite (write_members_ext q m (jfields W J ty) A). reflexivity.
    - unfold write_value. destruct (w_fields (wty W ty)) as [|[f0 l0] tl]; [reflexivity|]. destruct (_ <? 0); [reflexivity|]. destruct (nth_error (jfields W J ty) _) as [[jf [f l]]|] eqn:E; [|reflexivity]. unfold write_cref. destruct (has_value _ _ _); [|reflexivity]. apply write_field_ext. intros t d. apply nth_error_In in E. apply (A jf f l t d E).
    - destruct (jfields W J ty) as [|[jf [f l]] tl]; [reflexivity|]. destruct (w_elem f) as [| | | | |t d] eqn:E; try reflexivity. destruct (w_rep f); [|reflexivity]. destruct (value _ _ _); try reflexivity. apply write_messages_ext. apply (A jf f l t d); [left; reflexivity|exact E].
    - destruct (jfields W J ty) as [|[jf [f l]] tl]; [reflexivity|]. destruct (w_elem f) as [| | | | |t d] eqn:E; try reflexivity. destruct (w_rep f); [|reflexivity]. destruct (value _ _ _); try reflexivity. apply write_messages_ext. apply (A jf f l t d); [left; reflexivity|exact E].
    - destruct (jfields W J ty) as [|[jf [f l]] tl]; [reflexivity|]. unfold write_cref. destruct (has_value _ _ _); [|reflexivity]. apply write_field_ext. intros t d. apply (A jf f l t d). left. reflexivity.
  Qed.
End Ext.

Section Back.
  Context (W : list wtype) (J : list jtype) (utf8_ok : bytes -> bool) (le : bool) (maxd : Z) (fshow : bool -> Z -> bytes) (fparse : bool -> bytes -> option Z) (find_type : bytes -> option nat).
  Hypothesis HW : wtypes_ok W.
  Hypothesis HJ : jtypes_ok W J.
  Hypothesis HA : atypes_ok W J.
  Notation awrite_msg := (awrite_msg W J utf8_ok le maxd fshow find_type).
  Notation aread_msg := (aread_msg W J utf8_ok maxd fparse find_type).
  Notation aprintable := (aprintable W J utf8_ok maxd fshow fparse find_type).

  (** Messages that have brackets of their own *)
  Definition bracketed (t : nat) : Prop := w_entry (wty W t) = true \/ known_of J t <> KNone.
  Lemma known_fields ty jf f l t d : known_of J ty <> KNone -> known_of J ty <> KAny -> In (jf, (f, l)) (jfields W J ty) -> w_elem f = EMsg t d -> bracketed t.
  Proof.
    intros K1 K2 Hi E. pose proof (HJ ty) as (_ & _ & _ & Ko & _). pose proof (HA ty) as (_ & _ & Hl). pose proof (jfield_in W J HJ _ _ _ _ Hi) as Hf. pose proof Ko as Ko'. unfold known_ok in Ko. unfold bracketed.
    assert (S : forall s, In s (shapes W ty) -> In (shape f) (shapes W ty)) by (intros; apply (in_map (fun fl => shape (fst fl)) _ _ Hf)).
    assert (Sf : In (shape f) (shapes W ty)) by apply (in_map (fun fl => shape (fst fl)) _ _ Hf). unfold shape in Sf at 1. rewrite E in Sf.
    destruct (known_of J ty) eqn:K; try congruence.
    - rewrite Ko in Sf. destruct Sf as [Sf|[Sf|[]]]; discriminate Sf.
    - rewrite Ko in Sf. destruct Sf as [Sf|[Sf|[]]]; discriminate Sf.
    - destruct Ko as (v & Ko). rewrite Ko in Sf. destruct Sf as [Sf|[]]; discriminate Sf.
    - destruct (value_layout W J ty Ko' K) as (f0 & f1 & f2 & f3 & f4 & f5 & jn & jd & js & jb & jt & jl & c & v & st & sl & d1 & d2 & Hw & _ & _ & _ & E0 & E1 & E2 & E3 & E4 & E5 & _ & _ & _ & Kt & Kl & _). rewrite Hw in Hf.
      destruct Hf as [H|[H|[H|[H|[H|[H|[]]]]]]]; injection H as <- <-; rewrite ?E0, ?E1, ?E2, ?E3, ?E4, ?E5 in E; try discriminate E; injection E as <- <-; right; congruence.
    - destruct Ko as (te & d' & Ko & Ne). rewrite Ko in Sf. destruct Sf as [Sf|[]]. injection Sf as <- <-. left. exact Ne.
    - right. rewrite (Hl eq_refl f l t d Hf E). discriminate.
    - destruct Ko as (e & Ko & Ke). rewrite Ko in Sf. destruct Sf as [Sf|[]]. injection Sf as -> _ _ _. contradiction.
  Qed.
  Lemma brackets_kept n : forall d q ty m, bracketed ty -> awrite_msg n d false true q ty m = awrite_msg n d false false q ty m.
  Proof.
    induction n as [|n IH]; intros d q ty m B; [reflexivity|]. cbn [DynAny.awrite_msg]. destruct (scope_ok maxd d); [|reflexivity]. destruct (w_entry (wty W ty)) eqn:En; [reflexivity|]. cbn [negb andb].
    destruct B as [B|B]; [congruence|].
    assert (X : known_of J ty <> KAny -> write_body W J le fshow (awrite_msg n (d + 1) false true) q ty m = write_body W J le fshow (awrite_msg n (d + 1) false false) q ty m).
    { intros K. apply write_body_ext; [exact En|]. intros jf f l t dl Hi E q0 m0. apply IH. apply (known_fields ty jf f l t dl B K Hi E). }
    destruct (known_of J ty); try congruence; try (apply X; discriminate).
    unfold write_any. destruct (w_fields (wty W ty)) as [|[f0 l0] [|[f1 l1] [|? ?]]]; try reflexivity. destruct (nothing_at f0 l0 _ && nothing_at f1 l1 _); [reflexivity|]. cbv zeta. unfold any_object. destruct (type_of _ _) as [t| | | |]; try reflexivity. cbn [bind]. destruct (or_syntax _) as [p| | | |]; try reflexivity. cbn [bind].
    destruct (known_of J t) eqn:Kt; try reflexivity; rewrite IH by (right; congruence); reflexivity.
  Qed.

  Lemma any_value n ty m : known_of J ty = KValue -> w_entry (wty W ty) = false -> aprintable n ty m -> exists i jf f l, nth_error (jfields W J ty) i = Some (jf, (f, l)) /\ has (f, l) m = true.
  Proof. intros K En. destruct n as [|n]; [intros []|]. cbn [DynAnySpec.aprintable]. unfold printable_body. rewrite K, En. intros (i & jf & f & l & A & B & _). exists i, jf, f, l. auto. Qed.

  (** ** The payload of an Any *)
  Lemma members_tokens ms : separated (map member ms) = commas (map member ms).
  Proof. symmetry. apply commas_separated. Qed.
  Definition goes_back (strict : bool) (n : nat) (d : Z) : Prop :=
    forall ty m ts, typed W n ty m -> aprintable n ty m -> awrite_msg n d false false false ty m = Ok ts ->
      wrote W J ty ts /\ (forall r, exists m', aread_msg strict n d false ty (new_slots W ty) (ts ++ r) = Ok (m', r) /\ same W n ty m m') /\
      (known_of J ty = KValue -> forall r, w_fields (wty W ty) <> [] /\ aread_msg strict n d false ty (new_slots W ty) (TNull :: r) = Ok (null_value W ty, r)).
  Lemma payload_back strict n d t p x : (forall d', goes_back strict n d') -> shallow W J t -> known_of J t = KNone -> typed W (S n) t p -> aprintable (S n) t p -> awrite_msg (S n) d true true false t p = Ok x ->
    exists ms, x = commas (map member ms) /\ Forall (fun q => called type_key q = false) ms /\ exists p', aset_payload W J utf8_ok maxd fparse find_type strict (S n) d t (new_slots W t) ms = Ok p' /\ same W (S n) t p p'.
  Proof.
    intros RT (En & Nk & Fl) K Ht Hp H. cbn [DynAny.awrite_msg aset_payload DynAnySpec.aprintable] in *. rewrite K in Hp. unfold printable_body in Hp. rewrite En, K in Hp. rewrite K, andb_false_r in H. destruct (scope_ok maxd d); [|discriminate H].
    rewrite (write_members_ext W le fshow (awrite_msg n (d + 1) false true) (awrite_msg n (d + 1) false false)) in H by (intros jf f l t0 d0 Hi E q0 m0; apply brackets_kept; apply (Fl f l t0 d0); [apply (jfield_in W J HJ _ _ _ _ Hi)|exact E]).
    destruct (write_members W le fshow _ false true (jfields W J t) p) as [y| | | |] eqn:Y; try discriminate H. cbn [bind] in H. apply Ok_inj in H. subst y.
    destruct (members_back W J utf8_ok le fshow fparse HW HJ strict n (aprintable n) (awrite_msg n (d + 1) false false) (aread_msg strict n (d + 1) false) (RT (d + 1)) t p Ht Hp (jfields W J t) [] [] (new_slots W t) true x eq_refl) as [(ms & Em & Ms) R]; auto; [apply inv_new|intros z []|].
    cbn [app] in Ms. rewrite members_tokens in Ms. exists ms. split; [exact Ms|]. split.
    - apply Forall_forall. intros q Hq. unfold called. destruct (eqb_bytes (fst q) type_key) eqn:Eq; [|reflexivity]. exfalso. apply eqb_bytes_eq in Eq. apply Nk. rewrite <- Eq. apply (in_map fst) in Hq. rewrite Em in Hq. rewrite <- (jfields_names W J HJ). rewrite map_map.
      apply in_map_iff in Hq. destruct Hq as (z & <- & Hz). apply filter_In in Hz. apply (in_map (fun x => j_json (fst x)) _ _ (proj1 Hz)).
    - destruct (R (S (length x)) [] (Nat.lt_succ_diag_r _)) as (p' & Rp & Sp). exists p'. split; [|exact Sp].
      pose proof (tree_members W J utf8_ok fparse strict (aset_json W J utf8_ok maxd fparse find_type strict n (d + 1)) (aset_pair W J utf8_ok maxd fparse find_type strict n (d + 1)) (aread_msg strict n (d + 1) false)) as T.
      pose proof (fun t m => tree_aread W J utf8_ok maxd fparse find_type strict (all_fields_ok W J HJ) (fun ty => proj1 (HA ty)) n (d + 1) t m) as A.
      rewrite Ms in Rp. rewrite (T (fun t m j r => proj1 (A t m) j r) (fun t m p r => proj1 (proj2 (A t m)) p r) t ms (all_fields_ok W J HJ t) _ true (new_slots W t) []) in Rp by (rewrite <- Ms; lia).
      unfold leaving in Rp. destruct (in_turn _ _ ms) as [z| | | |]; try discriminate Rp. cbn [bind] in Rp. apply Ok_inj in Rp. injection Rp as ->. reflexivity.
  Qed.

  (** ** An Any *)
  Lemma type_of_nonempty url t : type_of find_type url = Ok t -> url <> [].
  Proof. intros H ->. discriminate H. Qed.
  Lemma or_syntax_ok {T} (r : res T) x : or_syntax r = Ok x -> r = Ok x.
  Proof. destruct r; cbn; congruence. Qed.
  Lemma any_same n ty m f0 l0 f1 l1 url data : known_of J ty = KAny -> w_fields (wty W ty) = [(f0, l0); (f1, l1)] -> has (f0, l0) m = true -> (has (f1, l1) m = true \/ data = []) ->
    value (dyn_of f0) l0 (slot_at m l0) = FBytes url -> value (dyn_of f1) l1 (slot_at m l1) = FBytes data ->
    same W (S n) ty m (put (put (new_slots W ty) (l_slot l0) (l_ordinal l0, CBytes url)) (l_slot l1) (l_ordinal l1, CBytes data)).
  Proof.
    intros K Hw H0 H1 V0 V1. destruct (HA ty) as (_ & Hs & _). destruct (Hs K) as (v & w & Sh). clear Hs. unfold shapes, shape in Sh. rewrite Hw in Sh. cbn [map fst] in Sh. injection Sh as E0 R0 O0 X0 E1 R1 O1 X1.
    destruct (wtype_layout _ (wty_ok W ty HW)) as [FOP Fe]. cbn [same]. rewrite Hw in *.
    inversion Fe as [|? ? Q0 Fe']; subst. inversion Fe' as [|? ? Q1 _]; subst. inversion FOP as [|? ? C0 _]; subst. inversion C0 as [|? ? C _]; subst.
    assert (D : l_slot l0 <> l_slot l1) by (apply C; intros (o & A & B); cbn [fst] in *; congruence).
    assert (Lm : length (new_slots W ty) = w_slots (wty W ty)) by apply repeat_length. split; [rewrite !put_length; exact Lm|].
    destruct Q0 as (W0 & _ & L0 & G0), Q1 as (W1 & _ & L1 & G1). cbn [fst snd] in *.
    set (m' := put (put (new_slots W ty) (l_slot l0) (l_ordinal l0, CBytes url)) (l_slot l1) (l_ordinal l1, CBytes data)).
    assert (S0 : slot_at m' l0 = (l_ordinal l0, CBytes url)) by (unfold m', slot_at; rewrite put_other by congruence; apply put_same; lia).
    assert (S1 : slot_at m' l1 = (l_ordinal l1, CBytes data)) by (unfold m', slot_at; apply put_same; rewrite put_length; lia).
    assert (G : forall f l u v z, w_elem f = EBytes u v -> is_rep f = false -> w_explicit f = false -> wfield_ok f -> (has (f, l) m = true \/ z = []) -> value (dyn_of f) l (slot_at m l) = FBytes z -> same_slot (same W n) f l (slot_at m l) (l_ordinal l, CBytes z)).
    { clear. intros f l u v z E R X O P V. assert (Rf : w_rep f = None) by (unfold is_rep in R; destruct (w_rep f); [discriminate R|reflexivity]).
      assert (Hh' : has_value (dyn_of f) l (l_ordinal l, CBytes z) = true) by (rewrite single_word by exact Rf; apply Z.eqb_refl).
      assert (V' : value (dyn_of f) l (l_ordinal l, CBytes z) = FBytes z) by (unfold value; rewrite Hh', andb_false_r; unfold dyn_of; cbn [y_kind snd]; rewrite E, R; reflexivity).
      destruct (has_value (dyn_of f) l (slot_at m l)) eqn:Hh.
      - apply back_same; [exact Hh|]. split; [exact Hh'|]. rewrite E, V, V'. reflexivity.
      - destruct P as [P|P]; [unfold has in P; cbn [fst snd] in P; congruence|]. subst z. unfold same_slot, present, single. rewrite Hh, Hh', V', E, R, X. cbn [andb orb is_default w_default]. unfold w_default. rewrite E. destruct O as (_ & _ & _ & O). destruct (O X) as [_ ->]. split; [reflexivity|discriminate]. }
    constructor; [|constructor; [|constructor]]; cbn [fst snd]; [rewrite S0|rewrite S1]; eapply G; eauto.
  Qed.
  Definition shown_any (ty : nat) (m : list slot) (ts : list tok) : Prop :=
    exists f l rest url ms, w_fields (wty W ty) = (f, l) :: rest /\ value (dyn_of f) l (slot_at m l) = FBytes url /\ ts = render (JObj ((type_key, JStr url) :: ms)) /\ Forall (fun p => fst p <> type_key) ms.
  Lemma parts_back strict n d url data ts :
    goes_back strict n (d + 1) ->
    (forall t p x, shallow W J t -> known_of J t = KNone -> typed W n t p -> aprintable n t p -> awrite_msg n (d + 1) true true false t p = Ok x ->
       exists ms, x = commas (map member ms) /\ Forall (fun q => called type_key q = false) ms /\ exists p', aset_payload W J utf8_ok maxd fparse find_type strict n (d + 1) t (new_slots W t) ms = Ok p' /\ same W n t p p') ->
    held W J utf8_ok maxd find_type n (aprintable n) url data ->
    any_object W J utf8_ok maxd find_type (awrite_msg n (d + 1) false false false) (awrite_msg n (d + 1) true true false) url data = Ok ts ->
    (exists ms, ts = render (JObj ((type_key, JStr url) :: ms)) /\ Forall (fun p => fst p <> type_key) ms) /\
    forall r, any_parts W J find_type (aread_msg strict n (d + 1) false) (aread_msg strict n (d + 1) true) (dyn_encode W utf8_ok maxd n) (ts ++ r) = Ok ((url, data), r).
  Proof.
    intros RT PB (t & p & Hu & Ty & Dr & De & Tp & Pp & Sh) H.
    unfold any_object in H. rewrite Ty in H. pose proof (type_of_nonempty _ _ Ty) as Nu. destruct url as [|c u]; [congruence|]. cbn [bind] in H. rewrite Dr in H. cbn [or_syntax bind] in H.
    assert (Fin : forall ms p', ts = render (JObj ((type_key, JStr (c :: u)) :: ms)) -> Forall (fun q => called type_key q = false) ms ->
      same W n t p p' ->
      match known_of J t with
      | KNone => aset_payload W J utf8_ok maxd fparse find_type strict n (d + 1) t (new_slots W t) ms = Ok p'
      | _ => exists v, ms = [(value_key, v)] /\ aset_json W J utf8_ok maxd fparse find_type strict n (d + 1) t (new_slots W t) v = Ok p'
      end -> (exists ms, ts = render (JObj ((type_key, JStr (c :: u)) :: ms)) /\ Forall (fun p => fst p <> type_key) ms) /\ forall r, any_parts W J find_type (aread_msg strict n (d + 1) false) (aread_msg strict n (d + 1) true) (dyn_encode W utf8_ok maxd n) (ts ++ r) = Ok ((c :: u, data), r)).
    { intros ms p' -> Fm Sp Hm. split; [exists ms; split; [reflexivity|]; eapply Forall_impl; [|exact Fm]; intros q Hq E; unfold called in Hq; apply (proj2 (eqb_bytes_eq _ _)) in E; congruence|]. intros r.
      pose proof (fun t m => tree_aread W J utf8_ok maxd fparse find_type strict (all_fields_ok W J HJ) (fun ty => proj1 (HA ty)) n (d + 1) t m) as A.
      rewrite (tree_parts W J find_type (aset_json W J utf8_ok maxd fparse find_type strict n (d + 1)) (aread_msg strict n (d + 1) false) (fun t m j r => proj1 (A t m) j r) (aset_payload W J utf8_ok maxd fparse find_type strict n (d + 1)) (aread_msg strict n (d + 1) true) (fun t m ps r => proj2 (proj2 (A t m)) ps r) (fun ty => proj1 (HA ty))).
      unfold parts_of.
      assert (L : last_called type_key ((type_key, JStr (c :: u)) :: ms) = Some (JStr (c :: u))).
      { clear - Fm. induction ms as [|q ms IH] using rev_ind; [reflexivity|]. change ((type_key, JStr (c :: u)) :: ms ++ [q]) with (((type_key, JStr (c :: u)) :: ms) ++ [q]). apply Forall_app in Fm. destruct Fm as [F1 F2]. inversion F2 as [|? ? F3 _]; subst. rewrite last_app, F3. apply IH. exact F1. }
      assert (S : all_strings ((type_key, JStr (c :: u)) :: ms) = true).
      { unfold all_strings. cbn [forallb snd is_string]. rewrite orb_true_r. cbn [andb]. apply forallb_forall. intros q Hq. rewrite Forall_forall in Fm. rewrite (Fm q Hq). reflexivity. }
      assert (F : filter (fun p => negb (called type_key p)) ((type_key, JStr (c :: u)) :: ms) = ms).
      { cbn [filter]. replace (called type_key (type_key, JStr (c :: u))) with true by reflexivity. cbn [negb]. clear - Fm. induction Fm as [|q ms Hq _ IH]; [reflexivity|]. cbn [filter]. rewrite Hq. cbn [negb]. f_equal. exact IH. }
      unfold all_strings in S. rewrite S, L, Ty, F. cbn [bind]. unfold leaving.
      assert (E : forall X, X = Ok p' -> (p0 <- X ;; data0 <- or_syntax (dyn_encode W utf8_ok maxd n t p0) ;;
          Ok (c :: u, data0)) = Ok (c :: u, data)).
      { intros X ->. cbn [bind]. rewrite <- (same_encode W utf8_ok maxd n n t p p' Sp), De. reflexivity. }
      rewrite E; [reflexivity|]. destruct (known_of J t); try exact Hm; destruct Hm as (v & -> & Hv); exact Hv. }
    assert (Known : known_of J t <> KNone -> (exists x, awrite_msg n (d + 1) false false false t p = Ok x /\ ts = (LBrace :: Str type_key :: Colon :: Str (c :: u) :: []) ++ Comma :: Str value_key :: Colon :: x ++ [RBrace]) ->
      (exists ms, ts = render (JObj ((type_key, JStr (c :: u)) :: ms)) /\ Forall (fun p => fst p <> type_key) ms) /\ forall r, any_parts W J find_type (aread_msg strict n (d + 1) false) (aread_msg strict n (d + 1) true) (dyn_encode W utf8_ok maxd n) (ts ++ r) = Ok ((c :: u, data), r)).
    { intros Kt (x & X & E). destruct (RT t p x Tp Pp X) as (Wr & Rd & _). unfold wrote in Wr. rewrite (proj1 (HA t) Kt) in Wr. destruct Wr as (j & -> & _). destruct (Rd []) as (p' & Rp & Sp). 
      rewrite (proj1 (tree_aread W J utf8_ok maxd fparse find_type strict (all_fields_ok W J HJ) (fun ty => proj1 (HA ty)) n (d + 1) t (new_slots W t)) j [] (proj1 (HA t) Kt)) in Rp.
      unfold leaving in Rp. destruct (aset_json W J utf8_ok maxd fparse find_type strict n (d + 1) t (new_slots W t) j) as [z| | | |] eqn:Z; try discriminate Rp. cbn [bind] in Rp. apply Ok_inj in Rp. injection Rp as ->.
      apply (Fin [(value_key, j)] p'); [rewrite E; reflexivity|constructor; [reflexivity|constructor]|exact Sp|]. destruct (known_of J t); try congruence; exists j; auto. }
    destruct (known_of J t) eqn:Kt; try (apply Known; [discriminate|]; destruct (awrite_msg n (d + 1) false false false t p) as [x| | | |] eqn:X; try discriminate H; cbn [bind] in H; apply Ok_inj in H; exists x; split; [reflexivity|symmetry; exact H]).
    destruct (awrite_msg n (d + 1) true true false t p) as [x| | | |] eqn:X; try discriminate H. cbn [bind] in H. apply Ok_inj in H. destruct (PB t p x (Sh eq_refl) Kt Tp Pp X) as (ms & Ex & Fm & p' & Sp & Sa).
    apply (Fin ms p'); [|exact Fm|exact Sa|exact Sp]. rewrite <- H, Ex, <- members_tokens. destruct ms as [|q ms]; [reflexivity|].
    change (render (JObj ((type_key, JStr (c :: u)) :: q :: ms))) with (LBrace :: (member (type_key, JStr (c :: u)) ++ Comma :: separated (map member (q :: ms))) ++ [RBrace]).
    assert (N : exists a b, separated (map member (q :: ms)) = a :: b) by (cbn [map separated]; destruct (map member ms); unfold member at 1; cbn [app]; eauto). destruct N as (a & b & ->). unfold member. cbn [render fst snd app]. reflexivity.
  Qed.
  Lemma any_back strict n d ty m ts : known_of J ty = KAny ->
    goes_back strict n (d + 1) ->
    (forall t p x, shallow W J t -> known_of J t = KNone -> typed W n t p -> aprintable n t p -> awrite_msg n (d + 1) true true false t p = Ok x ->
       exists ms, x = commas (map member ms) /\ Forall (fun q => called type_key q = false) ms /\ exists p', aset_payload W J utf8_ok maxd fparse find_type strict n (d + 1) t (new_slots W t) ms = Ok p' /\ same W n t p p') ->
    any_printable W J utf8_ok maxd find_type n (aprintable n) ty m ->
    write_any W J utf8_ok maxd find_type (awrite_msg n (d + 1) false false false) (awrite_msg n (d + 1) true true false) ty m = Ok ts ->
    shown_any ty m ts /\ forall r, exists m', read_any W J find_type (aread_msg strict n (d + 1) false) (aread_msg strict n (d + 1) true) (dyn_encode W utf8_ok maxd n) ty (new_slots W ty) (ts ++ r) = Ok (m', r) /\ same W (S n) ty m m'.
  Proof.
    intros K RT PB (f0 & l0 & f1 & l1 & url & data & Hw & H0 & H1 & V0 & V1 & Hd) H.
    assert (Sm : same W (S n) ty m (put (put (new_slots W ty) (l_slot l0) (l_ordinal l0, CBytes url)) (l_slot l1) (l_ordinal l1, CBytes data))) by (apply (any_same n ty m f0 l0 f1 l1); assumption).
    assert (Nu : url <> []) by (destruct Hd as (t & p & _ & Ty & _); exact (type_of_nonempty _ _ Ty)).
    unfold write_any in H. rewrite Hw in H. unfold bytes_at in H. rewrite V0, V1 in H. unfold nothing_at at 1 in H. unfold bytes_at in H. unfold has in H0. cbn [fst snd] in H0. rewrite V0, H0 in H. cbn [negb orb] in H. destruct url as [|c u]; [congruence|]. cbn [andb] in H.
    destruct (parts_back strict n d _ _ ts RT PB Hd H) as [(ms & E & Fm) R]. split; [exists f0, l0, [(f1, l1)], (c :: u), ms; auto|].
    intros r. eexists. split; [|exact Sm]. unfold read_any. rewrite R. cbn [bind fst snd]. rewrite Hw. reflexivity.
  Qed.

  Lemma amsg_back strict n : forall d, goes_back strict n d.
  Proof.
    induction n as [n IHn] using (well_founded_induction lt_wf). intros d ty m ts Ht Hp H. destruct n as [|n]; [discriminate H|].
    assert (IH : forall d, goes_back strict n d) by (apply IHn; lia).
    assert (B : known_of J ty <> KAny -> printable_body W J utf8_ok fshow fparse (aprintable n) ty m -> write_body W J le fshow (awrite_msg n (d + 1) false false) false ty m = Ok ts ->
      wrote W J ty ts /\ (forall r, exists m', read_body W J utf8_ok fparse strict (aread_msg strict n (d + 1) false) ty (new_slots W ty) (ts ++ r) = Ok (m', r) /\ same W (S n) ty m m') /\
      (known_of J ty = KValue -> forall r, w_fields (wty W ty) <> [] /\ read_body W J utf8_ok fparse strict (aread_msg strict n (d + 1) false) ty (new_slots W ty) (TNull :: r) = Ok (null_value W ty, r))).
    { intros _ Hb Hw. apply (body_back W J utf8_ok le fshow fparse HW HJ strict n (aprintable n) (awrite_msg n (d + 1) false false) (aread_msg strict n (d + 1) false)); auto; [exact (IH (d + 1))|exact (any_value n)]. }
    cbn [DynAny.awrite_msg DynAny.aread_msg DynAnySpec.aprintable] in *. destruct (scope_ok maxd d); [|discriminate H]. unfold read_body in B |- *. unfold write_body in B, H.
    destruct (w_entry (wty W ty)) eqn:En.
    - assert (K : known_of J ty = KNone) by (destruct (known_of J ty) eqn:K; [reflexivity|..]; rewrite (proj1 (HA ty)) in En by congruence; discriminate En). rewrite K in Hp. apply B; [congruence|exact Hp|exact H].
    - cbn [andb negb] in H. destruct (known_of J ty) eqn:K; try (apply B; [discriminate|exact Hp|exact H]).
      destruct (any_back strict n d ty m ts K (IH (d + 1))) as [A R]; auto.
      + destruct n as [|n]; [intros t p x _ _ Tp; destruct Tp|]. intros t p x Sh Kt Tp Pp X. apply (payload_back strict n (d + 1) t p x); auto.
      + split; [|split; [exact R|congruence]]. unfold wrote. rewrite En. destruct A as (? & ? & ? & url & ms & _ & _ & -> & _). eexists. split; [reflexivity|]. split; [discriminate|]. split; congruence.
  Qed.
  (** ** Consequences *)
  Lemma any_document n ty m ts : typed W n ty m -> aprintable n ty m -> w_entry (wty W ty) = false -> awrite_json W J utf8_ok le maxd fshow find_type n ty m = Ok ts -> exists j, ts = render j.
  Proof. intros Ht Hp He H. destruct (amsg_back true n 0 ty m ts Ht Hp H) as (Wr & _). unfold wrote in Wr. rewrite He in Wr. destruct Wr as (j & -> & _). eauto. Qed.
  Lemma any_shown n ty m ts : typed W n ty m -> aprintable n ty m -> known_of J ty = KAny -> awrite_json W J utf8_ok le maxd fshow find_type n ty m = Ok ts -> shown_any ty m ts.
  Proof.
    intros Ht Hp K H. destruct n as [|n]; [discriminate H|]. unfold awrite_json in H. cbn [DynAny.awrite_msg DynAnySpec.aprintable] in *. rewrite K in *. destruct (scope_ok maxd 0); [|discriminate H]. rewrite (proj1 (HA ty)) in H by congruence. cbn [andb] in H.
    apply (any_back true n 0 ty m ts K (amsg_back true n (0 + 1))); auto. destruct n as [|n]; [intros t p x _ _ Tp; destruct Tp|]. intros t p x Sh Kt Tp Pp X. apply (payload_back true n (0 + 1) t p x); auto. apply amsg_back.
  Qed.
  Lemma any_round_trip strict n ty m ts : typed W n ty m -> aprintable n ty m -> awrite_json W J utf8_ok le maxd fshow find_type n ty m = Ok ts ->
    exists m', aread_json W J utf8_ok maxd fparse find_type strict n ty (new_slots W ty) ts = Ok m' /\ same W n ty m m' /\ forall u md k, dyn_encode W u md k ty m' = dyn_encode W u md k ty m.
  Proof.
    intros Ht Hp H. destruct (amsg_back strict n 0 ty m ts Ht Hp H) as (_ & R & _). destruct (R []) as (m' & E & S). rewrite app_nil_r in E. exists m'. split; [unfold aread_json; rewrite E; reflexivity|]. split; [exact S|]. intros u md k. symmetry. apply (same_encode W u md n k ty m m' S).
  Qed.
  Lemma any_document_read strict n ty m j : w_entry (wty W ty) = false -> aread_json W J utf8_ok maxd fparse find_type strict n ty m (render j) = aset_json W J utf8_ok maxd fparse find_type strict n 0 ty m j.
  Proof.
    intros He. pose proof (proj1 (tree_aread W J utf8_ok maxd fparse find_type strict (all_fields_ok W J HJ) (fun ty => proj1 (HA ty)) n 0 ty m) j [] He) as T. rewrite app_nil_r in T. unfold aread_json. rewrite T. unfold leaving. destruct (aset_json _ _ _ _ _ _ _ _ _ _ _ _); reflexivity.
  Qed.
  Lemma any_nothing_follows strict n ty m j r : w_entry (wty W ty) = false -> r <> [] -> forall m', aread_json W J utf8_ok maxd fparse find_type strict n ty m (render j ++ r) <> Ok m'.
  Proof.
    intros He Hr m'. pose proof (proj1 (tree_aread W J utf8_ok maxd fparse find_type strict (all_fields_ok W J HJ) (fun ty => proj1 (HA ty)) n 0 ty m) j r He) as T. unfold aread_json. rewrite T. unfold leaving. destruct (aset_json _ _ _ _ _ _ _ _ _ _ _ _); cbn; try discriminate. destruct r; [congruence|discriminate].
  Qed.
  (** Where "@type" stands *)
  Lemma last_middle key p ps qs : called key p = true -> Forall (fun q => called key q = false) qs -> last_called key (ps ++ p :: qs) = Some (snd p).
  Proof.
    intros Hp. induction qs as [|q qs IH] using rev_ind; intros F; [rewrite last_app, Hp; reflexivity|]. apply Forall_app in F. destruct F as [F1 F2]. inversion F2; subst. rewrite app_comm_cons, app_assoc, last_app. replace (called key q) with false by congruence. apply IH. exact F1.
  Qed.
  Lemma last_skip key p ps qs : called key p = false -> last_called key (ps ++ p :: qs) = last_called key (ps ++ qs).
  Proof.
    intros Hp. induction qs as [|q qs IH] using rev_ind; [rewrite last_app, Hp, app_nil_r; reflexivity|]. rewrite app_comm_cons, !app_assoc, !last_app. destruct (called key q); [reflexivity|exact IH].
  Qed.
  Lemma parts_anywhere sub payload encode url ps qs : Forall (fun p => fst p <> type_key) (ps ++ qs) ->
    parts_of W J find_type sub payload encode (JObj (ps ++ (type_key, JStr url) :: qs)) = parts_of W J find_type sub payload encode (JObj ((type_key, JStr url) :: ps ++ qs)).
  Proof.
    intros F. assert (F' : Forall (fun q => called type_key q = false) (ps ++ qs)). { eapply Forall_impl; [|exact F]. intros q Hq. unfold called. destruct (eqb_bytes (fst q) type_key) eqn:E; [|reflexivity]. apply eqb_bytes_eq in E. contradiction. }
    pose proof (proj1 (Forall_app _ ps qs) F') as [F1 F2]. unfold parts_of.
    rewrite (last_middle type_key (type_key, JStr url) ps qs eq_refl F2). change (last_called type_key ((type_key, JStr url) :: ps ++ qs)) with (last_called type_key ([] ++ (type_key, JStr url) :: ps ++ qs)). change (last_called value_key ((type_key, JStr url) :: ps ++ qs)) with (last_called value_key ([] ++ (type_key, JStr url) :: ps ++ qs)). rewrite (last_middle type_key (type_key, JStr url) [] (ps ++ qs) eq_refl F'). rewrite (last_skip value_key (type_key, JStr url) ps qs eq_refl). rewrite (last_skip value_key (type_key, JStr url) [] (ps ++ qs) eq_refl).
    rewrite !forallb_app, !filter_app. cbn [forallb filter app snd is_string]. rewrite !forallb_app, !filter_app, orb_true_r. replace (called type_key (type_key, JStr url)) with true by reflexivity. cbn [negb orb andb app]. reflexivity.
  Qed.
  Lemma any_type_anywhere strict n ty m url ps qs : known_of J ty = KAny -> Forall (fun p => fst p <> type_key) (ps ++ qs) ->
    aread_json W J utf8_ok maxd fparse find_type strict n ty m (render (JObj (ps ++ (type_key, JStr url) :: qs))) =
    aread_json W J utf8_ok maxd fparse find_type strict n ty m (render (JObj ((type_key, JStr url) :: ps ++ qs))).
  Proof.
    intros K F. assert (He : w_entry (wty W ty) = false) by (apply (proj1 (HA ty)); congruence). rewrite !any_document_read by exact He. destruct n as [|n]; [reflexivity|]. cbn [aset_json]. rewrite K. destruct (scope_ok maxd 0); [|reflexivity].
    unfold set_any. rewrite parts_anywhere by exact F. reflexivity.
  Qed.
  (** ** What cannot be written *)
  Lemma object_refused plain within url data : (forall t, type_of find_type url <> Ok t) \/ (exists t e, type_of find_type url = Ok t /\ dyn_read W utf8_ok maxd t data = Err e) ->
    any_object W J utf8_ok maxd find_type plain within url data = Err BadMessage.
  Proof.
    unfold any_object. intros [N|(t & e & -> & R)]; [|cbn [bind]; rewrite R; reflexivity]. unfold type_of in *. destruct (after_slash url) as [name|]; [|reflexivity]. destruct (find_type name) as [t|]; [destruct (N t eq_refl)|reflexivity].
  Qed.
  Lemma any_refused n ty m f0 l0 f1 l1 url data : known_of J ty = KAny -> w_fields (wty W ty) = [(f0, l0); (f1, l1)] -> value (dyn_of f0) l0 (slot_at m l0) = FBytes url -> value (dyn_of f1) l1 (slot_at m l1) = FBytes data ->
    has (f0, l0) m = true -> url <> [] \/ data <> [] /\ has (f1, l1) m = true -> 0 <= maxd ->
    (forall t, type_of find_type url <> Ok t) \/ (exists t e, type_of find_type url = Ok t /\ dyn_read W utf8_ok maxd t data = Err e) ->
    awrite_json W J utf8_ok le maxd fshow find_type (S n) ty m = Err BadMessage.
  Proof.
    intros K Hw V0 V1 H0 N D R. unfold awrite_json. cbn [DynAny.awrite_msg]. rewrite (proj1 (HA ty)) by congruence. cbn [andb]. rewrite K. assert (S : scope_ok maxd 0 = true) by (unfold scope_ok; lia). rewrite S. unfold write_any. rewrite Hw. unfold nothing_at, bytes_at. unfold has in *. cbn [fst snd] in *. rewrite V0, V1, H0.
    assert (X : (negb true || match url with [] => true | _ => false end) && (negb (has_value (dyn_of f1) l1 (slot_at m l1)) || match data with [] => true | _ => false end) = false) by (destruct N as [N|[N H1]]; [destruct url; [congruence|reflexivity]|rewrite H1; destruct data; [congruence|apply andb_false_r]]).
    rewrite X. apply object_refused. exact R.
  Qed.
  (** ** Writing is defined *)
  Lemma object_settled n d q0 url data : (forall k d q ty m, (k <= n)%nat -> typed W k ty m -> aprintable k ty m -> settled (awrite_msg k d false false q ty m)) ->
    held W J utf8_ok maxd find_type n (aprintable n) url data -> settled (any_object W J utf8_ok maxd find_type (awrite_msg n d false false q0) (awrite_msg n d true true q0) url data).
  Proof.
    intros IH (t & p & Hu & Ty & Dr & De & Tp & Pp & Sh). unfold any_object. rewrite Ty. cbn [bind]. rewrite Dr. cbn [or_syntax bind]. cbv zeta.
    destruct (known_of J t) eqn:Kt; try (apply settled_bind; [exact (IH n d q0 t p (le_n n) Tp Pp)|intros; exact I]).
    apply settled_bind; [|intros; exact I]. destruct n as [|n]; [destruct Tp|]. destruct (Sh eq_refl) as (En' & Nk & Fl). cbn [DynAny.awrite_msg DynAnySpec.aprintable] in Pp |- *. rewrite Kt in Pp. unfold printable_body in Pp. rewrite En', Kt in Pp. rewrite andb_false_r, Kt. destruct (scope_ok maxd d); [|exact I].
    rewrite (write_members_ext W le fshow (awrite_msg n (d + 1) false true) (awrite_msg n (d + 1) false false)) by (intros jf f l t0 d0 Hi E q1 m0; apply brackets_kept; apply (Fl f l t0 d0); [apply (jfield_in W J HJ _ _ _ _ Hi)|exact E]).
    apply settled_bind; [|intros; exact I]. assert (R : forall q ty m, typed W n ty m -> aprintable n ty m -> settled (awrite_msg n (d + 1) false false q ty m)) by (intros; apply IH; [lia|assumption|assumption]).
    exact (proj1 (settled_members W J utf8_ok le fshow fparse HJ n (aprintable n) (awrite_msg n (d + 1) false false) R q0 t p (jfields W J t) true (fun x H => H) Tp Pp)).
  Qed.
  Lemma awrite_settled n : forall d q ty m, typed W n ty m -> aprintable n ty m -> settled (awrite_msg n d false false q ty m).
  Proof.
    induction n as [n IHn] using (well_founded_induction lt_wf). intros d q ty m Ht Hp. destruct n as [|n]; [destruct Ht|].
    assert (IH : forall q ty m, typed W n ty m -> aprintable n ty m -> settled (awrite_msg n (d + 1) false false q ty m)) by (intros; apply IHn; [lia|assumption|assumption]).
    cbn [DynAny.awrite_msg DynAnySpec.aprintable] in *. destruct (scope_ok maxd d); [|exact I].
    assert (B : printable_body W J utf8_ok fshow fparse (aprintable n) ty m -> settled (write_body W J le fshow (awrite_msg n (d + 1) false false) q ty m)) by (intros Hb; apply (settled_body W J utf8_ok le fshow fparse HJ n (aprintable n)); auto).
    pose proof B as B'. unfold write_body in B. destruct (w_entry (wty W ty)) eqn:En.
    { assert (K : known_of J ty = KNone) by (destruct (known_of J ty) eqn:K; [reflexivity|..]; rewrite (proj1 (HA ty)) in En by congruence; discriminate En). rewrite K in Hp. apply B. exact Hp. }
    cbn [andb]. destruct (known_of J ty) eqn:K; try (apply B'; exact Hp); try (apply B; exact Hp).
    destruct Hp as (f0 & l0 & f1 & l1 & url & data & Hw & H0 & H1 & V0 & V1 & Hh). unfold write_any. rewrite Hw. destruct (_ && _); [exact I|]. unfold bytes_at. rewrite V0, V1. apply object_settled; [|exact Hh]. intros. apply IHn; [lia|assumption|assumption].
  Qed.
End Back.
