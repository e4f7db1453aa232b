(** Consequences of the proofs about the JSON of dynamic messages, for PropertiesDynJson.v. *)
Require Import Verif.Bits Verif.Varint.
Require Import Verif.DynSlots Verif.Dyn Verif.Schema Verif.Archive Verif.Decode Verif.Encode Verif.DynWire Verif.DynDecode Verif.DynView Verif.DynEncode1 Verif.DynDecode1 Verif.DynEncode3.
Require Import Verif.DynJson Verif.DynJsonSpec Verif.DynJson1 Verif.DynJson2 Verif.DynJson3 Verif.DynJson4 Verif.DynJson5 Verif.DynJsonTree Verif.DynJson6 Verif.DynJsonSafe.

Section Cor.
  Context (W : list wtype) (J : list jtype) (utf8_ok : bytes -> bool) (le : bool) (maxd : Z) (fshow : bool -> Z -> bytes) (fparse : bool -> bytes -> option Z).
  Hypothesis HW : wtypes_ok W.
  Hypothesis HJ : jtypes_ok W J.

  Lemma all_fields_ok : forall ty, fields_ok W J ty.
  Proof. intros ty x Hx. destruct (HJ ty) as (_ & _ & F & _). rewrite Forall_forall in F. destruct (F x Hx) as (_ & _ & K). exact K. Qed.

  (** Writing *)
  Lemma document_written n ty m ts : typed W n ty m -> printable W J utf8_ok fshow fparse n ty m -> w_entry (wty W ty) = false ->
    write_json W J le maxd fshow n ty m = Ok ts -> exists j, ts = render j.
  Proof. intros Ht Hp He H. destruct (msg_back W J utf8_ok le maxd fshow fparse HW HJ true n 0 ty m ts Ht Hp H) as (Wr & _). unfold wrote in Wr. rewrite He in Wr. destruct Wr as (j & -> & _). eauto. Qed.
  Lemma object_written n ty m ts : typed W n ty m -> printable W J utf8_ok fshow fparse n ty m -> w_entry (wty W ty) = false -> known_of J ty = KNone ->
    write_json W J le maxd fshow n ty m = Ok ts ->
    exists ms, ts = render (JObj ms) /\ map fst ms = map (fun x => j_json (fst x)) (filter (fun x => has (snd x) m) (jfields W J ty)).
  Proof.
    intros Ht Hp He Hk H. destruct n as [|n]; [discriminate H|]. unfold write_json in H. cbn [write_msg printable] in *. unfold printable_body in Hp. rewrite He, Hk in Hp. destruct (scope_ok maxd 0); [|discriminate H]. unfold write_body in H. rewrite He, Hk in H.
    destruct (write_members W le fshow _ false true (jfields W J ty) m) as [x| | | |] eqn:X; try discriminate H. cbn [bind] in H. apply Ok_inj in H.
    destruct (members_back W J utf8_ok le fshow fparse HW HJ true n (printable W J utf8_ok fshow fparse n) (write_msg W J le maxd fshow n (0 + 1)) (read_msg W J utf8_ok maxd fparse true n (0 + 1)) (fun ty0 m0 ts0 => msg_back W J utf8_ok le maxd fshow fparse HW HJ true n (0 + 1) ty0 m0 ts0) ty m Ht Hp (jfields W J ty) [] [] (new_slots W ty) true x eq_refl) as [(ms & Em & Ms) _]; auto; [apply inv_new|intros z []|].
    exists ms. split; [subst ts x; reflexivity|exact Em].
  Qed.
  Lemma round_trip strict n ty m ts : typed W n ty m -> printable W J utf8_ok fshow fparse n ty m -> write_json W J le maxd fshow n ty m = Ok ts ->
    exists m', read_json W J utf8_ok maxd fparse strict n ty (new_slots W ty) ts = Ok m' /\ same W n ty m m' /\ forall u md k, dyn_encode W u md k ty m' = dyn_encode W u md k ty m.
  Proof.
    intros Ht Hp H. destruct (msg_back W J utf8_ok le maxd fshow fparse HW HJ strict n 0 ty m ts Ht Hp H) as (_ & R & _). destruct (R []) as (m' & E & S). rewrite app_nil_r in E. exists m'. split; [unfold read_json; rewrite E; reflexivity|]. split; [exact S|]. intros u md k. symmetry. apply (same_encode W u md n k ty m m' S).
  Qed.

End Cor.

Section Read.
  Context (W : list wtype) (J : list jtype) (utf8_ok : bytes -> bool) (maxd : Z) (fparse : bool -> bytes -> option Z).
  Hypothesis HW : wtypes_ok W.
  Hypothesis HJ : jtypes_ok W J.
  Notation all_fields_ok := (all_fields_ok W J HJ).

  (** Reading *)
  Lemma document_read strict n ty m j : w_entry (wty W ty) = false ->
    read_json W J utf8_ok maxd fparse strict n ty m (render j) = set_json W J utf8_ok maxd fparse strict n 0 ty m j.
  Proof.
    intros He. destruct (tree_read W J utf8_ok maxd fparse strict all_fields_ok n 0 ty m) as [T _]. specialize (T j [] He). rewrite app_nil_r in T. unfold read_json. rewrite T. unfold leaving. destruct (set_json W J utf8_ok maxd fparse strict n 0 ty m j); reflexivity.
  Qed.
  Lemma document_rest strict n ty m j r : w_entry (wty W ty) = false -> r <> [] -> forall m', read_json W J utf8_ok maxd fparse strict n ty m (render j ++ r) <> Ok m'.
  Proof.
    intros He Hr m'. destruct (tree_read W J utf8_ok maxd fparse strict all_fields_ok n 0 ty m) as [T _]. specialize (T j r He). unfold read_json. rewrite T. unfold leaving. destruct (set_json W J utf8_ok maxd fparse strict n 0 ty m j); cbn [bind]; try discriminate. destruct r; [congruence|discriminate].
  Qed.
  (** Messages without a form of their own *)
  Lemma object_read strict n ty m ps : w_entry (wty W ty) = false -> known_of J ty = KNone ->
    read_json W J utf8_ok maxd fparse strict (S n) ty m (render (JObj ps)) =
    if scope_ok maxd 0 then in_turn (set_member W J utf8_ok fparse strict (set_json W J utf8_ok maxd fparse strict n 1) (set_pair W J utf8_ok maxd fparse strict n 1) ty) m ps else Err TooLarge.
  Proof. intros He Hk. rewrite document_read by exact He. cbn [set_json]. unfold set_body. rewrite Hk. reflexivity. Qed.
  Lemma in_turn_app {A S} (f : S -> A -> res S) l1 : forall s l2, in_turn f s (l1 ++ l2) = (s1 <- in_turn f s l1 ;; in_turn f s1 l2).
  Proof. induction l1 as [|a l1 IH]; intros s l2; cbn [in_turn app bind]; [reflexivity|]. destruct (f s a); cbn [bind]; try reflexivity. apply IH. Qed.
  Lemma members_in_turn strict n ty m ps qs : w_entry (wty W ty) = false -> known_of J ty = KNone ->
    read_json W J utf8_ok maxd fparse strict n ty m (render (JObj (ps ++ qs))) =
    (m1 <- read_json W J utf8_ok maxd fparse strict n ty m (render (JObj ps)) ;; read_json W J utf8_ok maxd fparse strict n ty m1 (render (JObj qs))).
  Proof.
    intros He Hk. destruct n as [|n]; [rewrite !document_read by exact He; reflexivity|]. rewrite !object_read by assumption. destruct (scope_ok maxd 0) eqn:Sc; [|reflexivity]. rewrite in_turn_app. destruct (in_turn (set_member W J utf8_ok fparse strict (set_json W J utf8_ok maxd fparse strict n 1) (set_pair W J utf8_ok maxd fparse strict n 1) ty) m ps) as [m1| | | |]; cbn [bind]; try reflexivity. rewrite object_read by assumption. rewrite Sc. reflexivity.
  Qed.
  Lemma unnamed_none ty key : ~ In key (map j_json (jt_fields (jty J ty))) -> ~ In key (map j_name (jt_fields (jty J ty))) -> find_field W J ty key = None.
  Proof.
    intros H1 H2. unfold find_field. assert (K : forall p : jfield -> bytes, ~ In key (map p (jt_fields (jty J ty))) -> find (fun x : jfield * (wfield * layout) => eqb_bytes (p (fst x)) key) (jfields W J ty) = None).
    { intros p Hp. destruct (find _ _) as [x|] eqn:E; [|reflexivity]. apply find_some in E. destruct E as [Ei Ee]. apply eqb_bytes_eq in Ee. exfalso. apply Hp. rewrite <- Ee. apply in_map. unfold jfields in Ei. destruct x. apply in_combine_l in Ei. exact Ei. }
    rewrite (K j_json H1). apply (K j_name H2).
  Qed.
  Lemma unknown_member (strict : bool) n ty m ps key j qs : w_entry (wty W ty) = false -> known_of J ty = KNone ->
    ~ In key (map j_json (jt_fields (jty J ty))) -> ~ In key (map j_name (jt_fields (jty J ty))) ->
    if strict then forall m', read_json W J utf8_ok maxd fparse strict n ty m (render (JObj (ps ++ (key, j) :: qs))) <> Ok m'
    else read_json W J utf8_ok maxd fparse strict n ty m (render (JObj (ps ++ (key, j) :: qs))) = read_json W J utf8_ok maxd fparse strict n ty m (render (JObj (ps ++ qs))).
  Proof.
    intros He Hk H1 H2. pose proof (unnamed_none ty key H1 H2) as Hn. destruct n as [|n]; [rewrite !document_read by exact He; destruct strict; [discriminate|reflexivity]|]. rewrite !object_read by assumption.
    destruct (scope_ok maxd 0); [|destruct strict; [discriminate|reflexivity]]. rewrite !in_turn_app.
    destruct (in_turn (set_member W J utf8_ok fparse strict (set_json W J utf8_ok maxd fparse strict n 1) (set_pair W J utf8_ok maxd fparse strict n 1) ty) m ps) as [m1| | | |]; cbn [bind in_turn]; try (destruct strict; [discriminate|reflexivity]).
    match goal with |- context [set_member ?a ?b ?c ?d ?e ?f ?g ty m1 (key, j)] => assert (Em : set_member a b c d e f g ty m1 (key, j) = if strict then Err BadMessage else Ok m1) by (unfold set_member; cbn [fst]; rewrite Hn; reflexivity) end.
    rewrite Em. destruct strict; [discriminate|reflexivity].
  Qed.
  Lemma found_json ty x : In x (jfields W J ty) -> find_field W J ty (j_json (fst x)) = Some x.
  Proof. destruct x as [jf [f l]]. apply find_own; assumption. Qed.
  Lemma found_name ty x : NoDup (map j_name (jt_fields (jty J ty))) -> ~ In (j_name (fst x)) (remove (list_eq_dec Z.eq_dec) (j_json (fst x)) (map j_json (jt_fields (jty J ty)))) -> In x (jfields W J ty) -> find_field W J ty (j_name (fst x)) = Some x.
  Proof.
    intros Nd Hn Hx. unfold find_field. destruct (find (fun y => eqb_bytes (j_json (fst y)) (j_name (fst x))) (jfields W J ty)) as [y|] eqn:E.
    - apply find_some in E. destruct E as [Ei Ee]. apply eqb_bytes_eq in Ee. destruct (list_eq_dec Z.eq_dec (j_name (fst x)) (j_json (fst x))) as [Eq|Ne].
      + rewrite Eq in Ee. pose proof (found_json ty x Hx) as F. pose proof (found_json ty y Ei) as G. rewrite Ee in G. congruence.
      + exfalso. apply Hn. apply in_in_remove; [exact Ne|]. rewrite <- Ee. apply in_map. unfold jfields in Ei. destruct y. apply in_combine_l in Ei. exact Ei.
    - assert (K : forall fs (js : list jfield), NoDup (map j_name js) -> In x (combine js fs) -> find (fun y : jfield * (wfield * layout) => eqb_bytes (j_name (fst y)) (j_name (fst x))) (combine js fs) = Some x).
      { clear. induction fs as [|g fs IH]; intros [|b js] Nd H; try destruct H.
        - cbn [combine find]. subst x. cbn [fst]. rewrite eqb_bytes_refl. reflexivity.
        - cbn [combine find fst]. inversion Nd as [|? ? N1 N2]; subst. destruct (eqb_bytes (j_name b) (j_name (fst x))) eqn:Eb; [|apply IH; assumption]. apply eqb_bytes_eq in Eb. exfalso. apply N1. rewrite Eb. apply in_map. destruct x. apply in_combine_l in H. exact H. }
      apply K; assumption.
  Qed.
  Lemma either_name strict n ty m x ps j qs : w_entry (wty W ty) = false -> known_of J ty = KNone -> In x (jfields W J ty) -> NoDup (map j_name (jt_fields (jty J ty))) ->
    ~ In (j_name (fst x)) (remove (list_eq_dec Z.eq_dec) (j_json (fst x)) (map j_json (jt_fields (jty J ty)))) ->
    read_json W J utf8_ok maxd fparse strict n ty m (render (JObj (ps ++ (j_name (fst x), j) :: qs))) =
    read_json W J utf8_ok maxd fparse strict n ty m (render (JObj (ps ++ (j_json (fst x), j) :: qs))).
  Proof.
    intros He Hk Hx Nd Hn. destruct n as [|n]; [rewrite !document_read by exact He; reflexivity|]. rewrite !object_read by assumption. destruct (scope_ok maxd 0); [|reflexivity]. rewrite !in_turn_app. destruct (in_turn (set_member W J utf8_ok fparse strict (set_json W J utf8_ok maxd fparse strict n 1) (set_pair W J utf8_ok maxd fparse strict n 1) ty) m ps) as [m1| | | |]; cbn [bind]; try reflexivity. cbn [in_turn]. replace (set_member W J utf8_ok fparse strict (set_json W J utf8_ok maxd fparse strict n 1) (set_pair W J utf8_ok maxd fparse strict n 1) ty m1 (j_name (fst x), j)) with (set_member W J utf8_ok fparse strict (set_json W J utf8_ok maxd fparse strict n 1) (set_pair W J utf8_ok maxd fparse strict n 1) ty m1 (j_json (fst x), j)); [reflexivity|]. unfold set_member. cbn [fst snd]. rewrite (found_json ty x Hx), (found_name ty x Nd Hn Hx). reflexivity.
  Qed.

  (** Null *)
  Lemma null_member strict n ty m jf f l : w_entry (wty W ty) = false -> known_of J ty = KNone -> In (jf, (f, l)) (jfields W J ty) -> scope_ok maxd 0 = true -> length m = w_slots (wty W ty) ->
    (forall te d, w_elem f = EMsg te d -> known_of J te <> KValue) ->
    exists m', read_json W J utf8_ok maxd fparse strict (S n) ty m (render (JObj [(j_json jf, JNull)])) = Ok m' /\
      has (f, l) m' = false /\ (forall g k, l_slot k <> l_slot l -> slot_at m' k = slot_at m k /\ has (g, k) m' = has (g, k) m).
  Proof.
    intros He Hk Hx Sc L Nv. rewrite object_read by assumption. rewrite Sc. cbn [in_turn]. unfold set_member. cbn [fst snd]. rewrite (find_own W J HJ ty jf f l Hx). cbn [set_field].
    replace (set_null W J f l (slot_at m l)) with (Ok (clear_slot (slot_at m l))) by (unfold set_null; destruct (w_elem f) eqn:E; try reflexivity; specialize (Nv _ _ eq_refl); destruct (known_of J ty0); try reflexivity; congruence).
    cbn [bind in_turn]. eexists. split; [reflexivity|]. pose proof (jfield_in W J HJ _ _ _ _ Hx) as Hf. pose proof (field_in W HW _ _ _ Hf) as (_ & _ & Hl & _). cbn [snd] in Hl. split.
    - unfold has. cbn [fst snd]. unfold slot_at. rewrite put_same by lia. apply (zero_absent W HW ty f l _ Hf). reflexivity.
    - intros g k Hk'. assert (E : slot_at (put m (l_slot l) (clear_slot (slot_at m l))) k = slot_at m k) by (unfold slot_at; apply put_other; congruence). split; [exact E|]. unfold has. cbn [fst snd]. rewrite E. reflexivity.
  Qed.
  Lemma null_value_member strict n ty m jf f l te d : w_entry (wty W ty) = false -> known_of J ty = KNone -> In (jf, (f, l)) (jfields W J ty) -> scope_ok maxd 0 = true -> length m = w_slots (wty W ty) ->
    w_elem f = EMsg te d -> w_rep f = None -> known_of J te = KValue ->
    exists m' v f0 l0, read_json W J utf8_ok maxd fparse strict (S n) ty m (render (JObj [(j_json jf, JNull)])) = Ok m' /\
      has (f, l) m' = true /\ value (dyn_of f) l (slot_at m' l) = FMsg v /\
      hd_error (w_fields (wty W te)) = Some (f0, l0) /\ has (f0, l0) v = true /\ (forall k, l_slot k <> l_slot l -> slot_at m' k = slot_at m k).
  Proof.
    intros He Hk Hx Sc L Ef Rf Kv. rewrite object_read by assumption. rewrite Sc. cbn [in_turn]. unfold set_member. cbn [fst snd]. rewrite (find_own W J HJ ty jf f l Hx). cbn [set_field].
    destruct (value_first W J HJ te Kv) as (f0 & l0 & c & H0 & E0 & R0 & Hd & _). unfold set_null. rewrite Ef, Kv. unfold is_rep. rewrite Rf. destruct (w_fields (wty W te)) as [|[g0 k0] t] eqn:Hw; [destruct H0|]. cbn [hd_error] in Hd. injection Hd as -> ->.
    cbn [bind in_turn]. pose proof (jfield_in W J HJ _ _ _ _ Hx) as Hf. pose proof (field_in W HW _ _ _ Hf) as (_ & _ & Hl & Ho). cbn [fst snd] in Hl, Ho.
    assert (H0' : In (f0, l0) (w_fields (wty W te))) by (rewrite Hw; left; reflexivity). pose proof (field_in W HW _ _ _ H0') as (_ & _ & Hl0 & Ho0). cbn [fst snd] in Hl0, Ho0.
    eexists. exists (put (new_slots W te) (l_slot l0) (l_ordinal l0, CInt 0)), f0, l0. split; [reflexivity|].
    assert (Hh : has (f, l) (put m (l_slot l) (l_ordinal l, CMsg (put (new_slots W te) (l_slot l0) (l_ordinal l0, CInt 0)))) = true).
    { unfold has. cbn [fst snd]. unfold slot_at. rewrite put_same by lia. rewrite single_word by exact Rf. cbn [fst]. apply Z.eqb_refl. }
    split; [exact Hh|]. split; [|split; [reflexivity|split]].
    - revert Hh. unfold has. cbn [fst snd]. unfold slot_at. rewrite put_same by lia. intros Hh. unfold value. rewrite Hh. unfold dyn_of, is_rep. cbn [y_kind snd]. rewrite Rf, Ef. reflexivity.
    - unfold has. cbn [fst snd]. unfold slot_at. rewrite put_same by (unfold new_slots; rewrite repeat_length; exact Hl0). rewrite single_word by exact R0. cbn [fst]. apply Z.eqb_refl.
    - intros k Hk'. unfold slot_at. apply put_other. congruence.
  Qed.

  (** Safety *)
  Lemma read_defined strict n ty m ts : enums_fit J -> floats_fit fparse -> maxd + 2 <= Z.of_nat n -> 0 < Z.of_nat n -> sound W n ty m -> quiet W J ts -> calm J ty ts ->
    match read_json W J utf8_ok maxd fparse strict n ty m ts with Ok m' => sound W n ty m' | Err _ => True | _ => False end.
  Proof.
    intros HE HF L L0 Hm Q C. pose proof (read_fine W J utf8_ok maxd fparse strict HW HJ HE HF (nulls_ok W J) (fun H => H) n 0 ty m ts ltac:(lia) L0 Hm Q C) as F. unfold read_json. unfold fine in F. destruct (read_msg W J utf8_ok maxd fparse strict n 0 ty m ts) as [[v r]| | | |]; try exact F. cbn [bind]. destruct r; [apply F|exact I].
  Qed.
End Read.
