(** The decoder of dynamic messages reads what that of generated messages reads. *)
Require Import Verif.Bits Verif.Varint Verif.DynSlots Verif.Dyn Verif.Schema Verif.Archive Verif.Decode Verif.Encode Verif.DynWire.
Require Import Verif.DynSlotsProofs Verif.DecodeSafe Verif.WellTyped Verif.DynView Verif.DynEncode1 Verif.DynDecode Verif.DynDecode1 Verif.DynAgree.

(** ** Outcomes *)
(** [d] succeeds when [g] does, with a related result, and fails when [g] fails. *)
Definition simr {X Y} (R : X -> Y -> Prop) (d : res X) (g : res Y) : Prop :=
  match g with Ok y => exists x, d = Ok x /\ R x y | Err _ => exists e, d = Err e | _ => True end.
Lemma simr_bind {X Y X' Y'} (R : X -> Y -> Prop) (Q : X' -> Y' -> Prop) d g k k' :
  simr R d g -> (forall x y, R x y -> simr Q (k x) (k' y)) -> simr Q (bind d k) (bind g k').
Proof. destruct g; cbn; try exact (fun _ _ => I); [intros (x' & -> & H) K; cbn; auto|intros [e' ->] _; cbn; eauto]. Qed.
Lemma simr_weaken {X Y} (R Q : X -> Y -> Prop) d g : simr R d g -> (forall x y, R x y -> Q x y) -> simr Q d g.
Proof. destruct g; cbn; auto. intros (x' & -> & H) K. eauto. Qed.
Lemma simr_oe {X Y} (R : X -> Y -> Prop) P d g : simr R d g -> oe P g -> simr (fun x y => R x y /\ P y) d g.
Proof. destruct g; cbn; auto. intros (x' & -> & H) K. eauto. Qed.
Lemma simr_eq {X} (d g : res X) : d = g -> simr eq d g.
Proof. intros ->. destruct g; cbn; eauto. Qed.

(** ** Scalars *)
Definition kindv (e : elem) (v : val) : Prop :=
  match e, v with EBytes _ _, VBytes _ => True | EMsg _ _, _ => False | EBytes _ _, _ => False | _, VInt _ => True | _, _ => False end.

Section Sim.
  Context (W : list wtype) (utf8_ok : bytes -> bool) (maxd : Z).
  Notation E := (env_of W).
  Hypothesis HW : wtypes_ok W.
  Hypothesis Hread : readable W.
  Hypothesis Hutf8 : utf8_ok [] = true.

  Lemma ddec_scalar_eq e tag z : scalar e = true ->
    ddec_scalar zops utf8_ok e tag z = ('(v, z1) <- dec_scalar zops utf8_ok e tag z ;; Ok (enum_val e v, z1)).
  Proof.
    intros He. destruct e as [t| |is64 fl|c|u vw|ty d]; try reflexivity. unfold ddec_scalar, dec_scalar. cbn [elem_wt]. destruct (negb _); [reflexivity|].
    unfold ddec_bytes, dec_bytes. destruct (a_varint zops VU32 z) as [[len z1]| | | |]; try reflexivity. cbn [bind a_padded zops andb]. destruct (len =? 0).
    - rewrite Hutf8. rewrite andb_false_r. reflexivity.
    - destruct (a_packed zops len 1 z1) as [[b z2]| | | |]; try reflexivity. cbn [bind]. destruct (_ && _); reflexivity.
  Qed.
  Lemma dec_scalar_kind e tag z v z1 : dec_scalar zops utf8_ok e tag z = Ok (v, z1) -> kindv e v.
  Proof.
    unfold dec_scalar. destruct (negb _); [discriminate|]. destruct e as [t| |is64 fl|c|u vw|ty d]; cbn [a_varint a_bool a_fixed zops].
    - destruct (z_varint t z) as [[x y]| | | |]; cbn; try discriminate. intros [= <- <-]. exact I.
    - destruct (z_bool z) as [[x y]| | | |]; cbn; try discriminate. intros [= <- <-]. exact I.
    - destruct (z_take _ z) as [[x y]| | | |]; cbn; try discriminate. intros [= <- <-]. exact I.
    - destruct (z_varint VI64 z) as [[x y]| | | |]; cbn; try discriminate. intros [= <- <-]. exact I.
    - unfold dec_bytes. destruct (a_varint zops VU32 z) as [[len z2]| | | |]; cbn; try discriminate. destruct (len =? 0); [destruct (_ && _); [discriminate|intros [= <- <-]; exact I]|].
      destruct (z_take _ z2) as [[x y]| | | |]; cbn; try discriminate. destruct (_ && _); [discriminate|]. intros [= <- <-]. exact I.
    - discriminate.
  Qed.
  Lemma enum_val_kind e v : kindv e v -> kindv e (enum_val e v).
  Proof. destruct e, v; auto. Qed.

  (** Storing and reading back. *)
  Lemma single_of f l v : w_rep f = None -> kindv (w_elem f) v -> single f l (l_ordinal l, content_of v) = Ok v.
  Proof.
    intros Hr Hk. unfold single, value, has_value, has_word, repeated, dyn_of, is_rep. cbn [y_kind y_explicit fst snd]. rewrite Hr.
    destruct (w_elem f), v; cbn in Hk; try contradiction; cbn; rewrite Z.eqb_refl; cbn; rewrite ?andb_false_r; reflexivity.
  Qed.
  Lemma has_stored f l c : w_rep f = None -> has_value (dyn_of f) l (l_ordinal l, c) = true.
  Proof. intros Hr. unfold has_value, has_word, repeated, dyn_of, is_rep. cbn [y_kind fst]. rewrite Hr. destruct (w_elem f); cbn; apply Z.eqb_refl. Qed.
  Lemma has_cleared f l c : w_rep f = None -> 1 <= l_ordinal l -> has_value (dyn_of f) l (0, c) = false.
  Proof. intros Hr Ho. unfold has_value, has_word, repeated, dyn_of, is_rep. cbn [y_kind fst]. rewrite Hr. destruct (w_elem f); cbn [kind_of repeated_kind]; apply Z.eqb_neq; lia. Qed.
  Lemma scalar_kind e v : kindv e v -> scalar e = true.
  Proof. destruct e, v; cbn; tauto. Qed.

  Definition cur_of (f : wfield) (v : val) : Schema.field := Field (w_num f) (w_elem f) (if w_explicit f then COpt else CPlain false (w_default f)).
  Lemma store_same rec f l v s : w_rep f = None -> 1 <= l_ordinal l -> kindv (w_elem f) v -> same_one W rec f l (store f l v s) [v].
  Proof.
    intros Hr Ho Hk. unfold store. destruct (w_explicit f) eqn:Hx; cbn [orb].
    - apply SoHeld; [exact Hr|apply has_stored; exact Hr|]. apply HeldScalar; [eapply scalar_kind; eauto|apply single_of; auto].
    - destruct (is_default _ _ v) eqn:Hd; cbn [negb].
      + apply SoDefault; auto. unfold reset_slot, reset_bytes, clear_slot. destruct (w_elem f); apply has_cleared; auto.
      + apply SoHeld; [exact Hr|apply has_stored; exact Hr|]. apply HeldScalar; [eapply scalar_kind; eauto|apply single_of; auto].
  Qed.

  (** ** Repeated scalars *)
  Lemma several_kind f l s vs p : w_rep f = Some p -> scalar (w_elem f) = true -> several f l s = Ok vs -> Forall (kindv (w_elem f)) vs.
  Proof.
    intros Hr He. unfold several, value, dyn_of, is_rep. cbn [y_kind]. rewrite Hr.
    destruct (w_elem f); cbn [kind_of]; try discriminate He; destruct (fst s =? 0); destruct (snd s); intros H; try discriminate H; injection H as <-; try exact (Forall_nil _); apply Forall_forall; intros x Hx; apply in_map_iff in Hx; destruct Hx as (y & <- & _); exact I.
  Qed.
  Lemma elems_several f l vs p : w_rep f = Some p -> Forall (kindv (w_elem f)) vs -> scalar (w_elem f) = true -> several f l (elems_slot (w_elem f) vs) = Ok vs.
  Proof.
    intros Hr Hk He. unfold several, value, dyn_of, is_rep, elems_slot. cbn [y_kind fst snd]. rewrite Hr.
    assert (Hl : forall {A} (h : val -> A), firstn (Z.to_nat (zlen vs)) (map h vs) = map h vs).
    { intros A h. apply firstn_all2. rewrite map_length. unfold zlen. lia. }
    assert (H0 : zlen vs =? 0 = true -> vs = []). { unfold zlen. destruct vs; [reflexivity|]. cbn [length]. intros H. apply Z.eqb_eq in H. lia. }
    destruct (w_elem f); try discriminate He; cbn [kind_of]; (destruct (zlen vs =? 0) eqn:E0; [rewrite (H0 eq_refl); reflexivity|]); rewrite Hl, map_map; f_equal; clear -Hk;
      induction Hk as [|v vs Hv _ IH]; try reflexivity; cbn [map]; rewrite IH; destruct v; try contradiction; reflexivity.
  Qed.

  Lemma unknown_none num v : unknown_enum UNone num v [] = Ok [].
  Proof. reflexivity. Qed.
  Definition scal_inv (e : elem) (vs : list val) : Prop := Forall (kindv e) vs /\ Forall (fun v => valid e v = true) vs.
  Definition same_list (e : elem) (x : list val * zip) (y : list val * list (Z * bytes) * zip) : Prop :=
    y = (fst x, [], snd x) /\ scal_inv e (fst x).

  Lemma done_sim rec e tag depth cur z : scalar e = true -> scal_inv e cur ->
    simr (same_list e) (done_scalar zops utf8_ok e tag cur z) (dec_one zops E utf8_ok maxd rec UNone e tag depth cur [] z).
  Proof.
    intros He [Hk Hv]. unfold done_scalar, dec_one. rewrite ddec_scalar_eq by exact He.
    replace (dec_value zops E utf8_ok maxd rec e (elem_default E e) tag depth z) with (dec_scalar zops utf8_ok e tag z) by (destruct e; try reflexivity; discriminate He).
    destruct (dec_scalar zops utf8_ok e tag z) as [[v z1]|err| | |] eqn:D; cbn [bind simr]; eauto; try exact I.
    pose proof (enum_val_kind _ _ (dec_scalar_kind _ _ _ _ _ D)) as Kv.
    assert (App : forall w, kindv e w -> valid e w = true -> simr (same_list e) (Ok (cur ++ [w], z1)) (Ok (cur ++ [w], [], z1))).
    { intros w K1 K2. cbn. eexists. split; [reflexivity|]. split; [reflexivity|]. split; cbn; apply Forall_app; split; auto. }
    destruct e as [t| |is64 fl|[c|]|u vw|ty d]; try (apply App; [exact Kv|reflexivity]).
    assert (Hev : enum_val (EEnum (Some c)) v = VInt (to_enum (int_of v))) by (destruct v; cbn in Kv; try contradiction; reflexivity). rewrite Hev in *.
    cbn [valid]. change (int_of (VInt (to_enum (int_of v)))) with (to_enum (int_of v)). destruct (enum_valid (Some c) (to_enum (int_of v))) eqn:V.
    - apply App; [exact Kv|exact V].
    - rewrite unknown_none. cbn. eexists. split; [reflexivity|]. split; [reflexivity|split; assumption].
  Qed.

  Lemma delems_sim {X} (Inv : list X -> list val -> Prop) (f : nat) one one' n :
    (forall cur cur' z, (length (za z) < f)%nat -> Inv cur cur' ->
       simr (fun x y => exists vs, y = (vs, [], snd x) /\ Inv (fst x) vs /\ suf z (snd x)) (one cur z) (one' cur' [] z)) ->
    forall cur cur' z, (length (za z) < f)%nat -> Inv cur cur' ->
    simr (fun x y => exists vs, y = (vs, [], snd x) /\ Inv (fst x) vs) (delems zops one n cur z) (dec_elements zops one' n cur' [] z).
  Proof.
    intros Hone. induction n as [|n IH]; intros cur cur' z Hz HI; cbn [delems dec_elements]; [cbn; eexists; split; [reflexivity|]; eauto|].
    eapply simr_bind; [apply Hone; eassumption|]. intros [c1 z1] y (vs & -> & H1 & H2). cbn [fst snd] in *. destruct n as [|n]; [cbn; eexists; split; [reflexivity|]; eauto|].
    pose proof (suf_len _ _ H2). pose proof (z_tag_safe z1) as Ht. cbn [a_tag zops]. destruct (z_tag z1) as [[t z2]| | | |]; cbn in Ht |- *; eauto; try exact I.
    destruct Ht as [Ht _]. pose proof (suf_len _ _ Ht). apply IH; [lia|exact H1].
  Qed.

  Lemma dunpacked_sim f rec e tag depth cur z : scalar e = true -> scal_inv e cur -> (length (za z) < f)%nat -> tag_type tag =? elem_wt e = true ->
    simr (same_list e) (dunpacked zops maxd (done_scalar zops utf8_ok e tag) f tag depth cur z) (dec_unpacked zops maxd (dec_one zops E utf8_ok maxd rec UNone e tag depth) f e tag depth cur [] z).
  Proof.
    intros He Hi Hz Ht. unfold dunpacked, dec_unpacked. rewrite Ht. cbn [negb]. destruct (count_loop zops maxd f f depth tag z) as [n|err| | |]; cbn [bind]; try exact I; [|cbn; eauto].
    eapply simr_weaken.
    - apply (delems_sim (fun a b => a = b /\ scal_inv e a) f); [|exact Hz|split; [reflexivity|exact Hi]].
      intros c c' x Hx [<- Hc]. eapply simr_weaken; [apply simr_oe; [apply done_sim; assumption|]|].
      + unfold dec_one. replace (dec_value zops E utf8_ok maxd rec e (elem_default E e) tag depth x) with (dec_scalar zops utf8_ok e tag x) by (destruct e; try reflexivity; discriminate He).
        instantiate (1 := fun y => suf x (snd y)). eapply oe_bind; [apply dec_scalar_safe; intros ? ? ->; discriminate He|]. intros [v z1] H1. destruct e as [| | |[cl|]| |]; try exact H1. destruct (enum_valid _ _); [exact H1|]. exact H1.
      + intros [a b] y [[-> Ha] Hs]. exists a. auto.
    - intros [a b] y (vs & -> & [<- Ha]). split; [reflexivity|exact Ha].
  Qed.
  (** An occurrence of the wrong wire type: one element at least is attempted. *)
  Lemma count_pos n f depth tag z c : count_loop zops maxd n f depth tag z = Ok c -> c <> O.
  Proof.
    destruct n as [|n]; [discriminate|]. cbn [count_loop]. destruct (skip_one _ _ _ _ _ _) as [z1| | | |]; cbn [bind]; try discriminate. destruct (_ =? 0); [intros [= <-]; discriminate|].
    destruct (a_tag zops z1) as [[t z2]| | | |]; cbn [bind]; try discriminate. destruct (t =? tag); [|intros [= <-]; discriminate]. destruct (count_loop _ _ _ _ _ _ _) as [k| | | |]; cbn [bind]; try discriminate. intros [= <-]. discriminate.
  Qed.
  Lemma dunpacked_wrong {X} (one : list X -> zip -> res (list X * zip)) f tag depth cur z e : (length (za z) < f)%nat -> one cur z = Err e ->
    exists e', dunpacked zops maxd one f tag depth cur z = Err e'.
  Proof.
    intros Hz H1. unfold dunpacked. pose proof (count_loop_safe maxd f f depth tag z Hz Hz) as Hc. destruct (count_loop zops maxd f f depth tag z) as [n|err| | |] eqn:C; try contradiction; [|cbn; eauto].
    cbn [bind]. destruct n as [|n]; [destruct (count_pos _ _ _ _ _ _ C eq_refl)|]. cbn [delems]. rewrite H1. cbn. eauto.
  Qed.

  Lemma filter_all {T} (p : T -> bool) l : Forall (fun x => p x = true) l -> filter p l = l.
  Proof. induction 1 as [|x l Hx _ IH]; [reflexivity|]. cbn. rewrite Hx, IH. reflexivity. Qed.
  Lemma filter_enum_none num c vs : filter_enum UNone num (Some c) vs [] = Ok (filter (valid (EEnum (Some c))) (map VInt vs), []).
  Proof.
    induction vs as [|v vs IH]; [reflexivity|]. cbn [filter_enum map filter]. cbn [valid int_of]. destruct (enum_valid (Some c) v); [rewrite IH; reflexivity|]. rewrite unknown_none. cbn [bind]. exact IH.
  Qed.
  Lemma filter_open num vs : filter_enum UNone num None vs [] = Ok (map VInt vs, []).
  Proof. induction vs as [|v vs IH]; [reflexivity|]. cbn [filter_enum enum_valid map]. rewrite IH. reflexivity. Qed.
  Lemma all_ints e vs : (match e with EBytes _ _ | EMsg _ _ => False | _ => True end) -> Forall (kindv e) (map VInt vs).
  Proof. intros He. apply Forall_forall. intros x Hx. apply in_map_iff in Hx. destruct Hx as (y & <- & _). destruct e; try contradiction; exact I. Qed.

  Lemma dpacked_sim num e cur z : packable e = true -> scal_inv e cur -> simr (same_list e) (dpacked zops e cur z) (dec_packed zops UNone num e cur [] z).
  Proof.
    intros He [Hk Hv].
    assert (Fin : forall vs z2, (match e with EEnum (Some _) => False | _ => True end) -> simr (same_list e) (Ok (cur ++ map VInt vs, z2)) (Ok (cur ++ map VInt vs, [], z2))).
    { intros vs z2 Hc. eexists. split; [reflexivity|]. split; [reflexivity|]. split; cbn [fst]; apply Forall_app; (split; [assumption|]); [apply all_ints; destruct e; auto; discriminate He|].
      apply Forall_forall. intros x _. destruct e as [| | |[c|]| |]; try reflexivity. contradiction. }
    assert (Zero : simr (same_list e) (Ok (match e with EEnum (Some _) => filter (valid e) cur | _ => cur end, z)) (Ok (cur, [], z))).
    { eexists. split; [reflexivity|]. replace (match e with EEnum (Some _) => _ | _ => _ end) with cur by (destruct e as [| | |[c|]| |]; try reflexivity; rewrite filter_all by exact Hv; reflexivity). split; [reflexivity|]. split; assumption. }
    unfold dpacked, dec_packed. destruct (a_varint zops VU32 z) as [[len z1]|err| | |]; cbn [bind]; try exact I; [|cbn; eauto].
    destruct (len =? 0).
    { eexists. split; [reflexivity|]. cbn [fst snd]. replace (match e with EEnum (Some _) => _ | _ => _ end) with cur by (destruct e as [| | |[c|]| |]; try reflexivity; rewrite filter_all by exact Hv; reflexivity). split; [reflexivity|]. split; assumption. }
    replace (count_packed zops (match e with EEnum _ => EEnum None | _ => e end) len z1) with (count_packed zops e len z1) by (destruct e; reflexivity).
    destruct (count_packed zops e len z1) as [[n|]|err| | |]; cbn [bind]; try exact I; try (cbn; eauto; fail).
    destruct e as [t| |is64 fl|c|u vw|ty d]; try discriminate He.
    - destruct (a_pvarint zops t len n z1) as [[vs z2]|err| | |]; cbn [bind]; try exact I; [|cbn; eauto]. apply Fin; exact I.
    - destruct (a_pbool zops n z1) as [[vs z2]|err| | |]; cbn [bind]; try exact I; [|cbn; eauto]. apply Fin; exact I.
    - destruct (a_packed zops _ _ z1) as [[vs z2]|err| | |]; cbn [bind]; try exact I; [|cbn; eauto]. apply Fin; exact I.
    - destruct (a_pvarint zops VI64 len n z1) as [[vs z2]|err| | |]; cbn [bind]; try exact I; [|cbn; eauto]. rewrite filter_open. cbn [bind]. destruct c as [c|].
      + rewrite filter_enum_none. cbn [bind simr]. eexists. split; [reflexivity|]. rewrite filter_app, (filter_all _ _ Hv). split; [reflexivity|]. cbn [fst]. split; apply Forall_app; (split; [assumption|]).
        * apply Forall_forall. intros x Hx. apply filter_In in Hx. pose proof (all_ints (EEnum (Some c)) (map to_enum vs) I) as K. rewrite Forall_forall in K. apply K, Hx.
        * apply Forall_forall. intros x Hx. apply filter_In in Hx. apply Hx.
      + rewrite filter_open. cbn [bind]. apply Fin. exact I.
  Qed.
End Sim.
