(** Messages: decoding through an archive that satisfies the laws agrees with
    decoding through the reference archive. *)
Require Import Verif.Bits Verif.Varint Verif.VarintSpec Verif.VarintFacts.
Require Import Verif.Schema Verif.Archive Verif.Decode Verif.DecodeSafe Verif.Wire Verif.WireFacts.
Require Import Verif.DecodeSpec1 Verif.DecodeSpec2 Verif.DecodeSpec3 Verif.DecodeSpec4.
Require Import Verif.SimLaws Verif.SimSkip Verif.SimValue Verif.SimRepeated Verif.SimField.
Local Open Scope nat_scope.

Section Main.
  Context {A : Type} (AR : aops A) (T : bytes) (E : env) (utf8_ok : bytes -> bool) (maxd : Z).
  Context (St : bool -> nat -> nat -> A -> Prop) (Tg : bool -> Z -> nat -> nat -> A -> Prop)
          (Ln : bool -> nat -> nat -> A -> Prop) (L : laws AR T St Tg Ln).
  Notation zz := (zz T). Notation slice := (slice T).
  Notation rel := (rel AR T St). Notation reld := (reld AR T St).
  Notation okov := (okov AR St). Notation soft := (soft AR).
  Let sta := st_avail AR T St Tg Ln L. Let stl := st_lim AR T St Tg Ln L.
  Let stp := st_pos AR T St Tg Ln L.
  Let tgs := tg_st AR T St Tg Ln L. Let lns := ln_st AR T St Tg Ln L.
  Let ztz := z_take_zz AR T utf8_ok maxd St Tg Ln L.
  Hypothesis Hse : safe_env E.
  Hypothesis HT : all_bytes T.

  (** Schemas a padded archive reads like the others: no string view field with
      validation (see DESIGN.md for what happens with one). *)
  Definition elem_plain (e : elem) : Prop := forall u v, e = EBytes u v -> a_padded AR && v && u = false.
  Definition field_plain (f : field) : Prop :=
    match f with Field _ e _ => elem_plain e | Oneof alts => Forall (fun a => elem_plain (snd a)) alts end.
  Definition env_plain : Prop := forall ty, Forall field_plain (m_fields (desc_of E ty)).
  Hypothesis Hpl : env_plain.

  Lemma za_len lim p : lim <= length T -> length (za (zz lim p)) <= length T - p.
  Proof. intros H. cbn [za SimLaws.zz]. rewrite slice_len by lia. lia. Qed.
  Lemma za_bytes lim p : all_bytes (za (zz lim p)).
  Proof. cbn [za SimLaws.zz]. apply slice_bytes; auto. Qed.

  (** Continue with a function of the value only. *)
  Lemma rel_then {X} x e lim p rz ra (h : forall B, val -> B -> res (X * B)) :
    rel (okov x e) x lim p rz ra ->
    (forall v, (exists r, forall B b, h B v b = Ok (r, b)) \/ (soft e = false /\ exists er, forall B b, h B v b = Err er)) ->
    rel (okov x e) x lim p ('(v, z) <- rz ;; h _ v z) ('(v, a) <- ra ;; h _ v a).
  Proof.
    intros Hr Hh. destruct ra as [[v a]|er| | |]; cbn [SimValue.rel bind] in *; try tauto.
    - destruct (Hh v) as [[r Hv]|(Hs & er & Hv)].
      + rewrite Hv. cbn [SimValue.rel]. destruct Hr as [(q & ? & ? & -> & ?)|(? & ? & Hz)].
        * left. exists q. cbn [bind]. rewrite Hv. auto.
        * right. split; [auto|]. split; [auto|]. apply bad_bind, Hz.
      + rewrite Hv. cbn [SimValue.rel]. destruct Hr as [(q & ? & ? & -> & ?)|(? & Ho & Hz)].
        * cbn [bind]. rewrite Hv. apply bad_err.
        * destruct (Ho Hs) as [-> _]. cbn [bad] in *. apply is_err_bind, Hz.
    - apply bad_bind, Hr.
  Qed.

  Section Rec.
    Variables (f : nat) (recz : @recT zip) (reca : @recT A) (body : nat -> Z -> state -> list Wire.rec -> tres state).
    Hypothesis Hrec : forall x mode ty fs unk depth lim p a, St x lim p a -> p <= lim -> length T - p < f ->
      rel (fun a' => mode <> None /\ x = false /\ safe_over St a') x lim p (recz mode ty fs unk depth (zz lim p)) (reca mode ty fs unk depth a).
    Hypothesis Hover : forall mode ty fs unk depth a, (a_avail AR a < 0)%Z -> 0 < f ->
      reca mode ty fs unk depth a = Err BadMessage.
    Hypothesis Hempty : forall num ty fs unk depth z, za z = [] -> 0 < f -> is_err (recz (Some num) ty fs unk depth z).
    Hypothesis (Hspec : rec_spec maxd f recz body) (Hsafe : rec_safe f recz) (Hend : rec_end recz).

    Notation dvz := (dec_value zops E utf8_ok maxd recz). Notation dva := (dec_value AR E utf8_ok maxd reca).

    Lemma value_rel x e cur tag depth lim p a : Tg x tag lim p a -> length T - p < f -> elem_plain e ->
      rel (okov x e) x lim p (dvz e cur tag depth (zz lim p)) (dva e cur tag depth a).
    Proof. intros. eapply dec_value_rel; eauto. Qed.

    (** Decoding a value ends where skipping it ends. *)
    Lemma value_same e cur tag depth lim p v z' : lim <= length T -> length T - p < f -> tag <> 0%Z ->
      dvz e cur tag depth (zz lim p) = Ok (v, z') -> skip_one zops maxd f depth tag (zz lim p) = Ok z'.
    Proof.
      intros Hl Hf Htag Hv. pose proof (za_len lim p Hl) as Hlen. pose proof (za_bytes lim p) as Hb.
      pose proof (dec_value_spec E utf8_ok maxd f recz body Hspec Hsafe Hend e cur tag depth [] [] (zz lim p) Hb ltac:(lia) Htag) as H1.
      pose proof (skip_one_spec maxd f depth tag (zz lim p) Hb ltac:(lia)) as H2. rewrite Hv in H1.
      assert (Hnd : tok_pay (grpB maxd depth) tag (za (zz lim p)) <> TDev).
      { clear - maxd. generalize (za (zz lim p)). intros bs. unfold tok_pay, tok_take. cbv zeta.
        destruct (tag =? 0)%Z; [discriminate|].
        destruct (_ =? WT_VARINT)%Z; [destruct (scan _ _); discriminate|].
        destruct (_ =? WT_LEN)%Z; [destruct (scan _ _); try discriminate; destruct (_ <=? _); discriminate|].
        destruct (_ =? WT_I64)%Z; [destruct (_ <=? _); discriminate|].
        destruct (_ =? WT_SGROUP)%Z; [|destruct (_ =? WT_I32)%Z; [destruct (_ <=? _); discriminate|discriminate]].
        unfold grpB. destruct (scope_ok maxd depth); [|discriminate].
        pose proof (tokB_no_dev maxd _ (Some (tag_number tag)) (depth + 1)%Z bs (Nat.lt_succ_diag_r _)) as K.
        destruct (tokB _ _ _ _) as [[? ?]| | |]; cbn; congruence. }
      destruct (tok_pay (grpB maxd depth) tag (za (zz lim p))) as [[[pl sub] rest]| | |]; cbn [agree_pay skips] in *; try tauto.
      - apply agree_oe in H1. cbn in H1. subst z'. exact H2.
      - destruct H1; discriminate.
    Qed.

    Lemma value_state e cur tag depth : elem_wt e = WT_VARINT -> forall x lim p a v a', Tg x tag lim p a -> tag <> 0%Z ->
      dva e cur tag depth a = Ok (v, a') -> skip_one AR maxd f depth tag a = Ok a'.
    Proof.
      intros Hw x lim p a v a' Hg Htag. unfold skip_one, do_skip_field.
      destruct (Z.eqb_spec tag 0); [congruence|].
      assert (Hd : forall r, dec_scalar AR utf8_ok e tag a = r -> dva e cur tag depth a = r).
      { intros r <-. destruct e as [| |[]| | |ty []]; try reflexivity; discriminate. }
      rewrite (Hd _ eq_refl). unfold dec_scalar.
      destruct (Z.eqb_spec (tag_type tag) (elem_wt e)) as [Ht|]; [|discriminate]. cbn [negb]. rewrite Ht, Hw, Z.eqb_refl.
      destruct e as [t| |[] s|c|u w|ty []]; try discriminate.
      - destruct (a_varint AR t a) as [[w a1]| | | |] eqn:K; cbn [bind]; try discriminate. intros [= <- <-]. eapply (l_varint_skip _ _ _ _ _ L); eauto.
      - destruct (a_bool AR a) as [[w a1]| | | |] eqn:K; cbn [bind]; try discriminate. intros [= <- <-]. eapply (l_bool_skip _ _ _ _ _ L); eauto.
      - destruct (a_varint AR VI64 a) as [[w a1]| | | |] eqn:K; cbn [bind]; try discriminate. intros [= <- <-]. eapply (l_varint_skip _ _ _ _ _ L); eauto.
    Qed.

    Lemma value_no e cur tag depth : elem_wt e <> WT_SGROUP -> elem_wt e <> WT_VARINT -> forall x lim p q a v a',
      Tg x tag lim p a -> length T - p < f -> tag <> 0%Z -> tag_type tag = elem_wt e -> elem_plain e ->
      skip_one zops maxd f depth tag (zz lim p) = Ok (zz lim q) -> p <= q -> q <= lim ->
      dva e cur tag depth a = Ok (v, a') -> (0 <= a_avail AR a')%Z.
    Proof.
      intros Hg Hv x lim p q a v a' Ht Hf Htag Hwt Hpe Hs Hpq Hq.
      pose proof (stl _ _ _ _ (tgs _ _ _ _ _ Ht)) as Hl.
      unfold skip_one, do_skip_field in Hs. destruct (Z.eqb_spec tag 0); [congruence|]. rewrite Hwt in Hs.
      destruct e as [t| |is64 s|c|u w|ty d]; try (exfalso; apply Hv; reflexivity).
      - assert (Hn : p + fix_size is64 <= lim).
        { assert (K : a_skip zops (Z.of_nat (fix_size is64)) (zz lim p) = Ok (zz lim q)) by (destruct is64; exact Hs).
          cbn [a_skip zops] in K. unfold z_skip in K. rewrite zz_avail in K by lia.
          destruct (_ <? _)%Z eqn:Kl in K; [discriminate|]. lia. }
        cbn [dec_value]. unfold dec_scalar. destruct (negb _); [discriminate|].
        destruct (l_fixed _ _ _ _ _ L x tag (fix_size is64) lim p a Ht ltac:(destruct is64; cbn; lia)) as (b & a1 & -> & K).
        replace (_ <=? lim) with true in K by (symmetry; apply Nat.leb_le; lia). destruct K as [_ K]. cbn [bind].
        intros [= _ <-]. rewrite (sta _ _ _ _ K). lia.
      - change (elem_wt (EBytes u w)) with WT_LEN in Hs. change (WT_LEN =? WT_VARINT)%Z with false in Hs.
        change (WT_LEN =? WT_LEN)%Z with true in Hs. cbn [a_varint a_skip zops] in Hs.
        cbn [dec_value]. unfold dec_scalar. destruct (negb _); [discriminate|]. unfold dec_bytes.
        destruct (len_cases AR T utf8_ok St Tg Ln L x tag lim p a Ht) as [_ H2|len q' a1 _ H2 _ _ _ _ _|len n1 a1 H1 H2 H0 Hn Hn' HL];
          rewrite H2 in Hs; cbn [bind] in Hs; try discriminate.
        unfold z_skip in Hs. rewrite zz_avail in Hs by lia. destruct (_ <? _)%Z eqn:Kl in Hs; [discriminate|]. clear Hs.
        rewrite H1. cbn [bind]. pose proof (lns _ _ _ _ HL) as HS.
        destruct (a_padded AR && w) eqn:Hpw.
        + specialize (Hpe _ _ eq_refl). rewrite Hpw in Hpe. cbn in Hpe. subst u. cbn [andb].
          pose proof (l_view _ _ _ _ _ L x len lim (p + n1) a1 ltac:(destruct (a_padded AR); auto) HS H0) as K.
          replace (_ <=? lim) with true in K by (symmetry; apply Nat.leb_le; lia). destruct K as (a2 & -> & K).
          intros [= _ <-]. rewrite (sta _ _ _ _ K). lia.
        + destruct (Z.eqb_spec len 0).
          * destruct (u && negb (utf8_ok [])); [discriminate|]. intros [= _ <-]. rewrite (sta _ _ _ _ HS). lia.
          * pose proof (l_packed _ _ _ _ _ L x len 1 lim (p + n1) a1 HS H0 ltac:(lia) ltac:(lia)) as K.
            replace (_ <=? lim) with true in K by (symmetry; apply Nat.leb_le; lia). destruct K as (a2 & -> & K). cbn [bind].
            destruct (u && negb _); [discriminate|]. intros [= _ <-]. rewrite (sta _ _ _ _ K). lia.
      - destruct d; [exfalso; apply Hg; reflexivity|]. cbn [dec_value]. unfold dec_message. destruct (negb _); [discriminate|].
        pose proof (dec_sized_rel AR T E utf8_ok maxd St Tg Ln L f recz reca Hrec Hover Hempty x ty cur tag depth lim p a Ht Hf) as K.
        intros Hd. rewrite Hd in K. cbn [SimValue.rel] in K. destruct K as [(q' & _ & ? & _ & K)|(_ & [] & _)].
        rewrite (sta _ _ _ _ K). lia.
    Qed.

    (** ** Unpacked repeated fields *)
    Lemma unpacked_rel onez onea (h : forall B, val -> list val -> list (Z * bytes) -> B -> res (list val * list (Z * bytes) * B))
      x e tag depth cur unk lim p a :
      (forall v cur unk, exists r, forall B b, h B v cur unk b = Ok (r, b)) ->
      (forall cur unk z, onez cur unk z = ('(v, z1) <- dvz e (elem_default E e) tag depth z ;; h _ v cur unk z1)) ->
      (forall cur unk a, onea cur unk a = ('(v, a1) <- dva e (elem_default E e) tag depth a ;; h _ v cur unk a1)) ->
      Tg x tag lim p a -> length T - p < f -> tag <> 0%Z -> elem_plain e ->
      reld x lim p (dec_unpacked zops maxd onez f e tag depth cur unk (zz lim p)) (dec_unpacked AR maxd onea f e tag depth cur unk a).
    Proof.
      intros Hh Hz Ha Ht Hf Htag Hpe. unfold dec_unpacked.
      destruct (Z.eqb_spec (tag_type tag) (elem_wt e)) as [Hwt|]; cbn [negb]; [|apply bad_badd, bad_err].
      pose proof (rep_rel AR T utf8_ok maxd St Tg Ln L f e tag depth onez onea Htag Hwt) as K.
      assert (Hok : forall {B} (b : B) v c u y b', h B v c u b = Ok (y, b') -> b' = b).
      { intros B b v c u y b' H. destruct (Hh v c u) as [r Hr]. rewrite Hr in H. congruence. }
      specialize (K ltac:(idtac;
        intros x0 c u lim0 p0 a0 Ht0 Hf0; rewrite Hz, Ha;
        apply (rel_then x0 e lim0 p0 _ _ (fun B v b => h B v c u b)); [apply value_rel; auto|left; apply Hh])).
      specialize (K ltac:(idtac;
        intros c u lim0 p0 y z' Hl0 Hf0; rewrite Hz;
        destruct (dvz e (elem_default E e) tag depth (zz lim0 p0)) as [[v z1]| | | |] eqn:Kv; cbn [bind]; try discriminate;
        intros Hy; apply Hok in Hy; subst z'; eapply value_same; eauto)).
      specialize (K ltac:(idtac;
        intros c u lim0 p0 Hl0 Hf0; rewrite Hz; pose proof (za_len lim0 p0 Hl0);
        eapply oe_bind; [eapply dec_value_safe; [exact Hsafe|lia]|];
        intros [v z1] _; destruct (Hh v c u) as [r Hr]; rewrite Hr; exact I)).
      specialize (K ltac:(idtac;
        intros Hv x0 lim0 p0 a0 c u y a' Ht0; rewrite Ha;
        destruct (dva e (elem_default E e) tag depth a0) as [[v a1]| | | |] eqn:Kv; cbn [bind]; try discriminate;
        intros Hy; apply Hok in Hy; subst a'; eapply value_state; eauto)).
      specialize (K ltac:(idtac;
        intros Hg Hv x0 lim0 p0 q0 a0 c u y a' Ht0 Hf0 Hs Hpq Hq; rewrite Ha;
        destruct (dva e (elem_default E e) tag depth a0) as [[v a1]| | | |] eqn:Kv; cbn [bind]; try discriminate;
        intros Hy; apply Hok in Hy; subst a'; eapply value_no; eauto)).
      specialize (K ltac:(idtac;
        intros Hg c u a0 Hav Hf0; rewrite Ha; apply is_err_bind;
        destruct e as [| |[]| | |ty []]; try discriminate; cbn [dec_value]; unfold dec_message;
        destruct (negb _); [auto|]; unfold dec_group; destruct (scope_ok _ _); [|auto]; rewrite Hover by auto; auto)).
      specialize (K x f cur unk lim p a a Ht Ht ltac:(auto) Hf Hf).
      destruct (count_loop AR maxd f f depth tag a) as [n|er| | |]; cbn [bind] in *; try tauto; exact K.
    Qed.

    (** ** Fields *)
    Lemma dec_field_rel x k fd tag depth cur unk lim p a :
      field_safe k fd -> field_plain fd -> has_num (tag_number tag) fd = true -> tag <> 0%Z ->
      Tg x tag lim p a -> length T - p < f ->
      reld x lim p (dec_field zops E utf8_ok maxd recz f k fd tag depth cur unk (zz lim p))
                   (dec_field AR E utf8_ok maxd reca f k fd tag depth cur unk a).
    Proof.
      intros Hs Hp Hn Htag Ht Hf. destruct fd as [num e c|alts]; cbn [field_safe field_plain] in Hs, Hp.
      - destruct c as [ex d| |packed|assoc]; cbn [dec_field].
        + eapply rel_reld, (rel_then x e lim p _ _ (fun B v b =>
            match e with
            | EEnum (Some _ as closed) =>
                if ex && negb (enum_valid closed (to_enum (int_of v))) then
                  _ <- unknown_enum k num (int_of v) unk ;; Err TooLarge
                else Ok ([enum_val e v], unk, b)
            | _ => Ok ([enum_val e v], unk, b)
            end)); [apply value_rel; auto|].
          intros v. destruct e as [| | |[l|]| |]; try (left; eexists; reflexivity).
          destruct (ex && _); [|left; eexists; reflexivity].
          destruct (unknown_enum_safe k num (int_of v) unk) as [u ->]; [auto|]. right. split; [reflexivity|]. exists TooLarge. reflexivity.
        + eapply rel_reld, (rel_then x e lim p _ _ (fun B v b =>
            match e with
            | EEnum (Some _ as closed) =>
                if enum_valid closed (to_enum (int_of v)) then Ok ([enum_val e v], unk, b)
                else unk1 <- unknown_enum k num (int_of v) unk ;; Ok (cur, unk1, b)
            | _ => Ok ([enum_val e v], unk, b)
            end)); [apply value_rel; auto|].
          intros v. left. destruct e as [| | |[l|]| |]; try (eexists; reflexivity).
          destruct (enum_valid _ _); [eexists; reflexivity|].
          destruct (unknown_enum_safe k num (int_of v) unk) as [u ->]; [auto|]. eexists; reflexivity.
        + destruct (packable e && (tag_type tag =? WT_LEN)%Z) eqn:K.
          * apply andb_prop in K. apply (dec_packed_rel AR T utf8_ok maxd St Tg Ln L x k num e cur unk tag); tauto.
          * apply (unpacked_rel _ _ (fun B v cur unk b =>
              match e with
              | EEnum (Some _ as closed) =>
                  let z := to_enum (int_of v) in
                  if enum_valid closed z then Ok (cur ++ [VInt z], unk, b)
                  else unk1 <- unknown_enum k (tag_number tag) z unk ;; Ok (cur, unk1, b)
              | _ => Ok (cur ++ [enum_val e v], unk, b)
              end)); auto.
            intros v c u. destruct e as [| | |[l|]| |]; try (eexists; reflexivity). cbv zeta.
            destruct (enum_valid _ _); [eexists; reflexivity|].
            destruct (unknown_enum_safe k (tag_number tag) (to_enum (int_of v)) u) as [u' ->]; [auto|]. eexists; reflexivity.
        + apply (unpacked_rel _ _ (fun B v cur unk b => Ok ((if assoc then map_put v cur else cur ++ [v]), unk, b))); auto.
          intros v c u. eexists; reflexivity.
      - cbn [dec_field].
        assert (K : exists i e, find_alt (tag_number tag) alts 0 = Some (i, e) /\ elem_closed e = false /\ elem_plain e).
        { cbn [has_num] in Hn. clear - Hn Hs Hp. generalize 0. generalize dependent (tag_number tag). intros n.
          induction alts as [|[num e] t IH]; cbn [existsb fst find_alt]; [discriminate|].
          intros Hn i. inversion Hs; subst. inversion Hp; subst. destruct (num =? n)%Z; [eauto|]. apply IH; auto. }
        destruct K as (i & e & -> & Hc & Hpe). unfold dec_oneof.
        eapply rel_reld, (rel_then x e lim p _ _ (fun B v b =>
          match e with
          | EEnum (Some _ as closed) =>
              if enum_valid closed (to_enum (int_of v)) then
                match (match cur with VAlt j v :: _ => if Nat.eqb i j then [v] else [] | _ => [] end) with
                | [] => Exn
                | _ => Ok ([VAlt i (enum_val e v)], unk, b)
                end
              else unk1 <- unknown_enum k (tag_number tag) (int_of v) unk ;; Ok (cur, unk1, b)
          | _ => Ok ([VAlt i (enum_val e v)], unk, b)
          end)); [apply value_rel; auto|].
        intros v. left. destruct e as [| | |[l|]| |]; try (eexists; reflexivity). discriminate.
    Qed.

    Lemma reld_map {X Y} x lim p rz ra (g : forall B, X -> B -> res (Y * B)) :
      reld x lim p rz ra -> (forall v, exists r, forall B b, g B v b = Ok (r, b)) ->
      reld x lim p ('(v, z) <- rz ;; g _ v z) ('(v, a) <- ra ;; g _ v a).
    Proof.
      assert (Hb : forall e, (forall v, exists r, forall B b, g B v b = Ok (r, b)) -> badd x e rz -> badd x e ('(v, z) <- rz ;; g _ v z)).
      { intros e Hg. destruct x; cbn [badd]; [intros ->; reflexivity|].
        intros [[e' ->]|(y & z & -> & Hd)]; [left; cbn; eauto|right; cbn [bind]]. destruct (Hg y) as [r ->]. eauto. }
      intros Hr Hg. destruct ra as [[v a]|er| | |]; cbn [SimValue.reld bind] in *; try tauto; [|auto].
      destruct (Hg v) as [r Hv]. rewrite Hv. cbn [SimValue.reld].
      destruct Hr as [(q & ? & ? & -> & ?)|(? & ?)]; [left|right; auto].
      exists q. cbn [bind]. rewrite Hv. auto.
    Qed.

    Lemma dec_by_tag_rel x ty tag depth fs unk lim p a : Tg x tag lim p a -> length T - p < f ->
      reld x lim p (dec_by_tag zops E utf8_ok maxd recz f ty tag depth fs unk (zz lim p))
                   (dec_by_tag AR E utf8_ok maxd reca f ty tag depth fs unk a).
    Proof.
      intros Ht Hf. unfold dec_by_tag. destruct (Z.eqb_spec (tag_number tag) 0) as [|Hn]; [apply bad_badd, bad_err|].
      pose proof (tag_number_nz _ Hn) as Htag. pose proof (stl _ _ _ _ (tgs _ _ _ _ _ Ht)) as Hl.
      destruct (find_field (tag_number tag) (m_fields (desc_of E ty)) 0) as [[i fd]|] eqn:K.
      - apply find_field_spec in K. destruct K as [K1 K2].
        pose proof (proj1 (Forall_forall _ _) (Hse ty) fd K1). pose proof (proj1 (Forall_forall _ _) (Hpl ty) fd K1).
        pose proof (dec_field_rel x (m_unk (desc_of E ty)) fd tag depth (nth i fs []) unk lim p a) as Hr.
        specialize (Hr ltac:(auto) ltac:(auto) K2 Htag Ht Hf).
        set (rz := dec_field zops E utf8_ok maxd recz f _ fd tag depth (nth i fs []) unk (zz lim p)) in *.
        set (ra := dec_field AR E utf8_ok maxd reca f _ fd tag depth (nth i fs []) unk a) in *.
        pose proof (reld_map x lim p rz ra (fun B y b => let '(c, u) := y in Ok (set_nth i c fs, u, b)) Hr) as Hm.
        specialize (Hm ltac:(idtac; intros [c u]; eexists; reflexivity)).
        destruct rz as [[[c u] z1]| | | |]; destruct ra as [[[c' u'] a1]| | | |]; exact Hm.
      - rewrite (sta _ _ _ _ (tgs _ _ _ _ _ Ht)). cbn [a_avail zops].
        destruct (Nat.lt_ge_cases p lim).
        + rewrite zz_avail by lia. replace (0 <? Z.of_nat lim - Z.of_nat p)%Z with true by lia.
          pose proof (skip_field_rel AR T utf8_ok maxd St Tg Ln L x f (m_unk (desc_of E ty)) depth tag unk lim p a Ht Htag ltac:(lia) Hf) as Hr.
          apply (reld_map x lim p _ _ (fun B u b => Ok (fs, u, b)) Hr). intros u; eexists; reflexivity.
        + replace (0 <? Z.of_nat lim - Z.of_nat p)%Z with false by lia. cbn [za SimLaws.zz]. rewrite slice_nil by lia.
          cbn. apply bad_badd, bad_err.
    Qed.
  End Rec.

  Notation dlz := (dec_loop zops E utf8_ok maxd). Notation dla := (dec_loop AR E utf8_ok maxd).

  Lemma tag0_err {B} (BR : aops B) rec f ty depth fs unk b : dec_by_tag BR E utf8_ok maxd rec f ty 0 depth fs unk b = Err BadMessage.
  Proof. reflexivity. Qed.
  Lemma mode0 mode : match mode with Some num => (tag_type 0 =? WT_EGROUP)%Z && (num =? tag_number 0)%Z | None => false end = false.
  Proof. destruct mode; reflexivity. Qed.

  Lemma loop_over f mode ty fs unk depth a : (a_avail AR a < 0)%Z -> 0 < f -> dla f mode ty fs unk depth a = Err BadMessage.
  Proof.
    intros Ha Hf. destruct f; [lia|]. cbn [dec_loop]. replace (_ <=? 0)%Z with true by lia.
    replace (_ =? 0)%Z with false by lia. destruct mode; reflexivity.
  Qed.
  Lemma loop_empty f num ty fs unk depth z : za z = [] -> 0 < f -> is_err (dlz f (Some num) ty fs unk depth z).
  Proof. intros Hz Hf. destruct f; [lia|]. cbn [dec_loop a_avail zops]. rewrite Hz. cbn. eauto. Qed.
  Lemma loop_doomed f mode ty fs unk depth z : doomed z -> 0 < f -> dlz f mode ty fs unk depth z = Err BadMessage.
  Proof.
    intros [Hne Hd] Hf. destruct f; [lia|]. cbn [dec_loop a_avail a_tag zops].
    replace (zlen (za z) <=? 0)%Z with false by (destruct (za z) as [|b t]; [congruence|]; rewrite zlen_cons; pose proof (zlen_nonneg t); lia).
    unfold z_tag. destruct (shift_mix SMTAG (za z)) eqn:K; cbn [z_parse bind]; [| |exfalso; eapply Hd; exact K].
    all: rewrite mode0, tag0_err; reflexivity.
  Qed.

  Lemma dec_loop_rel : forall f x mode ty fs unk depth lim p a, St x lim p a -> p <= lim -> length T - p < f ->
    rel (fun a' => mode <> None /\ x = false /\ safe_over St a') x lim p (dlz f mode ty fs unk depth (zz lim p)) (dla f mode ty fs unk depth a).
  Proof.
    induction f as [|f IH]; intros x mode ty fs unk depth lim p a HS Hp Hf; [lia|].
    pose proof (stl _ _ _ _ HS) as Hl. cbn [dec_loop a_avail a_tag zops]. rewrite (sta _ _ _ _ HS), zz_avail by lia.
    destruct (Z.leb_spec (Z.of_nat lim - Z.of_nat p) 0).
    { replace (_ =? 0)%Z with true by lia. destruct mode; [apply bad_err|]. cbn. left. exists p. auto. }
    pose proof (dec_by_tag_rel f (dlz f) (dla f) (ap_body E utf8_ok maxd f) IH) as Hby.
    specialize (Hby ltac:(idtac; intros; apply loop_over; auto) ltac:(idtac; intros; apply loop_empty; auto)).
    specialize (Hby ltac:(idtac; intros mo ty0 fs0 u0 d0 z0 Hb Hl0; apply (dec_loop_spec E utf8_ok maxd Hse f f (le_n _)); auto)).
    specialize (Hby (dec_loop_safe E utf8_ok maxd Hse f) (dl_end E utf8_ok maxd f)).
    destruct (l_tag _ _ _ _ _ L _ _ _ _ HS) as (v & a1 & Htg & K). rewrite Htg. cbn [bind]. unfold z_tag. cbn [za SimLaws.zz].
    (* what follows a processed field *)
    assert (Hcont : forall q ry ra, p < q -> q <= length T -> reld x lim q ry ra ->
      rel (fun a' => mode <> None /\ x = false /\ safe_over St a') x lim p
        ('(fs1, unk1, z2) <- ry ;; dlz f mode ty fs1 unk1 depth z2) ('(fs1, unk1, a2) <- ra ;; dla f mode ty fs1 unk1 depth a2)).
    { intros q ry ra Hq HqT Hr.
      assert (Hb : forall e, badd x e ry -> bad x (if x then e else BadMessage) ('(fs1, unk1, z2) <- ry ;; dlz f mode ty fs1 unk1 depth z2)).
      { intros e. destruct x; cbn [badd bad]; [intros ->; reflexivity|].
        intros [[e' ->]|([fs1 u1] & z & -> & Hd)]; cbn [bind]; [cbn; eauto|]. rewrite loop_doomed by (auto; lia). eauto. }
      destruct ra as [[[fs1 unk1] a2]|er| | |]; cbn [SimValue.reld bind] in *; try tauto.
      - destruct Hr as [(q' & Hq' & Hql & -> & HS')|(Hav & Hbd)].
        + cbn [bind]. apply (rel_pos AR T utf8_ok maxd St Tg Ln L _ x lim p q'); [lia|]. apply IH; auto; lia.
        + rewrite loop_over by (auto; lia). cbn [SimValue.rel]. apply Hb in Hbd. destruct x; exact Hbd.
      - cbn [SimValue.rel]. apply Hb in Hr. destruct x; exact Hr. }
    destruct (shift_mix SMTAG (slice p lim)) as [| |w k] eqn:F; cbn [z_parse bind].
    1, 2: rewrite mode0, tag0_err; cbn [bind];
      destruct K as [[-> _]|(-> & Hne & q & Hq & Hq' & K)]; [rewrite mode0, tag0_err; apply bad_err|];
      pose proof (tgs _ _ _ _ _ K) as HSq; pose proof (stp _ _ _ _ HSq) as HqT;
      destruct (match mode with Some num => _ | None => false end) eqn:Hm;
      [cbn [SimValue.rel]; right; rewrite (sta _ _ _ _ HSq); split; [lia|]; split; [|cbn; eauto];
       split; [intros ->; discriminate|]; split; [reflexivity|do 2 eexists; exact HSq]|];
      pose proof (Hby false ty v depth fs unk lim q a1 K ltac:(lia)) as Hr;
      destruct (dec_by_tag AR _ _ _ _ _ _ _ _ _ _ a1) as [[[fs1 unk1] a2]|er| | |]; cbn [SimValue.reld bind] in *; try tauto; [|cbn; eauto];
      destruct Hr as [(q' & ? & ? & _)|(Hav & _)]; [lia|]; rewrite loop_over by (auto; lia); cbn; eauto.
    destruct K as [-> K]. pose proof (sm_tag_len T _ _ _ _ Hl F) as Hk. rewrite zz_adv by lia.
    pose proof (tgs _ _ _ _ _ K) as HSq. pose proof (stp _ _ _ _ HSq) as HqT.
    destruct (match mode with Some num => _ | None => false end).
    { cbn. left. exists (p + k). repeat split; auto; lia. }
    apply (Hcont (p + k)); [lia|lia|]. apply Hby; auto; lia.
  Qed.

  (** Root messages: the same value, or the same failure. *)
  Theorem decode_rel f x ty cur a : m_entry (desc_of E ty) = false -> St x (length T) 0 a -> length T < f ->
    match decode AR E utf8_ok maxd f ty cur a with
    | Ok (v, _) => exists z', decode zops E utf8_ok maxd f ty cur (Zip [] T) = Ok (v, z')
    | Err e => bad x e (decode zops E utf8_ok maxd f ty cur (Zip [] T))
    | _ => False
    end.
  Proof.
    intros He HS Hf. unfold decode, dec_msg. rewrite He. cbn [andb bind].
    destruct (negb _); [apply bad_err|].
    pose proof (dec_loop_rel f x None ty (msg_fields cur) (msg_unk cur) (0 + 1) (length T) 0 a HS ltac:(lia) ltac:(lia)) as Hr.
    replace (zz (length T) 0) with (Zip [] T) in Hr by (unfold SimLaws.zz; rewrite slice_full; reflexivity).
    destruct (dla _ _ _ _ _ _ _) as [[v a']|e| | |]; cbn [SimValue.rel] in Hr; auto.
    destruct Hr as [(q & _ & _ & -> & _)|(_ & [Hm _] & _)]; [eauto|congruence].
  Qed.
End Main.
