(** Fields and messages: decoding through an archive that satisfies the laws
    agrees with decoding through the reference archive. *)
Require Import Verif.Bits Verif.Varint Verif.VarintSpec Verif.VarintFacts.
Require Import Verif.Schema Verif.Archive Verif.Decode Verif.DecodeSafe Verif.Wire Verif.WireFacts.
Require Import Verif.DecodeSpec1 Verif.DecodeSpec2 Verif.DecodeSpec3 Verif.DecodeSpec4.
Require Import Verif.SimLaws Verif.SimSkip Verif.SimValue Verif.SimRepeated.
Local Open Scope nat_scope.

Lemma parse_region_err f t r d e : parse_region f t r d = Err e -> e = BadMessage.
Proof.
  revert r d; induction f as [|f IH]; intros r d; destruct d as [|b d]; cbn [parse_region]; try discriminate.
  destruct r as [|r]; [congruence|]. destruct (parse_varint t (b :: d)); try congruence.
  destruct (parse_region f t r _) eqn:K; cbn [bind]; try discriminate. intros [= <-]. eauto.
Qed.
Lemma z_pvarint_err t n r z e : z_pvarint t n r z = Err e -> e = BadMessage.
Proof.
  unfold z_pvarint, z_take. destruct (_ <=? _); cbn [bind]; [|congruence].
  destruct (parse_region _ _ _ _) eqn:K; cbn [bind]; try discriminate. intros [= <-]. eapply parse_region_err; eauto.
Qed.
Lemma z_pbool_err n z e : z_pbool n z = Err e -> e = BadMessage.
Proof.
  revert z; induction n as [|n IH]; intros z; cbn [z_pbool]; [discriminate|]. unfold z_bool.
  destruct (parse_bool (za z)); cbn [z_parse bind]; try congruence.
  destruct (z_pbool n _) as [[? ?]| | | |] eqn:K; cbn [bind]; try discriminate. intros [= <-]. eauto.
Qed.

Section Field.
  Context {A : Type} (AR : aops A) (T : bytes) (E : env) (utf8_ok : bytes -> bool) (maxd : Z).
  Context (St : bool -> nat -> nat -> A -> Prop) (Tg : bool -> Z -> nat -> nat -> A -> Prop)
          (Ln : bool -> nat -> nat -> A -> Prop) (L : laws AR T St Tg Ln).
  Notation zz := (zz T). Notation slice := (slice T).
  Notation rel := (rel AR T St). Notation reld := (reld AR T St).
  Notation okov := (okov AR St). Notation soft := (soft AR).
  Let sta := st_avail AR T St Tg Ln L. Let stl := st_lim AR T St Tg Ln L.
  Let stp := st_pos AR T St Tg Ln L.
  Let tgs := tg_st AR T St Tg Ln L. Let lns := ln_st AR T St Tg Ln L.
  Let ztz := z_take_zz AR T utf8_ok maxd St Tg Ln L.

  (** ** Unknown fields *)
  Lemma z_skip_field_match f k depth tag unk lim p q : let n := Z.to_nat (varint_size_u tag) in
    k <> UNone -> n <= p -> p <= q -> q <= lim -> lim <= length T ->
    skip_fields_match_tag zops maxd f depth tag (zz lim p) = Ok (zz lim q) ->
    skip_field zops maxd f k depth tag unk (zz lim p) = Ok (unk_add k (tag_number tag) (slice (p - n) q) unk, zz lim q).
  Proof.
    intros n Hk Hn Hp Hq Hl Hs.
    assert (Hg : forall r, r = Ok (zz lim q) ->
      (a1 <- r ;; let len := (a_avail zops (a_unwind zops tag (zz lim p)) - a_avail zops a1)%Z in
        let '(fa, _) := a_split zops len (a_unwind zops tag (zz lim p)) in
        '(b, _) <- a_packed zops len 1 fa ;; Ok (unk_add k (tag_number tag) b unk, a1))
      = Ok (unk_add k (tag_number tag) (slice (p - n) q) unk, zz lim q)).
    { intros r ->. cbn [bind a_avail a_unwind a_split a_packed zops]. rewrite zz_unwind by (auto; lia). fold n.
      rewrite !zz_avail by lia.
      replace (Z.of_nat lim - Z.of_nat (p - n) - (Z.of_nat lim - Z.of_nat q))%Z with (Z.of_nat (q - (p - n))) by lia.
      unfold z_split. rewrite Nat2Z.id. rewrite zz_sub by lia. rewrite ztz by lia.
      replace (p - n + (q - (p - n))) with q by lia.
      replace (p - n + (q - (p - n)) * 1 <=? q) with true by (symmetry; apply Nat.leb_le; lia).
      replace (p - n + (q - (p - n)) * 1) with q by lia. reflexivity. }
    unfold skip_field. destruct k; [congruence|..]; apply Hg; exact Hs.
  Qed.

  Lemma skip_field_err f k depth tag unk (z : zip) e : skip_fields_match_tag zops maxd f depth tag z = Err e -> k <> UNone ->
    skip_field zops maxd f k depth tag unk z = Err e.
  Proof. intros H Hk. unfold skip_field. destruct k; [congruence|..]; rewrite H; reflexivity. Qed.

  Lemma skip_field_rel x f k depth tag unk lim p a : Tg x tag lim p a -> tag <> 0%Z -> p < lim -> length T - p < f ->
    reld x lim p (skip_field zops maxd f k depth tag unk (zz lim p)) (skip_field AR maxd f k depth tag unk a).
  Proof.
    intros HT Htag Hp Hf. pose proof (stl _ _ _ _ (tgs _ _ _ _ _ HT)) as Hl.
    assert (Hdec : k = UNone \/ k <> UNone) by (destruct k; auto; right; discriminate).
    destruct Hdec as [->|Hk].
    - cbn [skip_field]. pose proof (skip_one_rel AR T maxd St Tg Ln L x f depth tag lim p a HT Hf) as Hs.
      destruct (skip_one AR maxd f depth tag a) as [a1|er| | |]; cbn [SimSkip.rel_skip bind] in *; try tauto.
      + destruct Hs as [(q & ? & ? & -> & ?)|(-> & Hz & q & ? & ? & HS)]; cbn.
        * left. exists q. repeat split; auto.
        * right. rewrite (sta _ _ _ _ HS). split; [lia|]. left. apply is_err_bind, Hz.
      + cbn [SimValue.reld]. apply bad_badd. apply bad_bind. exact Hs.
    - destruct (l_unwind _ _ _ _ _ L x tag lim p a HT Htag) as (Hn & Hav & Hcopy).
      set (n := Z.to_nat (varint_size_u tag)) in *.
      assert (Hu : forall a1 q, skip_fields_match_tag AR maxd f depth tag a = Ok a1 -> a_avail AR a1 = (Z.of_nat lim - Z.of_nat q)%Z ->
        p <= q -> q <= length T -> q <= lim \/ ~ Tg true tag lim p a ->
        skip_field AR maxd f k depth tag unk a = Ok (unk_add k (tag_number tag) (slice (p - n) q) unk, a1)).
      { intros a1 q Hs Ha1 Hpq Hq Ho. destruct (Hcopy q Hpq Hq Ho) as [a2 Hc].
        unfold skip_field. destruct k; [congruence|..]; rewrite Hs; cbn [bind]; rewrite Hav, Ha1;
          replace (Z.of_nat lim - Z.of_nat (p - n) - (Z.of_nat lim - Z.of_nat q))%Z with (Z.of_nat (q - (p - n))) by lia;
          destruct (a_split AR (Z.of_nat (q - (p - n))) (a_unwind AR tag a)) as [fa ra]; cbn [fst] in Hc; rewrite Hc; reflexivity. }
      assert (He : forall e, skip_fields_match_tag AR maxd f depth tag a = Err e -> skip_field AR maxd f k depth tag unk a = Err e).
      { intros e Hs. unfold skip_field. destruct k; [congruence|..]; rewrite Hs; reflexivity. }
      assert (Hzok : forall q, p <= q -> q <= lim -> skip_fields_match_tag zops maxd f depth tag (zz lim p) = Ok (zz lim q) ->
        skip_field zops maxd f k depth tag unk (zz lim p) = Ok (unk_add k (tag_number tag) (slice (p - n) q) unk, zz lim q)).
      { intros q Hpq Hq Hz. apply z_skip_field_match; auto. }
      pose proof (skip_fields_rel AR T maxd St Tg Ln L x f depth tag lim p a HT ltac:(lia) Hf) as Hs.
      assert (Hd : forall e, (is_err (skip_fields_match_tag zops maxd f depth tag (zz lim p)) \/
          exists q, p <= q /\ q <= lim /\ skip_fields_match_tag zops maxd f depth tag (zz lim p) = Ok (zz lim q) /\ doomed (zz lim q)) ->
          badd false e (skip_field zops maxd f k depth tag unk (zz lim p))).
      { intros e [[e' Hz]|(q & Hpq & Hq & Hz & Hdm)]; cbn.
        - left. exists e'. apply skip_field_err; auto.
        - right. rewrite (Hzok q Hpq Hq Hz). eauto. }
      destruct (skip_fields_match_tag AR maxd f depth tag a) as [a1|er| | |] eqn:Ks; cbn [SimSkip.rel_match] in Hs; try tauto.
      + destruct Hs as [(q & Hpq & Hq & Hz & HS)|(-> & Hz & q & Hpq & Hq & HqT & Ha1)].
        * rewrite (Hu a1 q eq_refl (sta _ _ _ _ HS) Hpq ltac:(lia) ltac:(auto)). rewrite (Hzok q Hpq Hq Hz).
          cbn. left. exists q. auto.
        * destruct (l_dec _ _ _ _ _ L _ _ _ _ _ HT) as [HTt|HTn].
          { pose proof (skip_fields_rel AR T maxd St Tg Ln L true f depth tag lim p a HTt ltac:(lia) Hf) as Hs.
            rewrite Ks in Hs. cbn [SimSkip.rel_match] in Hs.
            destruct Hs as [(q' & Hpq' & Hq' & _ & HS)|(Hx & _)]; [|discriminate].
            rewrite (sta _ _ _ _ HS) in Ha1. lia. }
          rewrite (Hu a1 q eq_refl Ha1 Hpq HqT ltac:(auto)). cbn [SimValue.reld]. right. split; [lia|]. apply Hd; auto.
      + rewrite (He er eq_refl). cbn [SimValue.reld]. destruct x; [|apply Hd; auto]. cbn [badd]. apply skip_field_err; auto.
  Qed.

  (** ** Packed fields *)
  Lemma dec_packed_rel x k num e cur unk tag lim p a : Tg x tag lim p a -> packable e = true ->
    (elem_closed e = true -> k <> UPairs) ->
    reld x lim p (dec_packed zops k num e cur unk (zz lim p)) (dec_packed AR k num e cur unk a).
  Proof.
    intros HT Hpk Hcl. pose proof (stl _ _ _ _ (tgs _ _ _ _ _ HT)) as Hl. unfold dec_packed. cbn [a_varint zops].
    destruct (len_cases AR T utf8_ok St Tg Ln L x tag lim p a HT) as [H1 H2|len q a1 H1 H2 H0 -> Hq Hq' HL|len n a1 H1 H2 H0 Hn Hn' HL];
      rewrite H1, H2; cbn [bind].
    - apply bad_badd, bad_err.
    - (* the length itself overran the limit *)
      pose proof (l_u32_max _ _ _ _ _ L _ _ _ _ _ _ _ HT H1) as H32.
      assert (Hz : forall X e', @badd X false e' (Err BadMessage)) by (intros; cbn; left; eauto).
      pose proof (lns _ _ _ _ HL) as HS.
      destruct (Z.eqb_spec len 0); [cbn [SimValue.reld]; right; split; [rewrite (sta _ _ _ _ HS); lia|apply Hz]|].
      assert (Hout : q + Z.to_nat len <=? lim = false) by (apply Nat.leb_gt; lia).
      destruct e as [t| |is64 sg|c|u v|ty d]; try discriminate Hpk; cbn [count_packed].
      + pose proof (l_nvarints _ _ _ _ _ L false len lim q a1 HL ltac:(lia) H32) as K. rewrite Hout in K.
        destruct K as [->|(_ & c & Kn)]; [cbn [bind]; apply Hz|]. rewrite Kn. cbn [bind].
        pose proof (l_pvarint _ _ _ _ _ L false t len c lim q a1 HL ltac:(lia) H32 Kn) as K. rewrite Hout in K.
        destruct K as [->|(vs & a' & -> & Ha)]; [apply Hz|]. cbn [bind SimValue.reld]. right. split; [auto|apply Hz].
      + pose proof (l_nvarints _ _ _ _ _ L false len lim q a1 HL ltac:(lia) H32) as K. rewrite Hout in K.
        destruct K as [->|(_ & c & Kn)]; [cbn [bind]; apply Hz|]. rewrite Kn. cbn [bind].
        pose proof (l_pbool _ _ _ _ _ L false len c lim q a1 HL ltac:(lia) H32 Kn) as K. rewrite Hout in K.
        destruct K as [->|(vs & a' & -> & Ha)]; [apply Hz|]. cbn [bind SimValue.reld]. right. split; [auto|apply Hz].
      + destruct (_ =? 0)%Z; cbn [bind]; [|apply Hz].
        assert (Hs : 1 <= fix_size is64) by (destruct is64; cbn; lia).
        pose proof (l_packed _ _ _ _ _ L false (Z.of_nat (Z.to_nat (len / Z.of_nat (fix_size is64)))) (fix_size is64) lim q a1 HS ltac:(lia) Hs ltac:(destruct is64; cbn; lia)) as K.
        replace (q + _ * _ <=? lim) with false in K by (symmetry; apply Nat.leb_gt; lia). rewrite K. apply Hz.
      + pose proof (l_nvarints _ _ _ _ _ L false len lim q a1 HL ltac:(lia) H32) as K. rewrite Hout in K.
        destruct K as [->|(_ & n1 & Kn)]; [cbn [bind]; apply Hz|]. rewrite Kn. cbn [bind].
        pose proof (l_pvarint _ _ _ _ _ L false VI64 len n1 lim q a1 HL ltac:(lia) H32 Kn) as K. rewrite Hout in K.
        destruct K as [->|(vs & a' & -> & Ha)]; [apply Hz|]. cbn [bind].
        destruct (filter_enum_safe k num c (map to_enum vs) unk) as [[r u] ->]; [intros Hc; apply Hcl; destruct c; [reflexivity|congruence]|].
        cbn [bind SimValue.reld]. right. split; [auto|apply Hz].
    - pose proof (l_u32_max _ _ _ _ _ L _ _ _ _ _ _ _ HT H1) as H32. pose proof (lns _ _ _ _ HL) as HS.
      destruct (Z.eqb_spec len 0); [cbn; left; exists (p + n); repeat split; auto; lia|].
      assert (Hze : forall X er, er = BadMessage -> @badd X x BadMessage (Err er)).
      { intros X er ->. apply bad_badd, bad_err. }
      (* the varint kinds *)
      assert (Hvar : forall t (g : forall B, list Z -> B -> res (list val * list (Z * bytes) * B)), (forall vs, exists r, forall B b, g B vs b = Ok (r, b)) ->
        reld x lim p
          (o <- z_nvarints len (zz lim (p + n)) ;;
           match o with None => Err BadMessage
           | Some c => '(vs, a2) <- z_pvarint t len c (zz lim (p + n)) ;; g _ vs a2 end)
          (o <- a_nvarints AR len a1 ;;
           match o with None => Err BadMessage
           | Some c => '(vs, a2) <- a_pvarint AR t len c a1 ;; g _ vs a2 end)).
      { intros t g Hg. pose proof (l_nvarints _ _ _ _ _ L x len lim (p + n) a1 HL ltac:(lia) H32) as K.
        pose proof (l_pvarint _ _ _ _ _ L x t len) as V.
        destruct (Nat.leb_spec (p + n + Z.to_nat len) lim) as [Hin|Hout].
        - rewrite K. destruct (z_nvarints len (zz lim (p + n))) as [[c|]| | | |] eqn:Kz; cbn [bind].
          2: apply Hze; reflexivity.
          2, 3, 4, 5: unfold z_nvarints in Kz; destruct (_ <=? _); [cbv zeta in Kz; destruct (_ <? _)%Z|]; discriminate.
          specialize (V c lim (p + n) a1 HL ltac:(lia) H32 K).
          replace (_ <=? lim) with true in V by (symmetry; apply Nat.leb_le; lia).
          pose proof (z_pvarint_safe utf8_ok t len c (zz lim (p + n))) as Hsf.
          destruct (z_pvarint t len c (zz lim (p + n))) as [[vs z']|er| | |] eqn:Kp; cbn [oe] in Hsf; try tauto; cbn [bind].
          + destruct V as (a' & -> & HS'). cbn [bind]. destruct (Hg vs) as [r Hr]; rewrite !Hr. cbn. left. exists (p + n + Z.to_nat len).
            unfold z_pvarint in Kp. rewrite ztz in Kp by lia.
            replace (_ <=? lim) with true in Kp by (symmetry; apply Nat.leb_le; lia). cbn [bind] in Kp.
            destruct (parse_region _ _ _ _); cbn [bind] in Kp; try discriminate. injection Kp as _ <-.
            split; [lia|]. split; [lia|]. split; [reflexivity|exact HS'].
          + rewrite V. cbn [bind]. apply Hze. eapply z_pvarint_err; eauto.
        - assert (Hz : z_nvarints len (zz lim (p + n)) = Ok None).
          { unfold z_nvarints. cbn [za SimLaws.zz]. rewrite slice_len by lia.
            replace (_ <=? _) with false by (symmetry; apply Nat.leb_gt; lia). reflexivity. }
          rewrite Hz. cbn [bind]. destruct K as [->|(-> & c & Kn)]; cbn [bind]; [apply Hze; reflexivity|].
          rewrite Kn. cbn [bind]. specialize (V c lim (p + n) a1 HL ltac:(lia) H32 Kn).
          replace (_ <=? lim) with false in V by (symmetry; apply Nat.leb_gt; lia).
          destruct V as [->|(vs & a' & -> & Ha)]; cbn [bind]; [apply Hze; reflexivity|].
          destruct (Hg vs) as [r Hr]; rewrite !Hr. cbn [bind SimValue.reld]. right. split; [auto|apply Hze; reflexivity]. }
      destruct e as [t| |is64 sg|c|u v|ty d]; try discriminate Hpk; cbn [count_packed a_nvarints a_pvarint a_pbool a_packed zops].
      + apply (Hvar t (fun B vs a2 => Ok (cur ++ map VInt vs, unk, a2))). eauto.
      + pose proof (l_nvarints _ _ _ _ _ L x len lim (p + n) a1 HL ltac:(lia) H32) as K.
        pose proof (l_pbool _ _ _ _ _ L x len) as V.
        destruct (Nat.leb_spec (p + n + Z.to_nat len) lim) as [Hin|Hout].
        * rewrite K. destruct (z_nvarints len (zz lim (p + n))) as [[c|]| | | |] eqn:Kz; cbn [bind].
          2: apply Hze; reflexivity.
          2, 3, 4, 5: unfold z_nvarints in Kz; destruct (_ <=? _); [cbv zeta in Kz; destruct (_ <? _)%Z|]; discriminate.
          specialize (V c lim (p + n) a1 HL ltac:(lia) H32 K).
          replace (_ <=? lim) with true in V by (symmetry; apply Nat.leb_le; lia).
          pose proof (z_pbool_safe c (zz lim (p + n))) as Hsf.
          destruct (z_pbool c (zz lim (p + n))) as [[vs z']|er| | |] eqn:Kp; cbn [oe] in Hsf; try tauto; cbn [bind].
          -- destruct V as (a' & q & Hq & Hq' & -> & -> & HS'). cbn [bind SimValue.reld]. left. exists q. repeat split; auto; lia.
          -- pose proof (z_pbool_err _ _ _ Kp) as ->.
             destruct V as [->|(-> & vs & a' & -> & Ha)]; cbn [bind SimValue.reld]; [apply Hze; reflexivity|right; split; [auto|apply Hze; reflexivity]].
        * assert (Hz : z_nvarints len (zz lim (p + n)) = Ok None).
          { unfold z_nvarints. cbn [za SimLaws.zz]. rewrite slice_len by lia.
            replace (_ <=? _) with false by (symmetry; apply Nat.leb_gt; lia). reflexivity. }
          rewrite Hz. cbn [bind]. destruct K as [->|(-> & c & Kn)]; cbn [bind]; [apply Hze; reflexivity|].
          rewrite Kn. cbn [bind]. specialize (V c lim (p + n) a1 HL ltac:(lia) H32 Kn).
          replace (_ <=? lim) with false in V by (symmetry; apply Nat.leb_gt; lia).
          destruct V as [->|(vs & a' & -> & Ha)]; cbn [bind SimValue.reld]; [apply Hze; reflexivity|right; split; [auto|apply Hze; reflexivity]].
      + destruct (_ =? 0)%Z; cbn [bind]; [|apply Hze; reflexivity].
        set (m := Z.to_nat (len / Z.of_nat (fix_size is64))). rewrite ztz by lia. rewrite Nat2Z.id.
        assert (Hs : 1 <= fix_size is64) by (destruct is64; cbn; lia).
        pose proof (l_packed _ _ _ _ _ L x (Z.of_nat m) (fix_size is64) lim (p + n) a1 HS ltac:(lia) Hs ltac:(destruct is64; cbn; lia)) as K.
        rewrite Nat2Z.id in K. destruct (Nat.leb_spec (p + n + m * fix_size is64) lim).
        * destruct K as (a' & -> & HS'). cbn. left. exists (p + n + m * fix_size is64). repeat split; auto; lia.
        * rewrite K. apply Hze; reflexivity.
      + apply (Hvar VI64 (fun B vs a2 => '(r, u) <- filter_enum k num c (map to_enum vs) unk ;; Ok (cur ++ r, u, a2))).
        intros vs. destruct (filter_enum_safe k num c (map to_enum vs) unk) as [[r u] ->]; [intros Hc; apply Hcl; destruct c; [reflexivity|congruence]|].
        cbn. eauto.
  Qed.
End Field.
