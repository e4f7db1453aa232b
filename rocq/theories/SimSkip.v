(** Skipping through an archive that satisfies the laws agrees with skipping
    through the reference archive. *)
Require Import Verif.Bits Verif.Varint Verif.VarintSpec Verif.VarintFacts.
Require Import Verif.Schema Verif.Archive Verif.Decode Verif.DecodeSafe Verif.DecodeSpec1 Verif.SimLaws.
Local Open Scope nat_scope.

Section Skip.
  Context {A : Type} (AR : aops A) (T : bytes) (maxd : Z).
  Context (St : bool -> nat -> nat -> A -> Prop) (Tg : bool -> Z -> nat -> nat -> A -> Prop)
          (Ln : bool -> nat -> nat -> A -> Prop) (L : laws AR T St Tg Ln).
  Notation zz := (zz T). Notation slice := (slice T).

  (** The reference run fails: with the same code when no overrun is possible. *)
  Definition bad {X} (x : bool) (e : errc) (rz : res X) : Prop := if x then rz = Err e else is_err rz.

  (** Outcomes of skipping: the same end, or the archive overran its limit and the
      reference run fails. *)
  Definition rel_skip (x : bool) (lim p : nat) (rz : res zip) (ra : res A) : Prop :=
    match ra with
    | Ok a' => (exists q, p <= q /\ q <= lim /\ rz = Ok (zz lim q) /\ St x lim q a') \/
               (x = false /\ is_err rz /\ exists q, p < q /\ lim < q /\ St false lim q a')
    | Err e => bad x e rz
    | _ => False
    end.

  Lemma bad_err {X} x e : @bad X x e (Err e).
  Proof. destruct x; cbn; auto. Qed.

  Lemma st_avail x lim p a : St x lim p a -> a_avail AR a = (Z.of_nat lim - Z.of_nat p)%Z.
  Proof. intros H. apply (l_st _ _ _ _ _ L) in H. tauto. Qed.
  Lemma st_lim x lim p a : St x lim p a -> lim <= length T.
  Proof. intros H. apply (l_st _ _ _ _ _ L) in H. tauto. Qed.
  Lemma st_pos x lim p a : St x lim p a -> p <= length T.
  Proof. intros H. apply (l_st _ _ _ _ _ L) in H. tauto. Qed.
  Lemma tg_st x v lim p a : Tg x v lim p a -> St x lim p a.
  Proof. apply (l_tg _ _ _ _ _ L). Qed.
  Lemma ln_st x lim p a : Ln x lim p a -> St x lim p a.
  Proof. apply (l_ln _ _ _ _ _ L). Qed.

  Lemma sm_tag_len lim p w k : lim <= length T -> shift_mix SMTAG (slice p lim) = POk w k -> 1 <= k /\ p + k <= lim.
  Proof. intros H K. apply shift_mix_len in K. rewrite slice_len in K by lia. lia. Qed.

  Lemma do_skip_rel x tag lim p a grpz grpa :
    Tg x tag lim p a ->
    (forall num, rel_skip x lim p (grpz num (zz lim p)) (grpa num a)) ->
    rel_skip x lim p (do_skip_field zops grpz tag (zz lim p)) (do_skip_field AR grpa tag a).
  Proof.
    intros HT Hg. pose proof (tg_st _ _ _ _ _ HT) as HS. pose proof (st_lim _ _ _ _ HS) as Hlim.
    unfold do_skip_field. destruct (tag =? 0)%Z; [apply bad_err|].
    destruct (tag_type tag =? WT_VARINT)%Z.
    { cbn [a_skip_varint zops]. unfold z_skip_varint. cbn [za SimLaws.zz].
      pose proof (l_skip_varint _ _ _ _ _ L x tag lim p a HT) as K.
      destruct (find_term 10 (slice p lim)) as [k|] eqn:F.
      - destruct K as (a' & -> & K). apply find_term_len in F. rewrite slice_len in F by lia.
        cbn. left. exists (p + k). repeat split; [lia|lia|rewrite zz_adv by lia; reflexivity|auto].
      - destruct K as [->|(-> & q & a' & -> & Hq & Hq' & K)]; [apply bad_err|].
        cbn. right. repeat split; eauto. }
    assert (Hsk : forall y (b : A) q n, St y lim q b -> (0 <= n)%Z -> p <= q -> y = x -> q <= lim \/ (0 < n)%Z ->
      rel_skip x lim p (z_skip n (zz lim q)) (a_skip AR n b)).
    { intros y b q n Hb Hn Hpq -> Hor. pose proof (l_skip _ _ _ _ _ L _ n _ _ _ Hb Hn) as K.
      unfold z_skip, zlen. cbn [za SimLaws.zz]. rewrite slice_len by lia.
      destruct (Z.leb_spec (Z.of_nat q + n) (Z.of_nat lim)).
      - destruct K as (a' & -> & K). replace (_ <? n)%Z with false by lia. cbn. left.
        exists (q + Z.to_nat n). repeat split; [lia|lia|rewrite zz_adv by lia; reflexivity|auto].
      - rewrite K. destruct (Nat.le_gt_cases q lim).
        + replace (_ <? n)%Z with true by lia. apply bad_err.
        + destruct x; [exfalso; pose proof (l_exact _ _ _ _ _ L _ _ _ Hb); lia|].
          cbn. replace (_ <? n)%Z with true by lia. eauto. }
    destruct (tag_type tag =? WT_LEN)%Z.
    { cbn [a_varint zops]. unfold z_varint. cbn [za SimLaws.zz].
      pose proof (l_varint _ _ _ _ _ L x tag VU32 lim p a HT) as K.
      destruct (parse_varint VU32 (slice p lim)) as [| |w k] eqn:F; cbn [z_parse bind].
      - destruct K as [->|(-> & w & q & a' & Hv & Hq & Hq' & K)]; [apply bad_err|]. rewrite Hv. cbn [bind].
        pose proof (l_u32 _ _ _ _ _ L _ _ _ _ _ _ _ HT Hv).
        pose proof (l_skip _ _ _ _ _ L _ w _ _ _ (ln_st _ _ _ _ K) ltac:(lia)) as M.
        replace (_ <=? _)%Z with false in M by lia. rewrite M. cbn. eauto.
      - destruct K as [->|(-> & w & q & a' & Hv & Hq & Hq' & K)]; [apply bad_err|]. rewrite Hv. cbn [bind].
        pose proof (l_u32 _ _ _ _ _ L _ _ _ _ _ _ _ HT Hv).
        pose proof (l_skip _ _ _ _ _ L _ w _ _ _ (ln_st _ _ _ _ K) ltac:(lia)) as M.
        replace (_ <=? _)%Z with false in M by lia. rewrite M. cbn. eauto.
      - destruct K as (a' & Hv & K). rewrite Hv. cbn [bind a_skip zops].
        apply parse_varint_len in F. rewrite slice_len in F by lia. rewrite zz_adv by lia.
        apply (Hsk x); [apply ln_st; auto| |lia|auto|lia]. eapply (l_u32 _ _ _ _ _ L); eauto. }
    destruct (tag_type tag =? WT_I64)%Z; [cbn [a_skip zops]; apply (Hsk x); auto; lia|].
    destruct (tag_type tag =? WT_SGROUP)%Z; [apply Hg|].
    destruct (tag_type tag =? WT_I32)%Z; [cbn [a_skip zops]; apply (Hsk x); auto; lia|].
    apply bad_err.
  Qed.

  Lemma skip_group_rel x fuel : forall num depth lim p a,
    St x lim p a -> length T - p < fuel ->
    rel_skip x lim p (skip_group_loop zops maxd fuel num depth (zz lim p)) (skip_group_loop AR maxd fuel num depth a).
  Proof.
    induction fuel as [|f IH]; intros num depth lim p a HS Hf; [lia|].
    pose proof (st_lim _ _ _ _ HS) as Hlim. pose proof (st_pos _ _ _ _ HS) as Hpos.
    cbn [skip_group_loop]. rewrite (st_avail _ _ _ _ HS). cbn [a_avail zops].
    assert (Hz : zlen (za (zz lim p)) = Z.of_nat (lim - p)) by (unfold zlen; cbn [za SimLaws.zz]; rewrite slice_len by lia; reflexivity).
    rewrite Hz. destruct (Z.leb_spec (Z.of_nat lim - Z.of_nat p) 0).
    { replace (_ <=? 0)%Z with true by lia. apply bad_err. }
    replace (_ <=? 0)%Z with false by lia.
    destruct (l_tag _ _ _ _ _ L _ _ _ _ HS) as (v & a1 & Ht & K). rewrite Ht. cbn [bind a_tag zops]. unfold z_tag.
    cbn [za SimLaws.zz].
    destruct (shift_mix SMTAG (slice p lim)) as [| |w k] eqn:F; cbn [z_parse bind].
    1, 2: change (tag_type 0 =? WT_EGROUP)%Z with false; cbn [andb];
      rewrite Hz; replace (_ <=? 0)%Z with false by lia; unfold do_skip_field at 1; cbn [Z.eqb bind];
      destruct K as [[-> K]|(-> & Hne & q & Hq & Hq' & K)];
      [ change (tag_type 0 =? WT_EGROUP)%Z with false; cbn [andb]; rewrite K; replace (_ <=? 0)%Z with false by lia;
        unfold do_skip_field; cbn [Z.eqb bind]; apply bad_err
      | destruct (_ && _); [cbn; right; repeat split; eauto; exists q; repeat split; auto; apply tg_st with v; auto|];
        rewrite (st_avail _ _ _ _ (tg_st _ _ _ _ _ K)); replace (_ <=? 0)%Z with true by lia; cbn; eauto ].
    destruct K as [-> K]. pose proof (sm_tag_len _ _ _ _ Hlim F) as Hk. rewrite zz_adv by lia.
    destruct (_ && _); [cbn; left; exists (p + k); repeat split; [lia|lia|apply tg_st with (wrapU 32 w); auto]|].
    rewrite (st_avail _ _ _ _ (tg_st _ _ _ _ _ K)), zz_avail by lia.
    destruct (Z.leb_spec (Z.of_nat lim - Z.of_nat (p + k)) 0); [apply bad_err|].
    assert (Hd : rel_skip x lim (p + k)
      (do_skip_field zops (fun n x => if scope_ok maxd depth then skip_group_loop zops maxd f n (depth + 1) x else Err TooLarge) (wrapU 32 w) (zz lim (p + k)))
      (do_skip_field AR (fun n x => if scope_ok maxd depth then skip_group_loop AR maxd f n (depth + 1) x else Err TooLarge) (wrapU 32 w) a1)).
    { apply do_skip_rel; auto. intros n. destruct (scope_ok maxd depth); [|apply bad_err].
      apply IH; [apply tg_st with (wrapU 32 w); auto|lia]. }
    destruct (do_skip_field AR _ (wrapU 32 w) a1) as [a2|e| | |]; cbn [rel_skip bind] in *; try tauto.
    - destruct Hd as [(q & Hq & Hq' & -> & H2)|(-> & [e ->] & q & Hq & Hq' & H2)]; cbn [bind].
      + specialize (IH num depth lim q a2 H2 ltac:(lia)).
        destruct (skip_group_loop AR maxd f num depth a2) as [a3|e| | |]; cbn [rel_skip] in *; auto.
        destruct IH as [(r & Hr & Hr' & -> & H3)|(-> & He & r & Hr & Hr' & H3)].
        * left. exists r. repeat split; auto; lia.
        * right. repeat split; auto. exists r. repeat split; auto; lia.
      + destruct f as [|f]; [lia|]. cbn [skip_group_loop]. rewrite (st_avail _ _ _ _ H2).
        replace (_ <=? 0)%Z with true by lia. cbn. eauto.
    - destruct x; cbn [bad] in *; [rewrite Hd; reflexivity|apply is_err_bind; auto].
  Qed.

  Lemma skip_one_rel x fuel depth tag lim p a : Tg x tag lim p a -> length T - p < fuel ->
    rel_skip x lim p (skip_one zops maxd fuel depth tag (zz lim p)) (skip_one AR maxd fuel depth tag a).
  Proof.
    intros HT Hf. apply do_skip_rel; auto. intros n. unfold do_skip_group.
    destruct (scope_ok maxd depth); [|apply bad_err]. apply skip_group_rel; auto. apply tg_st with tag; auto.
  Qed.

  (** The reference archive stands before bytes that are not a tag: the message
      loop fails there. *)
  Definition doomed (z : zip) : Prop := za z <> [] /\ no_tag (za z).
  Definition badd {X} (x : bool) (e : errc) (rz : res (X * zip)) : Prop :=
    if x then rz = Err e else is_err rz \/ exists y z, rz = Ok (y, z) /\ doomed z.

  (** Result of the matching loop: over states only tell how much is left. *)
  Definition rel_match (x : bool) (lim p : nat) (rz : res zip) (ra : res A) : Prop :=
    match ra with
    | Ok a' => (exists q, p <= q /\ q <= lim /\ rz = Ok (zz lim q) /\ St x lim q a') \/
               (x = false /\ (is_err rz \/ exists q, p <= q /\ q <= lim /\ rz = Ok (zz lim q) /\ doomed (zz lim q)) /\
                exists q, p <= q /\ lim < q /\ q <= length T /\ a_avail AR a' = (Z.of_nat lim - Z.of_nat q)%Z)
    | Err e => if x then rz = Err e else
               is_err rz \/ exists q, p <= q /\ q <= lim /\ rz = Ok (zz lim q) /\ doomed (zz lim q)
    | _ => False
    end.

  Lemma no_tag_of d : match shift_mix SMTAG d with POk _ _ => False | _ => True end -> no_tag d.
  Proof. unfold no_tag. destruct (shift_mix SMTAG d); [discriminate|discriminate|tauto]. Qed.

  (** Beyond the limit the matching loop only has to be safe. *)
  Lemma skip_match_over n fuel depth tag : forall lim p a, St false lim p a -> lim < p ->
    length T - p < n -> length T - p < fuel ->
    match skip_match_loop AR maxd n fuel depth tag a with
    | Ok a' => exists q, p <= q /\ lim < q /\ q <= length T /\ a_avail AR a' = (Z.of_nat lim - Z.of_nat q)%Z
    | Err _ => True
    | _ => False
    end.
  Proof.
    induction n as [|n IH]; intros lim p a HS Hp Hn Hf; [lia|]. pose proof (st_pos _ _ _ _ HS).
    cbn [skip_match_loop]. destruct (l_match _ _ _ _ _ L _ tag _ _ _ HS) as (m & a1 & Hm & K). rewrite Hm. cbn [bind].
    rewrite slice_nil in K by lia. cbn [shift_mix next] in K.
    destruct K as [(-> & _ & K)|(-> & _ & Hne & q & Hq & Hq' & K)].
    - exists p. auto.
    - pose proof (st_pos _ _ _ _ (tg_st _ _ _ _ _ K)).
      pose proof (skip_one_rel false fuel depth tag lim q a1 K ltac:(lia)) as Hs.
      destruct (skip_one AR maxd fuel depth tag a1) as [a2| | | |]; cbn [rel_skip bind] in *; auto.
      destruct Hs as [(r & Hr & Hr' & _)|(_ & _ & r & Hr & Hr' & H2)]; [lia|].
      pose proof (st_pos _ _ _ _ H2).
      specialize (IH lim r a2 H2 Hr' ltac:(lia) ltac:(lia)).
      destruct (skip_match_loop AR maxd n fuel depth tag a2); auto.
      destruct IH as (s & ? & ? & ? & ?). exists s. repeat split; auto; lia.
  Qed.

  Lemma skip_match_rel x n fuel depth tag : forall lim p a, St x lim p a -> p <= lim ->
    length T - p < n -> length T - p < fuel ->
    rel_match x lim p (skip_match_loop zops maxd n fuel depth tag (zz lim p)) (skip_match_loop AR maxd n fuel depth tag a).
  Proof.
    induction n as [|n IH]; intros lim p a HS Hp Hn Hf; [lia|]. pose proof (st_lim _ _ _ _ HS) as Hlim.
    cbn [skip_match_loop]. destruct (l_match _ _ _ _ _ L _ tag _ _ _ HS) as (m & a1 & Hm & K). rewrite Hm.
    cbn [bind a_match zops]. unfold z_match. cbn [za SimLaws.zz].
    destruct (shift_mix SMTAG (slice p lim)) as [| |w k] eqn:F; cbn [z_parse].
    1, 2: cbn [bind]; destruct K as [(-> & K & _)|(-> & -> & Hne & q & Hq & Hq' & K)];
      [ cbn; left; exists p; repeat split; auto
      | assert (Hd : doomed (zz lim p)) by
          (split; [cbn [za SimLaws.zz]; intros Hnil; apply (f_equal (@length Z)) in Hnil; rewrite slice_len in Hnil by lia; cbn in Hnil; lia
                  | cbn [za SimLaws.zz]; apply no_tag_of; rewrite F; exact I]);
        pose proof (st_pos _ _ _ _ (tg_st _ _ _ _ _ K));
        pose proof (skip_one_rel false fuel depth tag lim q a1 K ltac:(lia)) as Hs;
        destruct (skip_one AR maxd fuel depth tag a1) as [a2| | | |]; cbn [rel_skip bind] in *; try tauto;
        [ destruct Hs as [(r & Hr & Hr' & _)|(_ & _ & r & Hr & Hr' & H2)]; [lia|];
          pose proof (st_pos _ _ _ _ H2);
          pose proof (skip_match_over n fuel depth tag lim r a2 H2 Hr' ltac:(lia) ltac:(lia)) as Ho;
          destruct (skip_match_loop AR maxd n fuel depth tag a2) as [a3| | | |]; cbn [rel_match]; try tauto;
          [ right; split; [auto|]; split; [right; exists p; repeat split; auto; apply Hd|];
            destruct Ho as (s & ? & ? & ? & ?); exists s; repeat split; auto; lia
          | right; exists p; repeat split; auto; apply Hd ]
        | cbn; right; exists p; repeat split; auto; apply Hd ] ].
    pose proof (sm_tag_len _ _ _ _ Hlim F) as Hk.
    destruct (w =? tag)%Z; destruct K as [-> K]; cbn [bind].
    2: { cbn. left. exists p. repeat split; auto. }
    rewrite zz_adv by lia. pose proof (st_pos _ _ _ _ (tg_st _ _ _ _ _ K)).
    pose proof (skip_one_rel x fuel depth tag lim (p + k) a1 K ltac:(lia)) as Hs.
    destruct (skip_one AR maxd fuel depth tag a1) as [a2|e| | |]; cbn [rel_skip bind] in *; try tauto.
    - destruct Hs as [(q & Hq & Hq' & -> & H2)|(-> & [e ->] & q & Hq & Hq' & H2)]; cbn [bind].
      + specialize (IH lim q a2 H2 Hq' ltac:(lia) ltac:(lia)).
        destruct (skip_match_loop AR maxd n fuel depth tag a2) as [a3|e| | |]; cbn [rel_match] in *; try tauto.
        * destruct IH as [(r & Hr & Hr' & -> & H3)|(-> & He & r & Hr & Hr' & Hr2 & Hr3)].
          -- left. exists r. repeat split; auto; lia.
          -- right. split; [auto|]. split; [destruct He as [He|(s & ? & ? & ? & Hd)]; [auto|right; exists s; repeat split; auto; try lia; apply Hd]|].
             exists r. repeat split; auto; lia.
        * destruct x; [auto|]. destruct IH as [He|(s & ? & ? & ? & Hd)]; [auto|right; exists s; repeat split; auto; try lia; apply Hd].
      + pose proof (st_pos _ _ _ _ H2).
        pose proof (skip_match_over n fuel depth tag lim q a2 H2 Hq' ltac:(lia) ltac:(lia)) as Ho.
        destruct (skip_match_loop AR maxd n fuel depth tag a2) as [a3| | | |]; cbn [rel_match]; try tauto; eauto.
        right; split; [auto|]; split; [eauto|]. destruct Ho as (s & ? & ? & ? & ?); exists s; repeat split; auto; lia.
    - destruct x; cbn [bad] in *; [rewrite Hs; reflexivity|left; apply is_err_bind; auto].
  Qed.

  Lemma skip_fields_rel x fuel depth tag lim p a : Tg x tag lim p a -> p <= lim -> length T - p < fuel ->
    rel_match x lim p (skip_fields_match_tag zops maxd fuel depth tag (zz lim p)) (skip_fields_match_tag AR maxd fuel depth tag a).
  Proof.
    intros HT Hp Hf. unfold skip_fields_match_tag. pose proof (skip_one_rel x fuel depth tag lim p a HT Hf) as Hs.
    destruct (skip_one AR maxd fuel depth tag a) as [a2|e| | |]; cbn [rel_skip bind] in *; try tauto.
    - destruct Hs as [(q & Hq & Hq' & -> & H2)|(-> & [e ->] & q & Hq & Hq' & H2)]; cbn [bind].
      + pose proof (skip_match_rel x fuel fuel depth tag lim q a2 H2 Hq' ltac:(lia) ltac:(lia)) as IH.
        destruct (skip_match_loop AR maxd fuel fuel depth tag a2) as [a3|e| | |]; cbn [rel_match] in *; try tauto.
        * destruct IH as [(r & Hr & Hr' & -> & H3)|(-> & He & r & Hr & Hr' & Hr2 & Hr3)].
          -- left. exists r. repeat split; auto; lia.
          -- right. split; [auto|]. split; [destruct He as [He|(s & ? & ? & ? & Hd)]; [auto|right; exists s; repeat split; auto; try lia; apply Hd]|].
             exists r. repeat split; auto; lia.
        * destruct x; [auto|]. destruct IH as [He|(s & ? & ? & ? & Hd)]; [auto|right; exists s; repeat split; auto; try lia; apply Hd].
      + pose proof (st_pos _ _ _ _ H2).
        pose proof (skip_match_over fuel fuel depth tag lim q a2 H2 Hq' ltac:(lia) ltac:(lia)) as Ho.
        destruct (skip_match_loop AR maxd fuel fuel depth tag a2) as [a3| | | |]; cbn [rel_match]; try tauto; eauto.
        right; split; [auto|]; split; [eauto|]. destruct Ho as (s & ? & ? & ? & ?); exists s; repeat split; auto; lia.
    - destruct x; cbn [bad] in *; [rewrite Hs; reflexivity|left; apply is_err_bind; auto].
  Qed.
End Skip.
