(** The decoder over the reference archive: enough fuel is the number of bytes,
    and the outcome is always success or an error status. *)
Require Import Verif.Bits Verif.Varint Verif.Schema Verif.Archive Verif.Decode.

Lemma zadv_za n z : za (zadv n z) = skipn n (za z).
Proof. reflexivity. Qed.

Lemma zadv_0 z : zadv 0 z = z.
Proof. destruct z; reflexivity. Qed.

Lemma firstn_add {T} n m (l : list T) : firstn (n + m) l = firstn n l ++ firstn m (skipn n l).
Proof.
  revert l; induction n as [|n IH]; intros l; [reflexivity|].
  destruct l as [|x l]; [cbn; rewrite firstn_nil; reflexivity|]. cbn. rewrite IH. reflexivity.
Qed.

Lemma skipn_add {T} n m (l : list T) : skipn (n + m) l = skipn m (skipn n l).
Proof.
  revert l; induction n as [|n IH]; intros l; [reflexivity|].
  destruct l as [|x l]; [cbn; rewrite skipn_nil; reflexivity|]. apply IH.
Qed.

Lemma zadv_zadv n m z : zadv m (zadv n z) = zadv (n + m) z.
Proof.
  unfold zadv; cbn [za zb]. rewrite firstn_add, skipn_add, rev_app_distr, app_assoc. reflexivity.
Qed.

(** [z'] is [z] after consuming some bytes. *)
Definition suf (z z' : zip) : Prop := exists n, z' = zadv n z.

Lemma suf_refl z : suf z z.
Proof. exists 0%nat. symmetry; apply zadv_0. Qed.
Lemma suf_trans a b c : suf a b -> suf b c -> suf a c.
Proof. intros [n ->] [m ->]. exists (n + m)%nat. apply zadv_zadv. Qed.
Lemma suf_adv n z : suf z (zadv n z).
Proof. exists n; reflexivity. Qed.
Lemma suf_len z z' : suf z z' -> (length (za z') <= length (za z))%nat.
Proof. intros [n ->]. rewrite zadv_za, skipn_length. lia. Qed.
#[export] Hint Resolve suf_refl suf_adv : core.

(** Success satisfying [P], or an error status. *)
Definition oe {T} (P : T -> Prop) (r : res T) : Prop :=
  match r with Ok x => P x | Err _ => True | _ => False end.

Lemma oe_bind {T U} (P : T -> Prop) (Q : U -> Prop) r k :
  oe P r -> (forall x, P x -> oe Q (k x)) -> oe Q (bind r k).
Proof. destruct r; cbn; auto. Qed.

Lemma oe_weaken {T} (P Q : T -> Prop) r : oe P r -> (forall x, P x -> Q x) -> oe Q r.
Proof. destruct r; cbn; auto. Qed.

Lemma shift_mix_len ty m v n : shift_mix ty m = POk v n -> (1 <= n <= length m)%nat.
Proof.
  unfold shift_mix, next. intros H.
  repeat match type of H with
  | match ?m with [] => _ | _ => _ end = _ => destruct m; [discriminate|]
  | (if ?c then _ else _) = _ => destruct c; [injection H as <- <-; cbn; lia|]
  end.
  destruct ty; unfold sm_last, sm_64, sm_i32, next in H;
  repeat match type of H with
  | match ?m with [] => _ | _ => _ end = _ => destruct m; [discriminate|]
  | (if ?c then _ else _) = _ => destruct c
  | POk _ _ = POk _ _ => injection H as <- <-
  | _ => discriminate
  end; try (cbn; lia);
  unfold sm_last, sm_64, sm_i32, next in H;
  repeat match type of H with
  | match ?m with [] => _ | _ => _ end = _ => destruct m; [discriminate|]
  | (if ?c then _ else _) = _ => destruct c
  | POk _ _ = POk _ _ => injection H as <- <-
  | _ => discriminate
  end; try (cbn; lia).
Qed.

Lemma parse_varint_len t m v n : parse_varint t m = POk v n -> (1 <= n <= length m)%nat.
Proof.
  unfold parse_varint. destruct (shift_mix _ _) eqn:E; try discriminate.
  intros [= <- <-]. eapply shift_mix_len; eauto.
Qed.

Lemma parse_bool_loop_len l : forall n b m v k,
  parse_bool_loop l n b m = POk v k -> (n <= k <= n + length m)%nat.
Proof.
  induction l as [|l IH]; intros n b m v k; cbn [parse_bool_loop];
    destruct (Z.land b 128 =? 0); try (intros [= <- <-]; lia); unfold next;
    destruct m as [|c m']; try discriminate.
  - destruct (_ =? 0); [|discriminate]. intros [= <- <-]. cbn; lia.
  - intros H. apply IH in H. cbn; lia.
Qed.

Lemma parse_bool_len m v n : parse_bool m = POk v n -> (1 <= n <= length m)%nat.
Proof.
  unfold parse_bool, next. destruct m as [|b m']; [discriminate|].
  destruct (_ || _); [intros [= <- <-]; cbn; lia|].
  intros H. apply parse_bool_loop_len in H. cbn; lia.
Qed.

Lemma find_term_len k m n : find_term k m = Some n -> (1 <= n <= length m)%nat.
Proof.
  revert m n; induction k as [|k IH]; intros m n; cbn; [discriminate|].
  destruct m as [|b t]; [discriminate|]. destruct (b <? 128); [intros [= <-]; cbn; lia|].
  destruct (find_term k t) eqn:H; [|discriminate]. intros [= <-]. apply IH in H. cbn; lia.
Qed.

(** [z'] is [z] after consuming at least one byte. *)
Definition ssuf (z z' : zip) : Prop := suf z z' /\ (length (za z') < length (za z))%nat.

Lemma ssuf_adv n z : (1 <= n <= length (za z))%nat -> ssuf z (zadv n z).
Proof. intros H. split; [auto|]. rewrite zadv_za, skipn_length. lia. Qed.
Lemma ssuf_suf z z' : ssuf z z' -> suf z z'.
Proof. intros [H _]; exact H. Qed.
Lemma ssuf_trans a b c : ssuf a b -> suf b c -> ssuf a c.
Proof. intros [H1 H2] H3. split; [eauto using suf_trans|]. apply suf_len in H3. lia. Qed.
#[export] Hint Resolve ssuf_suf : core.

Section Safe.
  Context (E : env) (utf8_ok : bytes -> bool) (maxd : Z).

  (** Schemas for which the decoder has no undefined or exceptional outcome: the
      two exceptions found (closed enum in a oneof, closed enum values unknown
      to a pair-list store) are excluded, see DESIGN.md. *)
  Definition elem_closed (e : elem) : bool := match e with EEnum (Some _) => true | _ => false end.
  Definition field_safe (k : ukind) (f : field) : Prop :=
    match f with
    | Field _ e _ => elem_closed e = true -> k <> UPairs
    | Oneof alts => Forall (fun a => elem_closed (snd a) = false) alts
    end.
  Definition safe_env : Prop :=
    forall ty, Forall (field_safe (m_unk (desc_of E ty))) (m_fields (desc_of E ty)).

  Notation dl := (dec_loop zops E utf8_ok maxd).

  Lemma z_tag_safe z : oe (fun p => suf z (snd p) /\ (fst p <> 0 -> ssuf z (snd p))) (z_tag z).
  Proof.
    unfold z_tag, z_parse. destruct (shift_mix SMTAG (za z)) eqn:H; cbn; try (split; [auto|congruence]).
    split; [auto|]. intros _. apply ssuf_adv. eapply shift_mix_len; eauto.
  Qed.

  Lemma z_match_safe tag z : oe (fun p => suf z (snd p) /\ (fst p = true -> ssuf z (snd p))) (z_match tag z).
  Proof.
    unfold z_match, z_parse. destruct (shift_mix SMTAG (za z)) eqn:H; cbn; try (split; [auto|congruence]).
    destruct (_ =? _); cbn; (split; [auto|]); try congruence. intros _. apply ssuf_adv. eapply shift_mix_len; eauto.
  Qed.

  Lemma z_varint_safe t z : oe (fun p => ssuf z (snd p)) (z_varint t z).
  Proof.
    unfold z_varint, z_parse. destruct (parse_varint t (za z)) eqn:H; cbn; auto.
    apply ssuf_adv. eapply parse_varint_len; eauto.
  Qed.

  Lemma z_bool_safe z : oe (fun p => ssuf z (snd p)) (z_bool z).
  Proof.
    unfold z_bool, z_parse. destruct (parse_bool (za z)) eqn:H; cbn; auto.
    apply ssuf_adv. eapply parse_bool_len; eauto.
  Qed.

  Lemma z_take_safe n z : oe (fun p => snd p = zadv n z /\ fst p = firstn n (za z) /\ (n <= length (za z))%nat) (z_take n z).
  Proof. unfold z_take. destruct (Nat.leb_spec n (length (za z))); cbn; auto. Qed.

  Lemma z_skip_safe n z : oe (fun z' => suf z z') (z_skip n z).
  Proof. unfold z_skip. destruct (_ <? _); cbn; auto. Qed.

  Lemma z_skip_varint_safe z : oe (fun z' => ssuf z z') (z_skip_varint z).
  Proof.
    unfold z_skip_varint. destruct (find_term 10 (za z)) eqn:H; cbn; auto.
    apply ssuf_adv. eapply find_term_len; eauto.
  Qed.

  Lemma parse_region_safe f t r d : (length d <= f)%nat -> oe (fun _ => True) (parse_region f t r d).
  Proof.
    revert r d; induction f as [|f IH]; intros r d Hd; (destruct d as [|b d]; [exact I|]); cbn [parse_region].
    - cbn in Hd; lia.
    - destruct r as [|r]; [exact I|].
      destruct (parse_varint t (b :: d)) eqn:H; try exact I.
      apply parse_varint_len in H. eapply oe_bind; [apply IH; rewrite skipn_length; lia|].
      intros; exact I.
  Qed.

  Lemma z_pvarint_safe t n r z : oe (fun p => suf z (snd p)) (z_pvarint t n r z).
  Proof.
    unfold z_pvarint. eapply oe_bind; [apply z_take_safe|]. intros [d z'] (H1 & _ & _); cbn in *; subst.
    eapply oe_bind; [apply parse_region_safe; lia|]. intros; cbn; auto.
  Qed.

  Lemma z_pbool_safe n z : oe (fun p => suf z (snd p)) (z_pbool n z).
  Proof.
    revert z; induction n as [|n IH]; intros z; cbn [z_pbool]; [cbn; auto|].
    eapply oe_bind; [apply z_bool_safe|]. intros [v z1] H1; cbn in *.
    eapply oe_bind; [apply IH|]. intros [vs z2] H2; cbn in *. solve [eauto using suf_trans].
  Qed.

  Lemma do_skip_field_safe grp tag z :
    (forall num, oe (fun z' => suf z z') (grp num z)) ->
    oe (fun z' => suf z z') (do_skip_field zops grp tag z).
  Proof.
    intros Hg. unfold do_skip_field. destruct (tag =? 0); [exact I|].
    destruct (_ =? WT_VARINT); [eapply oe_weaken; [apply z_skip_varint_safe|auto]|].
    destruct (_ =? WT_LEN).
    { eapply oe_bind; [apply z_varint_safe|]. intros [len z1] H1; cbn in H1.
      eapply oe_weaken; [apply z_skip_safe|]. intros x Hx. solve [eauto using suf_trans]. }
    destruct (_ =? WT_I64); [apply z_skip_safe|].
    destruct (_ =? WT_SGROUP); [apply Hg|].
    destruct (_ =? WT_I32); [apply z_skip_safe|exact I].
  Qed.

  Lemma skip_group_safe fuel : forall num depth z, (length (za z) < fuel)%nat ->
    oe (fun z' => suf z z') (skip_group_loop zops maxd fuel num depth z).
  Proof.
    induction fuel as [|f IH]; intros num depth z Hf; [lia|]. cbn [skip_group_loop].
    destruct (a_avail zops z <=? 0); [exact I|].
    eapply oe_bind; [apply z_tag_safe|]. intros [tag z1] [H1 H2]; cbn [fst snd] in *.
    destruct (_ && _); [exact H1|]. destruct (a_avail zops z1 <=? 0); [exact I|].
    destruct (Z.eqb_spec tag 0) as [->|Hne]; [exact I|].
    specialize (H2 Hne). destruct H2 as [_ H2].
    eapply oe_bind.
    - apply do_skip_field_safe. intros n. destruct (scope_ok maxd depth); [|exact I].
      apply IH; lia.
    - intros z2 H3. pose proof (suf_len _ _ H3).
      eapply oe_weaken; [apply IH; lia|]. intros z3 H4. eapply suf_trans; [|exact H4]. solve [eauto using suf_trans].
  Qed.

  Lemma skip_one_safe fuel depth tag z : (length (za z) < fuel)%nat ->
    oe (fun z' => suf z z') (skip_one zops maxd fuel depth tag z).
  Proof.
    intros H. apply do_skip_field_safe. intros num. unfold do_skip_group.
    destruct (scope_ok maxd depth); [|exact I]. apply skip_group_safe; auto.
  Qed.

  Lemma skip_match_safe n fuel depth tag z : (length (za z) < n)%nat -> (length (za z) < fuel)%nat ->
    oe (fun z' => suf z z') (skip_match_loop zops maxd n fuel depth tag z).
  Proof.
    revert z; induction n as [|n IH]; intros z H1 H2; [lia|]. cbn [skip_match_loop].
    eapply oe_bind; [apply z_match_safe|]. intros [m z1] [H3 H4]; cbn [fst snd] in *.
    destruct m; [|exact H3]. destruct (H4 eq_refl) as [_ H5].
    eapply oe_bind; [apply skip_one_safe; lia|]. intros z2 H6. pose proof (suf_len _ _ H6).
    eapply oe_weaken; [apply IH; lia|]. intros z3 H7. eapply suf_trans; [|exact H7]. solve [eauto using suf_trans].
  Qed.

  Lemma unwind_len tag z : (length (za z) <= length (za (z_unwind tag z)))%nat.
  Proof. unfold z_unwind; cbn. rewrite app_length. lia. Qed.

  Lemma skip_field_safe fuel k depth tag unk z : (length (za z) < fuel)%nat ->
    oe (fun p => suf z (snd p)) (skip_field zops maxd fuel k depth tag unk z).
  Proof.
    intros H. unfold skip_field.
    assert (K : oe (fun p => suf z (snd p))
      (a1 <- skip_fields_match_tag zops maxd fuel depth tag z ;;
       let '(fa, _) := a_split zops (a_avail zops (a_unwind zops tag z) - a_avail zops a1) (a_unwind zops tag z) in
       '(b, _) <- a_packed zops (a_avail zops (a_unwind zops tag z) - a_avail zops a1) 1 fa ;;
       Ok (unk_add k (tag_number tag) b unk, a1))).
    { eapply oe_bind.
      - unfold skip_fields_match_tag. eapply oe_bind; [apply skip_one_safe; auto|].
        intros z1 H1. pose proof (suf_len _ _ H1).
        eapply oe_weaken; [apply (skip_match_safe _ fuel); lia|].
        intros z2 H2. exact (suf_trans _ _ _ H1 H2).
      - intros z1 H1. cbn [a_split a_packed a_avail a_unwind zops]. unfold z_split.
        pose proof (suf_len _ _ H1). pose proof (unwind_len tag z).
        eapply oe_bind; [apply z_take_safe|]. intros [b z2] _. exact H1. }
    destruct k; try exact K.
    eapply oe_bind; [apply skip_one_safe; auto|]. intros z1 H1; exact H1.
  Qed.

  Lemma dec_bytes_safe utf8 view z : oe (fun p => suf z (snd p)) (dec_bytes zops utf8_ok utf8 view z).
  Proof.
    unfold dec_bytes. eapply oe_bind; [apply z_varint_safe|]. intros [len z1] H1; cbn [a_padded zops andb fst snd] in *.
    destruct (len =? 0). { destruct (_ && _); cbn; auto. }
    eapply oe_bind; [apply z_take_safe|]. intros [b z2] (H2 & _ & _); cbn [fst snd] in *; subst.
    destruct (_ && _); cbn; auto. solve [eauto using suf_trans].
  Qed.

  Lemma dec_scalar_safe e tag z : (forall ty d, e <> EMsg ty d) ->
    oe (fun p => suf z (snd p)) (dec_scalar zops utf8_ok e tag z).
  Proof.
    intros He. unfold dec_scalar. destruct (negb _); [exact I|].
    destruct e; cbn [a_varint a_bool a_fixed zops].
    - eapply oe_bind; [apply z_varint_safe|]. intros [v z1] H; cbn in *; auto.
    - eapply oe_bind; [apply z_bool_safe|]. intros [v z1] H; cbn in *; auto.
    - eapply oe_bind; [apply z_take_safe|]. intros [v z1] (H & _); cbn in *; subst; auto.
    - eapply oe_bind; [apply z_varint_safe|]. intros [v z1] H; cbn in *; auto.
    - apply dec_bytes_safe.
    - exfalso; eapply He; reflexivity.
  Qed.

  Lemma unknown_enum_safe k num v unk : k <> UPairs -> exists u, unknown_enum k num v unk = Ok u.
  Proof. intros Hk. unfold unknown_enum. destruct k; eauto. congruence. Qed.

  Lemma filter_enum_safe k num closed vs unk : (closed <> None -> k <> UPairs) ->
    exists r, filter_enum k num closed vs unk = Ok r.
  Proof.
    intros Hk. revert unk; induction vs as [|v t IH]; intros unk; cbn [filter_enum]; [eauto|].
    destruct (enum_valid closed v) eqn:H.
    - destruct (IH unk) as [[r u] ->]. cbn. eauto.
    - assert (closed <> None) by (intros ->; discriminate).
      destruct (unknown_enum_safe k num v unk) as [u ->]; [auto|]. cbn. apply IH.
  Qed.

  Lemma dec_packed_safe k num e cur unk z : packable e = true -> (elem_closed e = true -> k <> UPairs) ->
    oe (fun p => suf z (snd p)) (dec_packed zops k num e cur unk z).
  Proof.
    intros Hp Hk. unfold dec_packed. eapply oe_bind; [apply z_varint_safe|].
    intros [len z1] H1; cbn [fst snd] in *. destruct (len =? 0); [cbn; auto|].
    assert (K : oe (fun _ => True) (count_packed zops e len z1)).
    { unfold count_packed. destruct e; cbn [a_nvarints zops]; try exact I; unfold z_nvarints;
        destruct (_ <=? _)%nat; try exact I; destruct (_ <? _); exact I. }
    eapply oe_bind; [exact K|]. intros [n|] _; [|exact I].
    destruct e; try discriminate; cbn [a_pvarint a_pbool a_packed zops].
    - eapply oe_bind; [apply z_pvarint_safe|]. intros [vs z2] H2; cbn in *. solve [eauto using suf_trans].
    - eapply oe_bind; [apply z_pbool_safe|]. intros [vs z2] H2; cbn in *. solve [eauto using suf_trans].
    - eapply oe_bind; [apply z_take_safe|]. intros [vs z2] (H2 & _); cbn in *; subst. solve [eauto using suf_trans].
    - eapply oe_bind; [apply z_pvarint_safe|]. intros [vs z2] H2; cbn in H2.
      destruct (filter_enum_safe k num closed (map to_enum vs) unk) as [[r u] Hr].
      { intros Hc. apply Hk. destruct closed; [reflexivity|congruence]. }
      rewrite Hr. cbn. solve [eauto using suf_trans].
  Qed.

  Lemma count_loop_safe n fuel depth tag z : (length (za z) < n)%nat -> (length (za z) < fuel)%nat ->
    oe (fun _ => True) (count_loop zops maxd n fuel depth tag z).
  Proof.
    revert z; induction n as [|n IH]; intros z H1 H2; [lia|]. cbn [count_loop].
    destruct (Z.eqb_spec tag 0) as [->|Hne]; [exact I|].
    eapply oe_bind; [apply skip_one_safe; lia|]. intros z1 H3. pose proof (suf_len _ _ H3).
    destruct (_ =? 0); [exact I|].
    eapply oe_bind; [apply z_tag_safe|]. intros [t z2] [H4 H5]; cbn [fst snd] in *.
    destruct (Z.eqb_spec t tag) as [->|]; [|exact I]. destruct (H5 Hne) as [_ H6].
    eapply oe_bind; [apply IH; lia|]. intros; exact I.
  Qed.

  Definition rec_safe (f : nat) (rec : recT) : Prop :=
    forall mode ty fs unk depth z, (length (za z) < f)%nat ->
      oe (fun p => suf z (snd p)) (rec mode ty fs unk depth z).

  Section Rec.
    Variables (f : nat) (rec : @recT zip).
    Hypothesis Hrec : rec_safe f rec.

    Lemma dec_msg_safe ty cur depth z : (length (za z) < f)%nat ->
      oe (fun p => suf z (snd p)) (dec_msg zops E maxd rec ty cur depth z).
    Proof.
      intros H. unfold dec_msg. destruct (negb _); [exact I|].
      eapply (oe_bind (fun _ => True)).
      - destruct (_ && _) eqn:K; [|exact I]. apply andb_prop in K. destruct K as [_ K].
        cbn [a_avail a_byte0 zops] in *. destruct (za z); [discriminate|]. cbn. destruct (_ =? 1); exact I.
      - intros _ _. apply Hrec; auto.
    Qed.

    Lemma dec_sized_safe ty cur depth z : (length (za z) < f)%nat ->
      oe (fun p => suf z (snd p)) (dec_sized zops E maxd rec ty cur depth z).
    Proof.
      intros H. unfold dec_sized. eapply oe_bind; [apply z_varint_safe|].
      intros [len z1] [H1 H2]; cbn [fst snd] in *. destruct (_ && _); [exact I|].
      destruct (_ <? _).
      - cbn [a_split zops]. unfold z_split.
        eapply oe_bind; [apply dec_msg_safe; cbn; rewrite firstn_length; lia|].
        intros [v z2] _. cbn. solve [eauto using suf_trans].
      - destruct (_ =? _); [|exact I].
        eapply oe_weaken; [apply dec_msg_safe; lia|]. intros [v z2] H3; cbn in *. solve [eauto using suf_trans].
    Qed.

    Lemma dec_value_safe e cur tag depth z : (length (za z) < f)%nat ->
      oe (fun p => suf z (snd p)) (dec_value zops E utf8_ok maxd rec e cur tag depth z).
    Proof.
      intros H. unfold dec_value. destruct e; try (apply dec_scalar_safe; congruence).
      unfold dec_message. destruct (negb _); [exact I|]. destruct delim.
      - unfold dec_group. destruct (scope_ok _ _); [|exact I]. apply Hrec; auto.
      - apply dec_sized_safe; auto.
    Qed.

    Lemma dec_one_safe k e tag depth cur unk z : (elem_closed e = true -> k <> UPairs) -> (length (za z) < f)%nat ->
      oe (fun p => suf z (snd p)) (dec_one zops E utf8_ok maxd rec k e tag depth cur unk z).
    Proof.
      intros Hk H. unfold dec_one. eapply oe_bind; [apply dec_value_safe; auto|].
      intros [v z1] H1; cbn [fst snd] in *.
      destruct e as [| | |closed| |]; try exact H1. destruct closed as [l|]; [|exact H1].
      destruct (enum_valid _ _); [exact H1|].
      destruct (unknown_enum_safe k (tag_number tag) (to_enum (int_of v)) unk) as [u ->]; [auto|]. exact H1.
    Qed.

    Lemma dec_map_one_safe assoc e tag depth cur unk z : (length (za z) < f)%nat ->
      oe (fun p => suf z (snd p)) (dec_map_one zops E utf8_ok maxd rec assoc e tag depth cur unk z).
    Proof.
      intros H. unfold dec_map_one. eapply oe_bind; [apply dec_value_safe; auto|].
      intros [v z1] H1; exact H1.
    Qed.

    Lemma dec_elements_safe one n cur unk z :
      (forall c u x, (length (za x) < f)%nat -> oe (fun p => suf x (snd p)) (one c u x)) -> (length (za z) < f)%nat ->
      oe (fun p => suf z (snd p)) (dec_elements zops one n cur unk z).
    Proof.
      intros Hone. revert cur unk z; induction n as [|n IH]; intros cur unk z H; cbn [dec_elements]; [cbn; auto|].
      eapply oe_bind; [apply Hone; auto|]. intros [[c1 u1] z1] H1; cbn [fst snd] in *.
      destruct n as [|n]; [exact H1|]. pose proof (suf_len _ _ H1).
      eapply oe_bind; [apply z_tag_safe|]. intros [t z2] [H2 _]; cbn [fst snd] in *. pose proof (suf_len _ _ H2).
      eapply oe_weaken; [apply IH; lia|]. intros x Hx. eapply suf_trans; [|exact Hx]. solve [eauto using suf_trans].
    Qed.

    Lemma dec_unpacked_safe one e tag depth cur unk z :
      (forall c u x, (length (za x) < f)%nat -> oe (fun p => suf x (snd p)) (one c u x)) -> (length (za z) < f)%nat ->
      oe (fun p => suf z (snd p)) (dec_unpacked zops maxd one f e tag depth cur unk z).
    Proof.
      intros Hone H. unfold dec_unpacked. destruct (negb _); [exact I|].
      eapply oe_bind; [apply count_loop_safe; auto|]. intros n _. apply dec_elements_safe; auto.
    Qed.

    Lemma dec_field_safe k fd tag depth cur unk z :
      field_safe k fd -> has_num (tag_number tag) fd = true -> (length (za z) < f)%nat ->
      oe (fun p => suf z (snd p)) (dec_field zops E utf8_ok maxd rec f k fd tag depth cur unk z).
    Proof.
      intros Hs Hn H. unfold dec_field. destruct fd as [num e c|alts].
      - destruct c as [ex d| |packed|assoc]; cbn [field_safe] in Hs.
        + eapply oe_bind; [apply dec_value_safe; auto|]. intros [v z1] H1; cbn [fst snd] in *.
          destruct e as [| | |closed| |]; try exact H1. destruct closed as [l|]; [|exact H1].
          destruct (_ && _); [|exact H1].
          destruct (unknown_enum_safe k num (int_of v) unk) as [u ->]; [auto|]. exact I.
        + eapply oe_bind; [apply dec_value_safe; auto|]. intros [v z1] H1; cbn [fst snd] in *.
          destruct e as [| | |closed| |]; try exact H1. destruct closed as [l|]; [|exact H1].
          destruct (enum_valid _ _); [exact H1|].
          destruct (unknown_enum_safe k num (int_of v) unk) as [u ->]; [auto|]. exact H1.
        + destruct (packable e && _) eqn:K.
          * apply andb_prop in K. apply dec_packed_safe; tauto.
          * apply dec_unpacked_safe; auto. intros; apply dec_one_safe; auto.
        + apply dec_unpacked_safe; auto. intros; apply dec_map_one_safe; auto.
      - cbn [field_safe] in Hs.
        assert (K : exists i e, find_alt (tag_number tag) alts 0 = Some (i, e) /\ elem_closed e = false).
        { cbn [has_num] in Hn. clear - Hn Hs. generalize 0%nat. generalize dependent (tag_number tag). intros n.
          induction alts as [|[num e] t IH]; cbn [existsb fst find_alt]; [discriminate|].
          intros Hn i. inversion Hs; subst. destruct (num =? n); [eauto|]. apply IH; auto. }
        destruct K as (i & e & -> & Hc). unfold dec_oneof.
        eapply oe_bind; [apply dec_value_safe; auto|]. intros [v z1] H1; cbn [fst snd] in *.
        destruct e as [| | |closed| |]; try exact H1. destruct closed as [l|]; [discriminate|exact H1].
    Qed.

    Lemma find_field_spec n fds i j fd : find_field n fds i = Some (j, fd) ->
      In fd fds /\ has_num n fd = true.
    Proof.
      revert i; induction fds as [|g t IH]; intros i; cbn; [discriminate|].
      destruct (has_num n g) eqn:K; [intros [= <- <-]; auto|]. intros H. apply IH in H. tauto.
    Qed.

    Lemma dec_by_tag_safe ty tag depth fs unk z : safe_env -> (length (za z) < f)%nat ->
      oe (fun p => suf z (snd p)) (dec_by_tag zops E utf8_ok maxd rec f ty tag depth fs unk z).
    Proof.
      intros Hs H. unfold dec_by_tag. destruct (_ =? 0); [exact I|].
      destruct (find_field _ _ 0) as [[i fd]|] eqn:K.
      - apply find_field_spec in K. destruct K as [K1 K2].
        pose proof (proj1 (Forall_forall _ _) (Hs ty) fd K1).
        eapply oe_bind; [apply dec_field_safe; eauto|]. intros [[c u] z1] H1; exact H1.
      - destruct (0 <? _); [|exact I].
        eapply oe_bind; [apply skip_field_safe; auto|]. intros [u z1] H1; exact H1.
    Qed.
  End Rec.

  Theorem dec_loop_safe : safe_env -> forall fuel, rec_safe fuel (dl fuel).
  Proof.
    intros Hs fuel. induction fuel as [|f IH]; intros mode ty fs unk depth z Hf; [lia|].
    cbn [dec_loop]. destruct (a_avail zops z <=? 0).
    { destruct mode; [exact I|]. destruct (_ =? 0); cbn; auto. }
    eapply oe_bind; [apply z_tag_safe|]. intros [tag z1] [H1 H2]; cbn [fst snd] in *.
    destruct (match mode with Some num => _ | None => _ end); [exact H1|].
    destruct (Z.eqb_spec tag 0) as [->|Hne]; [exact I|]. destruct (H2 Hne) as [_ H3].
    eapply oe_bind.
    - apply (dec_by_tag_safe f); [exact IH|exact Hs|lia].
    - intros [[fs1 u1] z2] H4; cbn [fst snd] in *. pose proof (suf_len _ _ H4).
      eapply oe_weaken; [apply IH; lia|]. intros x Hx. eapply suf_trans; [|exact Hx]. solve [eauto using suf_trans].
  Qed.
End Safe.
