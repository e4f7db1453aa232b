(** Packed varint fields: the number of elements reserved and the elements read. *)
Require Import Verif.Bits Verif.Varint Verif.VarintSpec Verif.VarintProofs Verif.VarintFacts Verif.VarintMain.
Require Import Verif.Schema Verif.Archive Verif.Decode Verif.DecodeSafe Verif.Wire Verif.WireFacts.
Require Import Verif.DecodeSpec1 Verif.DecodeSpec2 Verif.DecodeSpec3 Verif.DecodeSpec4 Verif.DecodeLaws Verif.DecodeLaws2.
Require Import Verif.FieldSpec Verif.DecodeOcc Verif.WireGrammar Verif.GrammarFacts Verif.WellTyped Verif.DecodeTerms Verif.DecodeMain Verif.DecodeMain2.

Lemma varints_split f max : forall d l, all_bytes d -> varints f max d = Some l ->
  d = concat l /\ Forall (fun p => is_varint p /\ (length p <= max)%nat) l.
Proof.
  induction f as [|f IH]; intros d l Hb; (destruct d as [|b t]; [intros [= <-]; split; [reflexivity|constructor]|]);
    cbn [varints]; [discriminate|].
  destruct (scan max (b :: t)) as [| |n] eqn:K; try discriminate.
  destruct (varints f max (skipn n (b :: t))) as [l'|] eqn:E; [|discriminate]. intros [= <-].
  destruct (scan_found max _ n Hb K) as (H1 & H2 & H3).
  destruct (IH _ _ (proj2 (all_bytes_split _ n Hb)) E) as [I1 I2].
  cbn [concat]. rewrite <- I1, firstn_skipn. split; [reflexivity|]. constructor; [|exact I2].
  split; [exact H3|]. rewrite firstn_length. lia.
Qed.

Lemma varint_terminators p : is_varint p -> terminators p = 1%nat.
Proof.
  induction p as [|b t IH]; [intros []|]. destruct t as [|c u].
  - cbn. intros H. destruct (Z.ltb_spec b 128); [reflexivity|lia].
  - intros [H1 H2]. cbn [terminators] in *. destruct (Z.ltb_spec b 128); [lia|]. apply IH; exact H2.
Qed.

Lemma varints_terminators l : Forall is_varint l -> terminators (concat l) = length l.
Proof.
  induction 1 as [|p l Hp Hl IH]; [reflexivity|]. cbn [concat length].
  rewrite terminators_app, IH, varint_terminators by auto. reflexivity.
Qed.

Definition varint_elem (e : elem) : bool :=
  match e with EVar _ | EBool | EEnum _ => true | _ => false end.
Definition elem_max (e : elem) : nat := match e with EVar t => max_len t | _ => 10%nat end.

Section Packed.
  Context (E : env) (utf8_ok : bytes -> bool) (limit : Z).
  Hypothesis Hse : safe_env E.
  Notation dec := (decode_bytes E utf8_ok limit).

  Lemma payloads_of e l : varint_elem e = true -> Forall (fun p => is_varint p /\ (length p <= elem_max e)%nat) l ->
    exists xs, Forall2 (scalar_payload utf8_ok e) l xs.
  Proof.
    intros He. induction 1 as [|p l [H1 H2] _ [xs IH]]; [exists []; constructor|].
    destruct e; try discriminate; cbn [elem_max] in H2; eexists (_ :: xs); (constructor; [|exact IH]).
    - apply SPvar; auto.
    - apply SPbool; auto.
    - apply SPenum; auto.
  Qed.

  Lemma payload_varint e p x : varint_elem e = true -> scalar_payload utf8_ok e p x -> is_varint p.
  Proof. intros He H. destruct H; try discriminate; auto. Qed.

  Lemma packed_field ty cur i num e pk tb lb p : 0 < num -> m_entry (desc_of E ty) = false -> scope_ok limit 0 = true ->
    member E ty num i (Field num e (CRep pk)) -> varint_elem e = true -> (i < length (msg_fields cur))%nat ->
    tag_bytes num WT_LEN tb -> len_bytes (zlen p) lb -> all_bytes p ->
    rejected (dec ty cur (tb ++ lb ++ p)) \/
    exists ps xs v, p = concat ps /\ Forall2 (scalar_payload utf8_ok e) ps xs /\
      length xs = terminators p /\
      dec ty cur (tb ++ lb ++ p) = Ok v /\ nth i (msg_fields v) [] = nth i (msg_fields cur) [] ++ filter (kept e) xs.
  Proof.
    intros Hn He Hs Hm Hv Hi Ht Hl Hb.
    assert (Hpk : packable e = true) by (destruct e; try discriminate; reflexivity).
    destruct (varints (length p) (elem_max e) p) as [l|] eqn:K.
    - right. destruct (varints_split _ _ _ _ Hb K) as [H1 H2].
      destruct (payloads_of e l Hv H2) as [xs Hxs]. exists l, xs.
      pose proof (RPacked utf8_ok num e tb lb l xs [] [] Hpk Ht ltac:(rewrite <- H1; exact Hl) Hxs (RNil _ _ _)) as R.
      rewrite !app_nil_r, <- H1 in R.
      destruct (repeated_value E utf8_ok limit Hse ty cur i num e pk _ _ Hn He Hs Hm R Hi) as (v & V1 & V2 & _).
      exists v. repeat split; auto.
      rewrite H1, varints_terminators; [symmetry; clear - Hxs; induction Hxs; cbn; auto|].
      apply (Forall_impl _ (fun q (Hq : is_varint q /\ _) => proj1 Hq) H2).
    - left.
      assert (Hbs : all_bytes (tb ++ lb ++ p)).
      { destruct Ht as (T1 & _), Hl as (L1 & _). apply Forall_app. split; [apply is_varint_all_bytes; auto|].
        apply Forall_app. split; [apply is_varint_all_bytes; auto|exact Hb]. }
      pose proof (decode_bytes_spec E utf8_ok limit Hse ty cur _ Hbs He) as Q.
      pose proof (tok_pay_lenb utf8_ok (grpB limit 1) num lb p [] Hn Hl) as T. rewrite app_nil_r in T.
      rewrite (spec_one E utf8_ok limit _ _ _ _ Hs (tokB_one limit 1 num WT_LEN tb (lb ++ p) _ [] Ht T)) in Q.
      rewrite (apr_field E utf8_ok limit _ _ _ _ _ _ _ _ _ _ _ _ _ Hn (elem_wt_range (EMsg 0 false)) Hm) in Q.
      cbn [ap_field] in Q. rewrite Hpk in Q. cbn [r_tag r_pay elem_wt] in Q.
      rewrite (proj1 (tag_parts num WT_LEN ltac:(lia) (elem_wt_range (EMsg 0 false)))), Z.eqb_refl in Q. cbn [andb] in Q.
      unfold ap_packed in Q. destruct e; try discriminate; cbn [elem_max] in K; rewrite K in Q; exact Q.
  Qed.

  Lemma packed_unterminated ty cur i num e pk tb lb p : 0 < num -> m_entry (desc_of E ty) = false -> scope_ok limit 0 = true ->
    member E ty num i (Field num e (CRep pk)) -> varint_elem e = true -> (i < length (msg_fields cur))%nat ->
    tag_bytes num WT_LEN tb -> len_bytes (zlen p) lb -> all_bytes p -> p <> [] -> 128 <= last p 0 ->
    rejected (dec ty cur (tb ++ lb ++ p)).
  Proof.
    intros Hn He Hs Hm Hv Hi Ht Hl Hb Hp Ho.
    destruct (packed_field ty cur i num e pk tb lb p Hn He Hs Hm Hv Hi Ht Hl Hb) as [R|(ps & xs & v & H1 & H2 & _)]; [exact R|].
    exfalso. rewrite H1 in Ho, Hp.
    assert (Hq : Forall is_varint ps).
    { clear - H2 Hv. induction H2; constructor; auto. eapply payload_varint; eauto. }
    clear - Hq Ho Hp. induction Hq as [|q l Hq Hl IH]; [cbn in Hp; congruence|]. cbn [concat] in *.
    destruct (concat l) as [|c u] eqn:K.
    - rewrite app_nil_r in Ho. clear - Hq Ho. induction q as [|b t IH]; [destruct Hq|]. destruct t as [|c t].
      + cbn in *. lia.
      + destruct Hq as [_ Hq]. change (last (b :: c :: t) 0) with (last (c :: t) 0) in Ho. auto.
    - apply IH; [discriminate|]. rewrite last_app in Ho by discriminate. exact Ho.
  Qed.
End Packed.

(** ** The archive operations *)
Lemma nth_last_firstn (n : nat) (l : bytes) : (0 < n <= length l)%nat -> nth (n - 1) l 0 = last (firstn n l) 0.
Proof.
  revert l; induction n as [|n IH]; intros l H; [lia|]. destruct l as [|b t]; [cbn in H; lia|].
  destruct n as [|n]; [reflexivity|]. cbn [length] in H. cbn [firstn]. destruct t as [|c u]; [cbn in H; lia|].
  change (last (b :: c :: firstn n u) 0) with (last (firstn (S n) (c :: u)) 0).
  rewrite <- IH by lia. replace (S (S n) - 1)%nat with (S (S n - 1)) by lia. reflexivity.
Qed.

Lemma nvarints_count big len z : all_bytes (za z) -> 0 < len <= zlen (za z) ->
  a_nvarints zops len z = Ok (number_of_varints big (Z.to_nat len) (za z)).
Proof.
  intros Hb Hl. cbn [a_nvarints zops]. unfold z_nvarints, number_of_varints, zlen in *.
  destruct (Nat.leb_spec (Z.to_nat len) (length (za z))); [|lia].
  rewrite nth_last_firstn by lia. rewrite count_region_terminators by (apply all_bytes_split; auto).
  destruct (Z.ltb_spec (last (firstn (Z.to_nat len) (za z)) 0) 128), (Z.leb_spec 128 (last (firstn (Z.to_nat len) (za z)) 0)); try lia; reflexivity.
Qed.

Lemma reserved_exact big t len z n vs z' : all_bytes (za z) -> 0 < len <= zlen (za z) ->
  number_of_varints big (Z.to_nat len) (za z) = Some n -> a_pvarint zops t len n z = Ok (vs, z') ->
  exists ps, firstn (Z.to_nat len) (za z) = concat ps /\
    Forall (fun p => is_varint p /\ (length p <= max_len t)%nat) ps /\ length ps = n /\
    vs = map (fun p => meaning t (b128 p)) ps.
Proof.
  intros Hb Hlen. cbn [a_pvarint zops]. unfold number_of_varints, z_pvarint, z_take, zlen in *.
  destruct (Nat.leb_spec (Z.to_nat len) (length (za z))) as [L|L]; [|lia]. cbn [bind].
  set (d := firstn (Z.to_nat len) (za z)).
  assert (Hd : all_bytes d) by (apply all_bytes_split; auto).
  destruct (128 <=? nth (Z.to_nat len - 1) (za z) 0); [discriminate|]. rewrite count_region_terminators by auto. intros [= <-].
  pose proof (parse_region_spec t (length d) d Hd (Nat.le_refl _)) as K.
  destruct (varints (length d) (max_len t) d) as [l|] eqn:V.
  - destruct K as [K1 K2]. rewrite K1. cbn [bind]. intros [= <- _].
    destruct (varints_split _ _ _ _ Hd V) as [H1 H2]. exists l. repeat split; auto.
    unfold pad_room. rewrite map_length, K2, Nat.sub_diag. cbn. apply app_nil_r.
  - destruct K as [e K]. rewrite K. cbn [bind]. discriminate.
Qed.
