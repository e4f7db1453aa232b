(** More decoding properties: oneofs, repeated fields, closed enums, maps. *)
From Coq Require Import Sorted.
Require Import Verif.Bits Verif.Varint Verif.VarintSpec Verif.VarintProofs Verif.VarintFacts Verif.VarintMain.
Require Import Verif.Schema Verif.Archive Verif.Decode Verif.DecodeSafe Verif.Wire Verif.WireFacts.
Require Import Verif.DecodeSpec1 Verif.DecodeSpec2 Verif.DecodeSpec3 Verif.DecodeSpec4 Verif.DecodeLaws Verif.DecodeLaws2.
Require Import Verif.FieldSpec Verif.DecodeOcc Verif.WireGrammar Verif.GrammarFacts Verif.WellTyped Verif.DecodeTerms Verif.DecodeMain.
Require Import Verif.DecodeWt.

Section Main2.
  Context (E : env) (utf8_ok : bytes -> bool) (limit : Z).
  Hypothesis Hse : safe_env E.
  Notation tokB := (tokB limit).
  Notation dec := (decode_bytes E utf8_ok limit).
  Notation spec := (spec_decode E utf8_ok limit).
  Notation exact := (exact_unknown E utf8_ok limit).
  Notation aprs := (ap_recs E utf8_ok limit).
  Notation apr := (ap_rec E utf8_ok limit).
  Notation apb := (ap_body E utf8_ok limit).
  Notation rec_of := (rec_of limit).
  Notation run := (run E utf8_ok limit).
  Notation reads := (reads E utf8_ok limit).

  Lemma scalar_field_bytes num e tb pb x : tag_bytes num (elem_wt e) tb -> scalar_payload utf8_ok e pb x -> all_bytes (tb ++ pb).
  Proof.
    intros Ht Hp. apply all_bytes_app. split; [apply is_varint_all_bytes; apply Ht|]. eapply scalar_payload_bytes; eauto.
  Qed.

  Lemma scalar_field_tok num e tb pb x : 0 < num -> tag_bytes num (elem_wt e) tb -> scalar_payload utf8_ok e pb x ->
    exists r, tokB None 1 (tb ++ pb) = TOk ([r], []).
  Proof.
    intros Hn Ht Hp. destruct (tok_pay_scalar E utf8_ok limit (grpB limit 1) num e pb x [] Hn Hp) as (p & Kp & _). rewrite app_nil_r in Kp.
    eexists. exact (tokB_one limit 1 num (elem_wt e) tb pb p [] Ht Kp).
  Qed.

  (** A field between two sequences of fields. *)
  Lemma split_run ty cur pre m rs post v : all_bytes m -> tokB None 1 m = TOk (rs, []) -> m_entry (desc_of E ty) = false ->
    fields limit pre -> fields limit post -> all_bytes (bytes_of pre) -> all_bytes (bytes_of post) ->
    spec ty cur (bytes_of pre ++ m ++ bytes_of post) = TOk v <->
    scope_ok limit 0 = true /\ exists w1 w2, reads ty cur pre w1 /\ spec ty w1 m = TOk w2 /\ reads ty w2 post v.
  Proof.
    intros Hb3 T2 He Hpre Hpost Hb1 Hb2.
    assert (Hb : all_bytes (bytes_of pre ++ m ++ bytes_of post)) by (apply all_bytes_app; split; [auto|apply all_bytes_app; auto]).
    destruct (fields_recs limit _ Hpre) as [T1 _]. destruct (fields_recs limit _ Hpost) as [T3 N3].
    pose proof (tokB_app_none limit _ _ _ _ _ (bytes_of post) (Nat.lt_succ_diag_r _) T2) as T23. rewrite T3 in T23. cbn [tbind] in T23.
    pose proof (tokB_app_none limit _ _ _ _ _ (m ++ bytes_of post) (Nat.lt_succ_diag_r _) T1) as T. rewrite T23 in T. cbn [tbind] in T.
    rewrite (spec_run E utf8_ok limit Hse _ _ _ _ Hb He T). rewrite run_app. split.
    - intros (Hs & w1 & H1 & H). apply run_app in H. destruct H as (w2 & H2 & H3). split; [exact Hs|]. exists w1, w2. split; [exact H1|].
      split; [|exact H3]. apply (spec_run E utf8_ok limit Hse _ _ _ _ Hb3 He T2). auto.
    - intros (Hs & w1 & w2 & H1 & H2 & H3). split; [exact Hs|]. exists w1. split; [exact H1|]. apply run_app. exists w2. split; [|exact H3].
      apply (spec_run E utf8_ok limit Hse _ _ _ _ Hb3 He T2) in H2. tauto.
  Qed.

  (** A field that concerns other members leaves member [i] alone. *)
  Lemma reads_other ty cur post v i : fields limit post -> Forall (fun y => forall f, ~ member E ty (fst y) i f) post ->
    reads ty cur post v -> nth i (msg_fields v) [] = nth i (msg_fields cur) [].
  Proof.
    intros Hpost Ho (f & fs & u & H3 & ->). destruct (fields_recs limit _ Hpost) as [_ N3]. cbn [msg_fields].
    apply (aprs_other E utf8_ok limit (apb f) ty 1 i (map rec_of post)) in H3; [exact H3|].
    clear -Ho N3. induction N3 as [|y t [Hy _] Ht IH]; [constructor|]. inversion Ho as [|? ? Hy2 Ho2]; subst. cbn. constructor; [|auto].
    unfold other_rec. rewrite Hy. destruct (find_field (fst y) _ 0) as [[j g]|] eqn:K; [|exact I].
    intros ->. exact (Hy2 g K).
  Qed.

  (** The last of the alternatives of a oneof that occur is the active one. *)
  Lemma last_wins_oneof ty cur i num alts j e pre tb pb x post v : 0 < num -> m_entry (desc_of E ty) = false ->
    member E ty num i (Oneof alts) -> find_alt num alts 0 = Some (j, e) ->
    fields limit pre -> tag_bytes num (elem_wt e) tb -> scalar_payload utf8_ok e pb x -> fields limit post ->
    Forall (fun y => forall f, ~ member E ty (fst y) i f) post ->
    all_bytes (bytes_of pre) -> all_bytes (bytes_of post) ->
    exact ty cur (bytes_of pre ++ (tb ++ pb) ++ bytes_of post) ->
    dec ty cur (bytes_of pre ++ (tb ++ pb) ++ bytes_of post) = Ok v ->
    nth i (msg_fields v) [] = [VAlt j x].
  Proof.
    intros Hn He Hm Ha Hpre Ht Hp Hpost Ho Hb1 Hb2 Hx H.
    pose proof (scalar_field_bytes _ _ _ _ _ Ht Hp) as Hb3. destruct (scalar_field_tok _ _ _ _ _ Hn Ht Hp) as [r Hr].
    assert (Hb : all_bytes (bytes_of pre ++ (tb ++ pb) ++ bytes_of post)) by (apply all_bytes_app; split; [auto|apply all_bytes_app; auto]).
    apply dec_ok_iff in H; auto. apply (split_run _ _ _ _ _ _ _ Hb3 Hr He) in H; auto. destruct H as (Hs & w1 & w2 & H1 & H2 & H3).
    rewrite (reads_other _ _ _ _ _ Hpost Ho H3).
    assert (Hc : elem_closed e = false).
    { pose proof (Hse ty) as K. rewrite Forall_forall in K. unfold member in Hm. apply find_field_nth0 in Hm. destruct Hm as [Hm _].
      apply nth_error_In in Hm. specialize (K _ Hm). cbn [field_safe] in K. rewrite Forall_forall in K.
      apply find_alt_nth in Ha. destruct Ha as [_ Ha]. apply nth_error_In in Ha. apply (K _ Ha). }
    rewrite (spec_oneof E utf8_ok limit ty w1 i num alts j e tb pb x Hs Hn Hm Ha Hc Ht Hp) in H2. injection H2 as <-.
    cbn [msg_fields]. apply nth_set_nth.
  Qed.

  (** ** Repeated fields *)
  Lemma rep_enc_tok num e bs xs : 0 < num -> rep_enc utf8_ok num e bs xs -> exists rs, tokB None 1 bs = TOk (rs, []).
  Proof.
    intros Hn. induction 1 as [|tb pb x rest l Ht Hp Hr [rs IH]|tb lb ps xs rest l Hpk Ht Hl Hf Hr [rs IH]].
    - exists []. rewrite tokB_eq. reflexivity.
    - destruct (scalar_field_tok _ _ _ _ _ Hn Ht Hp) as [r K].
      pose proof (tokB_app_none limit _ _ _ _ _ rest (Nat.lt_succ_diag_r _) K) as T. rewrite IH in T. cbn [tbind] in T. eauto.
    - pose proof (tok_pay_lenb utf8_ok (grpB limit 1) num lb (concat ps) [] Hn Hl) as K. rewrite app_nil_r in K.
      pose proof (tokB_one limit 1 num WT_LEN tb (lb ++ concat ps) _ [] Ht K) as K2.
      pose proof (tokB_app_none limit _ _ _ _ _ rest (Nat.lt_succ_diag_r _) K2) as T. rewrite IH in T. cbn [tbind] in T. eauto.
  Qed.

  (** Any two encodings of the same elements are interchangeable. *)
  Lemma repeated_same ty cur i num e pk pre bs1 bs2 xs post v : 0 < num -> m_entry (desc_of E ty) = false ->
    member E ty num i (Field num e (CRep pk)) ->
    rep_enc utf8_ok num e bs1 xs -> rep_enc utf8_ok num e bs2 xs ->
    fields limit pre -> fields limit post -> all_bytes (bytes_of pre) -> all_bytes (bytes_of post) ->
    (i < length (msg_fields cur))%nat ->
    exact ty cur (bytes_of pre ++ bs1 ++ bytes_of post) ->
    dec ty cur (bytes_of pre ++ bs1 ++ bytes_of post) = Ok v -> dec ty cur (bytes_of pre ++ bs2 ++ bytes_of post) = Ok v.
  Proof.
    intros Hn He Hm H1 H2 Hpre Hpost Hb1 Hb2 Hi Hx H.
    pose proof (rep_enc_bytes _ _ _ _ _ H1) as B1. pose proof (rep_enc_bytes _ _ _ _ _ H2) as B2.
    assert (A1 : all_bytes (bytes_of pre ++ bs1 ++ bytes_of post)) by (apply all_bytes_app; split; [auto|apply all_bytes_app; auto]).
    assert (A2 : all_bytes (bytes_of pre ++ bs2 ++ bytes_of post)) by (apply all_bytes_app; split; [auto|apply all_bytes_app; auto]).
    destruct (rep_enc_tok _ _ _ _ Hn H1) as [rs1 T1]. destruct (rep_enc_tok _ _ _ _ Hn H2) as [rs2 T2].
    apply dec_ok_iff in H; auto. apply (split_run _ _ _ _ _ _ _ B1 T1 He) in H; auto. destruct H as (Hs & w1 & w2 & K1 & K2 & K3).
    apply dec_of_spec; auto. apply (split_run _ _ _ _ _ _ _ B2 T2 He); auto. split; [exact Hs|]. exists w1, w2. split; [exact K1|]. split; [|exact K3].
    destruct K1 as (f & fs & u & K1 & ->).
    assert (Hl : (i < length fs)%nat).
    { clear -K1 Hi. assert (G : forall rs st st', aprs (apb f) ty 1 st rs = TOk st' -> (i < length (fst st))%nat -> (i < length (fst st'))%nat).
      { clear. induction rs as [|r rs IH]; intros st st' H Hi; cbn [ap_recs] in H; [injection H as <-; exact Hi|].
        apply tbind_ok in H. destruct H as [st1 [H1 H]]. apply (IH _ _ H). clear IH H.
        destruct st as [fs0 u0]. unfold ap_rec in H1. cbv zeta in H1. destruct (_ =? 0); [discriminate|]. cbn [fst] in Hi.
        destruct (find_field _ _ 0) as [[j g]|].
        - apply tbind_ok in H1. destruct H1 as [[c1 u1] [_ H1]]. injection H1 as <-. cbn [fst].
          clear -Hi. revert i j Hi. induction fs0 as [|h t IH]; intros i [|j] Hi; cbn in *; try lia. destruct i; [lia|]. specialize (IH i j). lia.
        - apply tbind_ok in H1. destruct H1 as [u1 [_ H1]]. injection H1 as <-. exact Hi. }
      exact (G _ _ _ K1 Hi). }
    pose proof (spec_repeated E utf8_ok limit Hse ty i num e pk Hs Hn He Hm _ _ H1 (VMsg fs u) Hl) as S1.
    pose proof (spec_repeated E utf8_ok limit Hse ty i num e pk Hs Hn He Hm _ _ H2 (VMsg fs u) Hl) as S2.
    cbn [msg_fields msg_unk] in S1, S2. congruence.
  Qed.

  (** What they are read as. *)
  Lemma repeated_value ty cur i num e pk bs xs : 0 < num -> m_entry (desc_of E ty) = false -> scope_ok limit 0 = true ->
    member E ty num i (Field num e (CRep pk)) -> rep_enc utf8_ok num e bs xs -> (i < length (msg_fields cur))%nat ->
    exists v, dec ty cur bs = Ok v /\ nth i (msg_fields v) [] = nth i (msg_fields cur) [] ++ filter (kept e) xs /\
      msg_unk v = drop_unknown e (m_unk (desc_of E ty)) num xs (msg_unk cur) /\
      forall j, j <> i -> nth j (msg_fields v) [] = nth j (msg_fields cur) [].
  Proof.
    intros Hn He Hs Hm H Hi. exists (append_to E ty i num e xs cur). split.
    - apply dec_of_spec; auto; [eapply rep_enc_bytes; eauto|].
      pose proof (spec_repeated E utf8_ok limit Hse ty i num e pk Hs Hn He Hm _ _ H cur Hi) as S1.
      unfold spec_decode in *. cbn [msg_fields msg_unk] in S1. exact S1.
    - unfold append_to. cbn [msg_fields msg_unk]. split; [apply nth_set_nth|]. split; [reflexivity|].
      intros j Hj. apply nth_set_nth_ne. auto.
  Qed.

  (** ** Closed enums *)
  (** An optional (or oneof-free singular) closed enum member. *)
  Lemma closed_enum_optional ty cur i num l pb z tb : 0 < num -> m_entry (desc_of E ty) = false -> scope_ok limit 0 = true ->
    member E ty num i (Field num (EEnum (Some l)) COpt) -> tag_bytes num WT_VARINT tb ->
    is_varint pb -> (length pb <= 10)%nat -> z = meaning VI64 (b128 pb) ->
    (i < length (msg_fields cur))%nat ->
    dec ty cur (tb ++ pb) =
      if enum_valid (Some l) (wrapS 32 z) then Ok (VMsg (set_nth i [VInt (wrapS 32 z)] (msg_fields cur)) (msg_unk cur))
      else Ok (VMsg (msg_fields cur) (unk_add (m_unk (desc_of E ty)) num (enum_field num z) (msg_unk cur))).
  Proof.
    intros Hn He Hs Hm Ht Hv Hl Hz Hi.
    assert (Hp : scalar_payload utf8_ok (EEnum (Some l)) pb (VInt (wrapS 32 (b128 pb)))) by (constructor; auto).
    pose proof (scalar_field_bytes num (EEnum (Some l)) _ _ _ Ht Hp) as Hb.
    destruct (tok_pay_scalar E utf8_ok limit (grpB limit 1) num (EEnum (Some l)) pb _ [] Hn Hp) as (p & Kp & Kv). rewrite app_nil_r in Kp.
    assert (p = pb).
    { unfold tok_pay in Kp. cbn [elem_wt] in Kp. destruct (tag_parts num WT_VARINT ltac:(lia) ltac:(cbv; split; congruence)) as [E1 _].
      rewrite E1 in Kp. replace (8 * num + WT_VARINT =? 0) with false in Kp by (unfold WT_VARINT; lia). rewrite Z.eqb_refl in Kp.
      pose proof (scan_is_varint 10 pb [] Hv Hl) as Ks. rewrite app_nil_r in Ks. rewrite Ks, firstn_all in Kp. congruence. }
    subst p.
    assert (Hnp : m_unk (desc_of E ty) <> UPairs).
    { pose proof (Hse ty) as K. rewrite Forall_forall in K. unfold member in Hm. apply find_field_nth0 in Hm. destruct Hm as [Hm _].
      apply nth_error_In in Hm. apply (K _ Hm). reflexivity. }
    assert (Hsp : spec ty cur (tb ++ pb) = TOk (
      if enum_valid (Some l) (wrapS 32 z) then VMsg (set_nth i [VInt (wrapS 32 z)] (msg_fields cur)) (msg_unk cur)
      else VMsg (msg_fields cur) (unk_add (m_unk (desc_of E ty)) num (enum_field num z) (msg_unk cur)))).
    { rewrite (spec_one E utf8_ok limit _ _ _ _ Hs (tokB_one limit _ _ _ _ _ _ _ Ht Kp)).
      rewrite (apr_field E utf8_ok limit _ _ _ _ _ _ _ _ _ _ _ _ _ Hn (elem_wt_range (EEnum (Some l))) Hm).
      cbn [ap_field]. unfold ap_value. cbn [r_tag r_pay]. rewrite (proj1 (tag_parts num (elem_wt (EEnum (Some l))) ltac:(lia) (elem_wt_range _))).
      rewrite Z.eqb_refl. cbn [negb tbind int_of]. rewrite <- Hz. unfold to_enum at 1. destruct (enum_valid (Some l) (wrapS 32 z)) eqn:Kz.
      - reflexivity.
      - rewrite unknown_enum_eq by auto. cbn [lift tbind]. rewrite set_nth_same by auto. reflexivity. }
    destruct (enum_valid (Some l) (wrapS 32 z)); apply dec_of_spec; auto.
  Qed.

  (** A required closed enum member. *)
  Lemma closed_enum_required ty cur i num l d pb z tb : 0 < num -> m_entry (desc_of E ty) = false -> scope_ok limit 0 = true ->
    member E ty num i (Field num (EEnum (Some l)) (CPlain true d)) -> tag_bytes num WT_VARINT tb ->
    is_varint pb -> (length pb <= 10)%nat -> z = wrapS 32 (b128 pb) -> ~ In z l ->
    rejected (dec ty cur (tb ++ pb)).
  Proof.
    intros Hn He Hs Hm Ht Hv Hl Hz Hi.
    assert (Hp : scalar_payload utf8_ok (EEnum (Some l)) pb (VInt (wrapS 32 (b128 pb)))) by (constructor; auto).
    pose proof (scalar_field_bytes num (EEnum (Some l)) _ _ _ Ht Hp) as Hb.
    destruct (tok_pay_scalar E utf8_ok limit (grpB limit 1) num (EEnum (Some l)) pb _ [] Hn Hp) as (p & Kp & Kv). rewrite app_nil_r in Kp.
    pose proof (decode_bytes_spec E utf8_ok limit Hse ty cur (tb ++ pb) Hb He) as K.
    rewrite (spec_one E utf8_ok limit _ _ _ _ Hs (tokB_one limit _ _ _ _ _ _ _ Ht Kp)) in K.
    rewrite (apr_field E utf8_ok limit _ _ _ _ _ _ _ _ _ _ _ _ _ Hn (elem_wt_range (EEnum (Some l))) Hm) in K.
    cbn [ap_field] in K.
    destruct (Kv tb (apb (length (tb ++ pb))) (start_val E (EEnum (Some l)) (nth i (msg_fields cur) [])) 1) as (x' & Kx & Hx).
    rewrite Kx in K. cbn [tbind] in K.
    destruct x' as [z'| | |]; cbn [enum_val] in Hx; try discriminate. injection Hx as Hx. cbn [int_of] in K. rewrite Hx, <- Hz in K.
    replace (enum_valid (Some l) z) with false in K; [cbn in K; exact K|].
    symmetry. cbn [enum_valid]. destruct (existsb (Z.eqb z) l) eqn:Ke; [|reflexivity].
    apply existsb_exists in Ke. destruct Ke as (y & Hy & Hyz). apply Z.eqb_eq in Hyz. subst y. tauto.
  Qed.

  (** ** Maps *)
  (** One field that is an entry of map member [i]. *)
  Lemma map_step ty cur i num e assoc x v : one_field limit 1 (fst x) (snd x) -> fst x = num -> all_bytes (snd x) ->
    m_entry (desc_of E ty) = false -> scope_ok limit 0 = true ->
    member E ty num i (Field num e (CMap assoc)) -> reads ty cur [x] v ->
    exists w, (forall c, spec ty c (snd x) = TOk (VMsg (set_nth i (if assoc then map_put w (nth i (msg_fields c) []) else nth i (msg_fields c) [] ++ [w]) (msg_fields c)) (msg_unk c))) /\
      v = VMsg (set_nth i (if assoc then map_put w (nth i (msg_fields cur) []) else nth i (msg_fields cur) [] ++ [w]) (msg_fields cur)) (msg_unk cur).
  Proof.
    intros Hf Hx Hb He Hs Hm H. assert (Hfl : fields limit [x]) by (constructor; [exact Hf|constructor]).
    destruct (fields_recs limit _ Hfl) as [T N]. inversion N as [|? ? [Hn Hr] _]; subst.
    assert (Hbx : bytes_of [x] = snd x) by (unfold bytes_of; cbn; apply app_nil_r). rewrite Hbx in T.
    destruct H as (f & fs & u & H & ->). cbn [map] in H.
    cbn [ap_recs] in H. unfold ap_rec at 1 in H. cbv zeta in H. rewrite Hn in H.
    destruct (Z.eqb_spec (fst x) 0) as [|Hx0]; [discriminate|]. unfold member in Hm. rewrite Hm in H. cbn [ap_field] in H.
    destruct (ap_value E utf8_ok limit (apb f) e (elem_default E e) 1 (rec_of x)) as [y| | |] eqn:Ky; cbn [tbind] in H; try discriminate.
    injection H as <- <-. exists y. split; [|reflexivity].
    intros c. apply (spec_run E utf8_ok limit Hse _ _ _ _ Hb He T). split; [exact Hs|].
    exists f. eexists. eexists. split; [|reflexivity]. cbn [map ap_recs]. unfold ap_rec at 1. cbv zeta. rewrite Hn.
    destruct (Z.eqb_spec (fst x) 0); [tauto|]. rewrite Hm. cbn [ap_field]. rewrite Ky. reflexivity.
  Qed.

  Lemma member_num ty n i num e c f : member E ty num i (Field num e c) -> member E ty n i f -> n = num.
  Proof.
    intros H1 H2. unfold member in *. apply find_field_nth0 in H1, H2. destruct H1 as [H1 _], H2 as [H2 H3].
    rewrite H1 in H2. injection H2 as <-. cbn [has_num] in H3. lia.
  Qed.

  (** A map member after reading the fields [l]: the entries of [l] in turn. *)
  Lemma map_reads ty i num e assoc l : fields limit l -> all_bytes (bytes_of l) -> m_entry (desc_of E ty) = false -> scope_ok limit 0 = true ->
    member E ty num i (Field num e (CMap assoc)) -> forall cur v, reads ty cur l v ->
    exists ws, Forall2 (fun x w => exists v', spec ty (default_msg E ty) (snd x) = TOk v' /\ nth i (msg_fields v') [] = [w])
      (filter (fun x => fst x =? num) l) ws /\
      nth i (msg_fields v) [] = if assoc then put_all ws (nth i (msg_fields cur) []) else nth i (msg_fields cur) [] ++ ws.
  Proof.
    intros Hf Hb He Hs Hm. induction Hf as [|x l Hx Hl IH]; intros cur v H.
    - destruct H as (f & fs & u & H & ->). cbn in H. injection H as <- <-. exists []. split; [constructor|]. cbn [msg_fields put_all fold_left].
      destruct assoc; [reflexivity|symmetry; apply app_nil_r].
    - change (x :: l) with ([x] ++ l) in H. apply (reads_app E utf8_ok limit) in H. destruct H as (w1 & H1 & H2).
      unfold bytes_of in Hb. cbn [map concat] in Hb. apply all_bytes_app in Hb. destruct Hb as [Hb1 Hb2].
      destruct (IH Hb2 _ _ H2) as (ws & Hws & Hn). cbn [filter]. destruct (Z.eqb_spec (fst x) num) as [Hxn|Hxn].
      + destruct (map_step ty cur i num e assoc x w1 Hx Hxn Hb1 He Hs Hm H1) as (w & Hw & ->).
        exists (w :: ws). split.
        * constructor; [|exact Hws]. eexists. split; [apply Hw|]. cbn [msg_fields]. rewrite nth_set_nth.
          assert (Hd : nth i (msg_fields (default_msg E ty)) [] = []).
          { cbn [msg_fields default_msg]. apply find_field_nth0 in Hm. destruct Hm as [Hm _].
            change (@nil val) with (field_default (Field num e (CMap assoc))) at 1.
            rewrite map_nth. rewrite (nth_error_nth _ _ _ Hm). reflexivity. }
          rewrite Hd. destruct assoc; reflexivity.
        * rewrite Hn. cbn [msg_fields]. rewrite nth_set_nth. destruct assoc; [reflexivity|rewrite <- app_assoc; reflexivity].
      + exists ws. split; [exact Hws|]. rewrite Hn.
        replace (nth i (msg_fields w1) []) with (nth i (msg_fields cur) []); [reflexivity|]. symmetry.
        eapply reads_other; [constructor; [exact Hx|constructor]| |exact H1]. constructor; [|constructor].
        intros g Hg. apply Hxn. eapply member_num; eauto.
  Qed.

  (** An entry written as key and value (or as its key alone). *)
  Lemma map_entry ty cur i num ty' ek dk ev dv assoc tb lb kb k vb x :
    0 < num -> m_entry (desc_of E ty) = false -> 1 <= limit < 2 ^ 32 - 1 ->
    member E ty num i (Field num (EMsg ty' false) (CMap assoc)) ->
    desc_of E ty' = MDesc [Field 1 ek (CPlain true dk); Field 2 ev (CPlain true dv)] UNone true ->
    elem_closed ek = false -> elem_closed ev = false ->
    tag_bytes num WT_LEN tb -> len_bytes (zlen ((8 + elem_wt ek) :: kb ++ vb)) lb -> scalar_payload utf8_ok ek kb k ->
    (vb = [] /\ x = dv) \/ (exists tv pv, vb = tv ++ pv /\ tag_bytes 2 (elem_wt ev) tv /\ scalar_payload utf8_ok ev pv x) ->
    let w := VMsg [[k]; [x]] [] in
    dec ty cur (tb ++ lb ++ (8 + elem_wt ek) :: kb ++ vb) =
    Ok (VMsg (set_nth i (if assoc then map_put w (nth i (msg_fields cur) []) else nth i (msg_fields cur) [] ++ [w]) (msg_fields cur)) (msg_unk cur)).
  Proof.
    intros Hn He Hlim Hm Hd Hek Hev Ht Hl Hk Hv w.
    set (p := (8 + elem_wt ek) :: kb ++ vb) in *.
    assert (Htk : tag_bytes 1 (elem_wt ek) [8 + elem_wt ek]).
    { pose proof (elem_wt_range ek). split; [cbn [is_varint]; lia|]. split; [cbn [length]; lia|]. cbn [b128]. lia. }
    assert (Hsc : forall d, 0 <= d <= 1 -> scope_ok limit d = true) by (intros d Hd'; unfold scope_ok; lia).
    assert (Hpb : all_bytes p).
    { change p with ([8 + elem_wt ek] ++ kb ++ vb). rewrite app_assoc. apply all_bytes_app. split; [eapply scalar_field_bytes; eauto|].
      destruct Hv as [[-> _]|(tv & pv & -> & Htv & Hpv)]; [constructor|eapply scalar_field_bytes; eauto]. }
    assert (Hb : all_bytes (tb ++ lb ++ p)).
    { apply all_bytes_app. split; [apply is_varint_all_bytes; apply Ht|]. apply all_bytes_app. split; [apply is_varint_all_bytes; apply Hl|exact Hpb]. }
    apply dec_of_spec; auto.
    pose proof (tok_pay_lenb utf8_ok (grpB limit 1) num lb p [] Hn Hl) as K. rewrite app_nil_r in K.
    rewrite (spec_one E utf8_ok limit _ _ _ _ (Hsc 0 ltac:(lia)) (tokB_one limit 1 num WT_LEN tb (lb ++ p) _ [] Ht K)).
    rewrite (apr_field E utf8_ok limit _ _ _ _ _ _ _ _ _ _ _ _ _ Hn (elem_wt_range (EMsg ty' false)) Hm).
    cbn [ap_field]. unfold ap_value. cbn [r_tag r_pay elem_wt].
    rewrite (proj1 (tag_parts num WT_LEN ltac:(lia) (elem_wt_range (EMsg ty' false)))).
    rewrite Z.eqb_refl. cbn [negb]. unfold ap_message. cbv zeta. cbn [r_pay]. rewrite Hd. cbn [m_entry andb].
    assert (Hhd : tag_number (hd 0 p) = 1).
    { unfold p. cbn [hd]. apply (tag_parts 1 (elem_wt ek)); [lia|apply elem_wt_range]. }
    rewrite Hhd. cbn [negb]. rewrite (Hsc 1 ltac:(lia)). cbn [negb].
    (* the records of the entry *)
    destruct (tok_pay_scalar E utf8_ok limit (grpB limit (1 + 1)) 1 ek kb k [] ltac:(lia) Hk) as (p1 & Kp1 & Kv1). rewrite app_nil_r in Kp1.
    pose proof (tokB_one limit (1 + 1) 1 (elem_wt ek) _ kb p1 [] Htk Kp1) as T1.
    cbn [default_msg elem_default msg_fields msg_unk]. rewrite Hd. cbn [m_fields map field_default].
    assert (Hfin : forall body, body = apb (length (tb ++ lb ++ p)) ->
      ('(rs, _) <~ tokB None (1 + 1) p;; '(fs, unk) <~ body ty' (1 + 1) ([[dk]; [dv]], []) rs;; TOk (VMsg fs unk)) = TOk w).
    { intros body ->. change p with ([8 + elem_wt ek] ++ kb ++ vb). rewrite (app_assoc [_]).
      rewrite (tokB_app_none limit _ _ _ _ _ vb (Nat.lt_succ_diag_r _) T1).
      assert (Hlen : exists n, length (tb ++ lb ++ ([8 + elem_wt ek] ++ kb) ++ vb) = S n).
      { rewrite !app_length. cbn [length]. eexists. rewrite Nat.add_comm. cbn. rewrite <- !plus_n_Sm. reflexivity. }
      destruct Hlen as [n Hlen]. rewrite Hlen.
      destruct (Kv1 [8 + elem_wt ek] (apb n) (start_val E ek [dk]) (1 + 1)) as (x1 & Kx1 & Hx1).
      assert (S1 : forall rs, aprs (apb n) ty' (1 + 1) ([[dk]; [dv]], []) (Rec [8 + elem_wt ek] (8 * 1 + elem_wt ek) kb p1 [] :: rs) =
        aprs (apb n) ty' (1 + 1) ([[k]; [dv]], []) rs).
      { intros rs. cbn [ap_recs]. rewrite (apr_field E utf8_ok limit (apb n) ty' (1 + 1) [[dk]; [dv]] [] 1 (elem_wt ek) [8 + elem_wt ek] kb p1 [] 0 (Field 1 ek (CPlain true dk)) ltac:(lia) (elem_wt_range ek)) by (rewrite Hd; reflexivity).
        cbn [ap_field nth]. rewrite Kx1. cbn [tbind]. destruct ek as [| | |[l|]| |]; try discriminate; cbn [tbind set_nth]; rewrite Hx1; reflexivity. }
      destruct Hv as [[-> ->]|(tv & pv & -> & Htv & Hpv)].
      - rewrite tokB_eq. cbn [tbind app ap_body]. rewrite S1. cbn. reflexivity.
      - destruct (tok_pay_scalar E utf8_ok limit (grpB limit (1 + 1)) 2 ev pv x [] ltac:(lia) Hpv) as (p2 & Kp2 & Kv2). rewrite app_nil_r in Kp2.
        rewrite (tokB_one limit (1 + 1) 2 (elem_wt ev) tv pv p2 [] Htv Kp2). cbn [tbind app ap_body]. rewrite S1.
        destruct (Kv2 tv (apb n) (start_val E ev [dv]) (1 + 1)) as (x2 & Kx2 & Hx2).
        cbn [ap_recs]. rewrite (apr_field E utf8_ok limit (apb n) ty' (1 + 1) [[k]; [dv]] [] 2 (elem_wt ev) tv pv p2 [] 1 (Field 2 ev (CPlain true dv)) ltac:(lia) (elem_wt_range ev)) by (rewrite Hd; reflexivity).
        cbn [ap_field nth]. rewrite Kx2. cbn [tbind]. destruct ev as [| | |[l|]| |]; try discriminate; cbn [tbind set_nth]; rewrite Hx2; reflexivity. }
    rewrite (Hfin _ eq_refl). reflexivity.
  Qed.

  (** Reading a map member. *)
  Lemma map_last_wins ty cur i num e l v : fields limit l -> all_bytes (bytes_of l) -> m_entry (desc_of E ty) = false ->
    map_shape E -> wt_defaults E utf8_ok -> wt_msg E utf8_ok ty cur -> member E ty num i (Field num e (CMap true)) ->
    exact ty cur (bytes_of l) -> dec ty cur (bytes_of l) = Ok v ->
    StronglySorted key_lt (map entry_key (nth i (msg_fields v) [])) /\
    exists ws, Forall2 (fun x w => exists v', dec ty (default_msg E ty) (snd x) = Ok v' /\ nth i (msg_fields v') [] = [w])
      (filter (fun x => fst x =? num) l) ws /\
      forall k, is_key k -> map_get k (nth i (msg_fields v) []) =
        match last_with k ws with Some w => Some w | None => map_get k (nth i (msg_fields cur) []) end.
  Proof.
    intros Hf Hb He Hms Hd Hwt Hm Hx H.
    pose proof (find_field_nth0 _ _ _ _ Hm) as [Hnth _]. pose proof (nth_error_In _ _ Hnth) as Hin.
    assert (Hcell : forall w, wt_msg E utf8_ok ty w -> Forall (fun x => is_key (entry_key x)) (nth i (msg_fields w) []) /\
      StronglySorted key_lt (map entry_key (nth i (msg_fields w) []))).
    { intros w Hw. apply (wt_state E utf8_ok) in Hw. destruct Hw as (Hw & _ & _). cbn [fst] in Hw. pose proof (cells_nth _ _ _ _ Hw _ _ Hnth) as Hc.
      inversion Hc; subst. split; [|auto]. match goal with Hq : elems _ _ _ _ |- _ => apply elems_forall in Hq; eapply Forall_impl; [|exact Hq] end.
      intros z Hz. eapply map_keys; eauto. }
    assert (Hwv : wt_msg E utf8_ok ty v) by (eapply decode_wt; eauto).
    apply dec_ok_iff in H; auto. apply reads_spec in H; auto. destruct H as [Hs H].
    destruct (map_reads _ _ _ _ _ _ Hf Hb He Hs Hm _ _ H) as (ws & Hws & Hn).
    split; [apply Hcell; exact Hwv|]. exists ws.
    assert (Hbx : Forall (fun x => all_bytes (snd x)) (filter (fun x => fst x =? num) l)).
    { clear -Hb. unfold bytes_of in Hb. induction l as [|x l IH]; [constructor|]. cbn [map concat] in Hb. apply all_bytes_app in Hb.
      destruct Hb as [H1 H2]. cbn [filter]. destruct (_ =? _); [constructor|]; auto. }
    split.
    { clear Hn. revert Hbx. induction Hws as [|x w t ws' (v' & Hv' & Hn') Ht IH]; intros Hbx; [constructor|]. inversion Hbx; subst.
      constructor; [|auto]. exists v'. split; [apply dec_of_spec; auto|exact Hn']. }
    intros k Hk. rewrite Hn.
    assert (Hwk : Forall (fun x => is_key (entry_key x)) ws).
    { clear Hn. revert Hbx. induction Hws as [|x w t ws' (v' & Hv' & Hn') Ht IH]; intros Hbx; [constructor|]. inversion Hbx; subst.
      constructor; [|auto].
      assert (Hw' : wt_msg E utf8_ok ty v').
      { eapply (decode_wt E utf8_ok limit Hse Hms Hd ty (default_msg E ty) (snd x)); auto; [unfold exact_unknown; congruence|].
        apply dec_of_spec; auto. }
      destruct (Hcell _ Hw') as [K _]. rewrite Hn' in K. inversion K; auto. }
    destruct (Hcell _ Hwt) as [Hk1 Hk2]. apply (put_all_spec ws Hwk _ Hk1 Hk2). exact Hk.
  Qed.
End Main2.
