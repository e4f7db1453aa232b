(** Decoding of single fields and of repeated fields. *)
Require Import Verif.Bits Verif.Varint Verif.VarintSpec Verif.VarintProofs Verif.VarintFacts Verif.VarintMain.
Require Import Verif.Schema Verif.Archive Verif.Decode Verif.DecodeSafe Verif.Wire Verif.WireFacts Verif.FieldSpec.
Require Import Verif.DecodeSpec1 Verif.DecodeSpec2 Verif.DecodeSpec3 Verif.DecodeSpec4 Verif.DecodeLaws Verif.DecodeLaws2.

Lemma tag_parts num wt : 0 <= num -> 0 <= wt < 8 -> tag_type (8 * num + wt) = wt /\ tag_number (8 * num + wt) = num.
Proof.
  intros Hn Hw. unfold tag_type, tag_number. change 7 with (Z.ones 3). rewrite Z.land_ones, Z.shiftr_div_pow2 by lia.
  change (2 ^ 3) with 8. split; lia.
Qed.

Lemma elem_wt_range e : 0 <= elem_wt e < 8.
Proof. destruct e as [| |[]| | |? []]; cbn [elem_wt]; unfold WT_VARINT, WT_I64, WT_I32, WT_LEN, WT_SGROUP; lia. Qed.

Lemma tok_tag_bytes num wt tb rest : tag_bytes num wt tb -> tok_tag (tb ++ rest) = TOk (tb, 8 * num + wt, rest).
Proof.
  intros (Hv & Hl & Hb). unfold tok_tag. rewrite (scan_is_varint 5) by (auto; lia).
  rewrite firstn_app, skipn_app, firstn_all, skipn_all, Nat.sub_diag. cbn [firstn skipn].
  rewrite app_nil_r, tag_value_small, Hb by lia. reflexivity.
Qed.

Lemma firstn_app_len {A} (a b : list A) : firstn (length a) (a ++ b) = a.
Proof. rewrite firstn_app, firstn_all, Nat.sub_diag. cbn. apply app_nil_r. Qed.
Lemma skipn_app_len {A} (a b : list A) : skipn (length a) (a ++ b) = b.
Proof. rewrite skipn_app, skipn_all, Nat.sub_diag. reflexivity. Qed.

Lemma tok_take_len n p rest : length p = n -> tok_take n (p ++ rest) = TOk (p, rest).
Proof.
  intros <-. unfold tok_take. rewrite app_length. destruct (Nat.leb_spec (length p) (length p + length rest)); [|lia].
  rewrite firstn_app_len, skipn_app_len. reflexivity.
Qed.

Lemma varint_nonempty bs : is_varint bs -> (1 <= length bs)%nat.
Proof. destruct bs; cbn; [tauto|lia]. Qed.

Lemma varints_concat max ps : Forall (fun p => is_varint p /\ (length p <= max)%nat) ps ->
  forall f, (length (concat ps) <= f)%nat -> varints f max (concat ps) = Some ps.
Proof.
  induction 1 as [|p t [Hv Hl] Ht IH]; intros f Hf; [destruct f; reflexivity|].
  cbn [concat] in *. pose proof (varint_nonempty p Hv). rewrite app_length in Hf.
  destruct f as [|f]; [lia|]. destruct p as [|b q]; [cbn in *; lia|]. cbn [app varints].
  change (b :: q ++ concat t) with ((b :: q) ++ concat t). rewrite scan_is_varint by auto.
  rewrite firstn_app_len, skipn_app_len, IH by lia. reflexivity.
Qed.

Lemma chunks_concat sz ps : Forall (fun p => length p = sz) ps -> chunks (length ps) sz (concat ps) = map le_val ps.
Proof.
  induction 1 as [|p t Hl Ht IH]; [reflexivity|]. cbn [concat length chunks map]. rewrite <- Hl at 1 3.
  rewrite firstn_app_len, skipn_app_len, IH. reflexivity.
Qed.

Lemma concat_length_const {A} sz (ps : list (list A)) : Forall (fun p => length p = sz) ps -> length (concat ps) = (length ps * sz)%nat.
Proof. induction 1 as [|p t Hl Ht IH]; [reflexivity|]. cbn [concat length]. rewrite app_length, IH, Hl. lia. Qed.

Lemma wrapS_weak a : wrapS 32 (wrapS 64 a) = wrapS 32 a.
Proof. apply wrapS_congr. apply (mod_pow2_weaken _ _ 64); [lia|]. apply wrapS_mod. lia. Qed.

Section Occ.
  Context (E : env) (utf8_ok : bytes -> bool) (maxd : Z).
  Notation tokB := (tokB maxd).
  Notation grpB := (grpB maxd).

  (** ** One record *)
  Lemma tok_pay_scalar g num e pb x rest : 0 < num -> scalar_payload utf8_ok e pb x ->
    exists p, tok_pay g (8 * num + elem_wt e) (pb ++ rest) = TOk (p, [], rest) /\
      forall tb b cur depth, exists x', ap_value E utf8_ok maxd b e cur depth (Rec tb (8 * num + elem_wt e) pb p []) = TOk x' /\ enum_val e x' = x.
  Proof.
    intros Hn Hs. destruct (tag_parts num (elem_wt e) ltac:(lia) (elem_wt_range e)) as [H1 H2].
    assert (H0 : 8 * num + elem_wt e =? 0 = false) by (pose proof (elem_wt_range e); lia).
    unfold tok_pay. rewrite H1, H0. unfold ap_value. cbn [r_tag r_pay]. rewrite H1, Z.eqb_refl. cbn [negb].
    inversion Hs; subst; cbn [elem_wt].
    - exists pb. rewrite Z.eqb_refl. rewrite (scan_is_varint 10) by (auto; destruct t; cbn in *; lia).
      rewrite firstn_app_len, skipn_app_len. split; [reflexivity|]. intros. destruct (Nat.leb_spec (length pb) (max_len t)); [|lia]. eauto.
    - exists pb. rewrite Z.eqb_refl. rewrite (scan_is_varint 10) by auto.
      rewrite firstn_app_len, skipn_app_len. split; [reflexivity|]. eauto.
    - exists pb. destruct is64; cbn [fix_size] in *.
      + change (WT_I64 =? WT_VARINT) with false. change (WT_I64 =? WT_LEN) with false. change (WT_I64 =? WT_I64) with true. cbv iota.
        rewrite (tok_take_len 8) by auto. cbn [tbind]. split; [reflexivity|]; eauto.
      + change (WT_I32 =? WT_VARINT) with false. change (WT_I32 =? WT_LEN) with false. change (WT_I32 =? WT_I64) with false.
        change (WT_I32 =? WT_SGROUP) with false. change (WT_I32 =? WT_I32) with true. cbv iota.
        rewrite (tok_take_len 4) by auto. cbn [tbind]. split; [reflexivity|]; eauto.
    - exists pb. rewrite Z.eqb_refl. rewrite (scan_is_varint 10) by auto.
      rewrite firstn_app_len, skipn_app_len. split; [reflexivity|]. intros. eexists; split; [reflexivity|].
      cbn [enum_val]. unfold to_enum, meaning. rewrite wrapS_weak. reflexivity.
    - match goal with H : len_bytes _ _ |- _ => destruct H as (Hv & Hl & Hb & Hr) end.
      exists p. change (WT_LEN =? WT_VARINT) with false. change (WT_LEN =? WT_LEN) with true. cbv iota.
      rewrite <- app_assoc, (scan_is_varint 6) by auto. rewrite firstn_app_len, skipn_app_len, Hb.
      rewrite Z.mod_small by (pose proof (zlen_nonneg p); lia). unfold zlen. rewrite Nat2Z.id. unfold tok_take.
      rewrite app_length. destruct (Nat.leb_spec (length p) (length p + length rest)); [|lia]. cbn [tbind].
      rewrite firstn_app_len, skipn_app_len. split; [reflexivity|]. intros.
      replace (utf8 && negb (utf8_ok p)) with false; [eauto|]. destruct utf8; [|reflexivity].
      match goal with H : true = true -> _ |- _ => rewrite H by reflexivity end. reflexivity.
  Qed.

  Lemma tokB_one depth num wt tb pb p sub : tag_bytes num wt tb ->
    tok_pay (grpB depth) (8 * num + wt) pb = TOk (p, sub, []) ->
    tokB None depth (tb ++ pb) = TOk ([Rec tb (8 * num + wt) pb p sub], []).
  Proof.
    intros Ht Hp. rewrite tokB_eq. pose proof (tok_tag_bytes num wt tb pb Ht) as K.
    destruct (tb ++ pb) as [|b t] eqn:Kb.
    - destruct Ht as (Hv & _). apply app_eq_nil in Kb. destruct Kb as [-> _]. destruct Hv.
    - rewrite <- Kb in *. rewrite K. cbn [tbind]. rewrite Hp. cbn [tbind]. rewrite tokB_eq. cbn [tbind].
      replace (used pb []) with pb; [reflexivity|]. unfold used. rewrite Nat.sub_0_r, firstn_all. reflexivity.
  Qed.

  Hypothesis Hse : safe_env E.
  Notation spec := (spec_decode E utf8_ok maxd).
  Notation dec := (decode_bytes E utf8_ok maxd).
  Notation apr := (ap_rec E utf8_ok maxd).

  (** Reading exactly one record. *)
  Lemma spec_one ty cur bs r : scope_ok maxd 0 = true -> tokB None 1 bs = TOk ([r], []) ->
    spec ty cur bs =
    ('(fs, unk) <~ apr (ap_body E utf8_ok maxd (length bs)) ty 1 (msg_fields cur, msg_unk cur) r ;; TOk (VMsg fs unk)).
  Proof.
    intros Hs Ht. unfold spec_decode. rewrite Hs, Ht. cbn [negb tbind ap_body ap_recs].
    destruct (apr _ _ _ _ _) as [[? ?]| | |]; reflexivity.
  Qed.

  Lemma apr_field b ty depth fs u num wt tb pb p sub i f : 0 < num -> 0 <= wt < 8 ->
    find_field num (m_fields (desc_of E ty)) 0 = Some (i, f) ->
    apr b ty depth (fs, u) (Rec tb (8 * num + wt) pb p sub) =
    ('(c, u') <~ ap_field E utf8_ok maxd b (m_unk (desc_of E ty)) f depth (nth i fs []) u (Rec tb (8 * num + wt) pb p sub) ;;
     TOk (set_nth i c fs, u')).
  Proof.
    intros Hn Hw Hf. unfold ap_rec. cbn [r_tag]. destruct (tag_parts num wt ltac:(lia) Hw) as [_ ->].
    destruct (Z.eqb_spec num 0); [lia|]. rewrite Hf. reflexivity.
  Qed.

  (** ** Singular scalar members *)
  Definition singular (f : field) : Prop :=
    match f with Field _ _ (CPlain _ _) | Field _ _ COpt => True | _ => False end.

  Lemma spec_scalar ty cur i num e c tb pb x : scope_ok maxd 0 = true -> 0 < num ->
    find_field num (m_fields (desc_of E ty)) 0 = Some (i, Field num e c) -> singular (Field num e c) ->
    elem_closed e = false -> tag_bytes num (elem_wt e) tb -> scalar_payload utf8_ok e pb x ->
    spec ty cur (tb ++ pb) = TOk (VMsg (set_nth i [x] (msg_fields cur)) (msg_unk cur)).
  Proof.
    intros Hs Hn Hf Hc He Ht Hp. destruct (tok_pay_scalar (grpB 1) num e pb x [] Hn Hp) as (p & Kp & Kv).
    rewrite app_nil_r in Kp. rewrite (spec_one _ _ _ _ Hs (tokB_one _ _ _ _ _ _ _ Ht Kp)).
    rewrite (apr_field _ _ _ _ _ _ _ _ _ _ _ _ _ Hn (elem_wt_range e) Hf).
    unfold ap_field. destruct c as [ex d| |pk|assoc]; cbn [singular] in Hc; try tauto.
    - destruct (Kv tb (ap_body E utf8_ok maxd (length (tb ++ pb))) (start_val E e (nth i (msg_fields cur) [])) 1) as (x' & -> & Hx).
      cbn [tbind]. destruct e as [| | |[l|]| |]; try discriminate; cbn [tbind]; rewrite Hx; reflexivity.
    - destruct (Kv tb (ap_body E utf8_ok maxd (length (tb ++ pb))) (start_val E e (nth i (msg_fields cur) [])) 1) as (x' & -> & Hx).
      cbn [tbind]. destruct e as [| | |[l|]| |]; try discriminate; cbn [tbind]; rewrite Hx; reflexivity.
  Qed.

  (** ** Oneof members *)
  Lemma spec_oneof ty cur i num alts j e tb pb x : scope_ok maxd 0 = true -> 0 < num ->
    find_field num (m_fields (desc_of E ty)) 0 = Some (i, Oneof alts) -> find_alt num alts 0 = Some (j, e) ->
    elem_closed e = false -> tag_bytes num (elem_wt e) tb -> scalar_payload utf8_ok e pb x ->
    spec ty cur (tb ++ pb) = TOk (VMsg (set_nth i [VAlt j x] (msg_fields cur)) (msg_unk cur)).
  Proof.
    intros Hs Hn Hf Ha He Ht Hp. destruct (tok_pay_scalar (grpB 1) num e pb x [] Hn Hp) as (p & Kp & Kv).
    rewrite app_nil_r in Kp. rewrite (spec_one _ _ _ _ Hs (tokB_one _ _ _ _ _ _ _ Ht Kp)).
    rewrite (apr_field _ _ _ _ _ _ _ _ _ _ _ _ _ Hn (elem_wt_range e) Hf).
    unfold ap_field. cbn [r_tag]. destruct (tag_parts num (elem_wt e) ltac:(lia) (elem_wt_range e)) as [_ ->]. rewrite Ha. cbv zeta.
    match goal with |- context [ap_value _ _ _ ?b _ ?c _ _] => destruct (Kv tb b c 1) as (x' & -> & Hx) end.
    cbn [tbind]. replace (is_closed e) with false by (symmetry; exact He). cbn [tbind]. rewrite Hx. reflexivity.
  Qed.

  (** ** Repeated members *)
  (** A closed enum keeps the valid values; the others become unknown fields. *)
  Definition kept (e : elem) (x : val) : bool :=
    match e with EEnum c => enum_valid c (int_of x) | _ => true end.

  (** The unknown field written for a value of a closed enum. *)
  Definition enum_field (num v : Z) : bytes := pack_varint VU32 (make_tag num WT_VARINT) ++ pack_varint VI64 v.

  Definition drop_unknown (e : elem) (k : ukind) (num : Z) (xs : list val) (unk : list (Z * bytes)) : list (Z * bytes) :=
    fold_left (fun u x => if kept e x then u else unk_add k num (enum_field num (int_of x)) u) xs unk.

  Lemma unknown_enum_eq k num v unk : k <> UPairs -> unknown_enum k num v unk = Ok (unk_add k num (enum_field num v) unk).
  Proof. intros H. unfold unknown_enum. destruct k; try reflexivity. congruence. Qed.

  Lemma filter_enum_eq k num c : (c <> None -> k <> UPairs) -> forall vs unk,
    filter_enum k num c vs unk = Ok (filter (kept (EEnum c)) (map VInt vs), drop_unknown (EEnum c) k num (map VInt vs) unk).
  Proof.
    intros Hk. induction vs as [|v t IH]; intros unk; [reflexivity|]. cbn [filter_enum map filter]. unfold drop_unknown. cbn [fold_left].
    change (kept (EEnum c) (VInt v)) with (enum_valid c v). destruct (enum_valid c v) eqn:Kv.
    - rewrite IH. reflexivity.
    - rewrite unknown_enum_eq by (apply Hk; intros ->; discriminate). cbn [bind]. rewrite IH. reflexivity.
  Qed.

  Lemma scalar_payload_varint e ps xs max : (match e with EVar t => max = max_len t | EBool | EEnum _ => max = 10%nat | _ => False end) ->
    Forall2 (scalar_payload utf8_ok e) ps xs -> Forall (fun p => is_varint p /\ (length p <= max)%nat) ps.
  Proof.
    intros He. induction 1 as [|p x ps xs Hp Hps IH]; [constructor|]. constructor; [|exact IH].
    inversion Hp; subst; cbn in He; try contradiction; subst; auto.
  Qed.

  Lemma ap_packed_ok k num e ps xs cur unk : packable e = true -> (elem_closed e = true -> k <> UPairs) ->
    Forall2 (scalar_payload utf8_ok e) ps xs ->
    ap_packed k num e cur unk (concat ps) = TOk (cur ++ filter (kept e) xs, drop_unknown e k num xs unk).
  Proof.
    intros Hpk Hk H. unfold ap_packed. destruct e as [t| |is64 fl|c| |]; try discriminate.
    - rewrite (varints_concat _ ps (scalar_payload_varint (EVar t) _ _ (max_len t) eq_refl H)) by lia.
      assert (Hx : map (fun b => VInt (meaning t (b128 b))) ps = xs).
      { clear Hk. induction H as [|p x ps xs Hp Hps IH]; [reflexivity|]. cbn. rewrite IH. inversion Hp; subst. reflexivity. }
      rewrite Hx. assert (Hfl : filter (kept (EVar t)) xs = xs /\ forall u, drop_unknown (EVar t) k num xs u = u).
      { clear. induction xs as [|x xs [IH1 IH2]]; [split; reflexivity|]. cbn. rewrite IH1. split; [reflexivity|]. intros; apply IH2. }
      destruct Hfl as [-> ->]. reflexivity.
    - rewrite (varints_concat _ ps (scalar_payload_varint EBool _ _ 10 eq_refl H)) by lia.
      assert (Hx : map (fun b => VInt (bool_of b)) ps = xs).
      { clear Hk. induction H as [|p x ps xs Hp Hps IH]; [reflexivity|]. cbn. rewrite IH. inversion Hp; subst. reflexivity. }
      rewrite Hx. assert (Hfl : filter (kept EBool) xs = xs /\ forall u, drop_unknown EBool k num xs u = u).
      { clear. induction xs as [|x xs [IH1 IH2]]; [split; reflexivity|]. cbn. rewrite IH1. split; [reflexivity|]. intros; apply IH2. }
      destruct Hfl as [-> ->]. reflexivity.
    - cbv zeta. assert (Hl : Forall (fun p => length p = fix_size is64) ps).
      { clear Hk. induction H as [|p x ps xs Hp Hps IH]; constructor; auto. inversion Hp; subst. auto. }
      pose proof (concat_length_const _ _ Hl) as Hlen.
      assert (Hsz : (0 < fix_size is64)%nat) by (destruct is64; cbn; lia).
      unfold zlen. rewrite Hlen, Nat2Z.inj_mul, Z_mod_mult, Z.eqb_refl, Nat.div_mul by lia. rewrite chunks_concat by auto.
      assert (Hx : map VInt (map le_val ps) = xs).
      { clear Hk Hl Hlen Hsz. induction H as [|p x ps xs Hp Hps IH]; [reflexivity|]. cbn. rewrite IH. inversion Hp; subst. reflexivity. }
      rewrite Hx. assert (Hfl : filter (kept (EFix is64 fl)) xs = xs /\ forall u, drop_unknown (EFix is64 fl) k num xs u = u).
      { clear. induction xs as [|x xs [IH1 IH2]]; [split; reflexivity|]. cbn. rewrite IH1. split; [reflexivity|]. intros; apply IH2. }
      destruct Hfl as [-> ->]. reflexivity.
    - rewrite (varints_concat _ ps (scalar_payload_varint (EEnum c) _ _ 10 eq_refl H)) by lia.
      rewrite filter_enum_eq. 2: { intros Hc. apply Hk. destruct c; [reflexivity|congruence]. }
      cbn [lift tbind].
      assert (Hx : map VInt (map (fun b => to_enum (meaning VI64 (b128 b))) ps) = xs).
      { clear Hk. induction H as [|p x ps xs Hp Hps IH]; [reflexivity|]. cbn [map]. rewrite IH. inversion Hp; subst.
        unfold to_enum, meaning. rewrite wrapS_weak. reflexivity. }
      rewrite Hx. reflexivity.
  Qed.

  Lemma tok_pay_lenb g num lb p rest : 0 < num -> len_bytes (zlen p) lb ->
    tok_pay g (8 * num + WT_LEN) (lb ++ p ++ rest) = TOk (p, [], rest).
  Proof.
    intros Hn (Hv & Hl & Hb & Hr). destruct (tag_parts num WT_LEN ltac:(lia) ltac:(unfold WT_LEN; lia)) as [H1 _].
    rewrite tok_pay_len by exact H1. unfold tok_len.
    rewrite (scan_is_varint 6) by auto. rewrite firstn_app_len, skipn_app_len, Hb.
    rewrite Z.mod_small by (pose proof (zlen_nonneg p); lia). unfold zlen. rewrite Nat2Z.id. unfold tok_take.
    rewrite app_length. destruct (Nat.leb_spec (length p) (length p + length rest)); [|lia]. cbn [tbind].
    rewrite firstn_app_len, skipn_app_len. reflexivity.
  Qed.

  Lemma scalar_payload_bytes e pb x : scalar_payload utf8_ok e pb x -> all_bytes pb.
  Proof.
    intros H. inversion H; subst; auto using is_varint_all_bytes.
    match goal with K : len_bytes _ _ |- _ => destruct K as (Hv & _) end.
    apply all_bytes_app. split; [apply is_varint_all_bytes|]; auto.
  Qed.
  Lemma rep_enc_bytes num e bs l : rep_enc utf8_ok num e bs l -> all_bytes bs.
  Proof.
    induction 1 as [|tb pb x rest l (Ht & _) Hp Hr IH|tb lb ps xs rest l Hpk (Ht & _) (Hl & _) Hps Hr IH].
    - constructor.
    - rewrite !all_bytes_app. split; [|exact IH]. split; [apply is_varint_all_bytes; auto|]. eapply scalar_payload_bytes; eauto.
    - rewrite !all_bytes_app. split; [|exact IH]. split; [apply is_varint_all_bytes; auto|]. split; [apply is_varint_all_bytes; auto|].
      clear -Hps. induction Hps as [|p x ps xs Hp Hps IH]; [constructor|]. cbn. apply all_bytes_app. split; [eapply scalar_payload_bytes; eauto|exact IH].
  Qed.

  Lemma set_nth_same i fs : (i < length fs)%nat -> set_nth i (nth i fs []) fs = fs.
  Proof. revert fs. induction i as [|i IH]; intros [|h t] H; cbn in *; try lia; [reflexivity|]. f_equal. apply IH. lia. Qed.
  Lemma set_nth_length i x fs : (i < length fs)%nat -> length (set_nth i x fs) = length fs.
  Proof. revert fs. induction i as [|i IH]; intros [|h t] H; cbn in *; try lia. f_equal. apply IH. lia. Qed.

  (** Appending the elements [xs] to repeated member [i]. *)
  Definition append_to (ty : nat) (i : nat) (num : Z) (e : elem) (xs : list val) (cur : val) : val :=
    VMsg (set_nth i (nth i (msg_fields cur) [] ++ filter (kept e) xs) (msg_fields cur))
         (drop_unknown e (m_unk (desc_of E ty)) num xs (msg_unk cur)).

  Lemma append_to_app ty i num e xs ys cur : append_to ty i num e ys (append_to ty i num e xs cur) = append_to ty i num e (xs ++ ys) cur.
  Proof.
    unfold append_to. cbn [msg_fields msg_unk]. rewrite nth_set_nth, set_set_nth, filter_app, app_assoc.
    unfold drop_unknown. rewrite fold_left_app. reflexivity.
  Qed.

  Lemma spec_repeated ty i num e pk : scope_ok maxd 0 = true -> 0 < num -> m_entry (desc_of E ty) = false ->
    find_field num (m_fields (desc_of E ty)) 0 = Some (i, Field num e (CRep pk)) ->
    forall bs xs, rep_enc utf8_ok num e bs xs -> forall cur, (i < length (msg_fields cur))%nat ->
    spec ty (VMsg (msg_fields cur) (msg_unk cur)) bs = TOk (append_to ty i num e xs cur).
  Proof.
    intros Hs Hn He Hf. pose proof (find_field_safe E Hse _ _ _ _ Hf) as Hsafe. cbn [field_safe] in Hsafe.
    induction 1 as [|tb pb x rest l Ht Hp Hr IH|tb lb ps xs rest l Hpk Ht Hl Hps Hr IH]; intros cur Hi.
    - unfold spec_decode. rewrite Hs. cbn. unfold append_to. cbn. rewrite app_nil_r, set_nth_same by auto. reflexivity.
    - assert (H1 : spec ty (VMsg (msg_fields cur) (msg_unk cur)) (tb ++ pb) = TOk (append_to ty i num e [x] cur)).
      { destruct (tok_pay_scalar (grpB 1) num e pb x [] Hn Hp) as (p & Kp & Kv).
        rewrite app_nil_r in Kp. rewrite (spec_one _ _ _ _ Hs (tokB_one _ _ _ _ _ _ _ Ht Kp)).
        rewrite (apr_field _ _ _ _ _ _ _ _ _ _ _ _ _ Hn (elem_wt_range e) Hf). cbn [msg_fields msg_unk].
        unfold ap_field. cbn [r_tag r_pay]. destruct (tag_parts num (elem_wt e) ltac:(lia) (elem_wt_range e)) as [Htt Htn].
        rewrite Htt, Htn.
        replace (packable e && (elem_wt e =? WT_LEN)) with false by (destruct e as [| |[]| | |? []]; reflexivity).
        match goal with |- context [ap_value _ _ _ ?b _ ?c _ _] => destruct (Kv tb b c 1) as (x' & -> & Hx) end.
        cbn [tbind]. unfold append_to, drop_unknown. cbn [filter fold_left]. rewrite <- Hx.
        destruct e as [| | |[cl|]| |]; cbn [tbind kept]; try reflexivity.
        assert (Hz : exists z0, x = VInt z0) by (inversion Hp; eauto). destruct Hz as [z0 Hz]. rewrite Hz in Hx. destruct x' as [z| | |]; cbn [enum_val] in Hx; try discriminate.
          cbn [enum_val int_of]. destruct (enum_valid (Some cl) (to_enum z)) eqn:Kev; cbn [tbind]; [reflexivity|].
          rewrite unknown_enum_eq by (apply Hsafe; reflexivity). cbn [lift tbind]. rewrite app_nil_r. reflexivity. }
      rewrite (spec_app E utf8_ok maxd Hse _ _ _ _ _ (proj2 (all_bytes_app _ _) (conj (is_varint_all_bytes _ (proj1 Ht)) (scalar_payload_bytes _ _ _ Hp))) (rep_enc_bytes _ _ _ _ Hr) He H1).
      unfold append_to at 1. change (x :: l) with ([x] ++ l). rewrite <- append_to_app.
      specialize (IH (append_to ty i num e [x] cur)). apply IH. unfold append_to. cbn [msg_fields]. rewrite set_nth_length; auto.
    - assert (H1 : spec ty (VMsg (msg_fields cur) (msg_unk cur)) (tb ++ lb ++ concat ps) = TOk (append_to ty i num e xs cur)).
      { pose proof (tok_pay_lenb (grpB 1) num lb (concat ps) [] Hn Hl) as Kp. rewrite app_nil_r in Kp.
        rewrite (spec_one _ _ _ _ Hs (tokB_one _ _ _ _ _ _ _ Ht Kp)).
        rewrite (apr_field _ _ _ _ _ _ WT_LEN _ _ _ _ _ _ Hn ltac:(unfold WT_LEN; lia) Hf). cbn [msg_fields msg_unk].
        unfold ap_field. cbn [r_tag r_pay]. destruct (tag_parts num WT_LEN ltac:(lia) ltac:(unfold WT_LEN; lia)) as [Htt Htn].
        rewrite Htt, Hpk. cbn [andb]. rewrite Z.eqb_refl. rewrite (ap_packed_ok _ _ _ _ _ _ _ Hpk Hsafe Hps). reflexivity. }
      rewrite (spec_app E utf8_ok maxd Hse _ _ _ _ _ ltac:(pose proof (rep_enc_bytes _ _ _ _ (RPacked _ _ _ _ _ _ _ _ _ Hpk Ht Hl Hps (RNil _ _ _))) as K; rewrite app_nil_r in K; exact K) (rep_enc_bytes _ _ _ _ Hr) He H1).
      rewrite <- append_to_app. apply (IH (append_to ty i num e xs cur)). unfold append_to. cbn [msg_fields]. rewrite set_nth_length; auto.
  Qed.
End Occ.
