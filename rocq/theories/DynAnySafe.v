(** Reading the JSON of messages with Any is defined. *)
Require Import Verif.Bits Verif.Varint.
Require Import Verif.DynSlots Verif.Dyn Verif.Schema Verif.Archive Verif.Decode Verif.Encode Verif.DynWire Verif.DynDecode Verif.DynView Verif.DynEncode1 Verif.DynDecode1 Verif.DynEncode3.
Require Import Verif.DynJson Verif.DynJsonSpec Verif.DynJson2 Verif.DynJson5 Verif.DynJsonSafe Verif.DynConvert3 Verif.DynAny Verif.DynAnySpec.

(** The texts whose reading is defined: as for messages without Any (DynJsonSafe.quiet),
    and, if there are nulls, no URL names a google.protobuf.ListValue
    (C96_null_list_refuted). *)
Definition lists_ok (J : list jtype) (find_type : bytes -> option nat) : Prop := forall name t, find_type name = Some t -> known_of J t <> KListValue.
Definition aquiet (W : list wtype) (J : list jtype) (find_type : bytes -> option nat) : list tok -> Prop := quiet_if (nulls_ok W J /\ lists_ok J find_type).

Section Safe.
  Context (W : list wtype) (J : list jtype) (utf8_ok : bytes -> bool) (maxd : Z) (fparse : bool -> bytes -> option Z) (find_type : bytes -> option nat) (strict : bool).
  Hypothesis HW : wtypes_ok W.
  Hypothesis HJ : jtypes_ok W J.
  Hypothesis HA : atypes_ok W J.
  Hypothesis HE : enums_fit J.
  Hypothesis HF : floats_fit fparse.
  Notation aread_msg := (aread_msg W J utf8_ok maxd fparse find_type strict).
  Notation nulls := (nulls_ok W J /\ lists_ok J find_type).
  Notation quiet := (quiet_if nulls).
  Let HN : nulls -> nulls_ok W J := fun H => proj1 H.

  Lemma quiet_in a b : (forall t, In t a -> In t b) -> quiet b -> quiet a.
  Proof. intros I0 [T N]. split; [intros x H; apply T, I0, H|]. destruct N as [N|N]; [left; exact N|]. right. intros H. apply N, I0, H. Qed.
  Lemma suffix_in a b : suffix a b -> forall t, In t a -> In t b.
  Proof. intros [p ->] t H. apply in_or_app. right. exact H. Qed.

  Lemma type_scan_fine w : text w -> forall k first lead url pos ts, (length ts < k)%nat -> all_bytes url -> suffix pos w -> suffix ts w ->
    match type_scan k first lead url pos ts with Ok (u, p) => all_bytes u /\ suffix p w | Err _ => True | _ => False end.
  Proof.
    intros T. induction k as [|k IH]; intros first lead url pos ts L Hu Hp Hs; [lia|]. cbn [type_scan].
    assert (Step : forall ts1, suffix ts1 ts ->
      match (let pos1 := if first || lead then ts1 else pos in
            match ts1 with
            | Str key :: Colon :: r =>
                if eqb_bytes key type_key then
                  match r with Str u :: r1 => type_scan k false lead u (if lead then r1 else pos1) r1 | _ => Err BadMessage end
                else r1 <- skip_value r ;; type_scan k false false url pos1 r1
            | _ => Err BadMessage
            end) with Ok (u, p) => all_bytes u /\ suffix p w | Err _ => True | _ => False end).
    { intros ts1 S1. cbv zeta. pose proof (suffix_len _ _ S1) as L1. pose proof (suffix_trans _ _ _ S1 Hs) as S2.
      assert (Hp1 : suffix (if first || lead then ts1 else pos) w) by (destruct (first || lead); assumption).
      destruct ts1 as [|[] [|[] r]]; try exact I. cbn [length] in L1.
      assert (Sr : suffix r w) by (eapply suffix_trans; [|exact S2]; exists [Str b; Colon]; reflexivity).
      destruct (eqb_bytes b type_key).
      - destruct r as [|[] r1]; try exact I. cbn [length] in L1. assert (S3 : suffix r1 w) by (eapply suffix_trans; [apply suffix_cons|exact Sr]).
        apply IH; [lia| | |exact S3].
        + apply T. apply (suffix_in _ _ Sr). left. reflexivity.
        + destruct lead; [exact S3|exact Hp1].
      - pose proof (skip_value_fine r) as K. destruct (skip_value r) as [r1| | | |]; try exact K. cbn [bind]. pose proof (suffix_len _ _ K). apply IH; [lia|exact Hu|exact Hp1|]. eapply suffix_trans; [exact K|exact Sr]. }
    destruct ts as [|t r].
    - destruct first; exact I.
    - destruct t; try (destruct first; [apply (Step _ (suffix_refl _))|]); try exact I; [split; assumption|]. cbn [bind]. apply (Step _ (suffix_cons _ _)).
  Qed.

  Lemma in_firstn {X} (x : X) n l : In x (firstn n l) -> In x l.
  Proof. intros H. rewrite <- (firstn_skipn n l). apply in_or_app. left. exact H. Qed.
  Lemma value_scan_fine w : forall k first found ts, (length ts < k)%nat -> (forall v, found = Some v -> forall t, In t v -> In t w) -> suffix ts w ->
    match value_scan k first found ts with Ok (v, r) => (forall x, v = Some x -> forall t, In t x -> In t w) /\ suffix r w | Err _ => True | _ => False end.
  Proof.
    induction k as [|k IH]; intros first found ts L Hv Hs; [lia|]. cbn [value_scan].
    assert (Step : forall ts1, suffix ts1 ts ->
      match (match ts1 with
            | Str key :: Colon :: r =>
                if eqb_bytes key value_key then r1 <- skip_value r ;; value_scan k false (Some (firstn (length r - length r1) r)) r1
                else if eqb_bytes key type_key then r1 <- skip_value r ;; value_scan k false found r1
                else Err BadMessage
            | _ => Err BadMessage
            end) with Ok (v, r) => (forall x, v = Some x -> forall t, In t x -> In t w) /\ suffix r w | Err _ => True | _ => False end).
    { intros ts1 S1. pose proof (suffix_len _ _ S1) as L1. pose proof (suffix_trans _ _ _ S1 Hs) as S2. destruct ts1 as [|[] [|[] r]]; try exact I. cbn [length] in L1.
      assert (Sr : suffix r w) by (eapply suffix_trans; [|exact S2]; exists [Str b; Colon]; reflexivity).
      pose proof (skip_value_fine r) as K. destruct (skip_value r) as [r1| | | |]; try (destruct (eqb_bytes b value_key); [exact K|]; destruct (eqb_bytes b type_key); [exact K|exact I]). pose proof (suffix_len _ _ K). pose proof (suffix_trans _ _ _ K Sr) as S3. cbn [bind].
      destruct (eqb_bytes b value_key); [apply IH; [lia| |exact S3]; intros v E t H1; injection E as <-; apply in_firstn in H1; apply (suffix_in _ _ Sr); exact H1|].
      destruct (eqb_bytes b type_key); [|exact I]. apply IH; [lia|exact Hv|exact S3]. }
    destruct ts as [|t r].
    - destruct first; exact I.
    - destruct t; try (destruct first; [apply (Step _ (suffix_refl _))|]); try exact I; [split; [exact Hv|eapply suffix_trans; [apply suffix_cons|exact Hs]]|]. cbn [bind]. apply (Step _ (suffix_cons _ _)).
  Qed.

  Section Level.
    Context (n : nat) (rec : nat -> list slot -> list tok -> res (list slot * list tok)).
    Hypothesis Hn : (1 <= n)%nat.
    Hypothesis R : forall ty m ts, sound W n ty m -> quiet ts -> calm J ty ts -> fine (whole W n ty) ts (rec ty m ts).
    Lemma fine_payload k : forall first ty m ts, known_of J ty = KNone -> (length ts < k)%nat -> sound W (S n) ty m -> quiet ts -> fine (sound W (S n) ty) ts (payload_members W J utf8_ok fparse strict rec k first ty m ts).
    Proof.
      induction k as [|k IH]; intros first ty m ts Hk L Hm Q; [lia|]. cbn [payload_members].
      assert (Step : forall ts1, suffix ts1 ts -> fine (sound W (S n) ty) ts (match ts1 with
          | Str key :: Colon :: r =>
              '(m1, r1) <- (if eqb_bytes key type_key then r1 <- skip_value r ;; Ok (m, r1)
                            else match find_field W J ty key with Some x => read_at W J utf8_ok fparse rec x m r | None => if strict then Err BadMessage else r1 <- skip_value r ;; Ok (m, r1) end) ;;
              payload_members W J utf8_ok fparse strict rec k false ty m1 r1
          | _ => Err BadMessage
          end)).
      { intros ts1 S1. destruct ts1 as [|[] [|[] r]]; try exact I. pose proof (suffix_len _ _ S1) as L1. cbn [length] in L1. assert (Sr : suffix r ts) by (eapply suffix_trans; [|exact S1]; exists [Str b; Colon]; reflexivity). pose proof (quiet_suffix _ _ _ Sr Q) as Qr.
        assert (Sk : fine (sound W (S n) ty) r (r1 <- skip_value r ;; Ok (m, r1))).
        { pose proof (skip_value_fine r) as K. destruct (skip_value r); try exact K. cbn [bind]. apply fine_ok; assumption. }
        apply (fine_bind (sound W (S n) ty) _ ts r); [|exact Sr|].
        - destruct (eqb_bytes b type_key); [exact Sk|]. destruct (find_field W J ty b) as [x|] eqn:F; [apply (fine_at W J utf8_ok maxd fparse strict HW HJ HE HF nulls HN n rec Hn R); [apply (found_in W J _ _ _ F)|exact Hm|exact Qr|intros K; congruence]|]. destruct strict; [exact I|exact Sk].
        - intros m1 r1 H1 S2. pose proof (suffix_len _ _ S2). apply IH; [exact Hk|lia|exact H1|]. eapply quiet_suffix; [exact S2|exact Qr]. }
      destruct ts as [|t r].
      - destruct first; exact I.
      - destruct t; try (destruct first; [apply (Step _ (suffix_refl _))|]); try exact I; [apply fine_ok; [exact Hm|apply suffix_cons]|]. cbn [bind]. apply (Step _ (suffix_cons _ _)).
    Qed.

    Context (within : nat -> list slot -> list tok -> res (list slot * list tok)).
    Hypothesis B : forall ty m ts, known_of J ty = KNone -> sound W n ty m -> quiet ts -> fine (sound W n ty) ts (within ty m ts).
    Lemma fine_parts ts : quiet ts -> fine (fun ud => all_bytes (fst ud) /\ all_bytes (snd ud)) ts (any_parts W J find_type rec within (dyn_encode W utf8_ok maxd n) ts).
    Proof.
      intros Q. unfold any_parts. destruct ts as [|[] ts0]; try exact I. pose proof (quiet_tail _ _ _ Q) as Q0.
      pose proof (type_scan_fine ts0 (proj1 Q0) (S (length ts0)) true true [] ts0 ts0 ltac:(lia) ltac:(constructor) (suffix_refl _) (suffix_refl _)) as F.
      destruct (type_scan _ _ _ _ _ _) as [[url pos]| | | |]; try exact F. destruct F as [Fu Fp]. cbn [bind]. pose proof (quiet_suffix _ _ _ Fp Q0) as Qp. destruct url as [|c u]; [exact I|]. unfold type_of. destruct (after_slash (c :: u)) as [name|]; [|exact I]. destruct (find_type name) as [t|] eqn:Ft; [|exact I]. cbn [bind].
      assert (New : sound W n t (new_slots W t)) by (destruct n as [|n']; [lia|]; apply sound_new; exact HW).
      apply (fine_bind (sound W n t) _ (LBrace :: ts0) pos); [|eapply suffix_trans; [exact Fp|apply suffix_cons]|].
      - assert (V : forall v r, (forall x, v = Some x -> forall t, In t x -> In t pos) -> suffix r pos -> fine (sound W n t) pos (match v with None => Ok (new_slots W t, r) | Some ts1 => '(p, _) <- rec t (new_slots W t) ts1 ;; Ok (p, r) end)).
        { intros [x|] r Hv Hr; [|apply fine_ok; assumption]. assert (Qx : quiet x) by (eapply quiet_in; [apply Hv; reflexivity|exact Qp]).
          assert (C : calm J t x). { intros Kl Hh. destruct Qx as [_ [[_ N]|N]]; [exact (N _ _ Ft Kl)|]. apply N. destruct x; [discriminate|]. injection Hh as ->. left. reflexivity. }
          pose proof (R t _ x New Qx C) as F. unfold fine in F. destruct (rec t _ x) as [[p r']| | | |]; try exact F. cbn [bind]. apply fine_ok; [apply F|exact Hr]. }
        pose proof (value_scan_fine pos (S (length pos)) true None pos ltac:(lia) ltac:(discriminate) (suffix_refl _)) as F.
        assert (V' : fine (sound W n t) pos ('(v, r) <- value_scan (S (length pos)) true None pos ;; match v with None => Ok (new_slots W t, r) | Some ts1 => '(p, _) <- rec t (new_slots W t) ts1 ;; Ok (p, r) end)).
        { destruct (value_scan _ _ _ _) as [[v r]| | | |]; try exact F. destruct F as [F1 F2]. cbn [bind]. apply V; assumption. }
        destruct (known_of J t) eqn:Kt; try exact V'. apply B; [exact Kt|exact New|exact Qp].
      - intros p r Hp Hr. pose proof (encode_settled W utf8_ok maxd n t p HW (sound_typed _ _ _ _ Hp)) as S. pose proof (encode_is_bytes W utf8_ok maxd n t p) as Eb. destruct (dyn_encode W utf8_ok maxd n t p) as [data| | | |]; try exact S. cbn [or_syntax bind]. specialize (Eb data HW (sound_typed _ _ _ _ Hp) eq_refl).
        apply fine_ok; [|apply suffix_refl]. split; assumption.
    Qed.
    Lemma fine_any ty m ts : known_of J ty = KAny -> sound W (S n) ty m -> quiet ts -> fine (sound W (S n) ty) ts (read_any W J find_type rec within (dyn_encode W utf8_ok maxd n) ty m ts).
    Proof.
      intros K Hm Q. unfold read_any. eapply fine_bind; [apply fine_parts; exact Q|apply suffix_refl|]. intros [url data] r [Fu Eb] _. cbn [fst snd] in *.
      destruct (HA ty) as (_ & Sh & _). destruct (Sh K) as (v & w & Sh'). destruct (two_fields W _ _ _ _ _ _ _ Sh') as (f0 & l0 & f1 & l1 & Hw & E0 & E1 & R0 & R1). rewrite Hw. apply fine_ok; [|apply suffix_refl].
      destruct (given_scalar (whole W n) f0 l0 (VBytes url) R0) as [G1 G2]; [unfold not_message; rewrite E0; exact I|rewrite E0; exact Fu|]. destruct (given_scalar (whole W n) f1 l1 (VBytes data) R1) as [K1 K2]; [unfold not_message; rewrite E1; exact I|rewrite E1; exact Eb|].
      apply (sound_put W HW n ty _ f1 l1); [|rewrite Hw; right; left; reflexivity|exact K1|exact K2]. apply (sound_put W HW n ty _ f0 l0); [exact Hm|rewrite Hw; left; reflexivity|exact G1|exact G2].
    Qed.
  End Level.

  Lemma aread_fine n : forall d, maxd + 2 - d <= Z.of_nat n -> 0 < Z.of_nat n ->
    (forall ty m ts, sound W n ty m -> quiet ts -> calm J ty ts -> fine (whole W n ty) ts (aread_msg n d false ty m ts)) /\
    (forall ty m ts, known_of J ty = KNone -> sound W n ty m -> quiet ts -> fine (sound W n ty) ts (aread_msg n d true ty m ts)).
  Proof.
    induction n as [|n IH]; intros d L L0; [lia|]. cbn [DynAny.aread_msg]. destruct (scope_ok maxd d) eqn:Sc; [|split; intros; exact I]. unfold scope_ok in Sc. apply andb_true_iff in Sc. destruct Sc as [Sc _]. apply Z.leb_le in Sc.
    destruct (IH (d + 1) ltac:(lia) ltac:(lia)) as [A B]. clear IH. split.
    - intros ty m ts Hm Q Ca. pose proof (fine_entry W J utf8_ok maxd fparse strict HW HJ HE HF nulls HN n (aread_msg n (d + 1) false) ltac:(lia) A ty m ts) as Fe.
      destruct (w_entry (wty W ty)) eqn:En; [apply Fe; auto|].
      pose proof (fine_body W J utf8_ok maxd fparse strict HW HJ HE HF nulls HN n (aread_msg n (d + 1) false) ltac:(lia) A ty m ts Hm Q Ca) as Fb.
      destruct (known_of J ty) eqn:K; try exact Fb. eapply fine_weaken; [|eapply (fine_any n _ ltac:(lia) A _ B ty m ts K Hm Q)]. intros v Hv. split; [exact Hv|]. intros X. congruence.
    - intros ty m ts Kn Hm Q. eapply (fine_payload n _ ltac:(lia) A); [exact Kn|lia|exact Hm|exact Q].
  Qed.
  Lemma aread_defined n ty m ts : maxd + 2 <= Z.of_nat n -> 0 < Z.of_nat n -> sound W n ty m -> aquiet W J find_type ts -> calm J ty ts ->
    match aread_json W J utf8_ok maxd fparse find_type strict n ty m ts with Ok m' => sound W n ty m' | Err _ => True | _ => False end.
  Proof.
    intros L L0 Hm Q C. destruct (aread_fine n 0 ltac:(lia) L0) as [F _]. specialize (F ty m ts Hm Q C). unfold aread_json. unfold fine in F. destruct (aread_msg n 0 false ty m ts) as [[v r]| | | |]; try exact F. cbn [bind]. destruct r; [apply F|exact I].
  Qed.
End Safe.
