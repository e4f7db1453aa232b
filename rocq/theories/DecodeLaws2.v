(** Framing and commutation of records, field boundaries. *)
Require Import Verif.Bits Verif.Varint Verif.VarintSpec Verif.VarintProofs Verif.VarintFacts Verif.VarintMain.
Require Import Verif.Schema Verif.Archive Verif.Decode Verif.DecodeSafe Verif.Wire Verif.WireFacts.
Require Import Verif.DecodeSpec1 Verif.DecodeSpec2 Verif.DecodeSpec3 Verif.DecodeSpec4 Verif.DecodeLaws.

Definition closed_field (f : field) : bool := match f with Field _ e _ => elem_closed e | Oneof _ => false end.

(** The part of a message a field number refers to: [Some i] member [i];
    [None] the unknown field store (unknown numbers, and closed enums, whose
    unknown values go there). *)
Definition member_key (E : env) (ty : nat) (num : Z) : option nat :=
  match find_field num (m_fields (desc_of E ty)) 0 with
  | Some (i, f) => if closed_field f then None else Some i
  | None => None
  end.

Section Laws.
  Context (E : env) (utf8_ok : bytes -> bool) (maxd : Z).
  Notation tokB := (tokB maxd).
  Notation apf := (ap_field E utf8_ok maxd).
  Notation apr := (ap_rec E utf8_ok maxd).
  Notation aprs := (ap_recs E utf8_ok maxd).
  Notation apb := (ap_body E utf8_ok maxd).

  Lemma filter_enum_none k num vs unk : filter_enum k num None vs unk = Ok (map VInt vs, unk).
  Proof. induction vs as [|v t IH]; [reflexivity|]. cbn. rewrite IH. reflexivity. Qed.

  (** A member that is not a closed enum leaves the unknown fields alone. *)
  Lemma apf_unk b k f depth cur unk r : closed_field f = false ->
    apf b k f depth cur unk r = ('(c, _) <~ apf b k f depth cur [] r ;; TOk (c, unk)).
  Proof.
    intros Hc. unfold ap_field. destruct f as [num e [ex d| |pk|assoc]|alts]; cbn [closed_field] in Hc.
    - destruct (ap_value _ _ _ _ _ _ _ _); cbn [tbind]; try reflexivity. destruct e as [| | |[l|]| |]; try discriminate; reflexivity.
    - destruct (ap_value _ _ _ _ _ _ _ _); cbn [tbind]; try reflexivity. destruct e as [| | |[l|]| |]; try discriminate; reflexivity.
    - destruct (packable e && _).
      + unfold ap_packed. destruct e as [t| |is64 fl|[l|]| |]; try discriminate; try reflexivity.
        * destruct (varints _ _ _); reflexivity.
        * destruct (varints _ _ _); reflexivity.
        * cbv zeta. destruct (_ =? 0); reflexivity.
        * destruct (varints _ _ _); [|reflexivity]. rewrite !filter_enum_none. reflexivity.
      + destruct (ap_value _ _ _ _ _ _ _ _); cbn [tbind]; try reflexivity. destruct e as [| | |[l|]| |]; try discriminate; reflexivity.
    - destruct (ap_value _ _ _ _ _ _ _ _); cbn [tbind]; reflexivity.
    - destruct (find_alt _ _ _) as [[i e]|]; [|reflexivity]. cbv zeta.
      destruct (ap_value _ _ _ _ _ _ _ _); cbn [tbind]; try reflexivity. destruct (is_closed e); reflexivity.
  Qed.

  Lemma unknown_enum_any k num v u1 u2 r : k <> UPairs -> unknown_enum k num v u1 = Ok r -> exists r2, unknown_enum k num v u2 = Ok r2.
  Proof. intros Hk _. apply unknown_enum_safe; auto. Qed.

  Lemma filter_enum_any k num closed vs : k <> UPairs -> forall u1 u2 r u, filter_enum k num closed vs u1 = Ok (r, u) ->
    exists u', filter_enum k num closed vs u2 = Ok (r, u').
  Proof.
    intros Hk. induction vs as [|v t IH]; intros u1 u2 r u; cbn [filter_enum].
    - intros [= <- <-]. eauto.
    - destruct (enum_valid closed v).
      + destruct (filter_enum k num closed t u1) as [[r1 u1']| | | |] eqn:K; cbn [bind]; try discriminate.
        intros [= <- <-]. destruct (IH _ u2 _ _ K) as [u' ->]. cbn. eauto.
      + destruct (unknown_enum_safe k num v u1 Hk) as [w1 ->]. destruct (unknown_enum_safe k num v u2 Hk) as [w2 ->].
        cbn [bind]. apply IH.
  Qed.

  (** Members do not depend on the unknown fields. *)
  Lemma apf_any b k f depth cur r c u1 u1' : field_safe k f -> apf b k f depth cur u1 r = TOk (c, u1') ->
    forall u2, exists u2', apf b k f depth cur u2 r = TOk (c, u2').
  Proof.
    intros Hs H u2. destruct (closed_field f) eqn:Hc.
    2: { rewrite apf_unk in H |- * by auto. destruct (apf b k f depth cur [] r) as [[c' u']| | |]; cbn [tbind] in *; try discriminate.
         injection H as <- _. eauto. }
    destruct f as [num e c0|]; cbn [closed_field field_safe] in *; [|discriminate]. specialize (Hs Hc).
    destruct e as [| | |[l|]| |]; try discriminate. unfold ap_field in *. destruct c0 as [ex d| |pk|assoc].
    - destruct (ap_value _ _ _ _ _ _ _ _); cbn [tbind] in *; try discriminate.
      destruct (ex && _); [discriminate|]. injection H as <- _. eauto.
    - destruct (ap_value _ _ _ _ _ _ _ _) as [v| | |]; cbn [tbind] in *; try discriminate.
      destruct (enum_valid _ _); [injection H as <- _; eauto|].
      destruct (unknown_enum_safe k num (int_of v) u1 Hs) as [w1 K1]. destruct (unknown_enum_safe k num (int_of v) u2 Hs) as [w2 K2].
      rewrite K1 in H. rewrite K2. cbn in *. injection H as <- _. eauto.
    - destruct (packable _ && _).
      + unfold ap_packed in *. destruct (varints _ _ _) as [vs|]; [|discriminate].
        destruct (filter_enum k num (Some l) _ u1) as [[q w]| | | |] eqn:K; cbn [lift tbind] in H; try discriminate.
        injection H as <- _. destruct (filter_enum_any _ _ _ _ Hs _ u2 _ _ K) as [u' ->]. cbn. eauto.
      + destruct (ap_value _ _ _ _ _ _ _ _) as [v| | |]; cbn [tbind] in *; try discriminate. cbv zeta in *.
        destruct (enum_valid _ _); [injection H as <- _; eauto|].
        destruct (unknown_enum_safe k (tag_number (r_tag r)) (to_enum (int_of v)) u1 Hs) as [w1 K1].
        destruct (unknown_enum_safe k (tag_number (r_tag r)) (to_enum (int_of v)) u2 Hs) as [w2 K2].
        rewrite K1 in H. rewrite K2. cbn in *. injection H as <- _. eauto.
    - destruct (ap_value _ _ _ _ _ _ _ _) as [v| | |]; cbn [tbind] in *; try discriminate. injection H as <- _. eauto.
  Qed.

  Lemma find_field_index n fds : forall i j f, find_field n fds i = Some (j, f) -> (i <= j)%nat /\ nth_error fds (j - i) = Some f.
  Proof.
    induction fds as [|g t IH]; intros i j f; cbn [find_field]; [discriminate|].
    destruct (has_num n g). { intros [= <- <-]. rewrite Nat.sub_diag. split; [lia|reflexivity]. }
    intros H. apply IH in H. destruct H as [H1 H2]. split; [lia|]. replace (j - i)%nat with (S (j - S i)) by lia. exact H2.
  Qed.

  Hypothesis Hse : safe_env E.

  Lemma find_field_safe ty n i f : find_field n (m_fields (desc_of E ty)) 0 = Some (i, f) ->
    field_safe (m_unk (desc_of E ty)) f.
  Proof. intros H. apply find_field_spec in H. exact (proj1 (Forall_forall _ _) (Hse ty) f (proj1 H)). Qed.

  (** The members after a record do not depend on the unknown fields before it. *)
  Lemma apr_any b ty depth fs u1 r fs' u1' : apr b ty depth (fs, u1) r = TOk (fs', u1') ->
    forall u2, exists u2', apr b ty depth (fs, u2) r = TOk (fs', u2').
  Proof.
    unfold ap_rec. cbv zeta. destruct (_ =? 0); [discriminate|].
    destruct (find_field _ _ _) as [[i f]|] eqn:K.
    - intros H. apply tbind_ok in H. destruct H as [[c u] [H1 H2]]. injection H2 as <- <-. intros u2.
      destruct (apf_any _ _ _ _ _ _ _ _ _ (find_field_safe _ _ _ _ K) H1 u2) as [u2' ->]. cbn. eauto.
    - unfold ap_unknown. destruct (m_unk (desc_of E ty)); [|destruct (_ =? varint_size_u _)..]; cbn; try discriminate;
        intros [= <- <-] u2; eauto.
  Qed.
  Lemma aprs_any b ty depth rs : forall fs u1 fs' u1', aprs b ty depth (fs, u1) rs = TOk (fs', u1') ->
    forall u2, exists u2', aprs b ty depth (fs, u2) rs = TOk (fs', u2').
  Proof.
    induction rs as [|r t IH]; intros fs u1 fs' u1'; cbn [ap_recs].
    - intros [= <- <-] u2. eauto.
    - intros H. apply tbind_ok in H. destruct H as [[fs1 w1] [H1 H2]]. intros u2.
      destruct (apr_any _ _ _ _ _ _ _ _ H1 u2) as [w2 ->]. cbn [tbind]. eauto.
  Qed.

  Definition unknown_rec (ty : nat) (r : Wire.rec) : Prop :=
    tag_number (r_tag r) <> 0 /\ find_field (tag_number (r_tag r)) (m_fields (desc_of E ty)) 0 = None.

  Lemma aprs_unknown b ty depth rs : Forall (unknown_rec ty) rs -> forall fs u fs' u',
    aprs b ty depth (fs, u) rs = TOk (fs', u') -> fs' = fs.
  Proof.
    induction 1 as [|r t [Hr1 Hr2] Ht IH]; intros fs u fs' u'; cbn [ap_recs]; [intros [= <- <-]; reflexivity|].
    intros H. apply tbind_ok in H. destruct H as [[fs1 w1] [H1 H2]].
    unfold ap_rec in H1. cbv zeta in H1. destruct (Z.eqb_spec (tag_number (r_tag r)) 0); [congruence|]. rewrite Hr2 in H1.
    apply tbind_ok in H1. destruct H1 as [u1 [_ H1]]. injection H1 as <- <-. eauto.
  Qed.

  (** A record of another member leaves member [i] alone. *)
  Definition other_rec (ty : nat) (i : nat) (r : Wire.rec) : Prop :=
    match find_field (tag_number (r_tag r)) (m_fields (desc_of E ty)) 0 with Some (j, _) => j <> i | None => True end.

  Lemma apr_other b ty depth st r st' i : apr b ty depth st r = TOk st' -> other_rec ty i r ->
    nth i (fst st') [] = nth i (fst st) [].
  Proof.
    destruct st as [fs u]. unfold ap_rec, other_rec. cbv zeta. destruct (_ =? 0); [discriminate|].
    destruct (find_field _ _ _) as [[j f]|].
    - intros H Hj. apply tbind_ok in H. destruct H as [[c u1] [_ H]]. injection H as <-. cbn [fst]. apply nth_set_nth_ne. auto.
    - intros H _. apply tbind_ok in H. destruct H as [u1 [_ H]]. injection H as <-. reflexivity.
  Qed.
  Lemma aprs_other b ty depth i rs : Forall (other_rec ty i) rs -> forall st st',
    aprs b ty depth st rs = TOk st' -> nth i (fst st') [] = nth i (fst st) [].
  Proof.
    induction 1 as [|r t Hr Ht IH]; intros st st'; cbn [ap_recs]; [intros [= <-]; reflexivity|].
    intros H. apply tbind_ok in H. destruct H as [st1 [H1 H2]]. rewrite (IH _ _ H2). eapply apr_other; eauto.
  Qed.

  (** ** Commutation *)
  Definition rkey (ty : nat) (r : Wire.rec) : option nat := member_key E ty (tag_number (r_tag r)).

  (** An update of one member. *)
  Lemma apr_known b ty depth fs u r i f : tag_number (r_tag r) <> 0 ->
    find_field (tag_number (r_tag r)) (m_fields (desc_of E ty)) 0 = Some (i, f) -> closed_field f = false ->
    apr b ty depth (fs, u) r =
    ('(c, _) <~ apf b (m_unk (desc_of E ty)) f depth (nth i fs []) [] r ;; TOk (set_nth i c fs, u)).
  Proof.
    intros Hn Hf Hc. unfold ap_rec. cbv zeta. destruct (Z.eqb_spec (tag_number (r_tag r)) 0); [congruence|]. rewrite Hf.
    rewrite apf_unk by auto. destruct (apf _ _ _ _ _ _ _) as [[c' u']| | |]; reflexivity.
  Qed.

  Lemma find_field_key n fds : forall i j f m g, find_field n fds i = Some (j, f) -> find_field m fds i = Some (j, g) -> f = g.
  Proof.
    intros i j f m g H1 H2. apply find_field_index in H1. apply find_field_index in H2. destruct H1, H2. congruence.
  Qed.

  Lemma apr_comm_known b ty depth st r1 r2 st' i f :
    tag_number (r_tag r1) <> 0 ->
    find_field (tag_number (r_tag r1)) (m_fields (desc_of E ty)) 0 = Some (i, f) -> closed_field f = false ->
    rkey ty r2 <> Some i ->
    (st1 <~ apr b ty depth st r1 ;; apr b ty depth st1 r2) = TOk st' <->
    (st1 <~ apr b ty depth st r2 ;; apr b ty depth st1 r1) = TOk st'.
  Proof.
    intros Hn Hf Hc Hk. destruct st as [fs u].
    assert (Hother : other_rec ty i r2).
    { unfold other_rec, rkey, member_key in *. destruct (find_field (tag_number (r_tag r2)) _ 0) as [[j g]|] eqn:K; [|exact I].
      intros ->. pose proof (find_field_key _ _ _ _ _ _ _ Hf K) as <-. rewrite Hc in Hk. congruence. }
    rewrite (apr_known b ty depth fs u r1 i f Hn Hf Hc).
    (* how r2 acts when member i is overwritten *)
    assert (H2 : forall fs u c,
      apr b ty depth (set_nth i c fs, u) r2 =
      (st2 <~ apr b ty depth (fs, u) r2 ;; TOk (set_nth i c (fst st2), snd st2))).
    { intros fs0 u0 c. unfold ap_rec. cbv zeta. destruct (_ =? 0); [reflexivity|]. unfold other_rec in Hother.
      destruct (find_field (tag_number (r_tag r2)) _ 0) as [[j g]|].
      - rewrite nth_set_nth_ne by auto. destruct (apf _ _ _ _ _ _ _) as [[c' u']| | |]; cbn [tbind fst snd]; try reflexivity.
        rewrite set_nth_comm by auto. reflexivity.
      - destruct (ap_unknown _ _ _); reflexivity. }
    destruct (apf b (m_unk (desc_of E ty)) f depth (nth i fs []) [] r1) as [[c w]| | |] eqn:K1; cbn [tbind].
    - rewrite H2. destruct (apr b ty depth (fs, u) r2) as [[fs2 u2]| | |] eqn:Kr2; cbn [tbind fst snd]; try tauto.
      rewrite (apr_known b ty depth fs2 u2 r1 i f Hn Hf Hc).
      pose proof (apr_other _ _ _ _ _ _ _ Kr2 Hother) as Hn2. cbn [fst] in Hn2. rewrite Hn2, K1. cbn. tauto.
    - split; [discriminate|]. intros H. apply tbind_ok in H. destruct H as [[fs2 u2] [Kr2 H]].
      rewrite (apr_known b ty depth fs2 u2 r1 i f Hn Hf Hc) in H.
      pose proof (apr_other _ _ _ _ _ _ _ Kr2 Hother) as Hn2. cbn [fst] in Hn2. rewrite Hn2, K1 in H. discriminate.
    - split; [discriminate|]. intros H. apply tbind_ok in H. destruct H as [[fs2 u2] [Kr2 H]].
      rewrite (apr_known b ty depth fs2 u2 r1 i f Hn Hf Hc) in H.
      pose proof (apr_other _ _ _ _ _ _ _ Kr2 Hother) as Hn2. cbn [fst] in Hn2. rewrite Hn2, K1 in H. discriminate.
    - split; [discriminate|]. intros H. apply tbind_ok in H. destruct H as [[fs2 u2] [Kr2 H]].
      rewrite (apr_known b ty depth fs2 u2 r1 i f Hn Hf Hc) in H.
      pose proof (apr_other _ _ _ _ _ _ _ Kr2 Hother) as Hn2. cbn [fst] in Hn2. rewrite Hn2, K1 in H. discriminate.
  Qed.

  Lemma apr_num0 b ty depth st r : tag_number (r_tag r) = 0 -> apr b ty depth st r = TErr.
  Proof. intros H. unfold ap_rec. destruct st. rewrite H. reflexivity. Qed.

  Lemma apr_comm b ty depth st r1 r2 st' : rkey ty r1 <> rkey ty r2 ->
    (st1 <~ apr b ty depth st r1 ;; apr b ty depth st1 r2) = TOk st' <->
    (st1 <~ apr b ty depth st r2 ;; apr b ty depth st1 r1) = TOk st'.
  Proof.
    intros Hk.
    destruct (Z.eq_dec (tag_number (r_tag r1)) 0) as [H1|H1].
    { rewrite apr_num0 by auto. split; [discriminate|]. intros H. apply tbind_ok in H. destruct H as (? & _ & H).
      rewrite apr_num0 in H by auto. discriminate. }
    destruct (Z.eq_dec (tag_number (r_tag r2)) 0) as [H2|H2].
    { rewrite (apr_num0 b ty depth st r2) by auto. split; [|discriminate]. intros H. apply tbind_ok in H. destruct H as (? & _ & H).
      rewrite apr_num0 in H by auto. discriminate. }
    unfold rkey, member_key in Hk.
    destruct (find_field (tag_number (r_tag r1)) _ 0) as [[i f]|] eqn:K1.
    - destruct (closed_field f) eqn:C1.
      + destruct (find_field (tag_number (r_tag r2)) _ 0) as [[j g]|] eqn:K2; [|congruence].
        destruct (closed_field g) eqn:C2; [congruence|]. symmetry. apply (apr_comm_known _ _ _ _ _ _ _ j g); auto; unfold rkey, member_key; rewrite K1, C1; discriminate.
      + apply (apr_comm_known _ _ _ _ _ _ _ i f); auto; unfold rkey, member_key; congruence.
    - destruct (find_field (tag_number (r_tag r2)) _ 0) as [[j g]|] eqn:K2; [|congruence].
      destruct (closed_field g) eqn:C2; [congruence|]. symmetry. apply (apr_comm_known _ _ _ _ _ _ _ j g); auto; unfold rkey, member_key; rewrite K1; discriminate.
  Qed.

  (** Moving a record past records of other members. *)
  Lemma aprs_move b ty depth r rs : Forall (fun r' => rkey ty r' <> rkey ty r) rs -> forall st rest st',
    aprs b ty depth st (rs ++ r :: rest) = TOk st' <-> aprs b ty depth st (r :: rs ++ rest) = TOk st'.
  Proof.
    induction 1 as [|r' t Hr Ht IH]; intros st rest st'; [reflexivity|].
    cbn [app ap_recs]. split.
    - intros H. apply tbind_ok in H. destruct H as [st1 [H1 H]]. apply IH in H. cbn [ap_recs] in H.
      apply tbind_ok in H. destruct H as [st2 [H2 H]].
      assert (K : (s <~ apr b ty depth st r' ;; apr b ty depth s r) = TOk st2) by (rewrite H1; exact H2).
      apply apr_comm in K; [|auto]. apply tbind_ok in K. destruct K as [st3 [K1 K2]]. rewrite K1. cbn [tbind]. rewrite K2. exact H.
    - intros H. apply tbind_ok in H. destruct H as [st3 [K1 H]]. apply tbind_ok in H. destruct H as [st2 [K2 H]].
      assert (K : (s <~ apr b ty depth st r ;; apr b ty depth s r') = TOk st2) by (rewrite K1; exact K2).
      apply apr_comm in K; [|auto]. apply tbind_ok in K. destruct K as [st1 [H1 H2]]. rewrite H1. cbn [tbind].
      apply IH. cbn [ap_recs]. rewrite H2. exact H.
  Qed.

  Lemma key_dec (a b : option nat) : {a = b} + {a <> b}.
  Proof. decide equality. apply Nat.eq_dec. Defined.

  Definition with_key {T} (key : T -> option nat) (k : option nat) (l : list T) : list T :=
    filter (fun x => if key_dec (key x) k then true else false) l.

  Lemma with_key_split {T} (key : T -> option nat) k x l' : forall l, with_key key k l = x :: l' ->
    exists p q, l = p ++ x :: q /\ Forall (fun y => key y <> k) p /\ key x = k /\ with_key key k q = l'.
  Proof.
    induction l as [|y t IH]; cbn; [discriminate|]. destruct (key_dec (key y) k) as [Hy|Hy].
    - intros [= -> <-]. exists [], t. repeat split; auto.
    - intros H. destruct (IH H) as (p & q & -> & Hp & Hx & Hq). exists (y :: p), q. repeat split; auto.
  Qed.
  Lemma with_key_app {T} (key : T -> option nat) k a b : with_key key k (a ++ b) = with_key key k a ++ with_key key k b.
  Proof. unfold with_key. induction a as [|x t IH]; [reflexivity|]. cbn. destruct (key_dec _ _); cbn; rewrite IH; reflexivity. Qed.
  Lemma with_key_none {T} (key : T -> option nat) k p : Forall (fun y => key y <> k) p -> with_key key k p = [].
  Proof. induction 1; [reflexivity|]. cbn. destruct (key_dec _ _); [congruence|auto]. Qed.

  (** Reorderings that keep the order of records of the same member. *)
  Lemma aprs_reorder b ty depth : forall l l' st st',
    (forall k, with_key (rkey ty) k l = with_key (rkey ty) k l') ->
    aprs b ty depth st l = TOk st' -> aprs b ty depth st l' = TOk st'.
  Proof.
    induction l as [|r t IH]; intros l' st st' Hk.
    - destruct l' as [|x t']; [auto|]. specialize (Hk (rkey ty x)). cbn in Hk. destruct (key_dec _ _); [discriminate|congruence].
    - cbn [ap_recs]. intros H. pose proof (Hk (rkey ty r)) as Hr. cbn in Hr. destruct (key_dec (rkey ty r) (rkey ty r)); [|congruence].
      symmetry in Hr. apply with_key_split in Hr. destruct Hr as (p & q & -> & Hp & _ & Hq).
      apply aprs_move; [exact Hp|]. cbn [ap_recs]. apply tbind_ok in H. destruct H as [st1 [H1 H]]. rewrite H1. cbn [tbind].
      apply (IH (p ++ q)); [|exact H]. intros k. specialize (Hk k). rewrite with_key_app in *. cbn in Hk.
      destruct (key_dec (rkey ty r) k) as [Hrk|Hrk].
      + subst k. rewrite (with_key_none _ _ p Hp) in *. cbn in *. injection Hk as Hk. exact Hk.
      + exact Hk.
  Qed.
End Laws.
