(** Verdict of the whole construction. *)
Require Import Verif.Bits Verif.Kahn Verif.KahnSpec Verif.KahnProofs Verif.Pool Verif.PoolSpec Verif.PoolProofs Verif.PoolProofs2.

(** ** JSON names *)
Lemma words_some l : exists w ws, words l = w :: ws.
Proof. destruct l as [|c t]; cbn; [eauto|]. destruct (c =? 95); [eauto|]. destruct (words t); eauto. Qed.
Lemma json_loop_words l : forall up, json_loop up l =
  match words l with w :: ws => (if up then capitalise w else w) ++ concat (map capitalise ws) | [] => [] end.
Proof.
  induction l as [|c t IH]; intros up; cbn [json_loop words]; [destruct up; reflexivity|]. destruct (c =? 95) eqn:E.
  - rewrite IH. destruct (words_some t) as (w & ws & ->). destruct up; reflexivity.
  - rewrite IH. destruct (words_some t) as (w & ws & ->). destruct up; cbn [app capitalise andb]; [|reflexivity].
    destruct ((97 <=? c) && (c <=? 122)); reflexivity.
Qed.
Lemma default_json_camel n : default_json_name n = camel_case n.
Proof. unfold default_json_name, camel_case. rewrite json_loop_words. reflexivity. Qed.
Lemma custom_own p : custom_json p = true <-> own_json_name p.
Proof.
  unfold custom_json, own_json_name. rewrite andb_true_iff, nonempty_iff, default_json_camel. rewrite negb_true_iff.
  rewrite <- (name_eqb_eq (fp_json p) (camel_case (fp_name p))). destruct (name_eqb _ _); intuition congruence.
Qed.

(** ** Fields *)
Lemma legal_iff p : has_valid_field_enums p && is_valid_field_number (fp_number p) = true <-> legal_field p.
Proof. unfold has_valid_field_enums, is_valid_field_number, legal_field. change (2 ^ 29 - 1) with 536870911. lia. Qed.

(** One field after the fields [pre]. *)
Definition step_ok (n : nat) (pre : list fproto) (p : fproto) : Prop :=
  legal_field p /\ Forall (fun q => compatible q p) pre /\ oneof_member n p.
Fixpoint fields_from (n : nat) (pre l : list fproto) : Prop :=
  match l with [] => True | p :: t => step_ok n pre p /\ fields_from n (pre ++ [p]) t end.
Lemma fields_from_iff n l : forall pre, fields_from n pre l <->
  Forall legal_field l /\ Forall (oneof_member n) l /\ ForallOrdPairs compatible l /\ Forall (fun p => Forall (fun q => compatible q p) pre) l.
Proof.
  induction l as [|p t IH]; intros pre; cbn [fields_from]; [intuition constructor|].
  rewrite IH, !Forall_cons_iff. unfold step_ok.
  assert (Forall (fun q => Forall (fun r => compatible r q) (pre ++ [p])) t <-> Forall (fun q => Forall (fun r => compatible r q) pre) t /\ Forall (compatible p) t).
  {  rewrite !Forall_forall. split.
    - intros H. split; intros q Hq; specialize (H q Hq); apply Forall_app in H; destruct H as [H1 H2]; [exact H1|]. apply Forall_inv in H2. exact H2.
    - intros [H1 H2] q Hq. apply Forall_app. split; [auto|]. constructor; auto. }
  assert (ForallOrdPairs compatible (p :: t) <-> Forall (compatible p) t /\ ForallOrdPairs compatible t).
  { split; [intros H1; inversion H1; auto|intros []; constructor; auto]. }
  tauto.
Qed.

Record finv (n : nat) (pre : list fproto) (s : fstate) : Prop := {
  fi_numbers : forall x, In x (f_numbers s) <-> exists q, In q pre /\ fp_number q = x;
  fi_names : forall x, In x (f_names s) <-> exists q, In q pre /\ fp_name q = x;
  fi_json : forall x, In x (f_json s) <-> exists q, In q pre /\ fp_json q = x /\ x <> [];
  fi_custom : forall x, In x (f_custom s) <-> exists q, In q pre /\ fp_json q = x /\ own_json_name q;
  fi_len : length (f_oneofs s) = n;
  fi_oneofs : forall i, (i < n)%nat -> nth i (f_oneofs s) O = O <-> ~ exists q, In q pre /\ fp_oneof q = Some (Z.of_nat i) }.

Lemma ex_snoc {A} (P : A -> Prop) pre p : (exists q, In q (pre ++ [p]) /\ P q) <-> (exists q, In q pre /\ P q) \/ P p.
Proof.
  split.
  - intros (q & Hq & H). apply in_app_or in Hq. destruct Hq as [Hq|[<-|[]]]; eauto.
  - intros [(q & Hq & H)|H]; [exists q|exists p]; rewrite in_app_iff; cbn; auto.
Qed.

Lemma pair_iff n pre s p : finv n pre s ->
  (negb (existsb (Z.eqb (fp_number p)) (f_numbers s)) = true /\ negb (has (fp_name p) (f_names s)) = true /\
   negb (has (fp_name p) (f_custom s) || has (fp_json p) (f_custom s) || (custom_json p && (has (fp_json p) (f_names s) || has (fp_json p) (f_json s)))) = true) <->
  Forall (fun q => compatible q p) pre.
Proof.
  intros [I1 I2 I3 I4 _ _].
  assert (N1 : negb (existsb (Z.eqb (fp_number p)) (f_numbers s)) = true <-> ~ In (fp_number p) (f_numbers s)).
  { rewrite negb_true_iff, <- not_true_iff_false, existsb_exists. split.
    - intros H K. apply H. exists (fp_number p). rewrite Z.eqb_refl. auto.
    - intros H (x & K1 & K2). apply Z.eqb_eq in K2. subst x. auto. }
  assert (N2 : forall x l, has x l = false <-> ~ In x l) by (intros; rewrite <- not_true_iff_false, has_in; reflexivity).
  rewrite N1, !negb_true_iff, !orb_false_iff, andb_false_iff, orb_false_iff, !N2, I1, !I2, !I4, I3.
  assert (C : custom_json p = false <-> ~ own_json_name p) by (rewrite <- custom_own; rewrite not_true_iff_false; reflexivity). rewrite C.
  rewrite Forall_forall. unfold compatible. split.
  - intros (H1 & H2 & (H3 & H4) & H5) q Hq. split; [intros K; apply H1; eauto|]. split; [intros K; apply H2; eauto|]. split.
    + intros Ho. split; intros K; [apply H3|apply H4]; eauto.
    + intros Ho. destruct H5 as [H5|[H5 H6]]; [contradiction|]. destruct Ho as [Ho1 Ho2]. split; intros K; [apply H5|apply H6]; exists q; auto.
  - intros H. split; [intros (q & Hq & K); destruct (H q Hq); congruence|]. split; [intros (q & Hq & K); destruct (H q Hq) as (_ & D & _); congruence|]. split; [split|].
    + intros (q & Hq & K & Ho). destruct (H q Hq) as (_ & _ & D & _). destruct (D Ho). congruence.
    + intros (q & Hq & K & Ho). destruct (H q Hq) as (_ & _ & D & _). destruct (D Ho). congruence.
    + destruct (custom_json p) eqn:E; [right|left; tauto]. assert (Ho : own_json_name p) by (apply custom_own; auto). split.
      * intros (q & Hq & K). destruct (H q Hq) as (_ & _ & _ & D). destruct (D Ho). congruence.
      * intros (q & Hq & K & _). destruct (H q Hq) as (_ & _ & _ & D). destruct (D Ho). congruence.
Qed.

Lemma oneof_verdict n p l : length l = n -> Z.of_nat n < 2 ^ 63 -> (forall i, fp_oneof p = Some i -> fits_s 32 i) ->
  verdict (add_to_oneof p l) (oneof_member n p)
    (fun l' => length l' = n /\ forall i, (i < n)%nat -> (nth i l' O = O <-> nth i l O = O /\ fp_oneof p <> Some (Z.of_nat i))).
Proof.
  intros Hl Hn Hi. unfold add_to_oneof, oneof_member. destruct (fp_oneof p) as [i|] eqn:E.
  - specialize (Hi i eq_refl). unfold fits_s in Hi. change (2 ^ (32 - 1)) with 2147483648 in Hi.
    destruct (fp_label p =? LABEL_REPEATED) eqn:El; cbn [negb require bind].
    + cbn [verdict]. apply Z.eqb_eq in El. intros K. destruct (K i eq_refl). contradiction.
    + apply Z.eqb_neq in El. unfold wrapU, zlen. rewrite Hl. change (2 ^ 64) with 18446744073709551616 in *. change (2 ^ 63) with 9223372036854775808 in Hn.
      destruct (Z.ltb_spec (i mod 18446744073709551616) (Z.of_nat n)) as [K|K]; cbn [verdict].
      * assert (Hr : 0 <= i < Z.of_nat n) by lia. rewrite Z.mod_small by lia. split; [intros j [= <-]; auto|]. split; [rewrite set_at_length; auto|].
        intros j Hj. destruct (Nat.eq_dec (Z.to_nat i) j) as [<-|N].
        -- rewrite set_at_same by lia. split; [discriminate|]. intros [_ C]. exfalso. apply C. f_equal. lia.
        -- rewrite set_at_other by auto. split; [|tauto]. intros Q. split; [exact Q|]. intros C. injection C as C. lia.
      * intros Q. destruct (Q i eq_refl) as [Q1 _]. rewrite Z.mod_small in K by lia. lia.
  - cbn [verdict]. split; [discriminate|]. split; [auto|]. intros i _. split; [|tauto]. intros Q. split; [auto|discriminate].
Qed.

Section Cap.
  Context (cap : counter).
  Definition fdsc_of (d : mdsc) (p : fproto) : fdsc := FDsc p (field_attrs (md_feat d) (mp_entry (md_proto d)) p).

  Lemma fields_verdict d n l : forall pre s fields, finv n pre s -> Z.of_nat n < 2 ^ 63 -> Forall (fun p => forall i, fp_oneof p = Some i -> fits_s 32 i) l ->
    (length fields + length l <= c_fields cap)%nat ->
    verdict (each (add_field cap d) (s, fields) l) (fields_from n pre l)
      (fun r => finv n (pre ++ l) (fst r) /\ snd r = fields ++ map (fdsc_of d) l).
  Proof.
    induction l as [|p t IH]; intros pre s fields I Hn Hi Hc; cbn [each fields_from length map] in *.
    - cbn. rewrite !app_nil_r. auto.
    - eapply verdict_bind.
      + instantiate (1 := fun r => finv n (pre ++ [p]) (fst r) /\ snd r = fields ++ [fdsc_of d p]). unfold step_ok, add_field.
        eapply verdict_iff; [|eapply (verdict_test _ _ (legal_field p)); [apply legal_iff|intros _]].
        2:{ apply verdict_test; [reflexivity|intros _]. apply verdict_test; [reflexivity|intros _]. apply verdict_test; [reflexivity|intros _].
            rewrite emplace_ok by lia. cbn [bind]. eapply verdict_bind; [apply oneof_verdict; [apply (fi_len _ _ _ I)|exact Hn|apply Forall_inv in Hi; exact Hi]|].
            cbn beta. intros l' _ (L1 & L2). apply verdict_done. cbn [fst snd]. split; [|reflexivity]. destruct I as [I1 I2 I3 I4 I5 I6]. split; cbn [f_numbers f_names f_json f_custom f_oneofs].
            - intros x. rewrite ex_snoc. cbn [In]. rewrite I1. intuition.
            - intros x. rewrite ex_snoc. cbn [In]. rewrite I2. intuition.
            - intros x. rewrite ex_snoc. destruct (fp_json p) as [|c j] eqn:E; cbn [is_empty In]; rewrite I3; [intuition congruence|]. intuition. subst. right. split; [reflexivity|discriminate].
            - intros x. rewrite ex_snoc. destruct (custom_json p) eqn:E; cbn [In]; rewrite I4.
              + apply custom_own in E. intuition.
              + assert (~ own_json_name p) by (rewrite <- custom_own; congruence). intuition.
            - exact L1.
            - intros i Hi'. rewrite ex_snoc, L2, I6 by auto. tauto. }
        pose proof (pair_iff n pre s p I) as Hp. tauto.
      + cbn beta. intros [s' f'] _ [I' E']. cbn [fst snd] in *. subst f'. eapply verdict_weaken; [|apply IH; auto].
        * cbn beta. intros [s2 f2] _ [A B]. cbn [fst snd] in *. rewrite <- app_assoc in A, B. auto.
        * apply Forall_inv_tail in Hi. exact Hi.
        * rewrite app_length. cbn. lia.
  Qed.

  Lemma build_fields_verdict d fields : Z.of_nat (mp_oneofs (md_proto d)) < 2 ^ 63 -> Forall (fun p => forall i, fp_oneof p = Some i -> fits_s 32 i) (mp_fields (md_proto d)) ->
    (length fields + length (mp_fields (md_proto d)) <= c_fields cap)%nat ->
    verdict (build_fields cap d fields) (valid_message (md_proto d)) (fun r => r = fields ++ map (fdsc_of d) (mp_fields (md_proto d))).
  Proof.
    intros Hn Hi Hc. unfold build_fields. set (n := mp_oneofs (md_proto d)) in *. set (l := mp_fields (md_proto d)) in *.
    eapply verdict_iff; [|eapply (verdict_bind _ _ _ (forall i, 0 <= i < Z.of_nat n -> exists p, In p l /\ fp_oneof p = Some i)); [apply (fields_verdict d n l [])|]].
    - rewrite fields_from_iff. split.
      + intros ((A & B & C & _) & D). split; auto.
      + intros [A B C D]. split; [|exact D]. split; [exact A|]. split; [exact C|]. split; [exact B|]. apply Forall_forall. constructor.
    - split; cbn [f_numbers f_names f_json f_custom f_oneofs]; try (intros x; split; [intros []|intros (q & [] & _)]).
      + apply repeat_length.
      + intros i Hb. rewrite nth_repeat. split; [intros _ (q & [] & _)|auto].
    - exact Hn.
    - exact Hi.
    - exact Hc.
    - cbn beta. intros [s f'] _ [I E]. cbn [fst snd app] in *. subst f'. eapply verdict_iff; [|eapply (verdict_test _ _ _ True); [|intros _; apply verdict_done; reflexivity]]; [split; [intros [K _]; exact K|auto]|].
      rewrite negb_true_iff, <- not_true_iff_false, existsb_exists. destruct I as [_ _ _ _ L Oi]. split.
      + intros H i Hb. specialize (Oi (Z.to_nat i) ltac:(lia)). rewrite Z2Nat.id in Oi by lia.
        destruct (nth (Z.to_nat i) (f_oneofs s) 0%nat) as [|k] eqn:E.
        * exfalso. apply H. exists O. split; [|reflexivity]. rewrite <- E. apply nth_In. lia.
        * destruct (Exists_dec (fun p => fp_oneof p = Some i) l) as [X|X].
          { intros p. destruct (fp_oneof p) as [j|]; [destruct (Z.eq_dec j i); [left; congruence|right; congruence]|right; discriminate]. }
          -- apply Exists_exists in X. exact X.
          -- assert (S k = 0)%nat; [|lia]. apply Oi. intros K. apply X. apply Exists_exists. exact K.
      + intros H (x & Hx & Hz). apply Nat.eqb_eq in Hz. subst x. apply In_nth with (d := O) in Hx. destruct Hx as (i & Hb & E). rewrite L in Hb.
        apply (Oi i Hb) in E. apply E. apply H. lia.
  Qed.

  Lemma extensions_verdict inh l : forall fields, (length fields + length l <= c_fields cap)%nat ->
    verdict (each (add_extension cap inh) fields l) (Forall legal_field l) (fun r => r = fields ++ map (fun p => FDsc p (field_attrs inh false p)) l).
  Proof.
    induction l as [|p t IH]; intros fields Hc; cbn [each length map] in *.
    - split; [constructor|]. rewrite app_nil_r. reflexivity.
    - eapply verdict_iff; [symmetry; apply Forall_cons_iff|]. eapply verdict_bind.
      + unfold add_extension. apply (verdict_iff _ (legal_field p /\ True)); [tauto|]. apply verdict_test; [apply legal_iff|]. intros _. rewrite emplace_ok by lia.
        apply verdict_done with (Q := fun l => l = fields ++ [FDsc p (field_attrs inh false p)]). reflexivity.
      + cbn beta. intros f' _ ->. eapply verdict_weaken; [|apply IH; rewrite app_length; cbn; lia]. cbn. intros a _ ->. rewrite <- app_assoc. reflexivity.
  Qed.

  Definition dsc_fields (d : mdsc) : list fdsc := map (fdsc_of d) (mp_fields (md_proto d)) ++ map (fun p => FDsc p (field_attrs (md_feat d) false p)) (mp_exts (md_proto d)).
  Definition fits (m : mproto) : Prop := Z.of_nat (mp_oneofs m) < 2 ^ 63 /\ Forall (fun p => forall i, fp_oneof p = Some i -> fits_s 32 i) (mp_fields m).
  Lemma all_fields_verdict ds : forall fields, Forall (fun d => fits (md_proto d)) ds -> (length fields + length (concat (map dsc_fields ds)) <= c_fields cap)%nat ->
    verdict (each (build_message_fields cap) fields ds) (Forall (fun d => valid_message (md_proto d) /\ Forall legal_field (mp_exts (md_proto d))) ds)
      (fun r => r = fields ++ concat (map dsc_fields ds)).
  Proof.
    induction ds as [|d t IH]; intros fields Hf Hc; cbn [each map concat] in *.
    - split; [constructor|]. rewrite app_nil_r. reflexivity.
    - apply Forall_cons_iff in Hf. destruct Hf as [[Hf1 Hf2] Hft]. eapply verdict_iff; [symmetry; apply Forall_cons_iff|].
      assert (Hd : length (dsc_fields d) = (length (mp_fields (md_proto d)) + length (mp_exts (md_proto d)))%nat) by (unfold dsc_fields; rewrite app_length, !map_length; reflexivity).
      rewrite app_length in Hc. eapply verdict_bind.
      + unfold build_message_fields. eapply verdict_bind; [apply build_fields_verdict; auto; lia|]. cbn beta. intros f' _ ->.
        apply extensions_verdict. rewrite app_length, map_length. lia.
      + cbn beta. intros f' _ ->. eapply verdict_weaken; [|apply IH; [auto|]].
        * cbn. intros a _ ->. unfold dsc_fields at 2. rewrite <- !app_assoc. reflexivity.
        * rewrite !app_length, !map_length. lia.
  Qed.
  Definition file_fields (f : fileproto * features) : list fdsc := map (fun p => FDsc p (field_attrs (snd f) false p)) (fl_exts (fst f)).
  Lemma file_extensions_verdict fs : forall fields, (length fields + length (concat (map file_fields fs)) <= c_fields cap)%nat ->
    verdict (each (build_file_extensions cap) fields fs) (Forall (fun f => Forall legal_field (fl_exts (fst f))) fs)
      (fun r => r = fields ++ concat (map file_fields fs)).
  Proof.
    induction fs as [|f t IH]; intros fields Hc; cbn [each map concat] in *.
    - split; [constructor|]. rewrite app_nil_r. reflexivity.
    - eapply verdict_iff; [symmetry; apply Forall_cons_iff|]. rewrite app_length in Hc. unfold file_fields at 1 in Hc. rewrite map_length in Hc. eapply verdict_bind.
      + unfold build_file_extensions. apply extensions_verdict. lia.
      + cbn beta. intros f' _ ->. eapply verdict_weaken; [|apply IH].
        * cbn. intros a _ ->. unfold file_fields at 2. rewrite <- !app_assoc. reflexivity.
        * rewrite !app_length, !map_length. lia.
  Qed.
End Cap.

(** ** Types *)
Lemma find_type_iff l q : find_type l q = true <-> names_one_of l q.
Proof.
  unfold find_type, names_one_of. destruct q as [|c n].
  - split; [discriminate|]. intros (x & E & _). discriminate.
  - rewrite andb_true_iff, Z.eqb_eq, has_in. split; [intros [-> H]; eauto|]. intros (x & E & H). injection E as -> ->. auto.
Qed.
Lemma resolve_verdict s fields : forall u, verdict (each (fun _ f => resolve_field s f) u fields)
  (Forall (fun f => resolved (map md_full (s_mmap s)) (map ed_full (s_emap s)) (fd_proto f)) fields) (fun _ => True).
Proof.
  induction fields as [|f t IH]; intros u; cbn [each]; [split; [constructor|exact I]|].
  eapply verdict_iff; [symmetry; apply Forall_cons_iff|]. eapply verdict_bind; [|cbn beta; intros u' _ _; apply IH].
  instantiate (1 := fun _ => True). unfold resolve_field, resolved. set (p := fd_proto f). set (ms := map md_full (s_mmap s)). set (es := map ed_full (s_emap s)).
  eapply verdict_iff; [|eapply verdict_test; [reflexivity|intros _; apply verdict_require]]. cbn beta.
  rewrite orb_true_iff, find_type_iff.
  assert (X : is_empty (fp_extendee p) = true <-> fp_extendee p = []) by (destruct (fp_extendee p); cbn; split; congruence). rewrite X.
  unfold TYPE_MESSAGE, TYPE_GROUP, TYPE_ENUM.
  assert (Y : (fp_extendee p = [] \/ names_one_of ms (fp_extendee p)) <-> (fp_extendee p <> [] -> names_one_of ms (fp_extendee p))).
  { destruct (fp_extendee p); split; intuition congruence. }
  rewrite Y.
  destruct (Z.eqb_spec (fp_type p) 11) as [E1|E1]; cbn [orb].
  - rewrite find_type_iff. split; [intros [A B]; split; [auto|]; split; [intros K; lia|exact B]|intros (A & _ & B); auto].
  - destruct (Z.eqb_spec (fp_type p) 10) as [E2|E2].
    + rewrite find_type_iff. split; [intros [A B]; split; [auto|]; split; [intros K; lia|exact B]|intros (A & _ & B); auto].
    + destruct (Z.eqb_spec (fp_type p) 14) as [E3|E3].
      * rewrite find_type_iff. split; [intros [A B]; split; [intros [K|K]; contradiction|auto]|intros (_ & A & B); auto].
      * split; [intros [_ B]; split; [intros [K|K]; contradiction|split; [intros K; contradiction|exact B]]|intros (_ & _ & B); auto].
Qed.

(** ** Dependencies *)
Lemma file_index_some n fs : forall i, file_index n fs = Some i -> exists f, nth_error fs i = Some f /\ fl_name f = n.
Proof.
  induction fs as [|f t IH]; intros i H; cbn in H; [discriminate|]. destruct (name_eqb (fl_name f) n) eqn:E.
  - injection H as <-. apply name_eqb_eq in E. exists f. auto.
  - destruct (file_index n t) as [k|] eqn:K; [|discriminate]. injection H as <-. apply (IH k eq_refl).
Qed.
Lemma file_index_none n fs : file_index n fs = None <-> ~ In n (map fl_name fs).
Proof.
  induction fs as [|f t IH]; cbn; [tauto|]. destruct (name_eqb (fl_name f) n) eqn:E.
  - apply name_eqb_eq in E. split; [discriminate|]. intros H. exfalso. auto.
  - destruct (file_index n t) eqn:K; (split; [try discriminate|]).
    + intros H. exfalso. assert (Hn : ~ In n (map fl_name t)) by tauto. apply IH in Hn. discriminate.
    + intros _ [C|C]; [apply name_eqb_eq in C; congruence|]. apply IH in C; auto.
    + auto.
Qed.
Lemma indices_spec fs ds : match indices fs ds with
  | Some l => Forall2 (fun d k => exists f, nth_error fs k = Some f /\ fl_name f = d) ds l
  | None => exists d, In d ds /\ ~ In d (map fl_name fs)
  end.
Proof.
  induction ds as [|d t IH]; cbn [indices]; [constructor|]. destruct (file_index d fs) as [k|] eqn:K.
  - destruct (indices fs t) as [l|].
    + constructor; [apply file_index_some; auto|exact IH].
    + destruct IH as (x & A & B). exists x. split; [now right|auto].
  - exists d. split; [now left|]. apply file_index_none. auto.
Qed.
Lemma link_spec fs todo : match link fs todo with
  | Some deps => Forall2 (fun f l => Forall2 (fun d k => exists g, nth_error fs k = Some g /\ fl_name g = d) (fl_deps f) l) todo deps
  | None => exists f d, In f todo /\ In d (fl_deps f) /\ ~ In d (map fl_name fs)
  end.
Proof.
  induction todo as [|f t IH]; cbn [link]; [constructor|]. pose proof (indices_spec fs (fl_deps f)) as H. destruct (indices fs (fl_deps f)) as [l|].
  - destruct (link fs t) as [ls|].
    + constructor; auto.
    + destruct IH as (g & d & A & B). exists g, d. split; [now right|auto].
  - destruct H as (d & A & B). exists f, d. split; [now left|auto].
Qed.
Lemma Forall2_nth {A B} (R : A -> B -> Prop) l l' : Forall2 R l l' -> forall i,
  match nth_error l i, nth_error l' i with Some a, Some b => R a b | None, None => True | _, _ => False end.
Proof. induction 1; intros [|i]; cbn; auto. apply IHForall2. Qed.
Lemma Forall2_in_l {A B} (R : A -> B -> Prop) l l' a : Forall2 R l l' -> In a l -> exists b, In b l' /\ R a b.
Proof. induction 1; intros K; [destruct K|]. destruct K as [<-|K]; cbn; [eauto|]. destruct (IHForall2 K) as (b & ? & ?). eauto. Qed.
Lemma Forall2_in_r {A B} (R : A -> B -> Prop) l l' b : Forall2 R l l' -> In b l' -> exists a, In a l /\ R a b.
Proof. induction 1; intros K; [destruct K|]. destruct K as [<-|K]; cbn; [eauto|]. destruct (IHForall2 K) as (a & ? & ?). eauto. Qed.

Lemma link_verdict fs : NoDup (map fl_name fs) ->
  verdict (link_file_dependencies fs) ((forall a b, depends fs a b -> In b (map fl_name fs)) /\ ~ exists n, clos_trans bytes (depends fs) n n) (fun _ => True).
Proof.
  intros Hnd. unfold link_file_dependencies. pose proof (link_spec fs fs) as H. destruct (link fs fs) as [deps|].
  - assert (Hdep : forall i j, imports deps i j <-> exists f g, nth_error fs i = Some f /\ nth_error fs j = Some g /\ In (fl_name g) (fl_deps f)).
    { intros i j. pose proof (Forall2_nth _ _ _ H i) as Hi. split.
      - intros (ds & E & K). rewrite E in Hi. destruct (nth_error fs i) as [f|]; [|contradiction]. destruct (Forall2_in_r _ _ _ _ Hi K) as (d & A & g & B & C).
        exists f, g. subst d. auto.
      - intros (f & g & A & B & C). rewrite A in Hi. destruct (nth_error deps i) as [l|] eqn:E; [|contradiction]. destruct (Forall2_in_l _ _ _ _ Hi C) as (k & K1 & g' & K2 & K3).
        exists l. split; [exact E|]. assert (k = j); [|subst; auto].
        rewrite NoDup_nth_error in Hnd. apply Hnd; [rewrite map_length; apply nth_error_Some; congruence|].
        rewrite !nth_error_map, K2, B. cbn. congruence. }
    assert (Hlen : length deps = length fs) by (clear - H; induction H; cbn; auto).
    assert (Hcl : closed_graph deps).
    { intros i j K. apply Hdep in K. destruct K as (f & g & _ & B & _). rewrite Hlen. apply nth_error_Some. congruence. }
    assert (Hdom : forall a b, depends fs a b -> In b (map fl_name fs)).
    { intros a b (f & A & _ & B). destruct (Forall2_in_l _ _ _ _ H A) as (l & _ & F). destruct (Forall2_in_l _ _ _ _ F B) as (k & _ & g & E & <-).
      apply in_map. eapply nth_error_In; eauto. }
    destruct (check_spec deps Hcl) as (b & -> & Hb).
    assert (Hcyc : cyclic deps <-> exists n, clos_trans bytes (depends fs) n n).
    { split.
      - intros [i Hi].
        assert (T : forall i j, clos_trans nat (imports deps) i j -> exists f g, nth_error fs i = Some f /\ nth_error fs j = Some g /\ clos_trans bytes (depends fs) (fl_name f) (fl_name g)).
        { intros x y Ht. induction Ht as [x y K|x y z _ (f & g & A & B & C) _ (g' & h & A' & B' & C')].
          - apply Hdep in K. destruct K as (f & g & A & B & C). exists f, g. split; [auto|]. split; [auto|]. apply t_step. exists f. split; [eapply nth_error_In; eauto|auto].
          - rewrite B in A'. injection A' as <-. exists f, h. split; [auto|]. split; [auto|]. eapply t_trans; eauto. }
        destruct (T i i Hi) as (f & g & A & B & C). rewrite A in B. injection B as <-. eauto.
      - intros [n Hn].
        assert (T : forall a b, clos_trans bytes (depends fs) a b -> exists i j f g, nth_error fs i = Some f /\ fl_name f = a /\ nth_error fs j = Some g /\ fl_name g = b /\ clos_trans nat (imports deps) i j).
        { intros x y Ht. induction Ht as [x y K|x y z _ (i & j & f & g & A & B & C & D & F) _ (i' & j' & f' & g' & A' & B' & C' & D' & F')].
          - pose proof (Hdom _ _ K) as Hy. destruct K as (f & A & B & C). apply In_nth_error in A. destruct A as [i A]. apply in_map_iff in Hy. destruct Hy as (g & E & G). apply In_nth_error in G. destruct G as [j G].
            exists i, j, f, g. repeat (split; [auto|]). apply t_step. apply Hdep. exists f, g. subst y. auto.
          - assert (j = i').
            { rewrite NoDup_nth_error in Hnd. apply Hnd; [rewrite map_length; apply nth_error_Some; congruence|]. rewrite !nth_error_map, C, A'. cbn. congruence. }
            subst i'. exists i, j', f, g'. repeat (split; [auto|]). eapply t_trans; eauto. }
        destruct (T n n Hn) as (i & j & f & g & A & B & C & D & F). assert (i = j).
        { rewrite NoDup_nth_error in Hnd. apply Hnd; [rewrite map_length; apply nth_error_Some; congruence|]. rewrite !nth_error_map, A, C. cbn. congruence. }
        subst j. exists i. exact F. }
    eapply verdict_iff; [|apply verdict_require]. rewrite Hb, Hcyc. tauto.
  - cbn. intros [K _]. destruct H as (f & d & A & B & C). apply C. apply (K (fl_name f)). exists f. auto.
Qed.

(** ** The whole *)
(** The pool holds exactly the declared messages, enums and fields. *)
Definition describes (fs : list fileproto) (p : pool) : Prop :=
  map fst (p_files p) = fs /\ map pair_of (s_mmap (p_state p)) = all_messages fs /\ map epair_of (s_emap (p_state p)) = all_enums fs /\
  s_mmap (p_state p) = concat (map file_dscs fs) /\ s_emap (p_state p) = concat (map file_edscs fs) /\
  p_fields p = concat (map dsc_fields (concat (map file_dscs fs))) ++ concat (map file_fields (map (fun f => (f, file_feat f)) fs)).

Lemma all_dscs fs : map pair_of (concat (map file_dscs fs)) = all_messages fs.
Proof. unfold all_messages. rewrite concat_map, map_map. f_equal. apply map_ext. apply dscs_tree. Qed.
Lemma all_edscs fs : map epair_of (concat (map file_edscs fs)) = all_enums fs.
Proof. unfold all_enums. rewrite concat_map, map_map. f_equal. apply map_ext. apply edscs_tree. Qed.
Lemma dscs_full l : map md_full l = map fst (map pair_of l). Proof. rewrite map_map. reflexivity. Qed.
Lemma edscs_full l : map ed_full l = map fst (map epair_of l). Proof. rewrite map_map. reflexivity. Qed.
Lemma dscs_forall (P : mproto -> Prop) fs : Forall (fun d => P (md_proto d)) (concat (map file_dscs fs)) <-> Forall (fun d => P (snd d)) (all_messages fs).
Proof. rewrite <- all_dscs, Forall_map. reflexivity. Qed.

Lemma Forall_concat_iff {A} (P : A -> Prop) l : Forall P (concat l) <-> Forall (Forall P) l.
Proof. induction l as [|x t IH]; cbn [concat]; [split; constructor|]. rewrite Forall_app, Forall_cons_iff, IH. reflexivity. Qed.
Lemma Forall_iff {A} (P Q : A -> Prop) l : (forall x, P x <-> Q x) -> Forall P l <-> Forall Q l.
Proof. intros H. split; apply Forall_impl; intros x; apply H. Qed.
Lemma Forall_and_iff {A} (P Q : A -> Prop) l : Forall (fun x => P x /\ Q x) l <-> Forall P l /\ Forall Q l.
Proof. rewrite !Forall_forall. split; [intros H; split; intros x Hx; apply (H x Hx)|intros [H K] x Hx; split; auto]. Qed.

Lemma files_ok_iff fs : Forall file_ok fs <-> Forall (fun f => fl_name f <> []) fs /\ Forall known_edition fs /\
  Forall (fun d => mp_name (snd d) <> []) (all_messages fs) /\ Forall (fun d => ep_name (snd d) <> []) (all_enums fs).
Proof.
  unfold all_messages, all_enums. rewrite !Forall_concat_iff, !Forall_map, <- !Forall_and_iff.
  assert (K : forall f, file_ok f <-> fl_name f <> [] /\ known_edition f /\ Forall (fun d => mp_name (snd d) <> []) (file_messages f) /\ Forall (fun d => ep_name (snd d) <> []) (file_enums f)).
  { intros f. unfold file_ok, tops_named, inner_named, file_enums. rewrite <- dscs_tree at 2. rewrite Forall_and_iff, Forall_app, Forall_concat_iff, !Forall_map. cbn [snd fst pair_of].
    assert (A : Forall (fun d => Forall (fun e => ep_name (snd e) <> []) (map (fun e => (dotted (md_full d) (ep_name e), e)) (mp_enums (md_proto d)))) (file_dscs f) <->
      Forall (fun d => Forall (fun e => ep_name e <> []) (mp_enums (md_proto d))) (file_dscs f)).
    { apply Forall_iff. intros d. rewrite Forall_map. reflexivity. }
    assert (B : Forall (fun m => mp_name m <> []) (fl_messages f) /\ Forall (fun d => Forall (fun k => mp_name k <> []) (mp_nested (md_proto d))) (file_dscs f) <->
      Forall (fun d => mp_name (snd d) <> []) (file_messages f)).
    { assert (E : Forall (fun d => Forall (fun k => mp_name k <> []) (mp_nested (md_proto d))) (file_dscs f) <-> Forall (fun d => Forall (fun k => mp_name k <> []) (mp_nested (snd d))) (file_messages f))
        by (rewrite <- dscs_tree, Forall_map; reflexivity).
      rewrite E. unfold file_messages. rewrite !Forall_concat_iff, !Forall_map, <- Forall_and_iff. apply Forall_iff. intros m. rewrite tree_names. reflexivity. }
    tauto. }
  apply Forall_iff. exact K.
Qed.

Lemma fsum_length {A} (h : fileproto -> list A) g fs : (forall f, length (h f) = g f) -> length (concat (map h fs)) = fsum g fs.
Proof. intros H. induction fs as [|f t IH]; [reflexivity|]. cbn [map concat]. rewrite app_length, IH, H. reflexivity. Qed.
Lemma dsc_fields_length d : length (dsc_fields d) = g_fields (md_proto d).
Proof. unfold dsc_fields, g_fields. rewrite app_length, !map_length. reflexivity. Qed.
Lemma concat_map_concat {A B} (h : A -> list B) ls : concat (map h (concat ls)) = concat (map (fun l => concat (map h l)) ls).
Proof. induction ls as [|l t IH]; [reflexivity|]. cbn [concat map]. rewrite map_app, concat_app, IH. reflexivity. Qed.

Lemma fields_protos fs : Forall (fun f => resolved (map fst (all_messages fs)) (map fst (all_enums fs)) (fd_proto f))
    (concat (map dsc_fields (concat (map file_dscs fs))) ++ concat (map file_fields (map (fun f => (f, file_feat f)) fs))) <->
  Forall (resolved (map fst (all_messages fs)) (map fst (all_enums fs))) (message_fields fs ++ extensions fs).
Proof.
  set (R := resolved _ _). unfold message_fields, extensions. rewrite !Forall_app, !Forall_concat_iff, !Forall_map.
  assert (A : Forall (fun d => Forall (fun f => R (fd_proto f)) (dsc_fields d)) (concat (map file_dscs fs)) <->
    Forall (fun d => Forall R (mp_fields (snd d))) (all_messages fs) /\ Forall (fun d => Forall R (mp_exts (snd d))) (all_messages fs)).
  { rewrite <- (dscs_forall (fun m => Forall R (mp_fields m))), <- (dscs_forall (fun m => Forall R (mp_exts m))), <- Forall_and_iff. apply Forall_iff. intros d. unfold dsc_fields. rewrite Forall_app, !Forall_map. reflexivity. }
  assert (B : Forall (fun f => Forall (fun f => R (fd_proto f)) (file_fields (f, file_feat f))) fs <-> Forall (fun f => Forall R (fl_exts f)) fs).
  { apply Forall_iff. intros f. unfold file_fields. rewrite Forall_map. reflexivity. }
  rewrite A, B. tauto.
Qed.

Lemma init_verdict fs : representable fs -> verdict (init fs) (valid_files fs) (describes fs).
Proof.
  intros Hrep. unfold init. rewrite count_all_spec. set (cap := Counter _ _ _ _ _). unfold init_with.
  set (Ds := concat (map file_dscs fs)). set (Es := concat (map file_edscs fs)). set (Fs := map (fun f => (f, file_feat f)) fs).
  assert (HfD : length (concat (map dsc_fields Ds) ++ concat (map file_fields Fs)) = fsum n_fields fs).
  { unfold Ds, Fs. rewrite app_length, concat_map_concat, !map_map.
    rewrite (fsum_length _ (fun f => lsum g_fields (fl_messages f))) by (intros f; apply dscs_length, dsc_fields_length).
    rewrite (fsum_length _ (fun f => length (fl_exts f))) by (intros f; apply map_length).
    unfold fsum, n_fields. clear. induction fs as [|f t IH]; [reflexivity|]. cbn [map]. 
    repeat match goal with |- context [list_sum (?a :: ?l)] => change (list_sum (a :: l)) with (a + list_sum l)%nat end. lia. }
  rewrite app_length in HfD.
  eapply verdict_iff; [|apply (verdict_bind _ _ (Forall file_ok fs /\ NoDup (map fl_name fs) /\ NoDup (map fst (all_messages fs)) /\ NoDup (map fst (all_enums fs)))
    (((forall a b, depends fs a b -> In b (map fl_name fs)) /\ ~ exists n, clos_trans bytes (depends fs) n n) /\
     Forall (fun d => valid_message (md_proto d) /\ Forall legal_field (mp_exts (md_proto d))) Ds /\
     Forall (fun f => Forall legal_field (fl_exts (fst f))) Fs /\
     Forall (resolved (map fst (all_messages fs)) (map fst (all_enums fs))) (message_fields fs ++ extensions fs) /\ True /\ True)
    (fun r => let '(files', s') := r in files' = Fs /\ length (s_messages s') = fsum n_messages fs /\ s_mmap s' = Ds /\ s_emap s' = Es))].
  - rewrite files_ok_iff. unfold Ds. rewrite Forall_and_iff, (dscs_forall valid_message), (dscs_forall (fun m => Forall legal_field (mp_exts m))).
    assert (X : Forall legal_field (extensions fs) <-> Forall (fun d => Forall legal_field (mp_exts (snd d))) (all_messages fs) /\ Forall (fun f => Forall legal_field (fl_exts (fst f))) Fs).
    { unfold extensions, Fs. rewrite Forall_app, !Forall_concat_iff, !Forall_map. reflexivity. }
    split.
    + intros (((A1 & A2 & A3 & A4) & A5 & A6 & A7) & (A8 & A9) & (A10 & A11) & A12 & A13 & _). split; auto. apply X. auto.
    + intros [A1 A2 A3 [A4 A5] [A6 A7] A8 A9 A10 A11 A12]. apply X in A11. tauto.
  - eapply verdict_weaken; [|eapply verdict_iff; [|apply (add_files_verdict cap fs [] (State [] [] [] [] 0))]]; cbn [s_messages s_enums s_mmap s_emap s_oneofs length map app].
    + intros [files' s'] _ H. cbn [length Nat.add app] in H. exact H.
    + rewrite dscs_full, edscs_full, all_dscs, all_edscs. tauto.
    + cbn [c_files cap]. lia.
    + cbn [c_messages cap]. lia.
    + cbn [c_enums cap]. lia.
    + cbn [c_oneofs cap]. lia.
    + constructor.
    + constructor.
    + constructor.
  - intros [files' s'] (_ & Hnd & _) (-> & B1 & B2 & B3). assert (Hf : map fst Fs = fs) by (unfold Fs; rewrite map_map; apply map_id). rewrite Hf.
    eapply verdict_bind; [apply link_verdict; exact Hnd|]. cbn beta. intros u _ _. rewrite B2. eapply verdict_bind.
    { apply (all_fields_verdict cap).
      - unfold Ds. rewrite (dscs_forall fits). exact Hrep.
      - cbn [length c_fields cap]. lia. }
    cbn beta. cbn [app]. intros f1 _ ->. eapply verdict_bind.
    { apply file_extensions_verdict. cbn [c_fields cap]. lia. }
    cbn beta. intros f2 _ ->. eapply verdict_bind.
    { eapply verdict_iff; [apply fields_protos|]. rewrite <- all_dscs, <- all_edscs, <- dscs_full, <- edscs_full. fold Ds Es. rewrite <- B2, <- B3. apply resolve_verdict. }
    cbn beta. intros u2 _ _. apply verdict_test.
    { rewrite B1. cbn [c_messages cap]. rewrite Nat.eqb_eq. tauto. }
    intros _. apply verdict_done. unfold describes. cbn [p_files p_state p_fields]. rewrite B2, B3. unfold Ds, Es. rewrite all_dscs, all_edscs. auto 10.
Qed.

(** ** Lookups *)
Lemma find_unique {A} (g : A -> bytes) l n : NoDup (map g l) -> forall d, find (fun d => name_eqb (g d) n) l = Some d <-> In d l /\ g d = n.
Proof.
  intros Hn d. split.
  - intros H. apply find_some in H. rewrite name_eqb_eq in H. exact H.
  - intros [Hi <-]. destruct (find (fun x => name_eqb (g x) (g d)) l) as [x|] eqn:E.
    + apply find_some in E. destruct E as [E1 E2]. apply name_eqb_eq in E2. f_equal. clear -Hn Hi E1 E2. induction l as [|y t IH]; [destruct Hi|]. cbn in Hn. inversion Hn; subst.
      destruct Hi as [->|Hi], E1 as [->|E1]; auto.
      * exfalso. apply H1. rewrite <- E2. apply in_map. auto.
      * exfalso. apply H1. rewrite E2. apply in_map. auto.
    + pose proof (find_none _ _ E d Hi) as K. cbn in K. assert (name_eqb (g d) (g d) = true) by (apply name_eqb_eq; auto). congruence.
Qed.

Theorem pool_accepts fs : representable fs -> (exists p, init fs = Done p) <-> valid_files fs.
Proof.
  intros H. pose proof (init_verdict fs H) as V. destruct (init fs) as [p| | |]; cbn in V.
  - split; [intros _; tauto|eauto].
  - split; [intros [p E]; discriminate|intros K; contradiction].
  - destruct V.
  - destruct V.
Qed.
Theorem pool_rejects fs : representable fs -> init fs = Invalid \/ exists p, init fs = Done p.
Proof. intros H. pose proof (init_verdict fs H) as V. destruct (init fs); cbn in V; eauto; destruct V. Qed.
Theorem pool_contents fs p : representable fs -> init fs = Done p ->
  map fst (p_files p) = fs /\ map pair_of (s_mmap (p_state p)) = all_messages fs /\ map epair_of (s_emap (p_state p)) = all_enums fs /\
  (forall q, In q (map fd_proto (p_fields p)) <-> In q (message_fields fs ++ extensions fs)).
Proof.
  intros H E. pose proof (init_verdict fs H) as V. rewrite E in V. destruct V as [_ (A & B & C & D & F & G)]. split; [exact A|]. split; [exact B|]. split; [exact C|].
  intros q. rewrite G, map_app, !in_app_iff. unfold message_fields, extensions. rewrite in_app_iff, <- all_dscs. clear. generalize (concat (map file_dscs fs)). intros Ds. rewrite !map_map, !concat_map, !map_map.
  rewrite !in_concat. split.
  - intros [(l & Hl & Hq)|(l & Hl & Hq)]; apply in_map_iff in Hl; destruct Hl as (d & <- & Hd).
    + unfold dsc_fields in Hq. rewrite map_app, !map_map in Hq. cbn [fd_proto fdsc_of] in Hq. rewrite !map_id in Hq. apply in_app_or in Hq. destruct Hq as [Hq|Hq]; [left|right; left].
      * exists (mp_fields (md_proto d)). split; [apply in_map_iff; exists d; auto|auto].
      * exists (mp_exts (md_proto d)). split; [apply in_map_iff; exists d; auto|auto].
    + right. right. unfold file_fields in Hq. rewrite map_map in Hq. cbn [fd_proto fst] in Hq. rewrite map_id in Hq. exists (fl_exts d). split; [apply in_map; auto|auto].
  - intros [(l & Hl & Hq)|[(l & Hl & Hq)|(l & Hl & Hq)]]; apply in_map_iff in Hl; destruct Hl as (d & <- & Hd); cbn [pair_of snd] in Hq.
    + left. exists (map fd_proto (dsc_fields d)). split; [apply in_map_iff; exists d; auto|]. unfold dsc_fields. rewrite map_app, !map_map. cbn [fd_proto fdsc_of]. rewrite !map_id. apply in_or_app. auto.
    + left. exists (map fd_proto (dsc_fields d)). split; [apply in_map_iff; exists d; auto|]. unfold dsc_fields. rewrite map_app, !map_map. cbn [fd_proto fdsc_of]. rewrite !map_id. apply in_or_app. auto.
    + right. exists (map fd_proto (file_fields (d, file_feat d))). split; [apply in_map_iff; exists d; auto|]. unfold file_fields. rewrite map_map. cbn [fd_proto fst]. rewrite map_id. exact Hq.
Qed.
Theorem pool_lookup fs p : representable fs -> init fs = Done p -> forall n m,
  (exists d, get_message p n = Some d /\ md_proto d = m) <-> In (n, m) (all_messages fs).
Proof.
  intros H E n m. destruct (pool_contents fs p H E) as (_ & B & _).
  pose proof (init_verdict fs H) as V. rewrite E in V. destruct V as [Va _]. destruct (vf_messages _ Va) as [_ Hn]. rewrite <- B in Hn |- *. rewrite <- dscs_full in Hn.
  unfold get_message. split.
  - intros (d & Hd & <-). apply (find_unique _ _ _ Hn) in Hd. destruct Hd as [Hi <-]. apply in_map_iff. exists d. auto.
  - intros Hi. apply in_map_iff in Hi. destruct Hi as (d & Hd & Hi). unfold pair_of in Hd. injection Hd as <- <-. exists d. split; [|reflexivity]. apply (find_unique _ _ _ Hn). auto.
Qed.
