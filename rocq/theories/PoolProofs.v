(** Verdicts of the parts of the pool construction. *)
Require Import Verif.Bits Verif.Kahn Verif.Pool Verif.PoolSpec.

Section MInd.
  Context (P : mproto -> Prop) (H : forall m, Forall P (mp_nested m) -> P m).
  Fixpoint mproto_nested (m : mproto) : P m :=
    H m (match m with
         | MProto _ _ _ ns _ _ _ _ => (fix go l : Forall P l := match l with [] => Forall_nil P | x :: t => Forall_cons x (mproto_nested x) (go t) end) ns
         end).
End MInd.

(** ** Outcomes *)
Definition verdict {A} (o : outcome A) (C : Prop) (Q : A -> Prop) : Prop :=
  match o with Done a => C /\ Q a | Invalid => ~ C | _ => False end.
Lemma verdict_iff {A} (o : outcome A) (C C' : Prop) Q : (C <-> C') -> verdict o C Q -> verdict o C' Q.
Proof. unfold verdict. destruct o; tauto. Qed.
Lemma verdict_weaken {A} (o : outcome A) (C : Prop) (Q Q' : A -> Prop) : (forall a, C -> Q a -> Q' a) -> verdict o C Q -> verdict o C Q'.
Proof. unfold verdict. destruct o; auto. intros H [? ?]. auto. Qed.
Lemma verdict_bind {A B} (x : outcome A) (f : A -> outcome B) C1 C2 Q1 Q2 :
  verdict x C1 Q1 -> (forall a, C1 -> Q1 a -> verdict (f a) C2 Q2) -> verdict (bind x f) (C1 /\ C2) Q2.
Proof.
  unfold verdict. destruct x; cbn; intros H K; auto; [|tauto]. destruct H as [H1 H2]. specialize (K a H1 H2). destruct (f a); tauto.
Qed.
Lemma verdict_require b : verdict (require b) (b = true) (fun _ => True).
Proof. destruct b; cbn; auto. Qed.
(** A test, then the rest. *)
Lemma verdict_test {B} b (f : unit -> outcome B) (P C : Prop) Q :
  (b = true <-> P) -> (P -> verdict (f tt) C Q) -> verdict (bind (require b) f) (P /\ C) Q.
Proof.
  intros H K. apply (verdict_iff _ ((b = true) /\ C)); [tauto|]. apply verdict_bind with (Q1 := fun _ => True); [apply verdict_require|].
  intros [] E _. apply K. apply H. exact E.
Qed.
Lemma verdict_done {A} (a : A) (Q : A -> Prop) : Q a -> verdict (Done a) True Q.
Proof. cbn. auto. Qed.
Lemma emplace_ok {A} cap (l : list A) x : (length l < cap)%nat -> emplace cap l x = Done (l ++ [x]).
Proof. intros H. unfold emplace. destruct (Nat.ltb_spec (length l) cap); [reflexivity|lia]. Qed.

Lemma name_eqb_eq a b : name_eqb a b = true <-> a = b.
Proof. unfold name_eqb. destruct (list_eq_dec Z.eq_dec a b); split; congruence. Qed.
Lemma nonempty_iff {A} (l : list A) : negb (is_empty l) = true <-> l <> [].
Proof. destruct l; cbn; split; congruence. Qed.
Lemma exists_name {A} (g : A -> bytes) l n : existsb (fun x => name_eqb (g x) n) l = true <-> In n (map g l).
Proof. rewrite existsb_exists, in_map_iff. split; intros (x & A1 & A2); exists x; rewrite ?name_eqb_eq in *; auto. Qed.
Lemma fresh_name {A} (g : A -> bytes) l n : negb (existsb (fun x => name_eqb (g x) n) l) = true <-> ~ In n (map g l).
Proof. rewrite <- (exists_name g l n). destruct (existsb _ _); cbn; intuition congruence. Qed.
Lemma has_in n l : has n l = true <-> In n l.
Proof. unfold has. rewrite existsb_exists. split; [intros (x & A1 & A2); apply name_eqb_eq in A2; subst; auto|intros H; exists n; split; [auto|apply name_eqb_eq; auto]]. Qed.

Lemma nodup_snoc {A} (l : list A) x : NoDup (l ++ [x]) <-> NoDup l /\ ~ In x l.
Proof.
  split.
  - intros H. apply NoDup_remove in H. rewrite app_nil_r in H. exact H.
  - intros [H K]. apply NoDup_rev in H. rewrite <- (rev_involutive (l ++ [x])). apply NoDup_rev. rewrite rev_app_distr. cbn. constructor; [rewrite <- in_rev; auto|auto].
Qed.
Lemma nodup_prefix {A} (l r : list A) : NoDup (l ++ r) -> NoDup l.
Proof. induction l; cbn; [constructor|]. intros H. inversion H; subst. constructor; auto. rewrite in_app_iff in *. tauto. Qed.

(** ** Counting *)
Fixpoint tsum (g : mproto -> nat) (m : mproto) {struct m} : nat := (g m + list_sum (map (tsum g) (mp_nested m)))%nat.
Definition lsum (g : mproto -> nat) (l : list mproto) : nat := list_sum (map (tsum g) l).
Lemma tsum_eq g m : tsum g m = (g m + lsum g (mp_nested m))%nat.
Proof. destruct m. reflexivity. Qed.
Lemma lsum_app g a b : lsum g (a ++ b) = (lsum g a + lsum g b)%nat.
Proof. unfold lsum. rewrite map_app, list_sum_app. reflexivity. Qed.
Lemma lsum_rev g l : lsum g (rev l) = lsum g l.
Proof. induction l as [|x t IH]; [reflexivity|]. cbn [rev]. rewrite lsum_app, IH. unfold lsum. cbn [map list_sum fold_right]. rewrite Nat.add_0_r. apply Nat.add_comm. Qed.
Lemma lsum_cons g m l : lsum g (m :: l) = (g m + lsum g (mp_nested m) + lsum g l)%nat.
Proof. change (lsum g (m :: l)) with (tsum g m + lsum g l)%nat. rewrite tsum_eq. lia. Qed.
Lemma msize_tsum m : msize m = tsum (fun _ => 1%nat) m.
Proof.
  induction m as [m IH] using mproto_nested. rewrite tsum_eq. destruct m as [a b c ns d e f g]. cbn [msize mp_nested] in *. unfold lsum. cbn [Nat.add]. f_equal.
  induction IH as [|x t Hx Ht IHt]; [reflexivity|].
  change (msize x + list_sum (map msize t) = tsum (fun _ => 1%nat) x + list_sum (map (tsum (fun _ => 1%nat)) t))%nat. rewrite Hx, IHt. reflexivity.
Qed.
Lemma list_sum_msize l : list_sum (map msize l) = lsum (fun _ => 1%nat) l.
Proof. unfold lsum. f_equal. apply map_ext. apply msize_tsum. Qed.
Definition g_kids m := length (mp_nested m).
Definition g_fields m := (length (mp_fields m) + length (mp_exts m))%nat.
Definition g_enums m := length (mp_enums m).
Lemma kids_size m : S (tsum g_kids m) = msize m.
Proof.
  induction m as [m IH] using mproto_nested. rewrite msize_tsum, !tsum_eq. unfold g_kids at 1. cbn [Nat.add]. f_equal.
  induction IH as [|x t Hx Ht IHt]; [reflexivity|]. rewrite msize_tsum in Hx.
  change (length (x :: t) + (tsum g_kids x + lsum g_kids t) = tsum (fun _ => 1%nat) x + lsum (fun _ => 1%nat) t)%nat. cbn [length]. lia.
Qed.
Lemma kids_lsum l : (lsum g_kids l + length l = lsum (fun _ => 1%nat) l)%nat.
Proof. rewrite <- list_sum_msize. induction l as [|x t IH]; [reflexivity|]. pose proof (kids_size x).
  change (tsum g_kids x + lsum g_kids t + S (length t) = msize x + list_sum (map msize t))%nat. lia. Qed.

Local Open Scope nat_scope.
Lemma count_loop_spec : forall fuel pending c, (lsum (fun _ => 1%nat) pending < fuel)%nat ->
  count_loop fuel pending c = Some (Counter (c_files c) (c_messages c + lsum g_kids pending) (c_fields c + lsum g_fields pending)
    (c_oneofs c + lsum mp_oneofs pending) (c_enums c + lsum g_enums pending)).
Proof.
  induction fuel as [|fuel IH]; intros pending c Hf; [lia|]. destruct pending as [|m rest]; cbn [count_loop].
  - destruct c. cbn. rewrite !Nat.add_0_r. reflexivity.
  - rewrite lsum_cons in Hf. rewrite IH by (rewrite lsum_app, lsum_rev; lia). cbn [c_files c_messages c_fields c_oneofs c_enums].
    rewrite !lsum_app, !lsum_rev, !lsum_cons. unfold g_kids at 3, g_fields at 3, g_enums at 3. do 2 f_equal; lia.
Qed.
Lemma count_messages_spec l : forall c, fold_left count_message l (Some c) = Some (Counter (c_files c) (c_messages c + lsum (fun _ => 1%nat) l)
  (c_fields c + lsum g_fields l) (c_oneofs c + lsum mp_oneofs l) (c_enums c + lsum g_enums l)).
Proof.
  induction l as [|m t IH]; intros c; cbn [fold_left].
  - destruct c. cbn. rewrite !Nat.add_0_r. reflexivity.
  - unfold count_message at 2. rewrite count_loop_spec by (rewrite msize_tsum; change (lsum (fun _ => 1%nat) [m]) with (tsum (fun _ => 1) m + 0); lia).
    rewrite IH. cbn [c_files c_messages c_fields c_oneofs c_enums]. pose proof (kids_size m) as K. rewrite msize_tsum in K.
    assert (H1 : forall g, lsum g [m] = tsum g m) by (intros; unfold lsum; cbn; apply Nat.add_0_r).
    assert (H2 : forall g, lsum g (m :: t) = tsum g m + lsum g t) by reflexivity. rewrite !H1, !H2. do 2 f_equal; lia.
Qed.
Definition fsum (g : fileproto -> nat) (fs : list fileproto) : nat := list_sum (map g fs).
Definition n_messages f := lsum (fun _ => 1%nat) (fl_messages f).
Definition n_fields f := (lsum g_fields (fl_messages f) + length (fl_exts f))%nat.
Definition n_oneofs f := lsum mp_oneofs (fl_messages f).
Definition n_enums f := (lsum g_enums (fl_messages f) + length (fl_enums f))%nat.
Lemma count_files_spec fs : forall c, fold_left count_file fs (Some c) = Some (Counter (c_files c + length fs) (c_messages c + fsum n_messages fs)
  (c_fields c + fsum n_fields fs) (c_oneofs c + fsum n_oneofs fs) (c_enums c + fsum n_enums fs)).
Proof.
  induction fs as [|f t IH]; intros c; cbn [fold_left].
  - destruct c. cbn. rewrite !Nat.add_0_r. reflexivity.
  - unfold count_file at 2. rewrite count_messages_spec. rewrite IH. cbn [c_files c_messages c_fields c_oneofs c_enums].
    assert (H2 : forall g, fsum g (f :: t) = g f + fsum g t) by reflexivity. rewrite !H2. unfold n_messages at 2, n_fields at 2, n_oneofs at 2, n_enums at 2.
    cbn [length]. do 2 f_equal; lia.
Qed.
Lemma count_all_spec fs : count_all fs = Some (Counter (length fs) (fsum n_messages fs) (fsum n_fields fs) (fsum n_oneofs fs) (fsum n_enums fs)).
Proof. unfold count_all. rewrite count_files_spec. reflexivity. Qed.

Local Close Scope nat_scope.

(** ** Messages and enums *)
Fixpoint flat_m (full : bytes) (feat : features) (m : mproto) {struct m} : list mdsc :=
  MDsc full m feat :: concat (map (fun k => flat_m (join_by_dot full (mp_name k)) (merge_features feat (mp_feat k)) k) (mp_nested m)).
Definition flat_d (d : mdsc) := flat_m (md_full d) (md_feat d) (md_proto d).
Lemma flat_d_eq d : flat_d d = d :: concat (map flat_d (map (nested_dsc d) (mp_nested (md_proto d)))).
Proof. destruct d as [full m feat]. unfold flat_d. cbn [md_full md_feat md_proto]. destruct m. cbn [flat_m mp_nested]. rewrite map_map. reflexivity. Qed.
Definition enum_dsc (dot : bool) (scope : bytes) (inh : features) (e : eproto) : edsc :=
  EDsc (if dot then join_by_dot scope (ep_name e) else in_scope scope (ep_name e)) e (enum_closed inh e).
Definition enums_of (d : mdsc) : list edsc := map (enum_dsc true (md_full d) (md_feat d)) (mp_enums (md_proto d)).
Definition dsc_sum (g : mproto -> nat) (l : list mdsc) : nat := lsum g (map md_proto l).

Section Cap.
  Context (cap : counter).

  Lemma message_verdict d s : (length (s_messages s) < c_messages cap)%nat ->
    verdict (add_message cap d s) (mp_name (md_proto d) <> [])
      (fun s' => s' = State (s_messages s ++ [d]) (s_enums s) (s_mmap s) (s_emap s) (s_oneofs s)).
  Proof.
    intros H. unfold add_message. apply (verdict_iff _ (mp_name (md_proto d) <> [] /\ True)); [tauto|].
    apply verdict_test; [apply nonempty_iff|]. intros _. rewrite emplace_ok by lia. cbn [bind]. apply verdict_done. reflexivity.
  Qed.
  Lemma messages_verdict kids : forall s, (length (s_messages s) + length kids <= c_messages cap)%nat ->
    verdict (each (fun s k => add_message cap k s) s kids) (Forall (fun k => mp_name (md_proto k) <> []) kids)
      (fun s' => s' = State (s_messages s ++ kids) (s_enums s) (s_mmap s) (s_emap s) (s_oneofs s)).
  Proof.
    induction kids as [|k t IH]; intros s Hc; cbn [each length] in *.
    - split; [constructor|]. rewrite app_nil_r. destruct s; reflexivity.
    - eapply verdict_iff; [symmetry; apply Forall_cons_iff|]. eapply verdict_bind; [apply message_verdict; lia|].
      cbn beta. intros s' _ ->. eapply verdict_weaken; [|apply IH; cbn; rewrite app_length; cbn; lia]. cbn. intros a _ ->. rewrite <- app_assoc. reflexivity.
  Qed.
  Lemma enums_verdict dot scope inh es : forall s, (length (s_enums s) + length es <= c_enums cap)%nat -> NoDup (map ed_full (s_emap s)) ->
    verdict (each (add_enum cap scope dot inh) s es)
      (Forall (fun e => ep_name e <> []) es /\ NoDup (map ed_full (s_emap s ++ map (enum_dsc dot scope inh) es)))
      (fun s' => s' = State (s_messages s) (s_enums s ++ map (enum_dsc dot scope inh) es) (s_mmap s) (s_emap s ++ map (enum_dsc dot scope inh) es) (s_oneofs s)).
  Proof.
    induction es as [|e t IH]; intros s Hc Hn; cbn [each length map] in *.
    - rewrite !app_nil_r. split; [split; [constructor|exact Hn]|]. destruct s; reflexivity.
    - set (d := enum_dsc dot scope inh e).
      eapply verdict_iff; [|eapply (verdict_bind _ _ (ep_name e <> [] /\ ~ In (ed_full d) (map ed_full (s_emap s)) /\ True)
        (Forall (fun e => ep_name e <> []) t /\ NoDup (map ed_full ((s_emap s ++ [d]) ++ map (enum_dsc dot scope inh) t)))
        (fun s' => s' = State (s_messages s) (s_enums s ++ [d]) (s_mmap s) (s_emap s ++ [d]) (s_oneofs s)))].
      + rewrite <- app_assoc. cbn [app]. rewrite Forall_cons_iff. assert (NoDup (map ed_full (s_emap s ++ d :: map (enum_dsc dot scope inh) t)) -> ~ In (ed_full d) (map ed_full (s_emap s))).
        { rewrite map_app. cbn [map]. intros H. apply NoDup_remove_2 in H. rewrite in_app_iff in H. tauto. }
        tauto.
      + unfold add_enum. apply verdict_test; [apply nonempty_iff|]. intros _. rewrite emplace_ok by lia. cbn [bind].
        apply verdict_test; [apply (fresh_name ed_full (s_emap s))|]. intros _. apply verdict_done. reflexivity.
      + cbn beta. intros s' (_ & Hf & _) ->. eapply verdict_weaken; [|apply IH].
        * cbn. intros a _ ->. rewrite <- !app_assoc. reflexivity.
        * cbn. rewrite app_length. cbn. lia.
        * cbn [s_emap]. rewrite map_app. cbn [map]. apply nodup_snoc. auto.
  Qed.

  (** What declaring the messages [l] (with everything inside) requires. *)
  Definition declarable (s : state) (l : list mdsc) : Prop :=
    Forall (fun d => Forall (fun k => mp_name k <> []) (mp_nested (md_proto d)) /\ Forall (fun e => ep_name e <> []) (mp_enums (md_proto d))) l /\
    NoDup (map md_full (s_mmap s ++ l)) /\ NoDup (map ed_full (s_emap s ++ concat (map enums_of l))).
  Definition declared (s : state) (nm no : nat) (l : list mdsc) (s' : state) : Prop :=
    length (s_messages s') = (length (s_messages s) + nm)%nat /\ s_enums s' = s_enums s ++ concat (map enums_of l) /\
    s_mmap s' = s_mmap s ++ l /\ s_emap s' = s_emap s ++ concat (map enums_of l) /\ s_oneofs s' = (s_oneofs s + no)%nat.

  Lemma build_message_verdict : forall fuel pending s, (dsc_sum (fun _ => 1%nat) pending < fuel)%nat ->
    (length (s_messages s) + dsc_sum g_kids pending <= c_messages cap)%nat -> (length (s_enums s) + dsc_sum g_enums pending <= c_enums cap)%nat ->
    (s_oneofs s + dsc_sum mp_oneofs pending <= c_oneofs cap)%nat -> NoDup (map md_full (s_mmap s)) -> NoDup (map ed_full (s_emap s)) ->
    verdict (build_message cap fuel pending s) (declarable s (concat (map flat_d pending)))
      (declared s (dsc_sum g_kids pending) (dsc_sum mp_oneofs pending) (concat (map flat_d pending))).
  Proof.
    induction fuel as [|fuel IH]; intros pending s Hf Hm He Ho Nm Ne; [lia|]. destruct pending as [|d rest]; cbn [build_message].
    - cbn. unfold declarable, declared. cbn. rewrite !app_nil_r. split; [split; [constructor|auto]|]. unfold dsc_sum. cbn. repeat split; try reflexivity; lia.
    - assert (Hsum : forall g, dsc_sum g (d :: rest) = (g (md_proto d) + lsum g (mp_nested (md_proto d)) + dsc_sum g rest)%nat) by (intros g; unfold dsc_sum; cbn [map]; apply lsum_cons).
      rewrite !Hsum in *. unfold add_oneofs. destruct (Nat.leb_spec (s_oneofs s + mp_oneofs (md_proto d)) (c_oneofs cap)) as [_|K]; [|lia]. cbn [bind].
      set (kids := map (nested_dsc d) (mp_nested (md_proto d))). cbn [map concat]. rewrite (flat_d_eq d). fold kids.
      assert (Hkids : forall g, dsc_sum g (kids ++ rest) = (lsum g (mp_nested (md_proto d)) + dsc_sum g rest)%nat).
      { intros g. unfold dsc_sum, kids. rewrite map_app, map_map, lsum_app. cbn [nested_dsc md_proto]. rewrite map_id. reflexivity. }
      set (L := concat (map flat_d (kids ++ rest))).
      replace ((d :: concat (map flat_d kids)) ++ concat (map flat_d rest)) with (d :: L) by (unfold L; rewrite map_app, concat_app; reflexivity).
      assert (Hlk : length kids = g_kids (md_proto d)) by (unfold kids; apply map_length).
      eapply verdict_iff; [|apply (verdict_bind _ _ (~ In (md_full d) (map md_full (s_mmap s)))
        (Forall (fun k => mp_name (md_proto k) <> []) kids /\
         (Forall (fun e => ep_name e <> []) (mp_enums (md_proto d)) /\ NoDup (map ed_full (s_emap s ++ enums_of d))) /\
         declarable (State (s_messages s) (s_enums s) (s_mmap s ++ [d]) (s_emap s ++ enums_of d) 0) L)
        (fun s' => s' = State (s_messages s) (s_enums s) (s_mmap s ++ [d]) (s_emap s) (s_oneofs s + mp_oneofs (md_proto d))))].
      + unfold declarable. cbn [s_mmap s_emap map concat]. rewrite <- !app_assoc. cbn [app]. rewrite Forall_cons_iff.
        assert (NoDup (map md_full (s_mmap s ++ d :: L)) -> ~ In (md_full d) (map md_full (s_mmap s))).
        { rewrite map_app. cbn [map]. intros H. apply NoDup_remove_2 in H. rewrite in_app_iff in H. tauto. }
        assert (NoDup (map ed_full (s_emap s ++ enums_of d ++ concat (map enums_of L))) -> NoDup (map ed_full (s_emap s ++ enums_of d))).
        { rewrite app_assoc, (map_app ed_full (s_emap s ++ enums_of d)). apply nodup_prefix. }
        assert (Forall (fun k => mp_name (md_proto k) <> []) kids <-> Forall (fun k => mp_name k <> []) (mp_nested (md_proto d))).
        { unfold kids. rewrite Forall_map. cbn [nested_dsc md_proto]. reflexivity. }
        tauto.
      + unfold map_message. cbn [s_mmap s_messages s_enums s_emap s_oneofs].
        apply (verdict_iff _ (~ In (md_full d) (map md_full (s_mmap s)) /\ True)); [tauto|].
        apply verdict_test; [apply (fresh_name md_full (s_mmap s))|]. intros _. apply verdict_done. reflexivity.
      + cbn beta. intros s1 Hfresh ->. eapply verdict_bind.
        { apply messages_verdict. cbn [s_messages]. rewrite Hlk. unfold g_kids in *. lia. }
        cbn beta. cbn [s_messages s_enums s_mmap s_emap s_oneofs]. intros s2 _ ->. eapply verdict_bind.
        { pose proof (enums_verdict true (md_full d) (md_feat d) (mp_enums (md_proto d)) (State (s_messages s ++ kids) (s_enums s) (s_mmap s ++ [d]) (s_emap s)
            (s_oneofs s + mp_oneofs (md_proto d)))) as K. cbn [s_messages s_enums s_mmap s_emap s_oneofs] in K. apply K; [|exact Ne]. unfold g_enums in *. lia. }
        cbn beta. cbn [s_messages s_enums s_mmap s_emap s_oneofs]. fold (enums_of d). intros s3 (_ & Hne) ->.
        eapply verdict_weaken; [|eapply verdict_iff; [|apply IH]].
        * cbn beta. intros a _ (A1 & A2 & A3 & A4 & A5). cbn [s_messages s_enums s_mmap s_emap s_oneofs] in *. rewrite Hkids in *. rewrite app_length in A1.
          unfold declared. cbn [map concat]. fold L in A2, A3, A4. rewrite <- app_assoc in A2, A3, A4. unfold g_kids in *.
          split; [lia|]. split; [exact A2|]. split; [exact A3|]. split; [exact A4|]. lia.
        * reflexivity.
        * rewrite Hkids. lia.
        * rewrite Hkids. cbn [s_messages]. rewrite app_length. unfold g_kids in *. lia.
        * rewrite Hkids. cbn [s_enums]. rewrite app_length. unfold enums_of. rewrite map_length. unfold g_enums in *. lia.
        * rewrite Hkids. cbn [s_oneofs]. lia.
        * cbn [s_mmap]. rewrite map_app. cbn [map]. apply nodup_snoc. auto.
        * cbn [s_emap]. exact Hne.
  Qed.

  (** Top-level messages of a file. *)
  Definition top_dsc (package : bytes) (feat : features) (m : mproto) : mdsc := MDsc (in_scope package (mp_name m)) m (merge_features feat (mp_feat m)).
  Lemma build_tops_verdict package feat ms : forall s,
    (length (s_messages s) + lsum (fun _ => 1%nat) ms <= c_messages cap)%nat -> (length (s_enums s) + lsum g_enums ms <= c_enums cap)%nat ->
    (s_oneofs s + lsum mp_oneofs ms <= c_oneofs cap)%nat -> NoDup (map md_full (s_mmap s)) -> NoDup (map ed_full (s_emap s)) ->
    verdict (each (build_top cap package feat) s ms)
      (Forall (fun m => mp_name m <> []) ms /\ declarable s (concat (map (fun m => flat_d (top_dsc package feat m)) ms)))
      (declared s (lsum (fun _ => 1%nat) ms) (lsum mp_oneofs ms) (concat (map (fun m => flat_d (top_dsc package feat m)) ms))).
  Proof.
    induction ms as [|m t IH]; intros s Hm He Ho Nm Ne; cbn [each map concat].
    - unfold declarable, declared. cbn. rewrite !app_nil_r. split; [split; [constructor|split; [constructor|auto]]|]. unfold lsum. cbn. repeat split; try reflexivity; lia.
    - set (d := top_dsc package feat m). set (L1 := flat_d d). set (L2 := concat (map (fun m => flat_d (top_dsc package feat m)) t)).
      assert (Hl : forall g, lsum g (m :: t) = (tsum g m + lsum g t)%nat) by (intros; unfold lsum; reflexivity). rewrite !Hl in *.
      pose proof (kids_size m) as Hks. rewrite msize_tsum in Hks.
      assert (Hd : forall g, dsc_sum g [d] = tsum g m) by (intros g; unfold dsc_sum, lsum; cbn; lia).
      eapply verdict_iff; [|apply (verdict_bind _ _ (mp_name m <> [] /\ declarable s L1)
        (Forall (fun m => mp_name m <> []) t /\ declarable (State [] [] (s_mmap s ++ L1) (s_emap s ++ concat (map enums_of L1)) 0) L2)
        (declared s (tsum (fun _ => 1%nat) m) (tsum mp_oneofs m) L1))].
      + unfold declarable. cbn [s_mmap s_emap]. rewrite (map_app enums_of L1 L2), (concat_app (map enums_of L1)), <- !app_assoc, Forall_app, Forall_cons_iff.
        assert (NoDup (map md_full (s_mmap s ++ L1 ++ L2)) -> NoDup (map md_full (s_mmap s ++ L1))).
        { rewrite app_assoc, (map_app _ (s_mmap s ++ L1)). apply nodup_prefix. }
        assert (NoDup (map ed_full (s_emap s ++ concat (map enums_of L1) ++ concat (map enums_of L2))) -> NoDup (map ed_full (s_emap s ++ concat (map enums_of L1)))).
        { rewrite app_assoc, (map_app _ (s_emap s ++ _)). apply nodup_prefix. }
        tauto.
      + unfold build_top. fold (top_dsc package feat m). fold d. eapply verdict_iff; [|eapply (verdict_bind _ _ (mp_name m <> [])
          (declarable (State (s_messages s ++ [d]) (s_enums s) (s_mmap s) (s_emap s) (s_oneofs s)) L1)
          (fun s' => s' = State (s_messages s ++ [d]) (s_enums s) (s_mmap s) (s_emap s) (s_oneofs s)))].
        * reflexivity.
        * apply message_verdict. lia.
        * cbn beta. intros s' _ ->. eapply verdict_weaken; [|eapply verdict_iff; [|apply (build_message_verdict (S (msize m)) [d])]].
          -- cbn beta. intros a _ (A1 & A2 & A3 & A4 & A5). cbn [s_messages s_enums s_mmap s_emap s_oneofs map concat] in *. rewrite app_nil_r in A2, A3, A4.
             rewrite Hd in *. rewrite app_length in A1. cbn [length] in A1. unfold declared. split; [lia|]. split; [exact A2|]. split; [exact A3|]. split; [exact A4|exact A5].
          -- cbn [map concat]. rewrite app_nil_r. reflexivity.
          -- rewrite Hd, msize_tsum. lia.
          -- rewrite Hd. cbn [s_messages]. rewrite app_length. cbn. lia.
          -- rewrite Hd. cbn [s_enums]. lia.
          -- rewrite Hd. cbn [s_oneofs]. lia.
          -- exact Nm.
          -- exact Ne.
      + cbn beta. intros s' (_ & _ & Hn1 & Hn2) (A1 & A2 & A3 & A4 & A5). eapply verdict_weaken; [|eapply verdict_iff; [|apply IH]].
        * cbn beta. intros a _ (B1 & B2 & B3 & B4 & B5). unfold declared. rewrite (map_app enums_of L1 L2), (concat_app (map enums_of L1)), !app_assoc. fold L2 in B2, B3, B4.
          rewrite B2, B3, B4, A2, A3, A4. split; [lia|]. repeat (split; [reflexivity|]). lia.
        * unfold declarable. cbn [s_mmap s_emap]. rewrite A3, A4. reflexivity.
        * lia.
        * rewrite A2, app_length. assert (Hq : length (concat (map enums_of L1)) = tsum g_enums m); [|lia]. 
          clear. unfold L1, d, flat_d, top_dsc. cbn [md_full md_feat md_proto]. generalize (in_scope package (mp_name m)) as full. generalize (merge_features feat (mp_feat m)) as ft.
          induction m as [m IH] using mproto_nested. intros ft full. rewrite tsum_eq. destruct m as [n0 fl0 ex0 ns es0 o0 en0 ft0]. cbn [flat_m map concat mp_nested] in *.
          rewrite app_length. f_equal; [unfold enums_of, g_enums; cbn; apply map_length|].
          unfold lsum. induction IH as [|x t Hx Ht IHt]; [reflexivity|]. cbn [map concat list_sum fold_right]. rewrite map_app, concat_app, app_length. f_equal; [apply Hx|exact IHt].
        * lia.
        * rewrite A3. exact Hn1.
        * rewrite A4. exact Hn2.
  Qed.
End Cap.
