(** Services: proofs. *)
From Coq Require Import Ascii String.
From Coq Require Import ZArith List Bool Lia.
Import ListNotations.
Require Import Verif.Bits Verif.CppText Verif.CppSpec Verif.CppProofs Verif.CppNames Verif.Archive Verif.GenNameCheck Verif.GenNameProofs Verif.GenService Verif.GenServiceSpec.
Local Open Scope list_scope.
Local Open Scope Z_scope.

Lemma same_iff a b : same a b = true <-> a = b.
Proof. unfold same. destruct (list_eq_dec Z.eq_dec a b); split; congruence. Qed.

(** ** Names *)
Definition name_byte (c : Z) : Prop := 0 < c < 256 /\ c <> 47.
Lemma continue_byte c : id_continue c = true -> name_byte c /\ c <> 46.
Proof. unfold id_continue, is_alpha, is_digit, name_byte. rewrite !orb_true_iff, !andb_true_iff, !Z.leb_le, Z.eqb_eq. lia. Qed.
Lemma proto_bytes n r : from_proto n = Some r -> Forall name_byte n /\ n <> [].
Proof.
  unfold from_proto. destruct (well_formed n && negb (is_reserved n)) eqn:W; [|discriminate]. intros _. apply andb_true_iff in W. destruct W as [W _]. unfold well_formed in W. destruct n as [|c t]; [discriminate|]. split; [|discriminate].
  apply andb_true_iff in W. destruct W as [Hc Ht]. constructor.
  - apply continue_byte. unfold id_start in Hc. unfold id_continue. rewrite Hc. reflexivity.
  - rewrite forallb_forall in Ht. apply Forall_forall. intros x Hx. apply continue_byte. apply Ht. exact Hx.
Qed.
Lemma cpp_bytes n : cpp_ok n = true -> Forall name_byte n.
Proof. unfold cpp_ok. destruct (from_proto n) eqn:F; [|discriminate]. intros _. exact (proj1 (proto_bytes n b F)). Qed.
Lemma split_bytes n : forall l, all_some (map from_proto (split 46 n)) = Some l -> Forall name_byte n.
Proof.
  assert (K : forall w ws l, all_some (map from_proto (w :: ws)) = Some l -> Forall name_byte w /\ exists l', all_some (map from_proto ws) = Some l').
  { intros w ws l H. cbn [map all_some] in H. destruct (from_proto w) eqn:F; [|discriminate]. destruct (all_some (map from_proto ws)) eqn:A; [|discriminate]. split; [exact (proj1 (proto_bytes _ _ F))|eauto]. }
  cut (forall w ws, split 46 n = w :: ws -> Forall name_byte w -> (exists l, all_some (map from_proto ws) = Some l) -> Forall name_byte n).
  { intros C l H. destruct (split 46 n) as [|w ws] eqn:S; [destruct n as [|c t]; cbn in S; [discriminate|destruct (c =? 46); [discriminate|destruct (split 46 t); discriminate]]|]. destruct (K _ _ _ H) as [H1 H2]. exact (C w ws eq_refl H1 H2). }
  induction n as [|c t IH]; intros w ws S Hw (l & Hl); [constructor|]. cbn [split] in S. destruct (c =? 46) eqn:E.
  - apply Z.eqb_eq in E. subst c. injection S as <- <-. constructor; [unfold name_byte; lia|].
    destruct (split 46 t) as [|w' ws'] eqn:S'; [destruct t as [|c t]; cbn in S'; [discriminate|destruct (c =? 46); [discriminate|destruct (split 46 t); discriminate]]|]. destruct (K _ _ _ Hl) as [H1 H2]. exact (IH w' ws' eq_refl H1 H2).
  - destruct (split 46 t) as [|w' ws'] eqn:S'; [destruct t as [|c' t]; cbn in S'; [discriminate|destruct (c' =? 46); [discriminate|destruct (split 46 t); discriminate]]|]. injection S as <- <-. inversion Hw; subst. constructor; [assumption|]. apply (IH w' ws' eq_refl); eauto.
Qed.
Lemma package_bytes prefix p q : qualified_from_proto prefix (txt "." ++ p) = Some q -> Forall name_byte p.
Proof.
  unfold qualified_from_proto. change (txt "." ++ p) with (46 :: p). destruct (same (46 :: p) [46]) eqn:S; [apply same_iff in S; injection S as ->; intros _; constructor|].
  cbn [starts tl]. rewrite Z.eqb_refl. cbn [andb]. cbv iota. destruct (from_dotted p) as [x|] eqn:F; [|discriminate]. intros _. unfold from_dotted in F. destruct p; [constructor|]. destruct (all_some _) eqn:A; [|discriminate]. exact (split_bytes _ _ A).
Qed.
Lemma to_nul_id l : Forall name_byte l -> to_nul l = l.
Proof. induction 1 as [|c t [H _] _ IH]; [reflexivity|]. cbn [to_nul]. destruct (Z.eqb_spec c 0); [lia|]. rewrite IH. reflexivity. Qed.
Lemma full_is package name : proto_service_name package name = full_name package name.
Proof. unfold proto_service_name, full_name. destruct package; reflexivity. Qed.
Lemma full_bytes package name : Forall name_byte package -> Forall name_byte name -> Forall name_byte (full_name package name).
Proof. intros Hp Hn. unfold full_name. destruct (same package []); [exact Hn|]. apply Forall_app. split; [exact Hp|]. apply Forall_app. split; [constructor; [unfold name_byte; lia|constructor]|exact Hn]. Qed.
Lemma path_split a : forall b a' b', Forall name_byte a -> Forall name_byte a' -> a ++ 47 :: b = a' ++ 47 :: b' -> a = a' /\ b = b'.
Proof.
  induction a as [|c t IH]; intros b a' b' Ha Ha' H.
  - destruct a' as [|c' t']; cbn in H; [injection H as ->; auto|]. injection H as <- _. inversion Ha' as [|? ? [_ X] _]; subst. congruence.
  - destruct a' as [|c' t']; cbn in H; [injection H as -> _; inversion Ha as [|? ? [_ X] _]; subst; congruence|]. injection H as <- H. inversion Ha; subst. inversion Ha'; subst. destruct (IH b t' b' ltac:(assumption) ltac:(assumption) H) as [-> ->]. auto.
Qed.

(** ** Methods *)
Lemma resolved_spec msgs n q : resolved msgs n = Some q -> exists full, In (full, q) msgs /\ refers n full.
Proof.
  unfold resolved. destruct (find _ msgs) as [[full c]|] eqn:F; [|discriminate]. intros H. injection H as <-. apply find_some in F. destruct F as [F1 F2]. cbn [fst] in F2. apply same_iff in F2. exists full. split; [exact F1|]. subst full.
  destruct n as [|c0 t]; [right; split; [reflexivity|discriminate]|]. cbn [starts tl]. destruct (46 =? c0) eqn:E; cbn [andb].
  - apply Z.eqb_eq in E. subst c0. left. reflexivity.
  - right. split; [reflexivity|]. intros t' X. injection X as -> _. discriminate.
Qed.
Lemma gen_methods_nth msgs sv l : forall k gs, gen_methods msgs sv k l = Some gs -> length gs = length l /\ map g_id gs = map (fun m => cpp (mt_name m)) l /\
  forall i m, nth_error l i = Some m -> exists g, nth_error gs i = Some g /\ g_id g = cpp (mt_name m) /\ g_literal g = string_literal ([47] ++ sv ++ [47] ++ mt_name m) /\ g_client g = mt_client m /\ g_server g = mt_server m /\
    g_kind g = rpc_type (mt_client m) (mt_server m) /\ g_ordinal g = (k + i)%nat /\ resolved msgs (mt_in m) = Some (g_request g) /\ resolved msgs (mt_out m) = Some (g_response g).
Proof.
  induction l as [|m t IH]; intros k gs H; cbn [gen_methods] in H; [injection H as <-; split; [reflexivity|split; [reflexivity|intros [|i] m X; discriminate]]|].
  destruct (resolved msgs (mt_in m)) as [q|] eqn:Q; [|discriminate]. destruct (resolved msgs (mt_out m)) as [r|] eqn:R; [|discriminate]. destruct (gen_methods msgs sv (S k) t) as [gt|] eqn:G; [|discriminate]. injection H as <-.
  destruct (IH _ _ G) as (L & I' & K). split; [cbn; congruence|]. split; [cbn; congruence|]. intros [|i] m' X; cbn [nth_error] in X |- *.
  - injection X as <-. eexists. split; [reflexivity|]. cbn. rewrite Nat.add_0_r. do 4 (split; [reflexivity|]). split; [destruct (mt_server m), (mt_client m); reflexivity|]. auto.
  - destruct (K i m' X) as (g & Hg). exists g. rewrite <- Nat.add_succ_comm. exact Hg.
Qed.
Lemma set_slot_len x a : forall i, length (set_slot i x a) = length a.
Proof. induction a as [|y t IH]; intros [|i]; cbn; congruence. Qed.
Lemma set_slot_nth x a : forall i j, nth_error (set_slot i x a) j = if (i =? j)%nat then (if (j <? length a)%nat then Some x else None) else nth_error a j.
Proof.
  induction a as [|y t IH]; intros [|i] [|j]; cbn; try reflexivity; try (destruct (i =? j)%nat; reflexivity). rewrite IH. reflexivity.
Qed.
Lemma set_methods_spec l : forall a, (forall g, In g l -> (g_ordinal g < length a)%nat) -> NoDup (map g_ordinal l) ->
  exists a', set_methods l a = Ok a' /\ length a' = length a /\ (forall g, In g l -> nth_error a' (g_ordinal g) = Some (method_name g, g_kind g)) /\ (forall j, ~ In j (map g_ordinal l) -> nth_error a' j = nth_error a j).
Proof.
  induction l as [|g t IH]; intros a Hl Hn; [exists a; cbn; split; [reflexivity|split; [reflexivity|split; [intros g []|auto]]]|].
  cbn [map] in Hn. inversion Hn as [|? ? Hg Ht]; subst. cbn [set_methods]. replace (g_ordinal g <? length a)%nat with true by (symmetry; apply Nat.ltb_lt; apply Hl; left; reflexivity).
  destruct (IH (set_slot (g_ordinal g) (method_name g, g_kind g) a)) as (a' & H1 & H2 & H3 & H4); [intros g' Hi; rewrite set_slot_len; apply Hl; right; exact Hi|exact Ht|].
  exists a'. split; [exact H1|]. split; [rewrite H2; apply set_slot_len|]. split.
  - intros g' [->|Hi]; [|exact (H3 g' Hi)]. rewrite (H4 _ Hg), set_slot_nth, Nat.eqb_refl. replace (g_ordinal g' <? length a)%nat with true by (symmetry; apply Nat.ltb_lt; apply Hl; left; reflexivity). reflexivity.
  - intros j Hj. cbn [map In] in Hj. rewrite H4 by tauto. rewrite set_slot_nth. destruct (Nat.eqb_spec (g_ordinal g) j); [tauto|reflexivity].
Qed.

Lemma gen_service_parts msgs package s gsv : gen_service msgs package s = Some gsv ->
  gs_name gsv = cpp (sv_name s) /\ Forall name_byte (sv_name s) /\ Forall (fun m => Forall name_byte (mt_name m)) (sv_methods s) /\ NoDup (map (fun m => cpp (mt_name m)) (sv_methods s)) /\ gen_methods msgs (full_name package (sv_name s)) 0 (sv_methods s) = Some (gs_methods gsv).
Proof.
  unfold gen_service. destruct (service_ok _) eqn:O; [|discriminate]. rewrite full_is. destruct (gen_methods _ _ _ _) as [gs|] eqn:G; [|discriminate]. intros H. injection H as <-. cbn [gs_name gs_methods]. split; [reflexivity|].
  unfold service_ok in O. cbn [ns_name ns_methods] in O. rewrite !andb_true_iff in O. destruct O as (((O1 & _) & O2) & O3). split; [exact (cpp_bytes _ O1)|]. split.
  - apply Forall_forall. intros m Hm. rewrite forallb_forall in O2. specialize (O2 (mt_name m) (in_map mt_name _ _ Hm)). apply andb_true_iff in O2. exact (cpp_bytes _ (proj1 O2)).
  - split; [|reflexivity]. apply inserted_nodup in O3. rewrite map_map in O3. exact O3.
Qed.
Lemma ordinals gs : (forall i g, nth_error gs i = Some g -> g_ordinal g = i) -> map g_ordinal gs = seq 0 (length gs).
Proof.
  cut (forall k, (forall i g, nth_error gs i = Some g -> g_ordinal g = (k + i)%nat) -> map g_ordinal gs = seq k (length gs)); [intros C H; exact (C 0%nat H)|].
  induction gs as [|g t IH]; intros k H; [reflexivity|]. cbn. rewrite (H 0%nat g eq_refl), Nat.add_0_r. f_equal. apply IH. intros i g' Hi. rewrite (H (S i) g' Hi). lia.
Qed.
Lemma bytes_nul l : Forall name_byte l -> Forall (fun c => 0 < c < 256) l.
Proof. apply Forall_impl. intros c [H _]. exact H. Qed.
Lemma to_nul_all l : Forall (fun c => 0 < c < 256) l -> to_nul l = l.
Proof. induction 1 as [|c t H _ IH]; [reflexivity|]. cbn [to_nul]. destruct (Z.eqb_spec c 0); [lia|]. rewrite IH. reflexivity. Qed.
Lemma literal_name l g : Forall (fun c => 0 < c < 256) l -> g_literal g = string_literal l -> method_name g = Some l.
Proof.
  intros H E. unfold method_name. rewrite E. rewrite <- (app_nil_r (string_literal l)). rewrite literal_denotes.
  - rewrite to_nul_all by exact H. reflexivity.
  - unfold all_bytes. eapply Forall_impl; [|exact H]. intros c Hc. unfold is_byte. cbv beta in Hc. lia.
Qed.
Lemma path_bytes package s m : Forall name_byte package -> Forall name_byte (sv_name s) -> Forall name_byte (mt_name m) -> Forall (fun c => 0 < c < 256) (path_of package s m).
Proof.
  intros Hp Hs Hm. unfold path_of. apply Forall_app. split; [constructor; [lia|constructor]|]. apply Forall_app. split; [apply bytes_nul, full_bytes; assumption|]. apply Forall_app. split; [constructor; [lia|constructor]|apply bytes_nul; exact Hm].
Qed.
Lemma forall2_nth {A B} (R : A -> B -> Prop) l : forall l', length l' = length l -> (forall i x, nth_error l i = Some x -> exists y, nth_error l' i = Some y /\ R x y) -> Forall2 R l l'.
Proof.
  induction l as [|x t IH]; intros [|y t'] L H; cbn in L; try discriminate; [constructor|]. constructor.
  - destruct (H 0%nat x eq_refl) as (y' & E & K). injection E as <-. exact K.
  - apply IH; [congruence|]. intros i x' Hi. exact (H (S i) x' Hi).
Qed.
Lemma nodup_factor {A B C} (f : A -> B) (g : A -> C) l : (forall x y, f x = f y -> g x = g y) -> NoDup (map g l) -> NoDup (map f l).
Proof.
  intros K. induction l as [|x t IH]; intros H; [constructor|]. cbn [map] in *. inversion H as [|? ? H1 H2]; subst. constructor; [|exact (IH H2)].
  intros Hx. apply H1. apply in_map_iff in Hx. destruct Hx as (y & E & Hy). rewrite <- (K y x E). apply in_map. exact Hy.
Qed.

Lemma same_service_holds msgs package s x : Forall name_byte package -> gen_service msgs package s = Some x -> same_service msgs package s x.
Proof.
  intros Hp H. destruct (gen_service_parts _ _ _ _ H) as (_ & Hs & Hm & Hd & G). destruct (gen_methods_nth _ _ _ _ _ G) as (L & Hi & K).
  split; [|rewrite Hi; exact Hd].
  assert (O : map g_ordinal (gs_methods x) = seq 0 (length (gs_methods x))).
  { apply ordinals. intros i g Hg. destruct (nth_error (sv_methods s) i) as [m|] eqn:E.
    - destruct (K i m E) as (g' & E' & _ & _ & _ & _ & _ & X & _). rewrite Hg in E'. injection E' as <-. exact X.
    - apply nth_error_None in E. assert (i < length (gs_methods x))%nat by (apply nth_error_Some; congruence). lia. }
  destruct (set_methods_spec (gs_methods x) (repeat (None, 0) (length (gs_methods x)))) as (a & Ha & _ & Hset & _).
  { intros g Hg. rewrite repeat_length. apply (in_map g_ordinal) in Hg. rewrite O in Hg. apply in_seq in Hg. lia. }
  { rewrite O. apply seq_NoDup. }
  apply forall2_nth; [exact L|]. intros i m E. destruct (K i m E) as (g & Eg & Eid & El & Ec & Es & Ek & Eo & Eq & Er). exists g. split; [exact Eg|].
  assert (N : method_name g = Some (path_of package s m)).
  { apply literal_name; [|exact El]. apply path_bytes; [exact Hp|exact Hs|]. rewrite Forall_forall in Hm. apply Hm. eapply nth_error_In; exact E. }
  constructor.
  - unfold grpc_method. rewrite Eo. cbn [Nat.add]. rewrite Eg. replace (same (g_id g) (g_id g)) with true by (symmetry; apply same_iff; reflexivity). unfold new_stub. rewrite Ha. cbn [bind].
    specialize (Hset g (nth_error_In _ _ Eg)). rewrite Eo in Hset. cbn [Nat.add] in Hset. rewrite Hset, N, Ek. reflexivity.
  - rewrite N, Ek. reflexivity.
  - auto.
  - exact (resolved_spec _ _ _ Eq).
  - exact (resolved_spec _ _ _ Er).
Qed.
Lemma with_is l : with_methods l = filter has_methods l.
Proof. unfold with_methods. apply filter_ext. intros s. unfold has_methods. destruct (sv_methods s); reflexivity. Qed.
Lemma all_some_nth {A B} (f : A -> option B) l : forall r, all_some (map f l) = Some r -> Forall2 (fun x y => f x = Some y) l r.
Proof. induction l as [|x t IH]; intros r H; cbn [map all_some] in H; [injection H as <-; constructor|]. destruct (f x) eqn:F; [|discriminate]. destruct (all_some (map f t)) eqn:A'; [|discriminate]. injection H as <-. constructor; [exact F|apply IH; reflexivity]. Qed.
Lemma gen_file_parts msgs prefix f gs : gen_file msgs prefix f = Some gs -> Forall name_byte (sf_package f) /\ Forall2 (fun s x => gen_service msgs (sf_package f) s = Some x) (filter has_methods (sf_services f)) gs.
Proof.
  unfold gen_file. destruct (qualified_from_proto _ _) eqn:Q; [|discriminate]. intros H. split; [exact (package_bytes _ _ _ Q)|]. rewrite with_is in H. exact (all_some_nth _ _ _ H).
Qed.
Lemma file_same msgs prefix f gs : gen_file msgs prefix f = Some gs -> Forall2 (same_service msgs (sf_package f)) (filter has_methods (sf_services f)) gs.
Proof. intros H. destruct (gen_file_parts _ _ _ _ H) as [Hp K]. clear H. induction K as [|s x l l' K1 _ IH]; [constructor|]. constructor; [exact (same_service_holds _ _ _ _ Hp K1)|exact IH]. Qed.

(** ** Paths *)
Lemma cpp_nodot n : cpp_ok n = true -> ~ In 46 n.
Proof.
  unfold cpp_ok, from_proto. destruct (well_formed n && negb (is_reserved n)) eqn:W; [|discriminate]. intros _ Hi. apply andb_true_iff in W. destruct W as [W _]. unfold well_formed in W. destruct n as [|c t]; [discriminate|]. apply andb_true_iff in W. destruct W as [Hc Ht]. destruct Hi as [->|Hi]; [discriminate|].
  rewrite forallb_forall in Ht. specialize (Ht 46 Hi). discriminate.
Qed.
Lemma last_dot a : forall b a' b', ~ In 46 b -> ~ In 46 b' -> a ++ 46 :: b = a' ++ 46 :: b' -> a = a' /\ b = b'.
Proof.
  induction a as [|c t IH]; intros b [|c' t'] b' Hb Hb' H; cbn in H.
  - injection H as ->. auto.
  - injection H as <- H. exfalso. apply Hb. rewrite H. apply in_or_app. right. left. reflexivity.
  - injection H as -> H. exfalso. apply Hb'. rewrite <- H. apply in_or_app. right. left. reflexivity.
  - injection H as <- H. destruct (IH b t' b' Hb Hb' H) as [-> ->]. auto.
Qed.
Lemma full_inj p n p' n' : ~ In 46 n -> ~ In 46 n' -> full_name p n = full_name p' n' -> p = p' /\ n = n'.
Proof.
  intros Hn Hn' H. unfold full_name in H. destruct (same p []) eqn:E, (same p' []) eqn:E'; try apply same_iff in E; try apply same_iff in E'; subst.
  - auto.
  - exfalso. apply Hn. apply in_or_app. right. left. reflexivity.
  - exfalso. apply Hn'. apply in_or_app. right. left. reflexivity.
  - exact (last_dot _ _ _ _ Hn Hn' H).
Qed.
Lemma service_nodot msgs package s x : gen_service msgs package s = Some x -> ~ In 46 (sv_name s).
Proof. unfold gen_service. destruct (service_ok _) eqn:O; [|discriminate]. intros _. unfold service_ok in O. cbn [ns_name] in O. rewrite !andb_true_iff in O. apply cpp_nodot. tauto. Qed.
Lemma forall2_at {A B} (R : A -> B -> Prop) l l' : Forall2 R l l' -> forall i x y, nth_error l i = Some x -> nth_error l' i = Some y -> R x y.
Proof. induction 1; intros [|i] a b Ha Hb; cbn in *; try discriminate; [congruence|eauto]. Qed.
Lemma built_parts {H} (d : deployed H) : built d -> exists msgs x, Forall name_byte (sf_package (d_file d)) /\ gen_service msgs (sf_package (d_file d)) (d_service d) = Some x /\ d_methods d = gs_methods x.
Proof. intros (msgs & prefix & gs & i & x & G & E & Ex & Em). destruct (gen_file_parts _ _ _ _ G) as [Hp K]. exists msgs, x. split; [exact Hp|]. split; [exact (forall2_at _ _ _ K _ _ _ E Ex)|exact Em]. Qed.
Lemma paths_inj {H} (d d' : deployed H) m m' : built d -> built d' -> d_path d m = d_path d' m' ->
  sf_package (d_file d) = sf_package (d_file d') /\ sv_name (d_service d) = sv_name (d_service d') /\ mt_name m = mt_name m'.
Proof.
  intros B B' E. destruct (built_parts d B) as (ms & x & Hp & G & _). destruct (built_parts d' B') as (ms' & x' & Hp' & G' & _).
  destruct (gen_service_parts _ _ _ _ G) as (_ & Hs & _). destruct (gen_service_parts _ _ _ _ G') as (_ & Hs' & _).
  unfold d_path, path_of in E. injection E as E. apply path_split in E; [|apply full_bytes; assumption|apply full_bytes; assumption]. destruct E as [E Em].
  apply full_inj in E; [|exact (service_nodot _ _ _ _ G)|exact (service_nodot _ _ _ _ G')]. tauto.
Qed.

(** ** The server *)
Lemma some_inj {A} (x y : A) : Some x = Some y -> x = y.
Proof. congruence. Qed.
Lemma found_app {H} p (a b : list (slot * H)) : found_by p (a ++ b) = found_by p a ++ found_by p b.
Proof. unfold found_by. rewrite filter_app, map_app. reflexivity. Qed.
Lemma found_none {H} p (h : gmethod -> option H) gs : (forall g, In g gs -> method_name g <> Some p) -> found_by p (register h gs) = [].
Proof.
  induction gs as [|g t IH]; intros K; [reflexivity|]. unfold register. cbn [flat_map]. fold (register h t). rewrite found_app, IH by (intros g' Hg; apply K; right; exact Hg). rewrite app_nil_r.
  destruct (h g) as [f|]; [|reflexivity]. unfold found_by. cbn [filter fst]. destruct (method_name g) as [q|] eqn:E; [|reflexivity]. destruct (same q p) eqn:S; [|reflexivity]. apply same_iff in S. subst q. destruct (K g (or_introl eq_refl) E).
Qed.
Lemma found_one {H} p (h : gmethod -> option H) g gs : NoDup (map method_name gs) -> In g gs -> method_name g = Some p -> found_by p (register h gs) = match h g with Some f => [(g_kind g, f)] | None => [] end.
Proof.
  induction gs as [|g' t IH]; intros N Hi E; [destruct Hi|]. cbn [map] in N. inversion N as [|? ? N1 N2]; subst. unfold register. cbn [flat_map]. fold (register h t). rewrite found_app. destruct Hi as [->|Hi].
  - rewrite (found_none p h t), app_nil_r.
    + destruct (h g) as [f|]; [|reflexivity]. unfold found_by. cbn [filter fst]. rewrite E. replace (same p p) with true by (symmetry; apply same_iff; reflexivity). reflexivity.
    + intros g' Hg X. apply N1. rewrite E, <- X. apply in_map. exact Hg.
  - rewrite (IH N2 Hi E). assert (X : method_name g' <> Some p) by (intros X; apply N1; rewrite X, <- E; apply in_map; exact Hi).
    destruct (h g') as [f|]; [|reflexivity]. unfold found_by. cbn [filter fst]. destruct (method_name g') as [q|]; [|reflexivity]. destruct (same q p) eqn:S; [|reflexivity]. apply same_iff in S. congruence.
Qed.
Lemma built_names {H} (d : deployed H) : built d -> map method_name (d_methods d) = map (fun m => Some (d_path d m)) (sv_methods (d_service d)) /\ NoDup (map method_name (d_methods d)).
Proof.
  intros B. destruct (built_parts d B) as (ms & x & Hp & G & E). destruct (same_service_holds _ _ _ _ Hp G) as [K _].
  assert (M : map method_name (d_methods d) = map (fun m => Some (d_path d m)) (sv_methods (d_service d))).
  { rewrite E. clear -K. revert K. generalize (same_method ms (sf_package (d_file d)) (d_service d) (gs_methods x)) (sm_registered ms (sf_package (d_file d)) (d_service d) (gs_methods x)). intros R HR. induction 1 as [|m g l l' K1 _ IH]; [reflexivity|]. cbn [map]. rewrite IH. specialize (HR m g K1). apply (f_equal fst) in HR. cbn [fst] in HR. rewrite HR. reflexivity. }
  split; [exact M|]. rewrite M. destruct (gen_service_parts _ _ _ _ G) as (_ & _ & _ & Hd & _). refine (nodup_factor _ _ _ _ Hd). intros m m' X. apply some_inj in X. destruct (paths_inj d d m m' B B X) as (_ & _ & ->). reflexivity.
Qed.
Definition d_key {H} (d : deployed H) := (sf_package (d_file d), sv_name (d_service d)).
Lemma reached {H} (ds : list (deployed H)) : Forall built ds -> NoDup (map (fun d => (sf_package (d_file d), sv_name (d_service d))) ds) ->
  forall d i m g, In d ds -> nth_error (sv_methods (d_service d)) i = Some m -> nth_error (d_methods d) i = Some g ->
  found_by (d_path d m) (registry ds) = match d_handle d g with Some h => [(rpc_type (mt_client m) (mt_server m), h)] | None => [] end.
Proof.
  intros B N d i m g Hd Em Eg. assert (Bd : built d) by (rewrite Forall_forall in B; exact (B d Hd)).
  assert (R : method_name g = Some (d_path d m) /\ g_kind g = rpc_type (mt_client m) (mt_server m)).
  { destruct (built_parts d Bd) as (ms & x & Hp & G & E). destruct (same_service_holds _ _ _ _ Hp G) as [K _]. rewrite E in Eg. pose proof (sm_registered _ _ _ _ _ _ (forall2_at _ _ _ K _ _ _ Em Eg)) as X. split; [exact (f_equal fst X)|exact (f_equal snd X)]. }
  destruct R as [R1 R2]. rewrite <- R2.
  assert (Nowhere : forall l : list (deployed H), Forall built l -> ~ In (d_key d) (map d_key l) -> found_by (d_path d m) (registry l) = []).
  { induction l as [|d' l IH]; intros Bl Hn; [reflexivity|]. inversion Bl; subst. cbn [map In] in Hn. unfold registry. cbn [flat_map]. fold (registry l). rewrite found_app, IH by tauto. rewrite app_nil_r. apply found_none.
    intros g' Hg' X. apply (in_map method_name) in Hg'. rewrite (proj1 (built_names d' ltac:(assumption))), X in Hg'. apply in_map_iff in Hg'. destruct Hg' as (m' & X' & _). apply some_inj in X'. destruct (paths_inj d' d m' m ltac:(assumption) Bd X') as (Y1 & Y2 & _). apply Hn. left. unfold d_key. congruence. }
  induction ds as [|d' l IH]; [destruct Hd|]. inversion B; subst. cbn [map] in N. inversion N as [|? ? N1 N2]; subst. unfold registry. cbn [flat_map]. fold (registry l). rewrite found_app. destruct Hd as [->|Hd].
  - rewrite Nowhere, app_nil_r by assumption. apply found_one; [exact (proj2 (built_names d Bd))|exact (nth_error_In _ _ Eg)|exact R1].
  - rewrite IH by assumption. rewrite found_none; [reflexivity|]. intros g' Hg' X. apply (in_map method_name) in Hg'. rewrite (proj1 (built_names d' ltac:(assumption))), X in Hg'. apply in_map_iff in Hg'. destruct Hg' as (m' & X' & _). apply some_inj in X'. destruct (paths_inj d' d m' m ltac:(assumption) Bd X') as (Y1 & Y2 & _). apply N1. rewrite Y1, Y2. apply (in_map (fun d => (sf_package (d_file d), sv_name (d_service d)))). exact Hd.
Qed.
Lemma unreached {H} (ds : list (deployed H)) p : Forall built ds -> (forall d m, In d ds -> In m (sv_methods (d_service d)) -> d_path d m <> p) -> found_by p (registry ds) = [].
Proof.
  induction ds as [|d l IH]; intros B K; [reflexivity|]. inversion B; subst. unfold registry. cbn [flat_map]. fold (registry l). rewrite found_app, IH; [|assumption|intros d' m Hd; apply K; right; exact Hd]. rewrite app_nil_r. apply found_none. intros g Hg X. apply (in_map method_name) in Hg. rewrite (proj1 (built_names d ltac:(assumption))), X in Hg. apply in_map_iff in Hg. destruct Hg as (m & X' & Hm). apply some_inj in X'. exact (K d m (or_introl eq_refl) Hm X').
Qed.
Lemma refused msgs prefix f s m : In s (sf_services f) -> In m (sv_methods s) -> (forall full q, In (full, q) msgs -> ~ refers (mt_in m) full) \/ (forall full q, In (full, q) msgs -> ~ refers (mt_out m) full) -> gen_file msgs prefix f = None.
Proof.
  intros Hs Hm K. destruct (gen_file msgs prefix f) as [gs|] eqn:G; [|reflexivity]. exfalso. destruct (gen_file_parts _ _ _ _ G) as [_ F].
  assert (Hf : In s (filter has_methods (sf_services f))) by (apply filter_In; split; [exact Hs|unfold has_methods; destruct (sv_methods s); [destruct Hm|reflexivity]]).
  assert (X : exists x, gen_service msgs (sf_package f) s = Some x) by (clear -F Hf; induction F; [destruct Hf|destruct Hf as [->|Hf]; [eauto|exact (IHF Hf)]]). destruct X as [x X].
  destruct (gen_service_parts _ _ _ _ X) as (_ & _ & _ & _ & M). destruct (gen_methods_nth _ _ _ _ _ M) as (_ & _ & N). apply In_nth_error in Hm. destruct Hm as [i Hi]. destruct (N i m Hi) as (g & _ & _ & _ & _ & _ & _ & _ & Q & R).
  apply resolved_spec in Q. apply resolved_spec in R. destruct Q as (f1 & Q1 & Q2), R as (f2 & R1 & R2). destruct K as [K|K]; [exact (K _ _ Q1 Q2)|exact (K _ _ R1 R2)].
Qed.
