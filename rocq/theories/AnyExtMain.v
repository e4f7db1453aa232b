(** Facts about Any messages and extensions. *)
From Coq Require Import Sorted String.
Require Import Verif.Bits Verif.Varint Verif.VarintSpec Verif.VarintProofs Verif.VarintFacts Verif.VarintMain.
Require Import Verif.Schema Verif.Archive Verif.Decode Verif.DecodeSafe Verif.Wire Verif.WireFacts Verif.WireGrammar Verif.GrammarFacts Verif.DecodeSpec1 Verif.DecodeSpec4.
Require Import Verif.DecodeLaws Verif.DecodeLaws2 Verif.FieldSpec Verif.DecodeOcc Verif.WellTyped Verif.DecodeTerms Verif.DecodeMain Verif.DecodeWt Verif.StoredTags Verif.DecodeMain3 Verif.Encode Verif.EncodeSpec Verif.EncodeProofs Verif.EncodeProofs2.
Require Import Verif.RoundTrip Verif.RoundTrip2 Verif.EncodeMain Verif.Reencode Verif.Presence Verif.Merge Verif.MergeRun Verif.AnyExt.
Local Open Scope list_scope.

(** ** Type urls *)
(** The name of a message type: neither a slash nor a NUL. *)
Definition plain_name (n : bytes) : Prop := Forall (fun c => c <> slash /\ c <> 0) n.

Lemma c_string_plain n : plain_name n -> c_string n = n.
Proof. induction 1 as [|c n [_ H] Hn IH]; [reflexivity|]. cbn [c_string]. rewrite (proj2 (Z.eqb_neq c 0) H), IH. reflexivity. Qed.

Lemma message_name_plain n : plain_name n -> message_name n = n.
Proof. intros H. unfold message_name, message_type_url. change (skipn 20 (chars "type.googleapis.com/" ++ n)) with n. apply c_string_plain. exact H. Qed.

Lemma rfind_none c l : rfind c l = None <-> ~ In c l.
Proof.
  induction l as [|x l IH]; cbn [rfind In]; [tauto|]. destruct (rfind c l) as [i|].
  - split; [discriminate|]. intros H. exfalso. assert (Hn : Some i <> None) by discriminate. apply Hn. apply IH. intros K. apply H. right; exact K.
  - destruct (Z.eqb_spec x c); [split; [discriminate|intros H; exfalso; auto]|]. split; [|reflexivity]. intros _ [K|K]; [auto|]. apply IH; auto.
Qed.

Lemma rfind_some c l i : rfind c l = Some i -> l = firstn i l ++ c :: skipn (i + 1) l /\ ~ In c (skipn (i + 1) l).
Proof.
  revert i. induction l as [|x l IH]; intros i; cbn [rfind]; [discriminate|]. destruct (rfind c l) as [j|] eqn:Hj.
  - intros [= <-]. destruct (IH j eq_refl) as [H1 H2]. cbn [firstn Nat.add skipn app]. split; [f_equal; exact H1|exact H2].
  - destruct (Z.eqb_spec x c); [|discriminate]. intros [= <-]. cbn [firstn Nat.add skipn app]. split; [congruence|]. apply rfind_none. exact Hj.
Qed.

Lemma last_slash (p q n m : bytes) : ~ In slash n -> ~ In slash m -> p ++ slash :: n = q ++ slash :: m -> n = m.
Proof.
  revert q. induction p as [|x p IH]; intros [|y q] Hn Hm H; cbn [app] in H.
  - injection H as H. exact H.
  - exfalso. apply Hn. injection H as _ H. rewrite H. apply in_or_app. right; left; reflexivity.
  - exfalso. apply Hm. injection H as _ H. rewrite <- H. apply in_or_app. right; left; reflexivity.
  - injection H as _ H. eapply IH; eauto.
Qed.

Lemma plain_no_slash n : plain_name n -> ~ In slash n.
Proof. intros H K. unfold plain_name in H. rewrite Forall_forall in H. destruct (H _ K) as [A _]. apply A. reflexivity. Qed.

Section Any.
  Variable E : env.
  Variable utf8_ok : bytes -> bool.

  Lemma unpack_named limit name ty p value : plain_name name ->
    unpack_any E utf8_ok limit name ty (Any (p ++ slash :: name) value) = Unpacked (decode_bytes E utf8_ok limit ty (default_msg E ty) value).
  Proof.
    intros Hn. unfold unpack_any. cbn [type_url any_value]. rewrite (message_name_plain name Hn).
    destruct (rfind slash (p ++ slash :: name)) as [i|] eqn:Hi.
    - apply rfind_some in Hi. destruct Hi as [H1 H2]. destruct (list_eq_dec _ _ _) as [_|K]; [reflexivity|]. exfalso. apply K.
      symmetry. eapply last_slash; [apply plain_no_slash; exact Hn|exact H2|exact H1].
    - exfalso. apply rfind_none in Hi. apply Hi. apply in_or_app. right; left; reflexivity.
  Qed.

  Lemma unpack_accepts limit name ty a r : plain_name name -> unpack_any E utf8_ok limit name ty a = Unpacked r ->
    exists p, type_url a = p ++ slash :: name.
  Proof.
    intros Hn. unfold unpack_any. rewrite (message_name_plain name Hn). destruct (rfind slash (type_url a)) as [i|] eqn:Hi; [|discriminate].
    destruct (list_eq_dec _ _ _) as [K|_]; [|discriminate]. intros _. apply rfind_some in Hi. destruct Hi as [H1 _]. rewrite K in H1. eauto.
  Qed.

  Lemma unpack_iff limit name ty a : plain_name name ->
    ((exists p, type_url a = p ++ slash :: name) ->
       unpack_any E utf8_ok limit name ty a = Unpacked (decode_bytes E utf8_ok limit ty (default_msg E ty) (any_value a))) /\
    ((forall p, type_url a <> p ++ slash :: name) -> unpack_any E utf8_ok limit name ty a = InvalidArgument).
  Proof.
    intros Hn. split.
    - intros [p Hp]. destruct a as [u b]. cbn [type_url any_value] in *. subst u. apply unpack_named. exact Hn.
    - intros H. destruct (unpack_any E utf8_ok limit name ty a) as [|r] eqn:K; [reflexivity|]. exfalso.
      apply (unpack_accepts _ _ _ _ _ Hn) in K. destruct K as [p Hp]. exact (H p Hp).
  Qed.

  Lemma packed_url maxd name ty v a : pack_any E utf8_ok maxd name ty v = Ok a -> type_url a = chars "type.googleapis.com" ++ slash :: name /\
    encode_bytes E utf8_ok maxd ty v = Ok (any_value a).
  Proof. unfold pack_any. destruct (encode_bytes E utf8_ok maxd ty v); cbn [bind]; try discriminate. intros [= <-]. split; reflexivity. Qed.

  Lemma pack_unpack maxd limit name ty v a : generated E -> m_entry (desc_of E ty) = false -> maxd <= limit -> plain_name name ->
    wt_msg E utf8_ok ty v -> canonical E limit 1 ty v -> pack_any E utf8_ok maxd name ty v = Ok a ->
    unpack_any E utf8_ok limit name ty a = Unpacked (Ok v).
  Proof.
    intros G He Hm Hn Hw Hc H. destruct (packed_url _ _ _ _ _ H) as [H1 H2]. destruct a as [u b]. cbn [type_url any_value] in *. subst u.
    rewrite unpack_named by exact Hn. f_equal. eapply round_trip; eauto.
  Qed.

  Lemma unpack_other maxd limit name name' ty ty' v a : plain_name name -> plain_name name' -> name <> name' ->
    pack_any E utf8_ok maxd name ty v = Ok a -> unpack_any E utf8_ok limit name' ty' a = InvalidArgument.
  Proof.
    intros Hn Hn' Hne H. destruct (packed_url _ _ _ _ _ H) as [H1 _]. apply unpack_iff; [exact Hn'|]. intros p K. apply Hne.
    rewrite H1 in K. eapply last_slash; [apply plain_no_slash; exact Hn|apply plain_no_slash; exact Hn'|exact K].
  Qed.
End Any.

(** ** Stores *)
Lemma umap_find_set n b l : umap_find n (umap_set n b l) = Some b.
Proof.
  induction l as [|[m c] l IH]; cbn [umap_set umap_find]; [rewrite Z.eqb_refl; reflexivity|].
  destruct (Z.eqb_spec m n); cbn [umap_find]; [subst; rewrite Z.eqb_refl; reflexivity|].
  destruct (n <? m); cbn [umap_find]; [rewrite Z.eqb_refl; reflexivity|]. destruct (Z.eqb_spec m n); [contradiction|exact IH].
Qed.

Lemma umap_find_set_other n m b l : m <> n -> umap_find m (umap_set n b l) = umap_find m l.
Proof.
  intros Hne. induction l as [|[k c] l IH]; cbn [umap_set umap_find]; [destruct (Z.eqb_spec n m); [congruence|reflexivity]|].
  destruct (Z.eqb_spec k n); cbn [umap_find]; [subst; destruct (Z.eqb_spec n m); [congruence|reflexivity]|].
  destruct (n <? k); cbn [umap_find]; [destruct (Z.eqb_spec n m); [congruence|reflexivity]|]. rewrite IH. reflexivity.
Qed.

Lemma umap_set_in n b l p : In p (umap_set n b l) -> p = (n, b) \/ In p l.
Proof.
  induction l as [|[m c] l IH]; cbn [umap_set In]; [intros [<-|[]]; auto|].
  destruct (Z.eqb_spec m n) as [->|]; [cbn [In]; intros [<-|H]; auto|].
  destruct (n <? m); cbn [In]; [intros [<-|H]; auto|]. intros [<-|H]; auto. destruct (IH H); auto.
Qed.

Lemma umap_set_sorted n b l : StronglySorted Z.lt (map fst l) -> StronglySorted Z.lt (map fst (umap_set n b l)).
Proof.
  induction l as [|[m c] l IH]; cbn [umap_set map fst]; intros H; [repeat constructor|]. inversion H as [|? ? H1 H2]; subst.
  destruct (Z.eqb_spec m n); cbn [map fst]; [subst; constructor; auto|]. destruct (Z.ltb_spec n m); cbn [map fst].
  - constructor; [exact H|]. constructor; [lia|]. eapply Forall_impl; [|exact H2]. intros a Ha. cbn beta in Ha. lia.
  - constructor; [auto|]. rewrite Forall_forall in *. intros a Ha. apply in_map_iff in Ha. destruct Ha as (p & <- & Hp).
    apply umap_set_in in Hp. destruct Hp as [->|Hp]; cbn [fst]; [lia|]. apply H2. apply in_map. exact Hp.
Qed.

Lemma sorted_nodup (l : list Z) : StronglySorted Z.lt l -> NoDup l.
Proof.
  induction 1 as [|a l H IH H2]; constructor; auto. intros K. rewrite Forall_forall in H2. specialize (H2 _ K). lia.
Qed.

Lemma kept_absent n (l : list (Z * bytes)) : ~ In n (map fst l) -> kept_for n l = [].
Proof.
  unfold kept_for. induction l as [|[m c] l IH]; cbn [map fst In filter]; intros H; [reflexivity|].
  destruct (Z.eqb_spec m n) as [->|]; [exfalso; auto|]. apply IH. auto.
Qed.

Lemma find_kept n (l : list (Z * bytes)) : NoDup (map fst l) -> umap_find n l = if existsb (fun p => fst p =? n) l then Some (kept_for n l) else None.
Proof.
  unfold kept_for. induction l as [|[m c] l IH]; cbn [umap_find existsb map fst filter]; intros H; [reflexivity|]. inversion H as [|? ? H1 H2]; subst.
  destruct (Z.eqb_spec m n) as [->|]; cbn [orb]; [|apply IH; exact H2].
  cbn [map snd concat]. change (concat (map snd (filter (fun p => fst p =? n) l))) with (kept_for n l). rewrite (kept_absent n l H1), app_nil_r. reflexivity.
Qed.

(** ** Extensions *)
(** An extension type: one member, numbered [n]; it keeps no unknown fields. *)
Definition ext_type (E : env) (xt : nat) (n : Z) : Prop := exists e c, desc_of E xt = MDesc [Field n e c] UNone false.

(** The stores that can hold extensions. *)
Definition ext_store (k : ukind) : Prop := k = UMap \/ k = UPairs.

Section Ext.
  Variable E : env.
  Variable utf8_ok : bytes -> bool.

  Lemma ext_num xt n : ext_type E xt n -> ext_number E xt = n.
  Proof. intros (e & c & H). unfold ext_number. rewrite H. reflexivity. Qed.

  Lemma get_pairs_absent limit xt found cur l : ~ In (ext_number E xt) (map fst l) -> get_pairs E utf8_ok limit xt found cur l = Ok cur.
  Proof.
    induction l as [|[m c] l IH]; cbn [get_pairs map fst In]; intros H; [reflexivity|].
    destruct (Z.eqb_spec m (ext_number E xt)); [exfalso; auto|]. apply IH. auto.
  Qed.

  Lemma get_pairs_app limit xt a : forall found cur b, get_pairs E utf8_ok limit xt found cur (a ++ b) =
    (v <- get_pairs E utf8_ok limit xt found cur a ;; get_pairs E utf8_ok limit xt (found || existsb (fun p => fst p =? ext_number E xt) a)%bool v b).
  Proof.
    induction a as [|[m c] a IH]; intros found cur b; cbn [get_pairs app existsb fst]; [cbn [bind]; rewrite orb_false_r; reflexivity|].
    destruct (Z.eqb_spec m (ext_number E xt)); cbn [orb].
    - destruct (decode_bytes _ _ _ _ _ _); cbn [bind]; auto. rewrite IH, orb_true_r. reflexivity.
    - apply IH.
  Qed.

  Lemma exists_in n (l : list (Z * bytes)) : existsb (fun p => fst p =? n) l = true <-> In n (map fst l).
  Proof.
    rewrite existsb_exists, in_map_iff. split; intros (p & H); exists p.
    - destruct H as [H K]. apply Z.eqb_eq in K. auto.
    - destruct H as [H K]. split; [exact K|apply Z.eqb_eq; exact H].
  Qed.
  Lemma not_exists n (l : list (Z * bytes)) : existsb (fun p => fst p =? n) l = false <-> ~ In n (map fst l).
  Proof. rewrite <- exists_in, not_true_iff_false. tauto. Qed.

  (** Stores without duplicates: both representations are read the same way. *)
  Lemma ext_get_kept limit k xt l cur : ext_store k -> NoDup (map fst l) ->
    ext_get E utf8_ok limit k xt l cur =
    if ext_in E k xt l then decode_bytes E utf8_ok limit xt (default_msg E xt) (kept_for (ext_number E xt) l) else Ok cur.
  Proof.
    intros Hk Hn. unfold ext_in. destruct Hk as [->| ->]; cbn [ext_get].
    - rewrite find_kept by exact Hn. destruct (existsb _ l); reflexivity.
    - induction l as [|[m c] l IH]; cbn [get_pairs existsb fst]; [reflexivity|]. cbn [map fst] in Hn. inversion Hn as [|? ? H1 H2]; subst.
      unfold kept_for. cbn [filter fst]. destruct (Z.eqb_spec m (ext_number E xt)) as [->|]; cbn [orb].
      + cbn [map snd concat]. change (concat (map snd (filter (fun p => fst p =? ext_number E xt) l))) with (kept_for (ext_number E xt) l).
        rewrite (kept_absent _ l H1), app_nil_r. clear IH. destruct (decode_bytes E utf8_ok limit xt (default_msg E xt) c); cbn [bind]; auto. apply get_pairs_absent. exact H1.
      + apply IH. exact H2.
  Qed.

  Lemma store_nodup k l : ext_store k -> store_ok k l -> NoDup (map fst l).
  Proof. intros [->| ->] H; cbn in H; [apply sorted_nodup|]; exact H. Qed.

  (** Setting. *)
  Definition set_store (k : ukind) (n : Z) (bs : bytes) (l : list (Z * bytes)) : list (Z * bytes) :=
    match k with UPairs => l ++ [(n, bs)] | _ => umap_set n bs l end.

  Lemma ext_set_cases maxd k xt v l l' : ext_set E utf8_ok maxd k xt v l = Ok l' -> exists bs, encode_bytes E utf8_ok maxd xt v = Ok bs /\
    (bs = [] /\ l' = l \/ bs <> [] /\ l' = set_store k (ext_number E xt) bs l).
  Proof.
    unfold ext_set. destruct (encode_bytes E utf8_ok maxd xt v) as [bs| | | |]; cbn [bind]; try discriminate. intros H. exists bs. split; [reflexivity|].
    destruct bs; injection H as <-; [left; auto|right; split; [discriminate|reflexivity]].
  Qed.

  Lemma ext_set_works maxd k xt v l : (exists l', ext_set E utf8_ok maxd k xt v l = Ok l') <-> exists bs, encode_bytes E utf8_ok maxd xt v = Ok bs.
  Proof.
    split.
    - intros [l' H]. destruct (ext_set_cases _ _ _ _ _ _ H) as (bs & K & _). eauto.
    - intros [bs H]. unfold ext_set. rewrite H. cbn [bind]. destruct bs; eauto.
  Qed.

  Lemma find_in n (l : list (Z * bytes)) : umap_find n l <> None <-> In n (map fst l).
  Proof.
    induction l as [|[m c] l IH]; cbn [umap_find map fst In]; [tauto|]. destruct (Z.eqb_spec m n); [split; [auto|discriminate]|].
    rewrite IH. split; [auto|]. intros [K|K]; [congruence|exact K].
  Qed.

  Lemma in_after_set k xt bs l : ext_in E k xt (set_store k (ext_number E xt) bs l) = true.
  Proof.
    unfold ext_in. apply exists_in. unfold set_store.
    assert (Hu : In (ext_number E xt) (map fst (umap_set (ext_number E xt) bs l))) by (apply find_in; rewrite umap_find_set; discriminate).
    destruct k; try exact Hu. rewrite map_app. apply in_or_app. right; left; reflexivity.
  Qed.

  Lemma in_after_set_other k xt n bs l : ext_number E xt <> n -> ext_in E k xt (set_store k n bs l) = ext_in E k xt l.
  Proof.
    intros Hne. unfold ext_in. apply eq_true_iff_eq. rewrite !exists_in.
    assert (Hu : In (ext_number E xt) (map fst (umap_set n bs l)) <-> In (ext_number E xt) (map fst l))
      by (rewrite <- !find_in, (umap_find_set_other n _ bs l Hne); tauto).
    unfold set_store. destruct k; try exact Hu. rewrite map_app, in_app_iff. cbn [map fst In]. split; [|auto]. intros [K|[K|[]]]; [exact K|congruence].
  Qed.

  Lemma get_after_set_other limit k xt n bs l cur : ext_number E xt <> n ->
    ext_get E utf8_ok limit k xt (set_store k n bs l) cur = ext_get E utf8_ok limit k xt l cur.
  Proof.
    intros Hne. assert (Hu := umap_find_set_other n (ext_number E xt) bs l Hne). destruct k; cbn [ext_get set_store]; try (rewrite Hu; reflexivity).
    rewrite get_pairs_app. assert (Hl : forall f v, get_pairs E utf8_ok limit xt f v [(n, bs)] = Ok v).
    { intros f v. cbn [get_pairs]. destruct (Z.eqb_spec n (ext_number E xt)); [congruence|reflexivity]. }
    destruct (get_pairs _ _ _ _ _ _ _); cbn [bind]; auto.
  Qed.

  Lemma other_unaffected maxd limit k xt xt' v l l' cur : ext_number E xt' <> ext_number E xt -> ext_set E utf8_ok maxd k xt v l = Ok l' ->
    ext_get E utf8_ok limit k xt' l' cur = ext_get E utf8_ok limit k xt' l cur /\ ext_in E k xt' l' = ext_in E k xt' l.
  Proof.
    intros Hne H. destruct (ext_set_cases _ _ _ _ _ _ H) as (bs & _ & [[_ ->]|[_ ->]]); [split; reflexivity|].
    split; [apply get_after_set_other|apply in_after_set_other]; exact Hne.
  Qed.

  (** Reading back what was set. *)
  Lemma get_set_bytes limit k xt bs l cur : ext_store k -> (k = UPairs -> ext_in E k xt l = false) ->
    ext_get E utf8_ok limit k xt (set_store k (ext_number E xt) bs l) cur = decode_bytes E utf8_ok limit xt (default_msg E xt) bs.
  Proof.
    intros [->| ->] Ha; cbn [ext_get set_store].
    - rewrite umap_find_set. reflexivity.
    - specialize (Ha eq_refl). unfold ext_in in Ha. rewrite get_pairs_app, Ha, get_pairs_absent by (apply not_exists; exact Ha). cbn [bind orb get_pairs].
      rewrite Z.eqb_refl. destruct (decode_bytes _ _ _ _ _ _); reflexivity.
  Qed.

  Lemma set_default maxd limit xt v : generated E -> maxd <= limit -> m_entry (desc_of E xt) = false -> wt_msg E utf8_ok xt v -> canonical E limit 1 xt v ->
    encode_bytes E utf8_ok maxd xt v = Ok [] -> v = default_msg E xt.
  Proof.
    intros G Hm He Hw Hc H. pose proof (round_trip E utf8_ok maxd limit xt v [] G He Hm Hw Hc H) as R.
    revert R. unfold decode_bytes, decode, dec_msg. rewrite He. cbn [length]. destruct (scope_ok limit 0); cbn; [|discriminate]. intros [= <-]. reflexivity.
  Qed.

  Lemma get_after_set maxd limit k xt v l l' cur : generated E -> maxd <= limit -> m_entry (desc_of E xt) = false -> ext_store k ->
    wt_msg E utf8_ok xt v -> canonical E limit 1 xt v -> (k = UPairs -> ext_in E k xt l = false) -> ext_set E utf8_ok maxd k xt v l = Ok l' ->
    v <> default_msg E xt -> ext_in E k xt l' = true /\ ext_get E utf8_ok limit k xt l' cur = Ok v.
  Proof.
    intros G Hm He Hk Hw Hc Ha H Hd. destruct (ext_set_cases _ _ _ _ _ _ H) as (bs & Hb & [[-> _]|[_ ->]]); [exfalso; apply Hd; eapply set_default; eauto|].
    split; [apply in_after_set|]. rewrite get_set_bytes by auto. eapply round_trip; eauto.
  Qed.

  Lemma set_nothing maxd k xt v l : encode_bytes E utf8_ok maxd xt v = Ok [] -> ext_set E utf8_ok maxd k xt v l = Ok l.
  Proof. intros H. unfold ext_set. rewrite H. reflexivity. Qed.

  Lemma get_absent limit k xt l cur : ext_store k -> ext_in E k xt l = false -> ext_get E utf8_ok limit k xt l cur = Ok cur.
  Proof.
    intros Hk Ha. unfold ext_in in Ha. apply not_exists in Ha. destruct Hk as [->| ->]; cbn [ext_get]; [|apply get_pairs_absent; exact Ha].
    destruct (umap_find (ext_number E xt) l) eqn:K; [|reflexivity]. exfalso. apply Ha. apply find_in. rewrite K. discriminate.
  Qed.

  (** A second value set in a pair list is read into the first. *)
  Lemma get_after_set_pairs maxd limit xt v l l' cur bs : encode_bytes E utf8_ok maxd xt v = Ok bs -> bs <> [] -> ext_in E UPairs xt l = true ->
    ext_set E utf8_ok maxd UPairs xt v l = Ok l' ->
    ext_get E utf8_ok limit UPairs xt l' cur = (old <- ext_get E utf8_ok limit UPairs xt l cur ;; decode_bytes E utf8_ok limit xt old bs).
  Proof.
    intros Hb Hne Hi H. unfold ext_set in H. rewrite Hb in H. cbn [bind] in H. destruct bs as [|b bs]; [congruence|]. injection H as <-.
    cbn [ext_get]. unfold ext_in in Hi. rewrite get_pairs_app, Hi. cbn [orb]. destruct (get_pairs E utf8_ok limit xt false cur l); cbn [bind]; auto.
    cbn [get_pairs]. rewrite Z.eqb_refl. destruct (decode_bytes _ _ _ _ _ _); reflexivity.
  Qed.

  (** ** Extensions survive writing and reading the extendee *)
  Lemma tag_prefix a b p q : is_varint a -> is_varint b -> a ++ p = b ++ q -> a = b.
  Proof.
    revert b. induction a as [|x a IH]; intros [|y b] Ha Hb H; try contradiction. cbn [app] in H. injection H as -> H.
    destruct a as [|x' a], b as [|y' b]; auto; cbn [is_varint] in Ha, Hb; try lia.
    f_equal. apply IH; [apply Ha|apply Hb|exact H].
  Qed.

  Lemma elem_tag num e v : exists wt p, 0 <= wt < 8 /\ enc_elem (enc_msg E) num e v = tagb num wt ++ p.
  Proof.
    destruct e as [t| |is64 fl|c|u w|ty [|]]; cbn [enc_elem];
    lazymatch goal with |- exists wt p, _ /\ tagb _ ?w ++ ?q = _ => exists w, q end;
    (split; [|reflexivity]); try apply wt_range; unfold WT_LEN, WT_SGROUP; lia.
  Qed.

  Lemma occ_tag f c n b : (match f with Oneof _ => False | _ => True end) -> In (n, b) (occ_field E f c) -> exists wt p, 0 <= wt < 8 /\ b = tagb n wt ++ p.
  Proof.
    destruct f as [num e cd|]; [|intros []]. intros _.
    assert (Hm : In (n, b) (map (fun v => (num, enc_elem (enc_msg E) num e v)) c) -> exists wt p, 0 <= wt < 8 /\ b = tagb n wt ++ p).
    { rewrite in_map_iff. intros (v & [= <- <-] & _). apply elem_tag. }
    destruct cd as [| |[|]|]; cbn [occ_field]; auto. destruct (packable e); auto. intros [[= <- <-]|[]]. unfold enc_packed.
    exists WT_LEN. eexists. split; [unfold WT_LEN; lia|reflexivity].
  Qed.

  Lemma ext_fields maxd limit xt n v bs : generated E -> maxd <= limit -> ext_type E xt n -> wt_msg E utf8_ok xt v -> canonical E limit 1 xt v ->
    encode_bytes E utf8_ok maxd xt v = Ok bs -> all_bytes bs /\ exists l, bs = bytes_of l /\ Forall (fun x => fst x = n /\ short_field limit 1 n (snd x)) l.
  Proof.
    intros G Hml (e & cd & Hx) Hw Hc H. destruct (encoded E utf8_ok maxd xt v bs (generated_legal E G) Hw H) as (-> & Hl & Hd).
    split; [apply (enc_bytes E utf8_ok (generated_legal E G)); exact Hw|].
    assert (Hev : everywhere E (fun d ty v => stored_ok E limit d ty (msg_unk v)) 1 xt v).
    { revert Hc. unfold canonical. generalize 1 as d. generalize xt v. clear. intros ty v d Hc. induction Hc as [d ty v [_ A] _ IH]. constructor; auto. }
    destruct (message_fields E utf8_ok limit G xt v 0 Hw Hev) as [Hocc _].
    { intros m Hm. rewrite Z.add_0_l. apply (EncodeMain.scope_mono maxd); auto. }
    { unfold max_message_size in Hl. lia. }
    inversion Hw as [| | | | |? ? fs u Hcs Hst Hu]; subst. cbn [msg_fields msg_unk enc_msg] in *. rewrite Hx in *. cbn [m_fields m_unk] in *.
    inversion Hcs as [|f fds c fs' Hcell Hnil]; subst. inversion Hnil; subst.
    assert (Hn : 1 <= n < 2 ^ 25) by (apply (gen_numbers E G xt (Field n e cd)); [rewrite Hx; left; reflexivity|left; reflexivity]).
    exists (occ_fields E [Field n e cd] [c]). split; [rewrite occ_fields_bytes; unfold enc_unknown; rewrite app_nil_r; reflexivity|].
    change (0 + 1) with 1 in Hocc. unfold fields_at in Hocc. rewrite Forall_forall in Hocc |- *. intros [m b] Hin. specialize (Hocc _ Hin). cbn [fst snd] in *.
    cbn [occ_fields] in Hin. rewrite app_nil_r in Hin. destruct (omit (Field n e cd) c); [destruct Hin|].
    assert (Hmn : m = n).
    { assert (K : In m (nums (Field n e cd))) by (eapply occ_field_range; [exact Hcell|]; apply (in_map fst) in Hin; exact Hin). cbn in K. destruct K as [K|[]]; auto. }
    subst m. split; [reflexivity|]. destruct (occ_tag (Field n e cd) c n b I Hin) as (w & p' & Hwr & ->).
    destruct Hocc as (tb & tag & p & A & B & C & D). exists tb, tag, p. repeat (split; [assumption|]).
    destruct (vint_spec (8 * n + w) ltac:(lia)) as (V1 & V2 & V3).
    assert (Htb : tb = tagb n w). { apply (tag_prefix tb (tagb n w) p p'); [apply B|exact V1|symmetry; exact A]. }
    destruct (tagb_ok n w Hn Hwr) as (T1 & T2 & T3). unfold shortest. rewrite Htb.
    destruct (Nat.eq_dec (length (tagb n w)) 1) as [|N1]; [auto|]. right; right.
    assert (Hr : tag_reads (tagb n w) (8 * n + w)) by (apply tagb_reads; auto; lia).
    assert (Hs : shortest (tagb n w)) by (eapply size_shortest; [exact Hr|exact V3]). destruct Hs as [?|[?|?]]; auto; lia.
  Qed.

  Lemma set_canonical maxd limit ty xt n v fs l l' : generated E -> maxd <= limit -> ext_type E xt n -> wt_msg E utf8_ok xt v -> canonical E limit 1 xt v ->
    ext_store (m_unk (desc_of E ty)) -> unknown_to E ty n -> (m_unk (desc_of E ty) = UPairs -> ext_in E UPairs xt l = false) ->
    wt_msg E utf8_ok ty (VMsg fs l) -> canonical E limit 1 ty (VMsg fs l) -> ext_set E utf8_ok maxd (m_unk (desc_of E ty)) xt v l = Ok l' ->
    wt_msg E utf8_ok ty (VMsg fs l') /\ canonical E limit 1 ty (VMsg fs l').
  Proof.
    intros G Hml Hx Hw Hc Hk Hunk Ha Hwm Hcm H. destruct (ext_set_cases _ _ _ _ _ _ H) as (bs & Hb & [[_ ->]|[Hne ->]]); [auto|].
    rewrite (ext_num xt n Hx). destruct (ext_fields _ _ _ _ _ _ G Hml Hx Hw Hc Hb) as (Hby & fl & -> & Hfl).
    inversion Hwm as [| | | | |? ? ? ? Hcs Hst Hu]; subst. inversion Hcm as [? ? ? [Ho Hs] Hsub]; subst. cbn [msg_unk] in *.
    assert (Hin : forall p, In p (set_store (m_unk (desc_of E ty)) n (bytes_of fl) l) -> p = (n, bytes_of fl) \/ In p l).
    { intros p. unfold set_store. assert (K := umap_set_in n (bytes_of fl) l p). destruct (m_unk (desc_of E ty)); auto. rewrite in_app_iff. cbn [In]. intros [?|[<-|[]]]; auto. }
    split.
    - constructor; [exact Hcs| |].
      + unfold set_store. destruct Hk as [Hk|Hk]; rewrite Hk in *; cbn [store_ok] in *; [apply umap_set_sorted; exact Hst|].
        specialize (Ha eq_refl). unfold ext_in in Ha. rewrite (ext_num xt n Hx) in Ha. apply not_exists in Ha. rewrite map_app. cbn [map fst].
        apply NoDup_rev in Hst. rewrite <- (rev_involutive (map fst l ++ [n])). apply NoDup_rev.
        rewrite rev_app_distr. cbn [rev app]. constructor; [rewrite <- in_rev; exact Ha|exact Hst].
      + rewrite Forall_forall in *. intros p Hp. apply Hin in Hp. destruct Hp as [->|Hp]; [exact Hby|auto].
    - constructor; [split; [exact Ho|]|exact Hsub]. cbn [msg_unk]. unfold stored_ok in *. rewrite Forall_forall in *. intros p Hp. apply Hin in Hp.
      destruct Hp as [->|Hp]; [|auto]. cbn [fst snd]. exists fl. split; [reflexivity|]. split; [intros ->; apply Hne; reflexivity|].
      rewrite Forall_forall. intros x Hin'. destruct (Hfl x Hin') as [F1 F2]. split; [|right; exact F1]. left. rewrite F1. split; [exact F2|exact Hunk].
  Qed.

  (** Set, write the extendee, read it, get. *)
  Lemma ext_trip maxd limit ty xt n v fs l l' bs cur : generated E -> maxd <= limit -> m_entry (desc_of E ty) = false -> ext_type E xt n ->
    wt_msg E utf8_ok xt v -> canonical E limit 1 xt v -> v <> default_msg E xt ->
    ext_store (m_unk (desc_of E ty)) -> unknown_to E ty n -> (m_unk (desc_of E ty) = UPairs -> ext_in E UPairs xt l = false) ->
    wt_msg E utf8_ok ty (VMsg fs l) -> canonical E limit 1 ty (VMsg fs l) -> ext_set E utf8_ok maxd (m_unk (desc_of E ty)) xt v l = Ok l' ->
    encode_bytes E utf8_ok maxd ty (VMsg fs l') = Ok bs ->
    exists m, decode_bytes E utf8_ok limit ty (default_msg E ty) bs = Ok m /\ msg_fields m = fs /\
      ext_get E utf8_ok limit (m_unk (desc_of E ty)) xt (msg_unk m) cur = Ok v.
  Proof.
    intros G Hml He Hx Hw Hc Hd Hk Hunk Ha Hwm Hcm H Henc.
    destruct (set_canonical _ _ _ _ _ _ _ _ _ G Hml Hx Hw Hc Hk Hunk Ha Hwm Hcm H) as [W C].
    exists (VMsg fs l'). split; [eapply round_trip; eauto|]. split; [reflexivity|]. cbn [msg_unk].
    assert (Hxe : m_entry (desc_of E xt) = false) by (destruct Hx as (e & c & ->); reflexivity).
    eapply get_after_set; eauto.
  Qed.

  (** Reading an extension from a message that was parsed. *)
  Lemma filter_unknown ty n fl : unknown_to E ty n -> filter (fun x : Z * bytes => fst x =? n) (unknowns E ty fl) = filter (fun x => fst x =? n) fl.
  Proof.
    intros [_ Hu]. unfold unknowns. induction fl as [|[m b] fl IH]; [reflexivity|]. cbn [filter fst].
    destruct (Z.eqb_spec m n) as [->|Hne].
    - assert (K : forallb (fun f => negb (has_num n f)) (m_fields (desc_of E ty)) = true).
      { apply forallb_forall. intros f Hf. rewrite Forall_forall in Hu. rewrite (Hu f Hf). reflexivity. }
      rewrite K. cbn [filter fst]. rewrite Z.eqb_refl, IH. reflexivity.
    - destruct (forallb _ _); cbn [filter fst]; [destruct (Z.eqb_spec m n); [congruence|]|]; exact IH.
  Qed.

  Lemma field_nonempty limit d n f : one_field limit d n f -> f <> [].
  Proof. intros (tb & tag & p & -> & (Hv & _) & _). destruct tb; [destruct Hv|discriminate]. Qed.

  Lemma read_extension limit ty xt n fl v cur : generated E -> wt_defaults E utf8_ok -> fields limit fl -> all_bytes (bytes_of fl) -> m_entry (desc_of E ty) = false ->
    no_closed_enum E ty -> ext_store (m_unk (desc_of E ty)) -> short_stored E ty (bytes_of fl) -> ext_type E xt n -> unknown_to E ty n ->
    decode_bytes E utf8_ok limit ty (default_msg E ty) (bytes_of fl) = Ok v ->
    let mine := filter (fun x => fst x =? n) fl in
    (ext_in E (m_unk (desc_of E ty)) xt (msg_unk v) = true <-> mine <> []) /\
    (mine <> [] -> ext_get E utf8_ok limit (m_unk (desc_of E ty)) xt (msg_unk v) cur = decode_bytes E utf8_ok limit xt (default_msg E xt) (bytes_of mine)).
  Proof.
    intros G Hdef Hf Hb He Hnc Hk Hs Hx Hu H mine. pose proof (gen_safe E G) as Hse.
    assert (Hw : wt_msg E utf8_ok ty v).
    { eapply (decode_wt E utf8_ok limit Hse (generated_shape E G) Hdef); [exact Hb|exact He|apply exact_stored; auto| |exact H]. apply Hdef. }
    assert (Hev : everywhere E (fun d ty v => stored_ok E limit d ty (msg_unk v)) 1 ty v).
    { eapply (decoded_stored E utf8_ok limit G); [exact Hb|exact He|exact Hs| |exact H]. apply (default_ev E limit G). }
    inversion Hw as [| | | | |? ? fs u Hcs Hst Hab]; subst. cbn [msg_unk] in *. inversion Hev as [? ? ? Hso _]; subst. cbn [msg_unk] in Hso.
    assert (Hkept : kept_for n u = bytes_of mine).
    { destruct (p_retained E utf8_ok limit Hse ty (default_msg E ty) fl (VMsg fs u)) as [_ K]; auto; try (intros K; rewrite K in *; destruct Hk; discriminate).
      - cbn [msg_unk default_msg]. destruct Hk as [->| ->]; constructor.
      - cbn [msg_unk default_msg] in K. rewrite (K Hk n), (filter_unknown ty n fl Hu). reflexivity. }
    assert (Hin : ext_in E (m_unk (desc_of E ty)) xt u = true <-> mine <> []).
    { unfold ext_in. rewrite (ext_num xt n Hx). split.
      - intros K L. rewrite L in Hkept. unfold bytes_of in Hkept. cbn in Hkept. apply exists_in in K. apply in_map_iff in K. destruct K as ([m b] & <- & K).
        unfold stored_ok in Hso. rewrite Forall_forall in Hso. destruct (Hso _ K) as (l & Hl1 & Hl2 & Hl3). cbn [fst snd] in *.
        assert (Hbe : b = []).
        { unfold kept_for in Hkept.
          assert (K2 : In b (map snd (filter (fun p => fst p =? m) u))).
          { apply in_map_iff. exists (m, b). split; [reflexivity|]. apply filter_In. split; [exact K|cbn [fst]; apply Z.eqb_refl]. }
          apply in_split in K2. destruct K2 as (x & y & K2). rewrite K2, concat_app in Hkept. apply app_eq_nil in Hkept. destruct Hkept as [_ Hkept].
          cbn [concat] in Hkept. apply app_eq_nil in Hkept. apply Hkept. }
        destruct l as [|[k f] l]; [congruence|]. apply Forall_inv in Hl3. destruct Hl3 as [Hsf _]. cbn [fst snd] in *.
        rewrite Hbe in Hl1. unfold bytes_of in Hl1. cbn [map concat snd] in Hl1. symmetry in Hl1. apply app_eq_nil in Hl1. destruct Hl1 as [-> _].
        destruct Hsf as [[(tb & tag & p & A & B & _) _]|(i & el & c & z & _ & _ & _ & _ & A)].
        + symmetry in A. apply app_eq_nil in A. destruct A as [-> _]. destruct B as [B _]. destruct B.
        + symmetry in A. apply app_eq_nil in A. destruct A as [_ A]. destruct (pack_varint_spec VI64 z) as (B & _). rewrite A in B. destruct B.
      - intros L. apply exists_in. destruct (in_dec Z.eq_dec n (map fst u)) as [|K]; [assumption|]. exfalso. rewrite (kept_absent n u K) in Hkept.
        destruct mine as [|[m f] l] eqn:Hmine; [congruence|]. unfold bytes_of in Hkept. cbn [map concat snd] in Hkept. symmetry in Hkept. apply app_eq_nil in Hkept.
        destruct Hkept as [-> _]. assert (Kin : In (m, []) fl). { assert (K2 : In (m, @nil Z) mine) by (rewrite Hmine; left; reflexivity). apply filter_In in K2. apply K2. }
        unfold fields, fields_at in Hf. rewrite Forall_forall in Hf. specialize (Hf _ Kin). apply field_nonempty in Hf. apply Hf. reflexivity. }
    split; [exact Hin|]. intros Hne. rewrite (ext_get_kept limit _ xt u cur Hk (store_nodup _ _ Hk Hst)).
    rewrite (proj2 Hin Hne), (ext_num xt n Hx), Hkept. reflexivity.
  Qed.
End Ext.
