(** Laws of merge. *)
From Coq Require Import Sorted.
Require Import Verif.Bits Verif.Varint.
Require Import Verif.Schema Verif.Archive Verif.Decode Verif.DecodeSafe Verif.WellTyped Verif.DecodeTerms Verif.Encode Verif.EncodeSpec Verif.EncodeProofs Verif.EncodeProofs2 Verif.RoundTrip Verif.Merge.

(** ** Maps *)
Definition keyed (l : list val) : Prop := Forall (fun x => is_key (entry_key x)) l.
Definition sorted (l : list val) : Prop := StronglySorted key_lt (map entry_key l).
Definition same_key (a b : val) : bool := negb (key_ltb a b || key_ltb b a).

Lemma same_key_refl a : same_key a a = true.
Proof. unfold same_key. rewrite key_irrefl. reflexivity. Qed.
Lemma same_key_eq a b : is_key a -> is_key b -> same_key a b = true -> a = b.
Proof.
  unfold same_key. intros Ha Hb H. apply negb_true_iff, orb_false_iff in H. apply key_eq; tauto.
Qed.
Lemma get_none_lt k l : Forall (fun x => key_lt k x) (map entry_key l) -> map_get k l = None.
Proof.
  induction l as [|h t IH]; intros H; [reflexivity|]. inversion H as [|? ? H1 H2]; subst. cbn [map_get]. unfold key_lt in H1. rewrite H1. auto.
Qed.
Lemma get_in k l x : map_get k l = Some x -> In x l /\ same_key k (entry_key x) = true.
Proof.
  induction l as [|h t IH]; cbn [map_get]; [discriminate|]. destruct (key_ltb k (entry_key h) || key_ltb (entry_key h) k) eqn:Hk.
  - intros H. destruct (IH H). split; [right|]; auto.
  - intros [= <-]. split; [left; reflexivity|]. unfold same_key. rewrite Hk. reflexivity.
Qed.

Lemma sorted_ext a : forall b, keyed a -> keyed b -> sorted a -> sorted b ->
  (forall k, is_key k -> map_get k a = map_get k b) -> a = b.
Proof.
  unfold sorted. induction a as [|x a IH]; intros [|y b] Ka Kb Sa Sb H; [reflexivity|..].
  - inversion Kb as [|? ? K1 K2]; subst. specialize (H _ K1). cbn [map_get] in H. rewrite key_irrefl in H. discriminate.
  - inversion Ka as [|? ? K1 K2]; subst. specialize (H _ K1). cbn [map_get] in H. rewrite key_irrefl in H. discriminate.
  - inversion Ka as [|? ? Kx Ka']; subst. inversion Kb as [|? ? Ky Kb']; subst. cbn [map] in *.
    inversion Sa as [|? ? Sa' La]; subst. inversion Sb as [|? ? Sb' Lb]; subst.
    assert (Hxy : x = y).
    { pose proof (H _ Kx) as Hx. pose proof (H _ Ky) as Hy. cbn [map_get] in Hx, Hy. rewrite key_irrefl in Hx, Hy. cbn [orb] in Hx, Hy.
      destruct (key_ltb (entry_key x) (entry_key y)) eqn:L1.
      - cbn [orb] in Hx. rewrite get_none_lt in Hx; [discriminate|]. eapply Forall_impl; [|exact Lb]. intros k Hk. eapply key_trans; eauto.
      - destruct (key_ltb (entry_key y) (entry_key x)) eqn:L2; cbn [orb] in *; [|congruence].
        rewrite get_none_lt in Hy; [discriminate|]. eapply Forall_impl; [|exact La]. intros k Hk. eapply key_trans; eauto. }
    subst y. f_equal. apply IH; auto. intros k Hk. specialize (H k Hk). cbn [map_get] in H.
    destruct (key_ltb k (entry_key x) || key_ltb (entry_key x) k) eqn:L; [exact H|]. apply orb_false_iff in L.
    assert (k = entry_key x) by (apply key_eq; tauto). subst k. rewrite !get_none_lt by assumption. reflexivity.
Qed.

Lemma map_ins_in e l x : In x (map_ins e l) -> x = e \/ In x l.
Proof.
  induction l as [|h t IH]; cbn; [intros [->|[]]; auto|]. destruct (key_ltb (entry_key h) _); [|destruct (key_ltb _ _)]; cbn; intuition.
Qed.
Lemma map_ins_spec e l : is_key (entry_key e) -> keyed l -> sorted l -> keyed (map_ins e l) /\ sorted (map_ins e l) /\
  forall k, is_key k -> map_get k (map_ins e l) = match map_get k l with Some x => Some x | None => if same_key k (entry_key e) then Some e else None end.
Proof.
  unfold sorted. intros He Hk Hs. split; [|split].
  - apply Forall_forall. intros x Hx. apply map_ins_in in Hx. destruct Hx as [->|Hx]; [exact He|]. unfold keyed in Hk. rewrite Forall_forall in Hk. auto.
  - induction l as [|h t IH]; [cbn; repeat constructor|]. inversion Hk as [|? ? Hh Ht]; subst. cbn [map] in Hs. inversion Hs as [|? ? Hst Hall]; subst. cbn [map_ins].
    destruct (key_ltb (entry_key h) (entry_key e)) eqn:K1; [|destruct (key_ltb (entry_key e) (entry_key h)) eqn:K2]; cbn [map].
    + constructor; [auto|]. apply Forall_forall. intros k Hin. apply in_map_iff in Hin. destruct Hin as (x & <- & Hx).
      apply map_ins_in in Hx. destruct Hx as [->|Hx]; [exact K1|]. rewrite Forall_forall in Hall. apply Hall. apply in_map. exact Hx.
    + constructor; [exact Hs|]. constructor; [exact K2|]. eapply Forall_impl; [|exact Hall]. intros k Hk'. eapply key_trans; eauto.
    + exact Hs.
  - intros k Kk. induction l as [|h t IH].
    + cbn [map_ins map_get]. unfold same_key. destruct (_ || _); reflexivity.
    + inversion Hk as [|? ? Hh Ht]; subst. cbn [map] in Hs. inversion Hs as [|? ? Hst Hall]; subst. cbn [map_ins map_get].
      destruct (key_ltb (entry_key h) (entry_key e)) eqn:K1; [|destruct (key_ltb (entry_key e) (entry_key h)) eqn:K2]; cbn [map_get].
      * rewrite IH by auto. destruct (_ || _); reflexivity.
      * unfold same_key. destruct (key_ltb k (entry_key e) || key_ltb (entry_key e) k) eqn:Ke; cbn [negb].
        { destruct (key_ltb k (entry_key h) || key_ltb (entry_key h) k); [|reflexivity]. destruct (map_get k t); reflexivity. }
        apply orb_false_iff in Ke. assert (k = entry_key e) by (apply key_eq; tauto). subst k. rewrite K2. cbn [orb].
        rewrite get_none_lt; [reflexivity|]. eapply Forall_impl; [|exact Hall]. intros k Hk'. eapply key_trans; eauto.
      * assert (Hhe : entry_key h = entry_key e) by (apply key_eq; auto). rewrite <- Hhe.
        destruct (key_ltb k (entry_key h) || key_ltb (entry_key h) k) eqn:L; [|reflexivity].
        unfold same_key. rewrite L. cbn [negb]. destruct (map_get k t); reflexivity.
Qed.

(** Merging maps: the source's entry for a key if it has one, else the destination's. *)
Lemma merge_map_spec g c : keyed g -> keyed c -> sorted g -> sorted c -> keyed (merge_map g c) /\ sorted (merge_map g c) /\
  forall k, is_key k -> map_get k (merge_map g c) = match map_get k c with Some x => Some x | None => map_get k g end.
Proof.
  intros Kg Kc Sg Sc.
  assert (F : forall g c, keyed g -> keyed c -> sorted g -> sorted c ->
    keyed (fold_left (fun l e => map_ins e l) g c) /\ sorted (fold_left (fun l e => map_ins e l) g c) /\
    forall k, is_key k -> map_get k (fold_left (fun l e => map_ins e l) g c) = match map_get k c with Some x => Some x | None => map_get k g end).
  { clear. unfold sorted. induction g as [|h g IH]; intros c Kg Kc Sg Sc.
    - cbn [fold_left]. split; [exact Kc|]. split; [exact Sc|]. intros k _. destruct (map_get k c); reflexivity.
    - inversion Kg as [|? ? K1 K2]; subst. cbn [map] in Sg. inversion Sg as [|? ? S1 S2]; subst. cbn [fold_left].
      destruct (map_ins_spec h c K1 Kc Sc) as (A & B & C). destruct (IH _ K2 A S1 B) as (A' & B' & C'). split; [exact A'|]. split; [exact B'|].
      intros k Hk. rewrite (C' k Hk), (C k Hk). cbn [map_get]. unfold same_key. destruct (map_get k c); [reflexivity|].
      destruct (key_ltb k (entry_key h) || key_ltb (entry_key h) k) eqn:L; reflexivity. }
  destruct c as [|x c]; [cbn; auto|]. destruct g as [|y g].
  - cbn [merge_map]. split; [exact Kc|]. split; [exact Sc|]. intros k _. destruct (map_get k (x :: c)); reflexivity.
  - apply (F (y :: g) (x :: c)); auto.
Qed.

Lemma last_with_none k l : last_with k l = None -> map_get k l = None.
Proof.
  unfold last_with.
  assert (G : forall l o, fold_left (fun o e => if key_ltb k (entry_key e) || key_ltb (entry_key e) k then o else Some e) l o = None -> o = None /\ map_get k l = None).
  { clear l. induction l as [|h t IH]; intros o H; cbn [fold_left map_get] in *; [auto|]. destruct (_ || _); [auto|]. destruct (IH _ H). discriminate. }
  intros H. apply G in H. tauto.
Qed.
Lemma get_last_with k l : is_key k -> keyed l -> sorted l -> last_with k l = map_get k l.
Proof.
  intros Kk Kl Sl. unfold last_with.
  assert (G : forall o, fold_left (fun o e => if key_ltb k (entry_key e) || key_ltb (entry_key e) k then o else Some e) l o =
     match map_get k l with Some x => Some x | None => o end).
  { unfold sorted in Sl. induction l as [|h t IH]; intros o; [reflexivity|]. inversion Kl as [|? ? K1 K2]; subst. cbn [map] in Sl. inversion Sl as [|? ? S1 S2]; subst.
    cbn [fold_left map_get]. rewrite IH by auto. destruct (_ || _) eqn:L; [reflexivity|]. apply orb_false_iff in L. assert (k = entry_key h) by (apply key_eq; tauto). subst k.
    rewrite get_none_lt by exact S2. reflexivity. }
  rewrite G. destruct (map_get k l); reflexivity.
Qed.

Lemma merge_map_put g c : keyed g -> keyed c -> sorted g -> sorted c -> merge_map g c = put_all c g.
Proof.
  intros Kg Kc Sg Sc. destruct (merge_map_spec g c Kg Kc Sg Sc) as (A & B & C). destruct (put_all_spec c Kc g Kg Sg) as (A' & B' & C').
  apply sorted_ext; auto. intros k Hk. rewrite C, C', get_last_with by auto. reflexivity.
Qed.

Lemma merge_map_nil_l c : merge_map [] c = c.
Proof. destruct c; reflexivity. Qed.
Lemma merge_map_nil_r g : merge_map g [] = g.
Proof. reflexivity. Qed.
Lemma merge_map_assoc a b c : keyed a -> keyed b -> keyed c -> sorted a -> sorted b -> sorted c ->
  merge_map (merge_map a b) c = merge_map a (merge_map b c).
Proof.
  intros Ka Kb Kc Sa Sb Sc.
  destruct (merge_map_spec a b) as (A1 & B1 & C1); auto. destruct (merge_map_spec b c) as (A2 & B2 & C2); auto.
  destruct (merge_map_spec (merge_map a b) c) as (A3 & B3 & C3); auto. destruct (merge_map_spec a (merge_map b c)) as (A4 & B4 & C4); auto.
  apply sorted_ext; auto. intros k Hk. rewrite C3, C4, C1, C2 by auto. destruct (map_get k c); reflexivity.
Qed.

(** ** Extension stores *)
Fixpoint uget (n : Z) (l : list (Z * bytes)) : option bytes :=
  match l with [] => None | (m, b) :: t => if m =? n then Some b else uget n t end.

Definition usorted (l : list (Z * bytes)) : Prop := StronglySorted Z.lt (map fst l).

Lemma uget_none_lt n l : Forall (fun m => n < m) (map fst l) -> uget n l = None.
Proof.
  induction l as [|[m b] t IH]; intros H; [reflexivity|]. inversion H as [|? ? H1 H2]; subst. cbn [uget fst] in *. destruct (Z.eqb_spec m n); [lia|auto].
Qed.
Lemma usorted_ext a : forall b, usorted a -> usorted b -> (forall n, uget n a = uget n b) -> a = b.
Proof.
  unfold usorted. induction a as [|[n x] a IH]; intros [|[m y] b] Sa Sb H; [reflexivity|..].
  - specialize (H m). cbn [uget] in H. rewrite Z.eqb_refl in H. discriminate.
  - specialize (H n). cbn [uget] in H. rewrite Z.eqb_refl in H. discriminate.
  - cbn [map fst] in *. inversion Sa as [|? ? Sa' La]; subst. inversion Sb as [|? ? Sb' Lb]; subst.
    assert (n = m).
    { pose proof (H n) as Hn. pose proof (H m) as Hm. cbn [uget] in Hn, Hm. rewrite Z.eqb_refl in Hn, Hm.
      destruct (Z.eqb_spec m n); [lia|]. destruct (Z.eqb_spec n m); [lia|]. destruct (Z.lt_ge_cases n m).
      - rewrite (uget_none_lt n b) in Hn; [discriminate|]. eapply Forall_impl; [|exact Lb]. cbn. lia.
      - rewrite (uget_none_lt m a) in Hm; [discriminate|]. eapply Forall_impl; [|exact La]. cbn. lia. }
    subst m. pose proof (H n) as Hn. cbn [uget] in Hn. rewrite Z.eqb_refl in Hn. injection Hn as ->. f_equal. apply IH; auto.
    intros k. specialize (H k). cbn [uget] in H. destruct (Z.eqb_spec n k); [|exact H]. subst k. rewrite !uget_none_lt by assumption. reflexivity.
Qed.

Lemma umap_add_keys n b l m : In m (map fst (umap_add n b l)) -> m = n \/ In m (map fst l).
Proof.
  induction l as [|[k c] t IH]; cbn; [intuition|]. destruct (k =? n); [|destruct (n <? k)]; cbn; intuition.
Qed.
Lemma umap_add_spec n b l : usorted l -> usorted (umap_add n b l) /\
  forall m, uget m (umap_add n b l) = if m =? n then Some (match uget n l with Some c => c ++ b | None => b end) else uget m l.
Proof.
  unfold usorted. induction l as [|[k c] t IH]; intros Hs.
  - cbn. split; [repeat constructor|]. intros m. rewrite Z.eqb_sym. reflexivity.
  - cbn [map fst] in Hs. inversion Hs as [|? ? S1 S2]; subst. destruct (IH S1) as [I1 I2]. cbn [umap_add].
    destruct (Z.eqb_spec k n) as [->|Hkn]; [|destruct (Z.ltb_spec n k)]; cbn [map fst uget].
    + split; [exact Hs|]. intros m. rewrite Z.eqb_refl, (Z.eqb_sym m n). destruct (n =? m); reflexivity.
    + split.
      * constructor; [exact Hs|]. constructor; [lia|]. eapply Forall_impl; [|exact S2]. cbn. lia.
      * intros m. rewrite (Z.eqb_sym m n). destruct (Z.eqb_spec n m); [|reflexivity]. subst. destruct (Z.eqb_spec k m); [lia|].
        rewrite uget_none_lt; [reflexivity|]. eapply Forall_impl; [|exact S2]. cbn. lia.
    + split.
      * constructor; [exact I1|]. apply Forall_forall. intros m Hm. apply umap_add_keys in Hm. destruct Hm as [->|Hm]; [lia|].
        rewrite Forall_forall in S2. auto.
      * intros m. rewrite I2. destruct (Z.eqb_spec k m), (Z.eqb_spec m n); subst; try lia; try reflexivity.
        destruct (Z.eqb_spec k n); [lia|reflexivity].
Qed.

Definition app_opt (a b : option bytes) : option bytes :=
  match b with None => a | Some y => Some (match a with Some x => x ++ y | None => y end) end.

Lemma merge_umap_spec u : forall w, usorted w -> usorted u -> usorted (merge_unk UMap w u) /\
  forall m, uget m (merge_unk UMap w u) = app_opt (uget m w) (uget m u).
Proof.
  cbn [merge_unk]. unfold usorted at 2. induction u as [|[n b] u IH]; intros w Sw Su; [cbn; auto|].
  cbn [map fst] in Su. inversion Su as [|? ? S1 S2]; subst. cbn [fold_left fst snd]. destruct (umap_add_spec n b w Sw) as [A B].
  destruct (IH _ A S1) as [A' B']. split; [exact A'|]. intros m. rewrite B', B. cbn [uget]. rewrite (Z.eqb_sym m n).
  destruct (Z.eqb_spec n m); [|reflexivity]. subst m. rewrite (uget_none_lt n u S2). cbn [app_opt]. reflexivity.
Qed.

Lemma merge_umap_nil u : usorted u -> merge_unk UMap [] u = u.
Proof.
  intros Hs. destruct (merge_umap_spec u []) as [A B]; [constructor|exact Hs|]. apply usorted_ext; auto.
  intros m. rewrite B. cbn. destruct (uget m u); reflexivity.
Qed.
Lemma merge_umap_assoc a b c : usorted a -> usorted b -> usorted c -> merge_unk UMap (merge_unk UMap a b) c = merge_unk UMap a (merge_unk UMap b c).
Proof.
  intros Sa Sb Sc. destruct (merge_umap_spec b a) as [A1 B1]; auto. destruct (merge_umap_spec c b) as [A2 B2]; auto.
  destruct (merge_umap_spec c (merge_unk UMap a b)) as [A3 B3]; auto. destruct (merge_umap_spec (merge_unk UMap b c) a) as [A4 B4]; auto.
  apply usorted_ext; auto. intros m. rewrite B3, B4, B1, B2. destruct (uget m a), (uget m b), (uget m c); cbn; rewrite ?app_assoc; reflexivity.
Qed.
