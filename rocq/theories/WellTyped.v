(** Well-formed message values: what the members of a generated struct can hold. *)
From Coq Require Import Sorted.
Require Import Verif.Bits Verif.Varint Verif.Schema Verif.Archive Verif.Decode Verif.DecodeSafe.

(** Members of the unknown field store: one byte string, a sorted map, or a
    list of pairs with distinct numbers. *)
Definition store_ok (k : ukind) (unk : list (Z * bytes)) : Prop :=
  match k with
  | UNone => unk = []
  | UBytes => (length unk <= 1)%nat /\ Forall (fun p => fst p = 0) unk
  | UMap => StronglySorted Z.lt (map fst unk)
  | UPairs => NoDup (map fst unk)
  end.

Definition key_lt (a b : val) : Prop := key_ltb a b = true.

(** A closed enum stored in a member without presence is not checked. *)
Definition loosen (ex : bool) (e : elem) : elem :=
  match e with EEnum (Some _) => if ex then e else EEnum None | _ => e end.

Inductive wt (E : env) (utf8_ok : bytes -> bool) : elem -> val -> Prop :=
| WTvar t z : in_vtype t z -> wt E utf8_ok (EVar t) (VInt z)
| WTbool z : z = 0 \/ z = 1 -> wt E utf8_ok EBool (VInt z)
| WTfix is64 fl z : 0 <= z < 2 ^ (8 * Z.of_nat (fix_size is64)) -> wt E utf8_ok (EFix is64 fl) (VInt z)
| WTenum c z : in_vtype VI32 z -> enum_valid c z = true -> wt E utf8_ok (EEnum c) (VInt z)
| WTbytes utf8 view b : all_bytes b -> (utf8 = true -> utf8_ok b = true) -> wt E utf8_ok (EBytes utf8 view) (VBytes b)
| WTmsg ty delim fs u : cells E utf8_ok (m_fields (desc_of E ty)) fs -> store_ok (m_unk (desc_of E ty)) u ->
    Forall (fun p => all_bytes (snd p)) u -> wt E utf8_ok (EMsg ty delim) (VMsg fs u)
with cells (E : env) (utf8_ok : bytes -> bool) : list field -> list (list val) -> Prop :=
| CSnil : cells E utf8_ok [] []
| CScons f fds c fs : cell E utf8_ok f c -> cells E utf8_ok fds fs -> cells E utf8_ok (f :: fds) (c :: fs)
with cell (E : env) (utf8_ok : bytes -> bool) : field -> list val -> Prop :=
| CLplain num e ex d v : wt E utf8_ok (loosen ex e) v -> cell E utf8_ok (Field num e (CPlain ex d)) [v]
| CLopt0 num e : cell E utf8_ok (Field num e COpt) []
| CLopt1 num e v : wt E utf8_ok e v -> cell E utf8_ok (Field num e COpt) [v]
| CLrep num e pk vs : elems E utf8_ok e vs -> cell E utf8_ok (Field num e (CRep pk)) vs
| CLmap num e assoc vs : elems E utf8_ok e vs -> (assoc = true -> StronglySorted key_lt (map entry_key vs)) ->
    cell E utf8_ok (Field num e (CMap assoc)) vs
| CLone0 alts : cell E utf8_ok (Oneof alts) []
| CLone1 alts j num e v : nth_error alts j = Some (num, e) -> wt E utf8_ok e v -> cell E utf8_ok (Oneof alts) [VAlt j v]
with elems (E : env) (utf8_ok : bytes -> bool) : elem -> list val -> Prop :=
| ELnil e : elems E utf8_ok e []
| ELcons e v vs : wt E utf8_ok e v -> elems E utf8_ok e vs -> elems E utf8_ok e (v :: vs).

Scheme wt_min := Minimality for wt Sort Prop
  with cells_min := Minimality for cells Sort Prop
  with cell_min := Minimality for cell Sort Prop
  with elems_min := Minimality for elems Sort Prop.
Combined Scheme wt_mutind from wt_min, cells_min, cell_min, elems_min.

(** [v] is a well-formed message of type [ty]. *)
Definition wt_msg (E : env) (utf8_ok : bytes -> bool) (ty : nat) (v : val) : Prop := wt E utf8_ok (EMsg ty false) v.

Definition scalar (e : elem) : bool := match e with EMsg _ _ => false | _ => true end.

(** Map members hold entry messages whose first member is a scalar key. *)
Definition map_shape (E : env) : Prop :=
  forall ty num e assoc, In (Field num e (CMap assoc)) (m_fields (desc_of E ty)) ->
  exists ty' n ek dk rest, e = EMsg ty' false /\ m_fields (desc_of E ty') = Field n ek (CPlain true dk) :: rest /\ scalar ek = true.

(** Default constructed messages are well-formed. *)
Definition wt_defaults (E : env) (utf8_ok : bytes -> bool) : Prop := forall ty, wt_msg E utf8_ok ty (default_msg E ty).

(** ** The key order *)
Definition is_key (v : val) : Prop := match v with VInt _ | VBytes _ => True | _ => False end.

Lemma bytes_ltb_irrefl a : bytes_ltb a a = false.
Proof. induction a as [|x a IH]; [reflexivity|]. cbn. rewrite Z.ltb_irrefl, Z.eqb_refl. exact IH. Qed.
Lemma bytes_ltb_trans a : forall b c, bytes_ltb a b = true -> bytes_ltb b c = true -> bytes_ltb a c = true.
Proof.
  induction a as [|x a IH]; intros [|y b] [|z c]; cbn; try congruence.
  destruct (Z.ltb_spec x y), (Z.ltb_spec y z), (Z.ltb_spec x z), (Z.eqb_spec x y), (Z.eqb_spec y z), (Z.eqb_spec x z); try lia; try congruence; eauto.
Qed.
Lemma bytes_ltb_eq a : forall b, bytes_ltb a b = false -> bytes_ltb b a = false -> a = b.
Proof.
  induction a as [|x a IH]; intros [|y b]; cbn; try congruence.
  destruct (Z.ltb_spec x y), (Z.ltb_spec y x), (Z.eqb_spec x y), (Z.eqb_spec y x); try lia; try congruence.
  intros H3 H4. subst. f_equal. auto.
Qed.

Lemma key_irrefl a : key_ltb a a = false.
Proof. destruct a; cbn; auto using Z.ltb_irrefl, bytes_ltb_irrefl. Qed.
Lemma key_trans a b c : key_lt a b -> key_lt b c -> key_lt a c.
Proof.
  unfold key_lt. destruct a, b, c; cbn; try congruence; [|apply bytes_ltb_trans]. rewrite !Z.ltb_lt. lia.
Qed.
Lemma key_eq a b : is_key a -> is_key b -> key_ltb a b = false -> key_ltb b a = false -> a = b.
Proof.
  destruct a, b; cbn; try contradiction; try congruence; intros _ _ H1 H2.
  - apply Z.ltb_ge in H1, H2. f_equal. lia.
  - f_equal. apply bytes_ltb_eq; auto.
Qed.

(** ** [map_put] is insert-or-assign *)
Lemma map_put_in e l x : In x (map_put e l) -> x = e \/ In x l.
Proof.
  induction l as [|h t IH]; cbn; [intros [->|[]]; auto|]. destruct (key_ltb (entry_key h) _); [|destruct (key_ltb _ _)]; cbn; intuition.
Qed.

Lemma map_put_sorted e l : is_key (entry_key e) -> Forall (fun x => is_key (entry_key x)) l ->
  StronglySorted key_lt (map entry_key l) -> StronglySorted key_lt (map entry_key (map_put e l)).
Proof.
  intros He. induction l as [|h t IH]; intros Hk Hs; [cbn; repeat constructor|]. cbn [map_put].
  inversion Hk as [|? ? Hh Ht]; subst. cbn [map] in Hs. inversion Hs as [|? ? Hst Hall]; subst.
  destruct (key_ltb (entry_key h) (entry_key e)) eqn:K1; [|destruct (key_ltb (entry_key e) (entry_key h)) eqn:K2]; cbn [map].
  - constructor; [auto|]. apply Forall_forall. intros k Hin. apply in_map_iff in Hin. destruct Hin as (x & <- & Hx).
    apply map_put_in in Hx. destruct Hx as [->|Hx]; [exact K1|]. rewrite Forall_forall in Hall. apply Hall. apply in_map. exact Hx.
  - constructor; [exact Hs|]. constructor; [exact K2|]. eapply Forall_impl; [|exact Hall]. intros k Hk'. eapply key_trans; eauto.
  - rewrite (key_eq _ _ Hh He K1 K2) in *. constructor; auto.
Qed.

(** Lookup by key. *)
Fixpoint map_get (k : val) (l : list val) : option val :=
  match l with
  | [] => None
  | h :: t => if key_ltb k (entry_key h) || key_ltb (entry_key h) k then map_get k t else Some h
  end.

Lemma map_get_put e l k : is_key k -> is_key (entry_key e) -> Forall (fun x => is_key (entry_key x)) l ->
  StronglySorted key_lt (map entry_key l) ->
  map_get k (map_put e l) = if key_ltb k (entry_key e) || key_ltb (entry_key e) k then map_get k l else Some e.
Proof.
  intros Hk He. induction l as [|h t IH]; intros Hl Hs; [reflexivity|]. cbn [map_put].
  inversion Hl as [|? ? Hh Ht]; subst. cbn [map] in Hs. inversion Hs as [|? ? Hst Hall]; subst.
  destruct (key_ltb (entry_key h) (entry_key e)) eqn:K1; [|destruct (key_ltb (entry_key e) (entry_key h)) eqn:K2]; cbn [map_get].
  - rewrite IH by auto. destruct (key_ltb k (entry_key h) || key_ltb (entry_key h) k) eqn:Kh; [reflexivity|].
    apply orb_false_iff in Kh. destruct Kh as [A B]. rewrite (key_eq _ _ Hk Hh A B). rewrite K1. reflexivity.
  - reflexivity.
  - rewrite (key_eq _ _ Hh He K1 K2). destruct (_ || _); reflexivity.
Qed.

Definition put_all (es : list val) (l : list val) : list val := fold_left (fun l e => map_put e l) es l.

(** The last element of [es] with key [k]. *)
Definition last_with (k : val) (es : list val) : option val :=
  fold_left (fun o e => if key_ltb k (entry_key e) || key_ltb (entry_key e) k then o else Some e) es None.

Lemma put_all_spec es : Forall (fun x => is_key (entry_key x)) es -> forall l, Forall (fun x => is_key (entry_key x)) l ->
  StronglySorted key_lt (map entry_key l) ->
  Forall (fun x => is_key (entry_key x)) (put_all es l) /\ StronglySorted key_lt (map entry_key (put_all es l)) /\
  forall k, is_key k -> map_get k (put_all es l) = match last_with k es with Some e => Some e | None => map_get k l end.
Proof.
  induction 1 as [|e es He Hes IH]; intros l Hl Hs; [split; [exact Hl|split; [exact Hs|reflexivity]]|].
  cbn [put_all fold_left]. fold (put_all es (map_put e l)).
  assert (Hl' : Forall (fun x => is_key (entry_key x)) (map_put e l)).
  { apply Forall_forall. intros x Hx. apply map_put_in in Hx. destruct Hx as [->|Hx]; [exact He|]. rewrite Forall_forall in Hl. auto. }
  destruct (IH _ Hl' (map_put_sorted e l He Hl Hs)) as (A & B & C). split; [exact A|]. split; [exact B|].
  intros k Hk. rewrite (C k Hk), map_get_put by auto. unfold last_with at 2. cbn [fold_left].
  assert (G : forall es o, fold_left (fun o e => if key_ltb k (entry_key e) || key_ltb (entry_key e) k then o else Some e) es o =
    match last_with k es with Some e => Some e | None => o end).
  { clear. intros es. induction es as [|x t IH]; intros o; [reflexivity|]. unfold last_with. cbn [fold_left]. rewrite !IH.
    destruct (_ || _); destruct (last_with k t); reflexivity. }
  rewrite G. destruct (last_with k es); [reflexivity|]. destruct (_ || _); reflexivity.
Qed.

(** ** Members by position *)
Section Cells.
  Context (E : env) (utf8_ok : bytes -> bool).
  Notation cells := (cells E utf8_ok).
  Notation cell := (cell E utf8_ok).

  Lemma cells_nth fds fs : cells fds fs -> forall i f, nth_error fds i = Some f -> cell f (nth i fs []).
  Proof.
    induction 1 as [|f fds c fs Hc Hcs IH]; intros [|i] g H; cbn in H; try discriminate; cbn.
    - injection H as <-. exact Hc.
    - auto.
  Qed.
  Lemma cells_set fds fs : cells fds fs -> forall i f c, nth_error fds i = Some f -> cell f c -> cells fds (set_nth i c fs).
  Proof.
    induction 1 as [|f fds c0 fs Hc Hcs IH]; intros [|i] g c H Hg; cbn in H; try discriminate; cbn.
    - injection H as <-. constructor; auto.
    - constructor; eauto.
  Qed.
  Lemma cells_length fds fs : cells fds fs -> length fs = length fds.
  Proof. induction 1; cbn; auto. Qed.
  Lemma elems_forall e vs : elems E utf8_ok e vs <-> Forall (wt E utf8_ok e) vs.
  Proof.
    split; [induction vs; intros H; inversion H; subst; constructor; auto|].
    induction 1; constructor; auto.
  Qed.
  Lemma wt_delim ty d d' v : wt E utf8_ok (EMsg ty d) v -> wt E utf8_ok (EMsg ty d') v.
  Proof. intros H. inversion H; subst. constructor; auto. Qed.
  Lemma wt_key e v : scalar e = true -> wt E utf8_ok e v -> is_key v.
  Proof. intros He H. destruct H; cbn in *; try exact I; discriminate. Qed.
  Lemma map_keys num e assoc ty : map_shape E -> In (Field num e (CMap assoc)) (m_fields (desc_of E ty)) ->
    forall v, wt E utf8_ok e v -> is_key (entry_key v).
  Proof.
    intros Hm Hin v Hv. destruct (Hm _ _ _ _ Hin) as (ty' & n & ek & dk & rest & -> & Hf & Hs).
    inversion Hv as [| | | | |? ? fs u Hcs Hst Hb]; subst. rewrite Hf in Hcs. inversion Hcs as [|? ? c fs' Hc Hcs']; subst.
    inversion Hc; subst. cbn. match goal with H : wt _ _ (loosen true _) _ |- _ => rename H into Hw end.
    assert (scalar (loosen true ek) = true) by (destruct ek as [| | |[]| |]; auto).
    eapply wt_key; eauto.
  Qed.
End Cells.

Lemma find_field_nth n fds : forall k i f, find_field n fds k = Some (i, f) -> (k <= i)%nat /\ nth_error fds (i - k) = Some f /\ has_num n f = true.
Proof.
  induction fds as [|g t IH]; intros k i f H; [discriminate|]. cbn in H. destruct (has_num n g) eqn:K.
  - injection H as <- <-. rewrite Nat.sub_diag. auto.
  - apply IH in H. destruct H as (H1 & H2 & H3). split; [lia|]. replace (i - k)%nat with (S (i - S k)) by lia. auto.
Qed.
Lemma find_field_nth0 n fds i f : find_field n fds 0 = Some (i, f) -> nth_error fds i = Some f /\ has_num n f = true.
Proof. intros H. apply find_field_nth in H. rewrite Nat.sub_0_r in H. tauto. Qed.
Lemma find_alt_nth n alts : forall k i e, find_alt n alts k = Some (i, e) -> (k <= i)%nat /\ nth_error alts (i - k) = Some (n, e).
Proof.
  induction alts as [|[m a] t IH]; intros k i e H; [discriminate|]. cbn in H. destruct (Z.eqb_spec m n).
  - injection H as <- <-. subst. rewrite Nat.sub_diag. auto.
  - apply IH in H. destruct H as (H1 & H2). split; [lia|]. replace (i - k)%nat with (S (i - S k)) by lia. auto.
Qed.
