(** Example schemas for the generator model. *)
Require Import List Arith ZArith Bool Lia Relations.
Require Import Verif.Archive Verif.Gen Verif.GenSpec Verif.GenBase Verif.GenDeps Verif.GenEmit Verif.GenCheck Verif.GenNames.
Import ListNotations.
Local Open Scope nat_scope.

(** ** Checks of headers *)

Definition in_fwd t (e : event) := match e with EFwd x => x =? t | _ => false end.
Definition in_scope t (e : event) := match e with EScope x => x =? t | _ => false end.
Definition in_def t (e : event) := match e with EDef x _ => x =? t | _ => false end.
Definition declaredb P pre m u : bool :=
  match u with
  | UMsg t _ => (t =? m) || negb (fileof P t =? fileof P m) || existsb (in_fwd t) pre || existsb (in_def t) pre
  | UEnum o => negb (fileof P o =? fileof P m) || existsb (in_scope o) pre
  end.
Fixpoint undeclared P pre es : bool :=
  match es with
  | [] => false
  | e :: r => match e with EDef m us => existsb (fun u => negb (declaredb P pre m u)) us | _ => false end || undeclared P (pre ++ [e]) r
  end.
Lemma declared_b P pre m u : declared P pre m u -> declaredb P pre m u = true.
Proof.
  destruct u as [t b|o]; cbn [declared declaredb].
  - intros [->|[H|[H|[us H]]]]; rewrite !orb_true_iff.
    + left; left; left. apply Nat.eqb_refl.
    + left; left; right. apply negb_true_iff, Nat.eqb_neq. exact H.
    + left; right. apply existsb_exists. exists (EFwd t). split; [exact H | apply Nat.eqb_refl].
    + right. apply existsb_exists. exists (EDef t us). split; [exact H | apply Nat.eqb_refl].
  - intros [H|H]; rewrite orb_true_iff.
    + left. apply negb_true_iff, Nat.eqb_neq. exact H.
    + right. apply existsb_exists. exists (EScope o). split; [exact H | apply Nat.eqb_refl].
Qed.
Lemma undeclared_found P es pre : undeclared P pre es = true -> ~ declared_before_use P (pre ++ es).
Proof.
  revert pre. induction es as [|e es IH]; intros pre; cbn [undeclared]; [discriminate|]. intros H. apply orb_prop in H as [H|H].
  - destruct e as [t|m|m us]; try discriminate. apply existsb_exists in H as [u [Hu H]]. intros D. specialize (D pre m us es u eq_refl Hu).
    apply declared_b in D. rewrite D in H. discriminate.
  - specialize (IH (pre ++ [e]) H). rewrite <- app_assoc in IH. exact IH.
Qed.

Definition is_value t (u : use) := match u with UMsg x true => x =? t | _ => false end.
Definition containsb (es : list event) m t : bool :=
  existsb (fun e => match e with EDef x us => (x =? m) && existsb (is_value t) us | _ => false end) es.
Lemma containsb_contains es m t : containsb es m t = true -> contains es m t.
Proof.
  intros H. apply existsb_exists in H as [e [He H]]. destruct e as [x|x|x us]; try discriminate. apply andb_prop in H as [H1 H2].
  apply Nat.eqb_eq in H1. subst x. apply existsb_exists in H2 as [u [Hu H2]]. destruct u as [y [|]|]; try discriminate. apply Nat.eqb_eq in H2. subst y.
  exists us. split; assumption.
Qed.
(** every message of the list contains the next one, and the last the first *)
Fixpoint chain (es : list event) (a : nat) (l : list nat) (z : nat) : bool :=
  match l with [] => containsb es a z | b :: r => containsb es a b && chain es b r z end.
Lemma chain_path es l : forall a z, chain es a l z = true -> clos_trans nat (contains es) a z.
Proof.
  induction l as [|b l IH]; intros a z; cbn [chain]; intros H; [apply t_step, containsb_contains; exact H|].
  apply andb_prop in H as [H1 H2]. eapply t_trans; [apply t_step, containsb_contains; exact H1 | apply IH; exact H2].
Qed.
Lemma chain_infinite es a l : chain es a l a = true -> ~ finite_layout es.
Proof. intros H F. exact (F a (chain_path es l a a H)). Qed.

(** ** Schemas *)

Definition M p := mkM 0 p false.
Definition Entry p := mkM 0 p true.
Definition One m t := mkF (Some m) false (TMsg t) false None.
Definition Many m t := mkF (Some m) false (TMsg t) true None.
Definition Alt k m t := mkF (Some m) false (TMsg t) false (Some k).
Definition Scalar m := mkF (Some m) false TScalar false None.
Definition AltScalar k m := mkF (Some m) false TScalar false (Some k).
Definition Enum m o := mkF (Some m) false (TEnum (Some o)) false None.

(** message Order { message Line { Line next; Item item; }  Line first; repeated Item items;
      map<string, Item> by_name; Item.Kind kind; }
    message Item { enum Kind {...} } *)
Definition orders := mkPool [M [1]; M [1; 1]; Entry [1; 2]; M [2]]
  [One 1 1; One 1 3; One 0 1; Many 0 3; Many 0 2; Scalar 2; One 2 3; Enum 0 3].

(** google/protobuf/struct.proto: Struct { map<string, Value> fields }, Value { oneof kind { ..., Struct, ListValue } },
    ListValue { repeated Value values } *)
Definition structs := mkPool [M [1]; Entry [1; 1]; M [2]; M [3]]
  [Many 0 1; Scalar 1; One 1 2; AltScalar 0 2; Alt 0 2 0; Alt 0 2 3; Many 3 2].

(** message A { B b; }  message B { A a; C c; }  message C { message D { D d; } D d; A a; } *)
Definition rings := mkPool [M [1]; M [2]; M [3]; M [3; 4]]
  [One 0 1; One 1 0; One 1 2; One 3 3; One 2 3; One 2 0].

(** message A { B b; }  message B { A a; }  message C { map<string, A> by_name; } (hpp_generator.cpp:618-621) *)
Definition by_names := mkPool [M [1]; M [2]; M [3]; Entry [3; 1]] [One 0 1; One 1 0; Many 2 3; Scalar 3; One 3 0].

(** message A { B b; }  message B { A a; }  extend X { A ext; } *)
Definition extended := mkPool [M [1]; M [2]] [One 0 1; One 1 0; mkF None true (TMsg 0) false None].

(** message A { message N { B b; }  message M { } }  message B { A.M m; } *)
Definition crossing := mkPool [M [1]; M [1; 1]; M [1; 2]; M [2]] [One 1 3; One 3 2].

(** message A { message N { A a; }  N n; } *)
Definition outward := mkPool [M [1]; M [1; 1]] [One 0 1; One 1 0].

(** message Node { repeated Node children; Info info; }  message Info { Node root; } *)
Definition trees := mkPool [M [1]; M [2]] [Many 0 0; One 0 1; One 1 0].

(** message A { enum Kind {...} B b; }  message B { A a; }  message Z { A.Kind kind; } *)
Definition kinds := mkPool [M [1]; M [2]; M [3]] [One 0 1; One 1 0; Enum 2 0].

(** message Leaf { Node node; }  message Node { repeated Leaf leaves; Info info; }  message Info { Node node; } *)
Definition leaves := mkPool [M [1]; M [2]; M [3]] [One 0 1; Many 1 0; One 1 2; One 2 1].

(** message Node { optional Node next; }, where proto3 makes a oneof of its own for the field *)
Definition optional_self := mkPool [M [1]] [Alt 0 0 0].

(** message Expr { oneof kind { int64 value; Expr negated; } } *)
Definition oneof_self := mkPool [M [1]] [AltScalar 0 0; Alt 0 0 0].

(** message A { message N { B b; }  N n; }  message B { message K { A a; }  K k; } *)
Definition nested_pair := mkPool [M [1]; M [1; 3]; M [2]; M [2; 4]] [One 1 2; One 0 1; One 3 0; One 2 3].

(** ** What is generated *)

Definition got (P : pool) (es : list event) := generate P 0 = Ok es.

Definition header (P : pool) : list event := match generate P 0 with Ok es => es | _ => [] end.
Lemma header_ok P e : generate P 0 = Ok e -> header P = e.
Proof. unfold header. intros ->. reflexivity. Qed.

Lemma no_oneofs_checked P : forallb (fun f => match f_oneof (fget P f) with None => true | _ => false end) (seq 0 (nflds P)) = true ->
  forall f, f < nflds P -> f_oneof (fget P f) = None.
Proof. intros H f Hf. apply fs_all with (i := f) in H; [|exact Hf]. destruct (f_oneof (fget P f)); [discriminate | reflexivity]. Qed.

(** ** Names *)
Ltac comp := split; [discriminate | cbn; intros H; repeat (destruct H as [H|H]; [discriminate|]); exact H].
Lemma pk_ab_c : Forall component ([[112; 107]] ++ [[65; 98]; [67]])%Z.
Proof. cbn [app]. constructor; [comp|]. constructor; [comp|]. constructor; [comp|]. constructor. Qed.
Lemma pk_abc : Forall component ([[112; 107]] ++ [[65; 98; 99]])%Z.
Proof. cbn [app]. constructor; [comp|]. constructor; [comp|]. constructor. Qed.
Lemma unary : spelling (fun i => repeat 97%Z (S i)).
Proof.
  split.
  - intros i. split; [discriminate|]. intros H. apply repeat_spec in H. discriminate.
  - intros i j H. apply (f_equal (@length Z)) in H. rewrite !repeat_length in H. lia.
Qed.
