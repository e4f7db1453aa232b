(** The optional types behave as option values. *)
Require Import Verif.Bits Verif.Optional.

(** ** Specification: the same operations on option values *)
Section Spec.
  Context {T : Type} (zero : T).

  (** Position [i] of a list replaced. *)
  Definition replace {X} (i : nat) (x : X) (m : list X) : list X :=
    if (i <? length m)%nat then firstn i m ++ x :: skipn (S i) m else m.
  Definition at_reg (m : list (option T)) (i : nat) : option T := match nth_error m i with Some o => o | None => None end.

  Definition s_step (m : list (option T)) (p : oop) : list (option T) :=
    match p with
    | OReset i => replace i None m
    | OAssign i v => replace i (Some v) m
    | OEmplace i => replace i (Some zero) m
    | OStd i o => replace i o m
    | OCopy i j => replace i (at_reg m j) m
    | OMove i j v => replace i (at_reg m j) (replace j (option_map (fun _ => v) (at_reg m j)) m)
    | OSwap i j => replace i (at_reg m j) (replace j (at_reg m i) m)
    | OWrite i v => replace i (option_map (fun _ => v) (at_reg m i)) m
    end.
  Definition s_run (m : list (option T)) (ps : list oop) : list (option T) := fold_left s_step ps m.

  (** No assignment goes through the reference of an empty optional, and no move
      from an empty one changes the value it holds. *)
  Fixpoint clean (dflt : T) (m : list (option T)) (ps : list oop) : Prop :=
    match ps with
    | [] => True
    | p :: t =>
        match p with
        | OWrite i _ => at_reg m i <> None
        | OMove _ j v => at_reg m j <> None \/ v = dflt
        | _ => True
        end /\ clean dflt (s_step m p) t
    end.
End Spec.

Definition b_spec (d : bool) (p : bop) : oop :=
  match p with
  | BReset i => OReset i
  | BAssign i v => OAssign i v
  | BEmplace i => OAssign i d
  | BCopy i j => OCopy i j
  | BSwap i j => OSwap i j
  end.

(** The option an object stands for. *)
Definition as_option {T} (o : opt T) : option T := if o_has o then Some (o_get o) else None.
Definition as_option_bool (b : Z) : option bool := if b_has b then Some (b_get b) else None.

(** ** Proofs *)

Lemma put_replace {X} (x : X) : forall m i, put i x m = replace i x m.
Proof.
  induction m as [|h t IH]; intros [|i]; try reflexivity. unfold replace in *. cbn [put]. rewrite IH. cbn [length].
  change (S i <? S (length t))%nat with (i <? length t)%nat. destruct (i <? length t)%nat; reflexivity.
Qed.

Lemma map_put {X R} (f : X -> R) x : forall m i, map f (put i x m) = put i (f x) (map f m).
Proof. induction m as [|h t IH]; intros [|i]; cbn; try reflexivity. f_equal. apply IH. Qed.

Lemma reg_option {T} (d : T) m i : as_option (reg (o_empty d) m i) = at_reg (map as_option m) i.
Proof.
  unfold reg, at_reg. rewrite nth_error_map. revert i. induction m as [|h t IH]; intros [|i]; cbn; try reflexivity. apply IH.
Qed.

Lemma step_option {T} (d zero : T) m p : map as_option (o_step d zero m p) = s_step zero (map as_option m) p.
Proof.
  destruct p as [i|i v|i|i o|i j|i j v|i j|i v]; cbn [o_step s_step]; rewrite !map_put, !put_replace; try reflexivity.
  - f_equal. destruct o; reflexivity.
  - rewrite reg_option. reflexivity.
  - rewrite reg_option. f_equal. f_equal. rewrite <- (reg_option d). unfold as_option, o_has. cbn.
    destruct (o_present (reg (o_empty d) m j)); reflexivity.
  - rewrite !reg_option. reflexivity.
  - rewrite <- (reg_option d). f_equal. unfold as_option, o_has. cbn. destruct (o_present (reg (o_empty d) m i)); reflexivity.
Qed.

Theorem run_option {T} (d zero : T) ps : forall m, map as_option (o_run d zero m ps) = s_run zero (map as_option m) ps.
Proof.
  unfold o_run, s_run. induction ps as [|p t IH]; intros m; [reflexivity|]. cbn [fold_left]. rewrite IH, step_option. reflexivity.
Qed.

(** Empty objects hold the default value. *)
Definition tidy {T} (d : T) (o : opt T) : Prop := o_has o = false -> o_get o = d.

Lemma Forall_put {X} (P : X -> Prop) x : P x -> forall m i, Forall P m -> Forall P (put i x m).
Proof.
  intros Hx. induction m as [|h t IH]; intros i H; [destruct i; exact H|]. inversion H; subst.
  destruct i as [|i]; cbn [put]; constructor; auto.
Qed.

Lemma reg_tidy {T} (d : T) m i : Forall (tidy d) m -> tidy d (reg (o_empty d) m i).
Proof.
  intros H. unfold reg. destruct (nth_in_or_default i m (o_empty d)) as [K| ->].
  - rewrite Forall_forall in H. apply H. exact K.
  - intros _. reflexivity.
Qed.

Lemma absent {T} (o : opt T) : as_option o = None <-> o_has o = false.
Proof. unfold as_option. destruct (o_has o); split; congruence. Qed.

Theorem run_tidy {T} (d zero : T) ps : forall m, Forall (tidy d) m -> clean zero d (map as_option m) ps -> Forall (tidy d) (o_run d zero m ps).
Proof.
  induction ps as [|p t IH]; intros m H C; [exact H|]. destruct C as [C1 C2]. unfold o_run in *. cbn [fold_left]. apply IH.
  - assert (R : forall i, tidy d (reg (o_empty d) m i)) by (intros; apply reg_tidy; exact H).
    assert (T0 : tidy d (o_empty d)) by (intros _; reflexivity).
    assert (T1 : forall v, tidy d (o_of v)) by (intros v K; discriminate).
    destruct p as [i|i v|i|i o|i j|i j v|i j|i v]; cbn [o_step]; repeat apply Forall_put; auto.
    + destruct o; intros K; [discriminate|reflexivity].
    + intros K. rewrite <- reg_option with (d := d) in C1. destruct C1 as [C1|C1]; [|exact C1].
      exfalso. apply C1. apply absent. exact K.
    + intros K. exfalso. rewrite <- reg_option with (d := d) in C1. apply C1. apply absent. exact K.
  - rewrite step_option. exact C2.
Qed.

Definition option_eqb {T} (eqb : T -> T -> bool) (a b : option T) : bool :=
  match a, b with Some x, Some y => eqb x y | None, None => true | _, _ => false end.

Lemma eq_option {T} (d : T) eqb a b : eqb d d = true -> tidy d a -> tidy d b ->
  o_eqb eqb a b = option_eqb eqb (as_option a) (as_option b).
Proof.
  intros E Ha Hb. unfold o_eqb, as_option, tidy, o_has, o_get in *. destruct (o_present a), (o_present b); cbn [Bool.eqb option_eqb].
  - apply andb_true_r.
  - apply andb_false_r.
  - apply andb_false_r.
  - rewrite Ha, Hb by reflexivity. rewrite E. reflexivity.
Qed.

(** optional<bool> *)
Definition b_ok (d : bool) (b : Z) : Prop := b = 0 \/ b = 1 \/ b = b_empty d.

Lemma b_option_of d v : as_option_bool (b_of v) = Some v /\ b_ok d (b_of v).
Proof. destruct v; (split; [reflexivity|]); unfold b_ok, b_of; cbn; auto. Qed.

Lemma b_option_empty d : as_option_bool (b_empty d) = None /\ b_ok d (b_empty d).
Proof. split; [destruct d; reflexivity|]. right. right. reflexivity. Qed.

Lemma b_reg d m i : as_option_bool (reg (b_empty d) m i) = at_reg (map as_option_bool m) i.
Proof.
  unfold reg, at_reg. rewrite nth_error_map. revert i. induction m as [|h t IH]; intros [|i]; cbn; try reflexivity.
  - destruct d; reflexivity.
  - destruct d; reflexivity.
  - apply IH.
Qed.

Theorem run_bool d ps : forall m, map as_option_bool (b_run d m ps) = s_run false (map as_option_bool m) (map (b_spec d) ps).
Proof.
  unfold b_run, s_run. induction ps as [|p t IH]; intros m; [reflexivity|]. cbn [fold_left map]. rewrite IH. f_equal.
  destruct p as [i|i v|i|i j|i j]; cbn [b_step b_spec s_step]; rewrite !map_put, !put_replace.
  - f_equal. apply (b_option_empty d).
  - f_equal. apply (b_option_of d v).
  - f_equal. apply (b_option_of d d).
  - rewrite b_reg. reflexivity.
  - rewrite !b_reg. reflexivity.
Qed.

Lemma b_reg_ok d m i : Forall (b_ok d) m -> b_ok d (reg (b_empty d) m i).
Proof.
  intros H. unfold reg. destruct (nth_in_or_default i m (b_empty d)) as [K| ->].
  - rewrite Forall_forall in H. apply H. exact K.
  - apply (b_option_empty d).
Qed.

Theorem run_bool_ok d ps : forall m, Forall (b_ok d) m -> Forall (b_ok d) (b_run d m ps).
Proof.
  unfold b_run. induction ps as [|p t IH]; intros m H; [exact H|]. cbn [fold_left]. apply IH.
  assert (R : forall i, b_ok d (reg (b_empty d) m i)) by (intros; apply b_reg_ok; exact H).
  destruct p as [i|i v|i|i j|i j]; cbn [b_step]; repeat apply Forall_put; auto;
    first [apply (b_option_empty d) | apply (b_option_of d)].
Qed.

Lemma b_default d a : b_ok d a -> b_has a = false -> b_get a = d.
Proof. intros [-> |[-> | ->]] H; try discriminate H. destruct d; reflexivity. Qed.

Lemma b_eq_option d a b : b_ok d a -> b_ok d b -> b_eqb a b = option_eqb Bool.eqb (as_option_bool a) (as_option_bool b).
Proof. intros [-> |[-> | ->]] [-> |[-> | ->]]; destruct d; reflexivity. Qed.

Lemma b_byte d a : b_ok d a -> 0 <= a < 256.
Proof. intros [-> |[-> | ->]]; [lia|lia|destruct d; cbn; lia]. Qed.

Lemma observers {T} (o : opt T) d :
  (o_has o = true <-> exists v, as_option o = Some v) /\
  (forall v, as_option o = Some v -> o_get o = v) /\
  o_value_or o d = match as_option o with Some v => v | None => d end.
Proof.
  unfold as_option, o_has, o_get, o_value_or. destruct o as [x []]; cbn; (split; [|split; [|reflexivity]]).
  - split; [eauto|auto].
  - intros v [= ->]. reflexivity.
  - split; [discriminate|]. intros [v H]. discriminate.
  - discriminate.
Qed.

Lemma map_repeat {A B} (f : A -> B) x n : map f (repeat x n) = repeat (f x) n.
Proof. induction n as [|n IH]; [reflexivity|]. cbn. f_equal. exact IH. Qed.

Lemma run_default {T} (d zero : T) ps n o : clean zero d (repeat None n) ps -> In o (o_run d zero (repeat (o_empty d) n) ps) ->
  o_has o = false -> o_get o = d.
Proof.
  intros C H. pose proof (run_tidy d zero ps (repeat (o_empty d) n)) as K. rewrite map_repeat in K. specialize (fun H => K H C).
  assert (F : Forall (tidy d) (repeat (o_empty d) n)).
  { apply Forall_forall. intros x Hx. apply repeat_spec in Hx. subst. intros _. reflexivity. }
  specialize (K F). rewrite Forall_forall in K. exact (K o H).
Qed.

Lemma run_eq {T} (d zero : T) eqb ps n a b : eqb d d = true -> clean zero d (repeat None n) ps ->
  In a (o_run d zero (repeat (o_empty d) n) ps) -> In b (o_run d zero (repeat (o_empty d) n) ps) ->
  o_eqb eqb a b = option_eqb eqb (as_option a) (as_option b).
Proof. intros E C Ha Hb. apply (eq_option d); [exact E| |]; intros H; eapply run_default; eauto. Qed.

Lemma bool_facts d ps n a b : In a (b_run d (repeat (b_empty d) n) ps) -> In b (b_run d (repeat (b_empty d) n) ps) ->
  0 <= a < 256 /\ (b_has a = false -> b_get a = d) /\ b_eqb a b = option_eqb Bool.eqb (as_option_bool a) (as_option_bool b).
Proof.
  intros Ha Hb.
  assert (F : Forall (b_ok d) (b_run d (repeat (b_empty d) n) ps)).
  { apply run_bool_ok. apply Forall_forall. intros x Hx. apply repeat_spec in Hx. subst. apply (b_option_empty d). }
  rewrite Forall_forall in F. split; [apply (b_byte d); auto|]. split; [apply b_default; auto|apply (b_eq_option d); auto].
Qed.
