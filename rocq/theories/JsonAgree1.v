(** Scalars and lists are written the same by dynamic and generated messages. *)
Require Import Verif.Bits Verif.Varint.
Require Import Verif.DynSlots Verif.Dyn Verif.Schema Verif.Archive Verif.Decode Verif.Encode Verif.DynWire Verif.DynView Verif.DynEncode1 Verif.DynJson Verif.DynJsonSpec Verif.DynJson1 Verif.DynJson2 Verif.GenJson Verif.JsonAgreeSpec.

(** Dynamic messages have a limit on the nesting. *)
Definition agree {A} (a b : res A) : Prop := a = b \/ a = Err TooLarge.
Lemma agree_refl {A} (a : res A) : agree a a.
Proof. left. reflexivity. Qed.
Lemma agree_bind {A B} (a b : res A) (f g : A -> res B) : agree a b -> (forall x, a = Ok x -> agree (f x) (g x)) -> agree (bind a f) (bind b g).
Proof. intros [ <- | -> ] H; [|right; reflexivity]. destruct a; cbn; try (left; reflexivity). apply H. reflexivity. Qed.

Section Scalars.
  Context (le : bool) (fshow : bool -> Z -> bytes).
  Notation write_scalar := (write_scalar le fshow).
  Notation gwrite_scalar := (gwrite_scalar le fshow).
  Lemma name_found vs z n : ~ In [] (map fst vs) -> In (n, z) vs -> name_of vs z <> [].
  Proof.
    intros H Hn. unfold name_of. match goal with |- match ?x with _ => _ end <> _ => destruct x as [[a b]|] eqn:F end.
    - apply find_some in F. destruct F as [F _]. cbn. intros ->. apply H. apply (in_map fst _ _ F).
    - exfalso. pose proof (find_none _ _ F _ Hn) as N. cbn in N. lia.
  Qed.
  (** [q]: what the generated code passes. *)
  Lemma scalar_same q jf e v : ~ In [] (map fst (j_values jf)) -> fits e v -> scalar_common jf e v -> q = wide jf e -> write_scalar false jf e v = gwrite_scalar q jf e v.
  Proof.
    intros Hn Hf Hc ->. unfold DynJson.write_scalar, GenJson.gwrite_scalar. destruct e as [t| |b fl|c|u w|ty d]; destruct v as [z|b0|fs u0|i v]; try reflexivity; cbn [orb].
    cbn in Hc. destruct (j_null jf) eqn:N; [reflexivity|]. destruct (name_of (j_values jf) z) eqn:Nm; [|reflexivity].
    destruct Hc as [Hc|[[n Hc]|Hc]]; [discriminate|exfalso; exact (name_found _ _ _ Hn Hc Nm)|]. cbn in Hf. rewrite wrapU_id; [reflexivity|]. unfold fits_s, fits_u in *. lia.
  Qed.
  Lemma key_same jf f v : key_elem jf f = true -> fits (w_elem f) v -> bind (write_scalar true jf (w_elem f) v) (fun x => Ok (quote f x)) = gwrite_scalar true jf (w_elem f) v.
  Proof.
    unfold key_elem, quote, DynJson.write_scalar, GenJson.gwrite_scalar. intros K Hf. destruct (w_rep f); [destruct (w_elem f); discriminate K|].
    destruct (w_elem f) as [t| |b fl|c|u w|ty d]; destruct v as [z|b0|fs u0|i v]; cbn in Hf; try contradiction; try reflexivity; cbn [orb bind] in *; try discriminate K.
    - destruct (z =? 0); reflexivity.
    - rewrite K. reflexivity.
  Qed.
  Lemma scalars_same rec jf e vs : match e with EMsg _ _ => False | _ => True end -> ~ In [] (map fst (j_values jf)) -> Forall (fits e) vs -> Forall (scalar_common jf e) vs ->
    write_scalars le fshow false jf e vs = gwrite_elems le fshow rec (wide jf e) jf e vs.
  Proof.
    intros He Hn. induction vs as [|v vs IH]; intros Hf Hc; [reflexivity|]. cbn [write_scalars gwrite_elems]. inversion Hf; inversion Hc; subst.
    rewrite (scalar_same (wide jf e)) by auto. unfold gwrite_elem. rewrite IH by assumption. destruct e; try contradiction; reflexivity.
  Qed.
  Lemma scalar_nonempty q jf e v x : write_scalar q jf e v = Ok x -> x <> [].
  Proof.
    unfold DynJson.write_scalar. intros H. destruct e; destruct v; try discriminate H;
    repeat (match goal with H : context[match ?x with _ => _ end] |- _ => destruct x; try discriminate H end); injection H as <-; discriminate.
  Qed.
End Scalars.
