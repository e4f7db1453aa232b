(** Names of types in URLs; messages without Any. *)
Require Import Verif.Bits Verif.Varint Verif.CppText.
Require Import Verif.DynSlots Verif.Dyn Verif.Schema Verif.Archive Verif.Decode Verif.Encode Verif.DynWire Verif.DynDecode.
Require Import Verif.DynJson Verif.DynAny Verif.DynAny2.
Local Open Scope Z_scope.

Lemma contains_one c l : contains [c] l = true <-> In c l.
Proof.
  induction l as [|x l IH]; cbn [contains starts]; [split; [discriminate|contradiction]|]. cbn [In]. rewrite orb_true_iff, IH, andb_true_r, Z.eqb_eq. split; intros [H|H]; auto.
Qed.
Lemma no_slash u : ~ In 47 u -> after_slash u = None.
Proof. induction u as [|c u IH]; intros H; [reflexivity|]. cbn [after_slash]. rewrite IH by (intros K; apply H; right; exact K). destruct (c =? 47) eqn:E; [|reflexivity]. apply Z.eqb_eq in E. destruct H. left. exact E. Qed.
Lemma slash_name u n : after_slash u = Some n <-> n <> [] /\ ~ In 47 n /\ exists p, u = p ++ 47 :: n.
Proof.
  split.
  - induction u as [|c u IH]; [discriminate|]. cbn [after_slash]. destruct (after_slash u) as [n'|].
    + intros [= ->]. destruct (IH eq_refl) as (A & B & p & ->). split; [exact A|split; [exact B|]]. exists (c :: p). reflexivity.
    + destruct (c =? 47) eqn:E; [|discriminate]. cbn [andb]. apply Z.eqb_eq in E. subst c. destruct (contains [47] u) eqn:C; [discriminate|]. destruct u as [|x u]; [discriminate|]. intros [= <-]. split; [discriminate|split].
      * intros H. apply contains_one in H. congruence.
      * exists []. reflexivity.
  - intros (A & B & p & ->). induction p as [|c p IH]; cbn [app after_slash].
    + rewrite (no_slash _ B). cbn [Z.eqb Pos.eqb andb]. destruct (contains [47] n) eqn:C; [apply contains_one in C; contradiction|]. destruct n; [congruence|reflexivity].
    + rewrite IH. reflexivity.
Qed.

(** ** Messages without Any *)
Section Without.
  Context (W : list wtype) (J : list jtype) (utf8_ok : bytes -> bool) (le : bool) (maxd : Z) (fshow : bool -> Z -> bytes) (fparse : bool -> bytes -> option Z) (find_type : bytes -> option nat).
  (** Types of which no Any can be reached *)
  Definition any_free (P : nat -> Prop) : Prop :=
    forall ty, P ty -> known_of J ty <> KAny /\ forall f l t d, In (f, l) (w_fields (wty W ty)) -> w_elem f = EMsg t d -> P t.
  Context (P : nat -> Prop).
  Hypothesis HP : any_free P.

  Lemma jin ty jf f l : In (jf, (f, l)) (jfields W J ty) -> In (f, l) (w_fields (wty W ty)).
  Proof. apply in_combine_r. Qed.

  Section WExt.
    Context (w1 w2 : bool -> nat -> list slot -> res (list tok)).
    Hypothesis A : forall t, P t -> agree w1 w2 t.
    Lemma write_entry_ext q ty m : P ty -> write_entry W J le fshow w1 q ty m = write_entry W J le fshow w2 q ty m.
    Proof.
      intros H. unfold write_entry. destruct (unset_value W J ty m) as [b| | | |]; try reflexivity. cbn [bind]. destruct b; [reflexivity|].
      assert (K : forall fs first, (forall x, In x fs -> In x (jfields W J ty)) -> write_entry_fields W le fshow w1 q first fs m = write_entry_fields W le fshow w2 q first fs m); [|apply K; auto].
      induction fs as [|[jf [f l]] fs IH]; intros first Hs; [reflexivity|]. cbn [write_entry_fields].
      rewrite (write_field_ext W le fshow w1 w2 (q || first) jf f l) by (intros t d E; apply A; apply (proj2 (HP ty H) f l t d); [apply (jin ty jf), Hs; left; reflexivity|exact E]).
      rewrite !IH by (intros x Hx; apply Hs; right; exact Hx). reflexivity.
    Qed.
    Lemma write_ext q ty m : P ty -> write_body W J le fshow w1 q ty m = write_body W J le fshow w2 q ty m.
    Proof.
      intros H. destruct (w_entry (wty W ty)) eqn:En; [unfold write_body; rewrite En; apply write_entry_ext; exact H|].
      apply write_body_ext; [exact En|]. intros jf f l t d Hi E. apply A. apply (proj2 (HP ty H) f l t d); [apply (jin ty jf); exact Hi|exact E].
    Qed.
  End WExt.
  Lemma write_without n : forall d q ty m, P ty -> awrite_msg W J utf8_ok le maxd fshow find_type n d false false q ty m = write_msg W J le maxd fshow n d q ty m.
  Proof.
    induction n as [|n IH]; intros d q ty m H; [reflexivity|]. cbn [awrite_msg write_msg]. destruct (scope_ok maxd d); [|reflexivity].
    assert (E : write_body W J le fshow (awrite_msg W J utf8_ok le maxd fshow find_type n (d + 1) false false) q ty m = write_body W J le fshow (write_msg W J le maxd fshow n (d + 1)) q ty m) by (apply write_ext; [|exact H]; intros t Ht q0 m0; apply IH; exact Ht).
    rewrite <- E. unfold write_body. destruct (w_entry (wty W ty)) eqn:En; [reflexivity|]. cbn [andb]. pose proof (proj1 (HP ty H)) as K. destruct (known_of J ty); try reflexivity. contradiction.
  Qed.

  Section RExt.
    Context (r1 r2 : nat -> list slot -> list tok -> res (list slot * list tok)).
    Hypothesis A : forall t, P t -> forall m ts, r1 t m ts = r2 t m ts.
    Lemma repeated_ext {X} brace (f g : list tok -> res (X * list tok)) : (forall ts, f ts = g ts) -> forall ts, read_repeated brace f ts = read_repeated brace g ts.
    Proof.
      intros E ts. unfold read_repeated. destruct ts as [|t r]; [reflexivity|]. destruct (opens brace t); [|reflexivity]. destruct (number_of_elements brace r) as [k| | | |]; try reflexivity. cbn [bind].
      assert (K : forall k ts, read_elems f k ts = read_elems g k ts); [|rewrite K; reflexivity].
      clear - E. induction k as [|k IH]; intros ts; [reflexivity|]. cbn [read_elems]. rewrite E. destruct (g ts) as [[x r]| | | |]; try reflexivity. cbn [bind]. destruct k; [reflexivity|]. destruct r as [|[] r]; try reflexivity. rewrite IH. reflexivity.
    Qed.
    Lemma into_ext ty q jf f l s ts : P ty -> In (f, l) (w_fields (wty W ty)) -> read_into W utf8_ok fparse r1 q jf f l s ts = read_into W utf8_ok fparse r2 q jf f l s ts.
    Proof.
      intros H Hf. unfold read_into. destruct (w_elem f) as [| | | | |t d] eqn:E; try reflexivity. pose proof (proj2 (HP ty H) f l t d Hf E) as Ht. destruct (w_rep f).
      - destruct (value _ _ _); try reflexivity. rewrite (repeated_ext _ (r1 t (new_slots W t)) (r2 t (new_slots W t))) by (intros; apply A; exact Ht). reflexivity.
      - destruct (if has_value _ _ _ then _ else _) as [m| | | |]; try reflexivity. cbn [bind]. rewrite (A t Ht). reflexivity.
    Qed.
    Lemma at_ext ty x m ts : P ty -> In x (jfields W J ty) -> read_at W J utf8_ok fparse r1 x m ts = read_at W J utf8_ok fparse r2 x m ts.
    Proof.
      destruct x as [jf [f l]]. intros H Hx. apply jin in Hx. unfold read_at, read_field. destruct ts as [|[] r]; try reflexivity; rewrite (into_ext ty) by assumption; reflexivity.
    Qed.
    Lemma nth_ext i ty m ts : P ty -> read_nth W J utf8_ok fparse r1 i ty m ts = read_nth W J utf8_ok fparse r2 i ty m ts.
    Proof. intros H. unfold read_nth. destruct (nth_error _ _) eqn:E; [|reflexivity]. apply (at_ext ty); [exact H|]. apply (nth_error_In _ _ E). Qed.
    Lemma members_ext strict ty : P ty -> forall k first m ts, read_members W J utf8_ok fparse strict r1 k first ty m ts = read_members W J utf8_ok fparse strict r2 k first ty m ts.
    Proof.
      intros H. induction k as [|k IH]; intros first m ts; [reflexivity|]. cbn [read_members].
      assert (Step : forall ts1, (match ts1 with
          | Str key :: Colon :: r =>
              '(m1, r0) <- (match find_field W J ty key with Some x => read_at W J utf8_ok fparse r1 x m r | None => if strict then Err BadMessage else r0 <- skip_value r ;; Ok (m, r0) end) ;;
              read_members W J utf8_ok fparse strict r1 k false ty m1 r0
          | _ => Err BadMessage
          end) = (match ts1 with
          | Str key :: Colon :: r =>
              '(m1, r0) <- (match find_field W J ty key with Some x => read_at W J utf8_ok fparse r2 x m r | None => if strict then Err BadMessage else r0 <- skip_value r ;; Ok (m, r0) end) ;;
              read_members W J utf8_ok fparse strict r2 k false ty m1 r0
          | _ => Err BadMessage
          end)).
      { intros [|[] [|[] r]]; try reflexivity.
        assert (E : (match find_field W J ty b with Some x => read_at W J utf8_ok fparse r1 x m r | None => if strict then Err BadMessage else r0 <- skip_value r ;; Ok (m, r0) end) =
                    (match find_field W J ty b with Some x => read_at W J utf8_ok fparse r2 x m r | None => if strict then Err BadMessage else r0 <- skip_value r ;; Ok (m, r0) end)).
        { destruct (find_field W J ty b) as [x|] eqn:F; [|reflexivity]. apply (at_ext ty); [exact H|]. unfold find_field in F. destruct (find _ _) eqn:E; [injection F as <-; apply find_some in E; apply E|]. apply find_some in F. apply F. }
        rewrite E. clear E. match goal with |- bind ?X _ = _ => destruct X as [[m1 r0]| | | |] end; try reflexivity. cbn [bind]. apply IH. }
      destruct ts as [|t r]; [destruct first; reflexivity|]. destruct t; try reflexivity; destruct first; try reflexivity; cbn [bind]; [exact (Step r)|exact (Step (Str b :: r))].
    Qed.
    Lemma entry_ext ty m ts : P ty -> read_entry W J utf8_ok fparse r1 ty m ts = read_entry W J utf8_ok fparse r2 ty m ts.
    Proof.
      intros H. unfold read_entry. destruct (jfields W J ty) as [|[kj [kf kl]] [|[vj [vf vl]] tl]] eqn:E; try reflexivity. destruct (key_elem kj kf); [|reflexivity]. destruct (read_scalar _ _ _ _ _ _) as [[k r]| | | |]; try reflexivity. cbn [bind]. destruct r as [|[] r]; try reflexivity.
      assert (Hv : In (vf, vl) (w_fields (wty W ty))) by (apply (jin ty vj); rewrite E; right; left; reflexivity).
      unfold read_mapped. destruct r as [|[] r]; try reflexivity; rewrite (into_ext ty) by assumption; reflexivity.
    Qed.
    Lemma read_ext strict ty m ts : P ty -> read_body W J utf8_ok fparse strict r1 ty m ts = read_body W J utf8_ok fparse strict r2 ty m ts.
    Proof.
      intros H. unfold read_body. destruct (w_entry (wty W ty)); [apply entry_ext; exact H|]. destruct (known_of J ty); try reflexivity; try (apply nth_ext; exact H).
      - destruct ts as [|[] r]; try reflexivity. apply members_ext. exact H.
      - unfold read_value. destruct ts as [|[] r]; try reflexivity; apply nth_ext; exact H.
    Qed.
  End RExt.
  Lemma read_without strict n : forall d ty m ts, P ty -> aread_msg W J utf8_ok maxd fparse find_type strict n d false ty m ts = read_msg W J utf8_ok maxd fparse strict n d ty m ts.
  Proof.
    induction n as [|n IH]; intros d ty m ts H; [reflexivity|]. cbn [aread_msg read_msg]. destruct (scope_ok maxd d); [|reflexivity].
    assert (E : read_body W J utf8_ok fparse strict (aread_msg W J utf8_ok maxd fparse find_type strict n (d + 1) false) ty m ts = read_body W J utf8_ok fparse strict (read_msg W J utf8_ok maxd fparse strict n (d + 1)) ty m ts) by (apply read_ext; [|exact H]; intros t Ht m0 ts0; apply IH; exact Ht).
    rewrite <- E. pose proof (proj1 (HP ty H)) as K. destruct (w_entry (wty W ty)) eqn:En; [unfold read_body; rewrite En; reflexivity|]. destruct (known_of J ty) eqn:Kn; try reflexivity. contradiction.
  Qed.
  Lemma json_without n ty : P ty ->
    (forall m, awrite_json W J utf8_ok le maxd fshow find_type n ty m = write_json W J le maxd fshow n ty m) /\
    (forall strict m ts, aread_json W J utf8_ok maxd fparse find_type strict n ty m ts = read_json W J utf8_ok maxd fparse strict n ty m ts).
  Proof. intros H. split; [intros m; apply write_without; exact H|]. intros strict m ts. unfold aread_json, read_json. rewrite read_without by exact H. reflexivity. Qed.
End Without.
