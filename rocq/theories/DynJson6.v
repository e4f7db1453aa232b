(** Reading the tokens of a JSON value does what the value stands for. *)
Require Import Verif.Bits Verif.Varint Verif.Base64 Verif.Timestamp Verif.Duration.
Require Import Verif.DynSlots Verif.Dyn Verif.Schema Verif.Archive Verif.Decode Verif.Encode Verif.DynWire Verif.DynDecode Verif.DynJson Verif.DynJsonSpec Verif.DynJsonTree Verif.DynJson1 Verif.DynJson2.

Section Tree.
  Context (W : list wtype) (J : list jtype) (utf8_ok : bytes -> bool) (maxd : Z) (fparse : bool -> bytes -> option Z) (strict : bool).
  Definition leaving {T} (r : list tok) (x : res T) : res (T * list tok) := v <- x ;; Ok (v, r).

  Lemma tree_scalar key jf e j r : (forall ty d, e <> EMsg ty d) -> read_scalar utf8_ok fparse key jf e (render j ++ r) = leaving r (or_bad (scalar_of utf8_ok fparse key jf e j)).
  Proof.
    intros N. destruct e as [vk| |b f|c|u v|ty d]; [| | | | |destruct (N ty d eq_refl)].
    - unfold read_scalar, scalar_of. destruct j as [t|t|[]| |l|l]; cbn [render app]; destruct (key || wide jf (EVar vk)); try reflexivity; destruct (number_value fparse jf (EVar vk) t); reflexivity.
    - unfold read_scalar, scalar_of. destruct j as [t|t|[]| |l|l]; cbn [render app]; destruct key; try reflexivity. destruct (eqb_bytes t true_text); [reflexivity|]. destruct (eqb_bytes t false_text); reflexivity.
    - unfold read_scalar, scalar_of. destruct j as [t|t|[]| |l|l]; cbn [render app]; destruct (key || wide jf (EFix b f)); try reflexivity; destruct (number_value fparse jf (EFix b f) t); reflexivity.
    - unfold read_scalar, scalar_of. destruct j as [t|t|[]| |l|l]; cbn [render app]; try reflexivity; [destruct (value_of (j_values jf) t)|destruct (number_value fparse jf (EVar VI32) t)]; reflexivity.
    - unfold read_scalar, scalar_of. destruct j as [t|t|[]| |l|l]; cbn [render app]; try reflexivity. destruct (j_string jf); [destruct (utf8_ok t)|destruct (b64_decode t)]; reflexivity.
  Qed.

  (** Lists of elements *)
  Lemma tree_elems {A B} (one : list tok -> res (B * list tok)) (f : A -> res B) (show : A -> list tok) xs :
    (forall a r, one (show a ++ r) = leaving r (f a)) -> forall r, read_elems one (length xs) (commas (map show xs) ++ r) = leaving r (each f xs).
  Proof.
    intros H. induction xs as [|a [|b t] IH]; intros r; [reflexivity| |].
    - cbn [length map commas read_elems each]. rewrite H. unfold leaving. destruct (f a); reflexivity.
    - change (length (a :: b :: t)) with (S (length (b :: t))). cbn [map]. rewrite commas_cons, <- app_assoc. change (map show (b :: t)) with (map show (b :: t)) in IH. cbn [read_elems each]. rewrite H. unfold leaving at 1. destruct (f a) as [x| | | |]; try reflexivity. cbn [bind length app].
      change (S (length t)) with (length (b :: t)). cbn [map] in IH. rewrite IH. cbn [each]. destruct (f b); try reflexivity. cbn [bind leaving]. destruct (each f t); reflexivity.
  Qed.
  Lemma tree_repeated {A B} brace (one : list tok -> res (B * list tok)) (f : A -> res B) (show : A -> list tok) xs :
    (forall a, item brace (show a)) -> (forall a r, one (show a ++ r) = leaving r (f a)) ->
    forall r, read_repeated brace one (opening brace :: commas (map show xs) ++ closing brace :: r) = leaving r (each f xs).
  Proof.
    intros Hi H r. unfold read_repeated. replace (opens brace (opening brace)) with true by (destruct brace; reflexivity). rewrite number_items by (apply Forall_map; apply Forall_forall; auto). cbn [bind]. rewrite map_length, (tree_elems one f show xs H). unfold leaving. destruct (each f xs); try reflexivity. cbn [bind].
    replace (closes brace (closing brace)) with true by (destruct brace; reflexivity). reflexivity.
  Qed.
  Lemma tree_array {B} (one : list tok -> res (B * list tok)) (f : json -> res B) j r : (forall a r, one (render a ++ r) = leaving r (f a)) ->
    read_repeated false one (render j ++ r) = leaving r (match j with JArr js => each f js | _ => Err BadMessage end).
  Proof.
    intros H. destruct j as [t|t|[]| |l|l]; try reflexivity. cbn [render app]. rewrite <- commas_separated, <- app_assoc. apply (tree_repeated false one f render l); [intros a; exists a; reflexivity|exact H].
  Qed.
  Lemma tree_object {B} (one : list tok -> res (B * list tok)) (f : bytes * json -> res B) j r : (forall a r, one (member a ++ r) = leaving r (f a)) ->
    read_repeated true one (render j ++ r) = leaving r (match j with JObj js => each f js | _ => Err BadMessage end).
  Proof.
    intros H. destruct j as [t|t|[]| |l|l]; try reflexivity. cbn [render app]. rewrite <- commas_separated, <- app_assoc. apply (tree_repeated true one f member l); [intros a; exists a; reflexivity|exact H].
  Qed.
  Lemma tree_skip j r : skip_value (render j ++ r) = Ok r.
  Proof.
    destruct j as [t|t|[]| |l|l]; try reflexivity; cbn [render app skip_value]; rewrite <- commas_separated, <- app_assoc.
    - rewrite (inert_elements (fun ts => skip_closed false O ts)); [reflexivity| |intros; reflexivity]. intros. apply skip_inert.
    - rewrite (inert_members (fun ts => skip_closed true O ts)); [reflexivity| | | |]; intros; try reflexivity. apply skip_inert.
  Qed.
  Lemma render_null j r : (j = JNull /\ render j ++ r = TNull :: r) \/ (j <> JNull /\ forall x, render j ++ r <> TNull :: x).
  Proof. destruct j as [t|t|[]| |l|l]; cbn [render app]; try (right; split; [discriminate|intros; discriminate]). left. auto. Qed.

  Section Level.
    Context (sub : nat -> list slot -> json -> res (list slot)) (pair : nat -> list slot -> bytes * json -> res (list slot)) (rec : nat -> list slot -> list tok -> res (list slot * list tok)).
    Hypothesis Hsub : forall ty m j r, w_entry (wty W ty) = false -> rec ty m (render j ++ r) = leaving r (sub ty m j).
    Hypothesis Hpair : forall ty m p r, w_entry (wty W ty) = true -> rec ty m (member p ++ r) = leaving r (pair ty m p).
    (** A singular field is not of the type of map entries. *)
    Definition no_entry (f : wfield) : Prop := forall ty d, w_elem f = EMsg ty d -> w_rep f = None -> w_entry (wty W ty) = false.

    Lemma tree_assign jf f l s j r : no_entry f -> read_into W utf8_ok fparse rec false jf f l s (render j ++ r) = leaving r (assign W utf8_ok fparse sub pair jf f l s j).
    Proof.
      intros Ne. assert (C : not_message f \/ exists ty d, w_elem f = EMsg ty d) by (unfold not_message; destruct (w_elem f); eauto). destruct C as [N|(ty & d & E)].
      - assert (Nm : forall ty d, w_elem f <> EMsg ty d) by (intros ty d E; unfold not_message in N; rewrite E in N; contradiction).
        assert (A : assign W utf8_ok fparse sub pair jf f l s j =
          match w_rep f with
          | None => v <- or_bad (scalar_of utf8_ok fparse false jf (w_elem f) j) ;; Ok (l_ordinal l, content_of v)
          | Some _ => vs <- several f l s ;; ws <- (match j with JArr js => each (fun x => or_bad (scalar_of utf8_ok fparse false jf (w_elem f) x)) js | _ => Err BadMessage end) ;; Ok (elems_slot (w_elem f) (vs ++ ws))
          end) by (unfold assign, not_message in *; destruct (w_elem f), (w_rep f); try contradiction; reflexivity).
        rewrite A. rewrite read_plain by exact N. destruct (w_rep f).
        + destruct (several f l s) as [vs| | | |]; try reflexivity. cbn [bind]. rewrite (tree_array _ (fun x => or_bad (scalar_of utf8_ok fparse false jf (w_elem f) x))) by (intros a r0; apply tree_scalar; exact Nm).
          unfold leaving. match goal with |- context [bind ?x (fun v => Ok (v, r))] => destruct x end; reflexivity.
        + rewrite tree_scalar by exact Nm. unfold leaving. destruct (or_bad _); reflexivity.
      - unfold read_into, assign. rewrite E. destruct (w_rep f) eqn:Rf.
        + destruct (value (dyn_of f) l s); try reflexivity. destruct (w_entry (wty W ty)) eqn:En.
          * rewrite (tree_object _ (pair ty (new_slots W ty))) by (intros a r0; apply Hpair; exact En). unfold leaving. match goal with |- context [bind ?x (fun v => Ok (v, r))] => destruct x end; reflexivity.
          * rewrite (tree_array _ (sub ty (new_slots W ty))) by (intros a r0; apply Hsub; exact En). unfold leaving. match goal with |- context [bind ?x (fun v => Ok (v, r))] => destruct x end; reflexivity.
        + match goal with |- context [bind ?x _] => destruct x as [m| | | |] end; try reflexivity. cbn [bind]. rewrite Hsub by (apply (Ne ty d E Rf)). unfold leaving. destruct (sub ty m j); reflexivity.
    Qed.
    Lemma tree_field x m j r : no_entry (fst (snd x)) -> read_at W J utf8_ok fparse rec x m (render j ++ r) = leaving r (set_field W J utf8_ok fparse sub pair x m j).
    Proof.
      intros Ne. destruct x as [jf [f l]]. cbn [fst snd] in Ne. unfold read_at, set_field, read_field. pose proof (tree_assign jf f l (slot_at m l) j r Ne) as A.
      destruct j as [t|t|[]| |y|y]; cbn [render app] in *; try (rewrite A; unfold leaving; destruct (assign _ _ _ _ _ _ _ _ _ _); reflexivity). unfold leaving. destruct (set_null W J f l (slot_at m l)); reflexivity.
    Qed.
    Definition fields_ok (ty : nat) : Prop := forall x, In x (jfields W J ty) -> no_entry (fst (snd x)).
    Lemma tree_nth i ty m j r : fields_ok ty -> read_nth W J utf8_ok fparse rec i ty m (render j ++ r) = leaving r (set_nth W J utf8_ok fparse sub pair i ty m j).
    Proof. intros Ne. unfold read_nth, set_nth. destruct (nth_error (jfields W J ty) i) as [x|] eqn:E; [|reflexivity]. apply tree_field. apply Ne. apply nth_error_In in E. exact E. Qed.
    Lemma find_in ty key x : find_field W J ty key = Some x -> In x (jfields W J ty).
    Proof. unfold find_field. destruct (find _ _) eqn:E; [intros H; injection H as <-; apply find_some in E; apply E|]. intros H. apply find_some in H. apply H. Qed.

    Lemma render_pos j : (0 < length (render j))%nat.
    Proof. destruct j as [t|t|[]| |l|l]; cbn; lia. Qed.
    Lemma tree_members ty ps : fields_ok ty -> forall k first m r, (length (commas (map member ps)) < k)%nat ->
      read_members W J utf8_ok fparse strict rec k first ty m ((if first then commas (map member ps) else match ps with [] => [] | _ => Comma :: commas (map member ps) end) ++ RBrace :: r) = leaving r (in_turn (set_member W J utf8_ok fparse strict sub pair ty) m ps).
    Proof.
      intros Ne. induction ps as [|p t IH]; intros k first m r Hk.
      - destruct k as [|k]; [lia|]. destruct first; reflexivity.
      - assert (E : forall z, commas (map member (p :: t)) ++ z = Str (fst p) :: Colon :: render (snd p) ++ (match t with [] => [] | _ => Comma :: commas (map member t) end ++ z)).
        { intros z. destruct t as [|p' t']; [reflexivity|]. cbn [map]. rewrite commas_cons. unfold member at 1. cbn [app]. rewrite <- app_assoc. reflexivity. }
        assert (L : (length (commas (map member t)) + 2 < length (commas (map member (p :: t))))%nat).
        { pose proof (render_pos (snd p)) as P. destruct t as [|p' t']; [cbn [map commas length]; unfold member; cbn [length]; lia|]. change (map member (p :: p' :: t')) with (member p :: member p' :: map member t'). rewrite commas_cons, app_length. change (map member (p' :: t')) with (member p' :: map member t'). assert (M : (2 < length (member p))%nat) by (unfold member; cbn [length]; lia). cbn [length]. lia. }
        destruct k as [|k]; [lia|].
        assert (Step : forall ts1, ts1 = Str (fst p) :: Colon :: render (snd p) ++ (match t with [] => [] | _ => Comma :: commas (map member t) end ++ RBrace :: r) ->
          match ts1 with
          | Str key :: Colon :: r0 =>
              '(m1, r1) <- (match find_field W J ty key with Some x => read_at W J utf8_ok fparse rec x m r0 | None => if strict then Err BadMessage else r1 <- skip_value r0 ;; Ok (m, r1) end) ;;
              read_members W J utf8_ok fparse strict rec k false ty m1 r1
          | _ => Err BadMessage
          end = leaving r (in_turn (set_member W J utf8_ok fparse strict sub pair ty) m (p :: t))).
        { intros ts1 ->. cbn [in_turn]. unfold set_member at 1. destruct (find_field W J ty (fst p)) as [x|] eqn:F.
          - rewrite tree_field by (apply Ne; apply (find_in _ _ _ F)). unfold leaving at 1. destruct (set_field W J utf8_ok fparse sub pair x m (snd p)) as [m1| | | |]; try reflexivity. cbn [bind]. apply (IH k false m1 r). lia.
          - pose proof (IH k false m r) as IH'. revert IH'. generalize strict. intros [] IH'; [reflexivity|]. rewrite tree_skip. cbn [bind]. apply IH'. lia. }
        destruct first.
        + rewrite E. exact (Step _ eq_refl).
        + cbn [app]. rewrite E. exact (Step _ eq_refl).
    Qed.
    Lemma tree_body ty m j r : w_entry (wty W ty) = false -> fields_ok ty -> read_body W J utf8_ok fparse strict rec ty m (render j ++ r) = leaving r (set_body W J utf8_ok fparse strict sub pair ty m j).
    Proof.
      intros En Ne. unfold read_body, set_body. rewrite En. destruct (known_of J ty); try (apply tree_nth; exact Ne).
      - destruct j as [t|t|[]| |l|l]; try reflexivity. cbn [render app]. rewrite <- commas_separated, <- app_assoc. cbn [app]. apply (tree_members ty l Ne _ true m r). rewrite app_length. unfold member. lia.
      - reflexivity.
      - unfold read_time, times. destruct j as [t|t|[]| |l|l]; try reflexivity. cbn [render app]. destruct (timestamp_decode t) as [[s n]|]; [|reflexivity]. destruct (w_fields (wty W ty)) as [|[? ?] [|[? ?] [|? ?]]]; reflexivity.
      - unfold read_time, times. destruct j as [t|t|[]| |l|l]; try reflexivity. cbn [render app]. destruct (duration_decode t) as [[s n]|]; [|reflexivity]. destruct (w_fields (wty W ty)) as [|[? ?] [|[? ?] [|? ?]]]; reflexivity.
      - unfold read_mask. destruct j as [[|c t]|t|[]| |l|l]; try reflexivity. cbn [render app]. destruct (w_fields (wty W ty)) as [|[? ?] [|? ?]]; reflexivity.
      - unfold read_value. pose proof (fun i => tree_nth i ty m j r Ne) as T. destruct j as [t|t|[]| |l|l]; cbn [render app] in *; try apply T. destruct (nth_error (w_fields (wty W ty)) 0) as [[? ?]|]; reflexivity.
    Qed.
    Lemma tree_entry ty m p r : w_entry (wty W ty) = true -> fields_ok ty -> read_body W J utf8_ok fparse strict rec ty m (member p ++ r) = leaving r (set_entry W J utf8_ok fparse sub pair ty m p).
    Proof.
      intros En Ne. unfold read_body, set_entry. rewrite En. unfold read_entry. unfold fields_ok in Ne. destruct (jfields W J ty) as [|[kj [kf kl]] [|[vj [vf vl]] rest]]; try reflexivity. destruct (key_elem kj kf) eqn:Ke; [|reflexivity].
      assert (Nk : forall t d, w_elem kf <> EMsg t d) by (intros t d E; unfold key_elem in Ke; rewrite E in Ke; destruct (w_rep kf); cbn in Ke; discriminate).
      pose proof (tree_scalar true kj (w_elem kf) (JStr (fst p)) (Colon :: render (snd p) ++ r) Nk) as Sc. cbn [render app] in Sc. unfold member. cbn [app]. rewrite Sc. unfold leaving at 1. destruct (or_bad (scalar_of utf8_ok fparse true kj (w_elem kf) (JStr (fst p)))) as [k| | | |]; try reflexivity. cbn [bind].
      set (m1 := put m (l_slot kl) (l_ordinal kl, content_of k)). assert (Nv : no_entry vf) by (apply (Ne (vj, (vf, vl))); right; left; reflexivity). pose proof (tree_assign vj vf vl (slot_at m1 vl) (snd p) r Nv) as A. unfold read_mapped.
      destruct (snd p) as [t|t|[]| |y|y]; cbn [render app] in *; try (rewrite A; unfold leaving; destruct (assign _ _ _ _ _ _ _ _ _ _); reflexivity).
      destruct (set_null W J vf vl (slot_at m1 vl)); try reflexivity. cbn [bind]. destruct (w_elem vf) as [| | | | |tv dv]; try reflexivity. destruct (known_of J tv); reflexivity.
    Qed.
  End Level.
  Hypothesis Hf : forall ty, fields_ok ty.
  Lemma tree_read n : forall d ty m,
    (forall j r, w_entry (wty W ty) = false -> read_msg W J utf8_ok maxd fparse strict n d ty m (render j ++ r) = leaving r (set_json W J utf8_ok maxd fparse strict n d ty m j)) /\
    (forall p r, w_entry (wty W ty) = true -> read_msg W J utf8_ok maxd fparse strict n d ty m (member p ++ r) = leaving r (set_pair W J utf8_ok maxd fparse strict n d ty m p)).
  Proof.
    induction n as [|n IH]; intros d ty m; [split; reflexivity|]. cbn [read_msg set_json set_pair]. destruct (scope_ok maxd d); [|split; reflexivity].
    split; intros x r En; [apply tree_body|apply tree_entry]; auto; intros ty0 m0 j0 r0 E0; apply (IH (d + 1) ty0 m0); exact E0.
  Qed.
End Tree.
