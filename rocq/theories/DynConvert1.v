(** Messages all of whose map entries have their value can be written as JSON. *)
Require Import Verif.Bits Verif.Varint Verif.Base64 Verif.Base64Proofs Verif.FieldMask Verif.FieldMaskProofs.
Require Import Verif.DynSlots Verif.Dyn Verif.Schema Verif.Archive Verif.Decode Verif.Encode Verif.DynWire Verif.DynDecode Verif.DynView Verif.DynEncode1 Verif.DynEncode3 Verif.DynJson Verif.DynJsonSpec Verif.DynJson1 Verif.DynJson2 Verif.DynJson3 Verif.DynJson4 Verif.DynJson5 Verif.DynJsonSafe.

Section Whole.
  Context (W : list wtype) (J : list jtype) (le : bool) (maxd : Z) (fshow : bool -> Z -> bytes).
  Hypothesis HW : wtypes_ok W.
  Hypothesis HJ : jtypes_ok W J.

  Section Rec.
    Context (n : nat) (recw : bool -> nat -> list slot -> res (list tok)).
    Hypothesis R : forall q ty m, whole W n ty m -> settled (recw q ty m).
    Lemma whole_messages q ty x : Forall (whole W n ty) x -> settled (write_messages W recw q ty x).
    Proof.
      intros T. unfold write_messages. apply settled_bind; [|intros; exact I]. induction T as [|m x Hm _ IH]; [exact I|]. cbn [write_all]. apply settled_bind; [apply R; assumption|]. intros a _. apply settled_bind; [exact IH|]. intros; exact I.
    Qed.
    Lemma whole_field q jf f l s : has_value (dyn_of f) l s = true -> slot_sound (whole W n) f l s -> settled (write_field W le fshow recw q jf f l s).
    Proof.
      intros Hh [Ho _]. specialize (Ho Hh).
      assert (C : not_message f \/ exists ty d, w_elem f = EMsg ty d) by (unfold not_message; destruct (w_elem f); eauto). destruct C as [N|(ty & d & E)].
      - assert (Wp : write_field W le fshow recw q jf f l s =
          match w_rep f with
          | None => v <- single f l s ;; write_scalar le fshow q jf (w_elem f) v
          | Some _ => vs <- several f l s ;; xs <- write_scalars le fshow (elem_quote q (w_elem f)) jf (w_elem f) vs ;; Ok (LBrack :: commas xs ++ [RBrack])
          end) by (unfold write_field, not_message in *; destruct (w_elem f), (w_rep f); try contradiction; reflexivity).
        rewrite Wp. unfold single, several. assert (K : match w_rep f, value (dyn_of f) l s with None, (FInt _ | FBytes _) | Some _, (FInts _ | FStrs _) => True | _, _ => False end).
        { unfold not_message in N. revert Ho. unfold value, dyn_of, is_rep. destruct (w_elem f) eqn:E; try contradiction; destruct (w_rep f); cbn [y_kind kind_of];
            repeat match goal with |- context [if ?b then _ else _] => destruct b | |- context [match ?c with CZero => _ | _ => _ end] => destruct c end; intros Ho; try exact I; try contradiction; cbn in Ho; try contradiction; try (destruct Ho as [_ Ho]; inversion Ho; subst; try contradiction). }
        destruct (w_rep f), (value (dyn_of f) l s); try contradiction; cbn [bind]; try (apply settled_scalar; exact Ho); (apply settled_bind; [apply settled_scalars, Forall_map, Ho|intros; exact I]).
      - unfold write_field. rewrite E. destruct (w_rep f) eqn:Rf, (value (dyn_of f) l s) eqn:V; try contradiction; try (rewrite E in Ho; cbn in Ho; contradiction).
        all: try (exfalso; revert V; unfold value, dyn_of, is_rep; rewrite E, Rf; cbn [y_kind kind_of]; repeat match goal with |- context [if ?b then _ else _] => destruct b | |- context [match ?c with CZero => _ | _ => _ end] => destruct c end; discriminate).
        + rewrite E in Ho. apply whole_messages, Ho.
        + rewrite E in Ho. apply R, Ho.
    Qed.
    Lemma whole_cref q jf f l ty m : sound W (S n) ty m -> In (jf, (f, l)) (jfields W J ty) -> settled (write_cref W le fshow recw q jf f l (slot_at m l)).
    Proof. intros Hm Hi. unfold write_cref. destruct (has_value (dyn_of f) l (slot_at m l)) eqn:Hh; [|exact I]. apply whole_field; [exact Hh|]. apply (sound_slot W n ty m f l Hm). apply (jfield_in W J HJ _ _ _ _ Hi). Qed.
    Lemma whole_members q ty m fs : forall first, (forall x, In x fs -> In x (jfields W J ty)) -> sound W (S n) ty m ->
      settled (write_members W le fshow recw q first fs m) /\ settled (write_entry_fields W le fshow recw q first fs m).
    Proof.
      induction fs as [|[jf [f l]] fs IH]; intros first Hi Ht; [split; exact I|]. cbn [write_members write_entry_fields]. destruct (has_value (dyn_of f) l (slot_at m l)) eqn:Hh; [|apply IH; auto; intros x Hx; apply Hi; right; exact Hx].
      assert (Hin : In (jf, (f, l)) (jfields W J ty)) by (apply Hi; left; reflexivity). pose proof (sound_slot W n ty m f l Ht (jfield_in W J HJ _ _ _ _ Hin)) as Ho.
      split; (apply settled_bind; [apply whole_field; assumption|]); intros x _; (apply settled_bind; [apply (IH false); auto; intros z Hz; apply Hi; right; exact Hz|]); intros; exact I.
    Qed.
    Lemma whole_list q ty jf f l te d m : sound W (S n) ty m -> jfields W J ty = [(jf, (f, l))] -> w_elem f = EMsg te d -> is_rep f = true ->
      settled (match w_elem f, w_rep f, value (dyn_of f) l (slot_at m l) with EMsg te _, Some _, FMsgs x => write_messages W recw q te x | _, _, _ => UB end).
    Proof.
      intros Hm Hj Ef Er. rewrite Ef. unfold is_rep in Er. destruct (w_rep f) as [p|] eqn:Rf; [|discriminate Er]. assert (Hin : In (jf, (f, l)) (jfields W J ty)) by (rewrite Hj; left; reflexivity).
      destruct (messages_sound (whole W n) f l (slot_at m l) p te d Rf Ef) as (x & -> & F); [apply (sound_slot W n ty m f l Hm (jfield_in W J HJ _ _ _ _ Hin))|]. apply whole_messages, F.
    Qed.
    Lemma whole_body q ty m : whole W (S n) ty m -> settled (write_body W J le fshow recw q ty m).
    Proof.
      intros [Hm Fm]. unfold write_body. pose proof (HJ ty) as (_ & _ & _ & Ko & En). pose proof Ko as Ko'. unfold known_ok in Ko. destruct (w_entry (wty W ty)) eqn:He.
      { unfold write_entry. apply settled_bind; [|intros [] _; [exact I|apply (whole_members q ty m (jfields W J ty) true); auto]].
        destruct (En eq_refl) as (kj & kf & kl & vj & vf & vl & Hj & _ & Rv & _). pose proof (jfields_fields W J HJ ty) as Hw. rewrite Hj in Hw. cbn [map snd] in Hw. specialize (Fm He vf vl). unfold unset_value. rewrite <- Hw in *. cbn [nth_error] in *. specialize (Fm eq_refl).
        destruct (w_elem vf) as [| | | | |tv dv] eqn:Ev; try exact I. rewrite Rv.
        assert (Hin : In (vf, vl) (w_fields (wty W ty))) by (rewrite <- Hw; right; left; reflexivity). destruct (sound_slot W n ty m vf vl Hm Hin) as [Ho _]. specialize (Ho Fm).
        unfold value in Ho. rewrite Fm in Ho. unfold dyn_of, is_rep in Ho. cbn [y_kind] in Ho. rewrite Ev, Rv in Ho. cbn [kind_of] in Ho. destruct (snd (slot_at m vl)) as [| | |x| | | |]; try contradiction.
        destruct (known_of J tv) eqn:Kt; try exact I. destruct (HJ tv) as (_ & _ & _ & Kv & _). destruct (value_layout W J tv Kv Kt) as (f0 & ? & ? & ? & ? & ? & ? & ? & ? & ? & ? & ? & ? & ? & ? & ? & ? & ? & Hw2 & _). rewrite Hw2. exact I. }
      destruct (known_of J ty) eqn:K.
      - apply settled_bind; [|intros; exact I]. apply (whole_members q ty m (jfields W J ty) true); auto.
      - exact I.
      - unfold write_time. destruct (w_fields (wty W ty)) as [|a [|b [|? ?]]]; try exact I. apply settled_bind; [unfold number_of; destruct (value _ _ _); exact I|]. intros s _. apply settled_bind; [unfold number_of; destruct (value _ _ _); exact I|]. intros k _. destruct (Timestamp.timestamp_encode s k); exact I.
      - unfold write_time. destruct (w_fields (wty W ty)) as [|a [|b [|? ?]]]; try exact I. apply settled_bind; [unfold number_of; destruct (value _ _ _); exact I|]. intros s _. apply settled_bind; [unfold number_of; destruct (value _ _ _); exact I|]. intros k _. destruct (Duration.duration_encode s k); exact I.
      - unfold write_mask. destruct (w_fields (wty W ty)) as [|[f l] [|? ?]]; try exact I. destruct (value _ _ _); try exact I. destruct (json_unescape _); exact I.
      - unfold write_value. destruct (w_fields (wty W ty)) as [|[f0' l0] tl] eqn:Hw; [exact I|]. cbn zeta. destruct (_ <? 0); [exact I|]. destruct (nth_error _ _) as [[jf [f l]]|] eqn:Hn; [|exact I]. apply nth_error_In in Hn. apply (whole_cref q jf f l ty m Hm Hn).
      - destruct Ko as (te & d & Ks & Ne). destruct (shapes_one W J HJ _ _ _ _ _ Ks) as (jf & f & l & Hj & Hw & Ef & Er & _). pose proof (whole_list q ty jf f l te d m Hm Hj Ef Er) as K1. rewrite Hj. exact K1.
      - destruct Ko as (te & d & Ks & Ne). destruct (shapes_one W J HJ _ _ _ _ _ Ks) as (jf & f & l & Hj & Hw & Ef & Er & _). pose proof (whole_list q ty jf f l te d m Hm Hj Ef Er) as K1. rewrite Hj. exact K1.
      - destruct Ko as (e & Ks & Ke). destruct (shapes_one W J HJ _ _ _ _ _ Ks) as (jf & f & l & Hj & Hw & Ef & _). rewrite Hj. apply (whole_cref q jf f l ty m Hm). rewrite Hj. left. reflexivity.
    Qed.
  End Rec.
  Lemma write_whole n : forall d q ty m, whole W n ty m -> settled (write_msg W J le maxd fshow n d q ty m).
  Proof.
    induction n as [|n IH]; intros d q ty m Hm; [destruct Hm as [[] _]|]. cbn [write_msg]. destruct (scope_ok maxd d); [|exact I]. apply (whole_body n); auto.
  Qed.
End Whole.
