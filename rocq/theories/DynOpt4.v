(** When writing with the options of DynOpt is defined, and how names are found. *)
Require Import Verif.Bits Verif.Varint.
Require Import Verif.DynSlots Verif.Dyn Verif.Schema Verif.Archive Verif.Decode Verif.Encode Verif.DynWire Verif.DynDecode Verif.DynView Verif.DynEncode1 Verif.DynDecode1 Verif.DynEncode3 Verif.DynDecode3.
Require Import Verif.DynJson Verif.DynJsonSpec Verif.DynJson1 Verif.DynJson2 Verif.DynJson3 Verif.DynJson4 Verif.DynJson5 Verif.DynJson6 Verif.DynJson7 Verif.DynOpt Verif.DynOptSpec Verif.DynOpt1 Verif.DynOpt2 Verif.DynOpt3.

Section Settled.
  Context (W : list wtype) (J : list jtype) (utf8_ok : bytes -> bool) (le : bool) (maxd : Z) (fshow : bool -> Z -> bytes) (fparse : bool -> bytes -> option Z) (always preserve : bool).
  Hypothesis HJ : jtypes_ok W J.
  Notation slot_printable := (slot_printable utf8_ok fshow fparse).
  Notation showable := (showable W J utf8_ok fshow fparse always).
  Section Rec.
    Context (n : nat) (Pr : nat -> list slot -> Prop) (recw : bool -> nat -> list slot -> res (list tok)).
    Hypothesis R : forall q ty m, typed W n ty m -> Pr ty m -> settled (recw q ty m).
    Lemma settled_unset q jf f l s : fresh utf8_ok fshow fparse jf f l s -> has_value (dyn_of f) l s = false -> settled (write_shown W le fshow recw q jf f l s).
    Proof.
      clear R Pr n. intros Hf Hh. unfold write_shown. rewrite Hh. unfold fresh in Hf. destruct (w_rep f) as [p|] eqn:Rp.
      - assert (Z0 : fst s = 0) by (rewrite (rep_word f l _ p Rp) in Hh; destruct (w_elem f); lia). assert (Ri : is_rep f = true) by (unfold is_rep; rewrite Rp; reflexivity). pose proof (zero_value f l s Z0 Ri) as V.
        unfold write_field, several. rewrite Rp, V. destruct (w_elem f) as [| | | | |tm d]; exact Logic.I.
      - unfold write_field, single. rewrite Rp. destruct (w_elem f) as [t| |a b| | |] eqn:E; try exact Logic.I; destruct Hf as [V _]; rewrite V; exact Logic.I.
    Qed.
    Lemma settled_show_members q ty m fs : forall first, (forall x, In x fs -> In x (jfields W J ty)) -> typed W (S n) ty m ->
      (forall jf f l, In (jf, (f, l)) (jfields W J ty) -> has (f, l) m = true -> slot_printable Pr jf f l (slot_at m l)) ->
      (forall jf f l, In (jf, (f, l)) (jfields W J ty) -> has (f, l) m = false -> always = true -> w_explicit f = false -> fresh utf8_ok fshow fparse jf f l (slot_at m l)) ->
      settled (show_members W le fshow always preserve recw q first fs m).
    Proof.
      induction fs as [|[jf [f l]] fs IH]; intros first Hi Ht Hp Hz; [exact Logic.I|]. cbn [show_members]. destruct (shows always f l (slot_at m l)) eqn:Sh; [|apply IH; auto; intros x Hx; apply Hi; right; exact Hx].
      assert (Hin : In (jf, (f, l)) (jfields W J ty)) by (apply Hi; left; reflexivity).
      apply settled_bind.
      - destruct (has (f, l) m) eqn:Hh.
        + rewrite shown_has by exact Hh. apply (settled_field W utf8_ok le fshow fparse n Pr recw R); [exact Hh|apply (typed_slot W n ty m f l Ht (jfield_in W J HJ _ _ _ _ Hin))|apply (Hp _ _ _ Hin Hh)].
        + pose proof Hh as Hh'. unfold has in Hh'. cbn [fst snd] in Hh'. unfold shows in Sh. rewrite Hh' in Sh. cbn [orb] in Sh. apply andb_prop in Sh. destruct Sh as [Al Ex]. apply negb_true_iff in Ex. apply settled_unset; [apply (Hz _ _ _ Hin Hh Al Ex)|exact Hh'].
      - intros x _. apply settled_bind; [apply IH; auto; intros z Hz'; apply Hi; right; exact Hz'|]. intros; exact Logic.I.
    Qed.
    Lemma settled_show_body q ty m : typed W (S n) ty m -> printable_body W J utf8_ok fshow fparse Pr ty m ->
      (always = true -> known_of J ty = KNone -> w_entry (wty W ty) = false -> forall jf f l, In (jf, (f, l)) (jfields W J ty) -> has (f, l) m = false -> w_explicit f = false -> fresh utf8_ok fshow fparse jf f l (slot_at m l)) ->
      settled (show_body W J le fshow always preserve recw q ty m).
    Proof.
      intros Ht Hp Hz. destruct (w_entry (wty W ty)) eqn:En; [|destruct (known_of J ty) eqn:K];
        try (rewrite (body_same W J utf8_ok le fshow fparse always preserve HJ Pr recw q ty m Hp) by (intros X; congruence); apply (settled_body W J utf8_ok le fshow fparse HJ n Pr recw R); assumption).
      unfold show_body. unfold printable_body in Hp. rewrite En, K in *. apply settled_bind; [|intros; exact Logic.I]. apply (settled_show_members q ty m (jfields W J ty) true); auto.
    Qed.
  End Rec.
  Lemma show_settled n : forall d q ty m, typed W n ty m -> showable n ty m -> settled (show_msg W J le maxd fshow always preserve n d q ty m).
  Proof.
    induction n as [|n IH]; intros d q ty m Ht Hp; [destruct Ht|]. cbn [show_msg DynOptSpec.showable] in *. destruct Hp as [Hp Hz]. destruct (scope_ok maxd d); [|exact Logic.I]. apply (settled_show_body n (showable n)); auto.
  Qed.
  Lemma show_defined n ty m : typed W n ty m -> showable n ty m ->
    (exists ts, show_json W J le maxd fshow always preserve n ty m = Ok ts) \/ (exists e, show_json W J le maxd fshow always preserve n ty m = Err e).
  Proof. intros Ht Hp. pose proof (show_settled n 0 false ty m Ht Hp) as K. unfold show_json. destruct (show_msg W J le maxd fshow always preserve n 0 false ty m); try contradiction; eauto. Qed.
End Settled.

Lemma forall2_impl {A B} (P Q : A -> B -> Prop) l l' : (forall a b, P a b -> Q a b) -> Forall2 P l l' -> Forall2 Q l l'.
Proof. intros H F. induction F; auto. Qed.
(** Writing depends on the writer of messages within by what it gives. *)
Lemma show_body_ext W J le fshow always preserve rec1 rec2 q ty m : (forall q ty m, rec1 q ty m = rec2 q ty m) -> show_body W J le fshow always preserve rec1 q ty m = show_body W J le fshow always preserve rec2 q ty m.
Proof.
  intros E. assert (S : forall q jf f l s, write_shown W le fshow rec1 q jf f l s = write_shown W le fshow rec2 q jf f l s) by (intros; unfold write_shown; rewrite (write_field_ext W le fshow rec1 rec2 E); reflexivity).
  assert (R : forall q jf f l s, write_ref W le fshow always rec1 q jf f l s = write_ref W le fshow always rec2 q jf f l s) by (intros; unfold write_ref; rewrite S; reflexivity).
  assert (Me : forall fs first, show_members W le fshow always preserve rec1 q first fs m = show_members W le fshow always preserve rec2 q first fs m) by (induction fs as [|[jf [f l]] t IH]; intros first; [reflexivity|]; cbn [show_members]; rewrite S, !IH; reflexivity).
  assert (En : forall fs first, show_entry_fields W le fshow always rec1 q first fs m = show_entry_fields W le fshow always rec2 q first fs m) by (induction fs as [|[jf [f l]] t IH]; intros first; [reflexivity|]; cbn [show_entry_fields]; rewrite S, !IH; reflexivity).
  assert (Wb : write_body W J le fshow rec1 q ty m = write_body W J le fshow rec2 q ty m) by (rewrite <- (body_plain W J le fshow rec1 rec1 (fun _ _ _ => eq_refl) q ty m); apply body_plain; exact E).
  unfold show_body. destruct (w_entry (wty W ty)); [rewrite En; reflexivity|]. destruct (known_of J ty); try exact Wb.
  - rewrite Me. reflexivity.
  - unfold show_value. destruct (w_fields (wty W ty)) as [|[f0 l0] t]; [reflexivity|]. cbv zeta. destruct (_ <? 0); [reflexivity|]. destruct (nth_error _ _) as [[jf [f l]]|]; [apply R|reflexivity].
  - destruct (jfields W J ty) as [|[jf [f l]] t]; [reflexivity|]. apply R.
Qed.

Section Round.
  Context (W : list wtype) (J : list jtype) (utf8_ok : bytes -> bool) (le : bool) (maxd : Z) (fshow : bool -> Z -> bytes) (fparse : bool -> bytes -> option Z) (always preserve : bool).
  Hypothesis HW : wtypes_ok W.
  Hypothesis HJ : jtypes_ok W J.
  Hypothesis HN : names_found W J preserve.
  Lemma show_round strict n ty m ts : typed W n ty m -> showable W J utf8_ok fshow fparse always n ty m -> show_json W J le maxd fshow always preserve n ty m = Ok ts ->
    exists m', read_json W J utf8_ok maxd fparse strict n ty (new_slots W ty) ts = Ok m' /\ same W n ty m m' /\ forall u md k, dyn_encode W u md k ty m' = dyn_encode W u md k ty m.
  Proof.
    intros Ht Hp H. destruct (show_msg_back W J utf8_ok le maxd fshow fparse always preserve HW HJ HN strict n 0 ty m ts Ht Hp H) as ((_ & R & _) & _). destruct (R []) as (m' & E & S). rewrite app_nil_r in E.
    exists m'. split; [unfold read_json; rewrite E; reflexivity|]. split; [exact S|]. intros u md k. symmetry. apply (same_encode W u md n k ty m m' S).
  Qed.
  (** Messages within *)
  Lemma show_deeper n : maxd < 2 ^ 32 - 1 -> forall d q ty m, show_msg W J le maxd fshow always preserve n (d + 1) q ty m = show_msg W J le (maxd - 1) fshow always preserve n d q ty m.
  Proof.
    intros Hd. induction n as [|n IH]; intros d q ty m; [reflexivity|]. cbn [show_msg]. replace (scope_ok (maxd - 1) d) with (scope_ok maxd (d + 1)) by (unfold scope_ok; lia). destruct (scope_ok maxd (d + 1)); [|reflexivity].
    apply show_body_ext. apply IH.
  Qed.
  Lemma all_written rec q ty vs : forall xs, write_all rec q ty vs = Ok xs -> Forall2 (fun v t => rec q ty v = Ok t) vs xs.
  Proof.
    induction vs as [|v vs IH]; intros xs H; cbn [write_all] in H; [apply Ok_inj in H; subst xs; apply Forall2_nil|]. destruct (rec q ty v) as [a| | | |] eqn:A; try discriminate H. cbn [bind] in H.
    destruct (write_all rec q ty vs) as [b| | | |] eqn:B; try discriminate H. cbn [bind] in H. apply Ok_inj in H. subst xs. apply Forall2_cons; auto.
  Qed.
  Lemma text_nested n m x p : maxd < 2 ^ 32 - 1 -> member_text W le fshow preserve (show_msg W J le maxd fshow always preserve n (0 + 1)) m x p ->
    member_for W fshow preserve m x p /\ nested_for W (show_json W J le (maxd - 1) fshow always preserve n) m x p.
  Proof.
    intros Hd [A B]. split; [exact A|]. destruct x as [jf [f l]]. cbn [fst snd] in B. unfold nested_for. intros tv d E. unfold write_shown, write_field in B. rewrite E in B.
    destruct (value (dyn_of f) l (slot_at m l)) as [| |v| | |vs| |] eqn:V; try exact Logic.I.
    - destruct (has_value (dyn_of f) l (slot_at m l)) eqn:Hh.
      + destruct (w_rep f); [discriminate B|]. unfold show_json. rewrite <- show_deeper by exact Hd. exact B.
      + unfold value in V. rewrite Hh in V. unfold dyn_of in V. cbn [y_kind] in V. rewrite E in V. destruct (is_rep f); cbn [kind_of] in V; [|discriminate V]. destruct (fst (slot_at m l) =? 0); [discriminate V|]. destruct (snd (slot_at m l)); discriminate V.
    - destruct (w_rep f) as [r|] eqn:R.
      + assert (B' : write_messages W (show_msg W J le maxd fshow always preserve n (0 + 1)) false tv vs = Ok (render (snd p))) by (destruct (has_value (dyn_of f) l (slot_at m l)); exact B). clear B. unfold write_messages in B'.
        destruct (write_all (show_msg W J le maxd fshow always preserve n (0 + 1)) false tv vs) as [xs| | | |] eqn:Hx; try discriminate B'. cbn [bind] in B'. apply Ok_inj in B'. exists xs. split.
        * apply all_written in Hx. revert Hx. apply forall2_impl. intros v t K. unfold show_json. rewrite <- show_deeper by exact Hd. exact K.
        * rewrite <- B'. destruct (w_entry (wty W tv)); reflexivity.
      + exfalso. unfold value, dyn_of, is_rep in V. cbn [y_kind] in V. rewrite E, R in V. cbn [kind_of] in V. destruct (has_value _ l (slot_at m l)); [destruct (snd (slot_at m l))|]; discriminate V.
  Qed.
  Lemma show_object n ty m ts : maxd < 2 ^ 32 - 1 -> typed W (S n) ty m -> showable W J utf8_ok fshow fparse always (S n) ty m -> w_entry (wty W ty) = false -> known_of J ty = KNone -> show_json W J le maxd fshow always preserve (S n) ty m = Ok ts ->
    exists ms, ts = render (JObj ms) /\ Forall2 (fun x p => member_for W fshow preserve m x p /\ nested_for W (show_json W J le (maxd - 1) fshow always preserve n) m x p) (filter (fun x => printed always (snd x) m) (jfields W J ty)) ms.
  Proof.
    intros Hd Ht Hp He Hk H. destruct (show_msg_back W J utf8_ok le maxd fshow fparse always preserve HW HJ HN true (S n) 0 ty m ts Ht Hp H) as (_ & M). destruct (M He Hk) as (ms & E & F). exists ms. split; [exact E|].
    revert F. apply forall2_impl. intros x p. apply text_nested. exact Hd.
  Qed.
  Lemma show_value_written n ty m ts : typed W n ty m -> showable W J utf8_ok fshow fparse always n ty m -> w_entry (wty W ty) = false -> show_json W J le maxd fshow always preserve n ty m = Ok ts ->
    exists j, ts = render j.
  Proof. intros Ht Hp He H. destruct (show_msg_back W J utf8_ok le maxd fshow fparse always preserve HW HJ HN true n 0 ty m ts Ht Hp H) as ((Wr & _) & _). unfold wrote in Wr. rewrite He in Wr. destruct Wr as (j & E & _). eauto. Qed.
End Round.

(** ** Names *)
Lemma names_apart W J preserve : jtypes_ok W J -> (forall ty, NoDup (map j_name (jt_fields (jty J ty)))) ->
  (forall ty a b, In a (jt_fields (jty J ty)) -> In b (jt_fields (jty J ty)) -> j_name a = j_json b -> j_json a = j_json b) -> names_found W J preserve.
Proof.
  intros HJ Nd Ap _ ty x Hx. apply (found_name W J HJ ty x (Nd ty)); [|exact Hx]. intros K. apply in_remove in K. destruct K as [K Ne]. apply in_map_iff in K. destruct K as (b & Eb & Hb).
  assert (Ha : In (fst x) (jt_fields (jty J ty))) by (unfold jfields in Hx; destruct x; apply in_combine_l in Hx; exact Hx). apply Ne. rewrite <- Eb. symmetry. exact (Ap ty (fst x) b Ha Hb (eq_sym Eb)).
Qed.
Lemma plain_names W J : names_found W J false.
Proof. intros K. discriminate K. Qed.

(** ** Without always_print_fields_with_no_presence *)
Lemma printable_mono W J utf8_ok fshow fparse (P Q : nat -> list slot -> Prop) ty m : (forall t x, P t x -> Q t x) -> printable_body W J utf8_ok fshow fparse P ty m -> printable_body W J utf8_ok fshow fparse Q ty m.
Proof.
  intros PQ. assert (S : forall jf f l s, slot_printable utf8_ok fshow fparse P jf f l s -> slot_printable utf8_ok fshow fparse Q jf f l s).
  { intros jf f l s. unfold slot_printable. destruct (value (dyn_of f) l s); auto; [intros K t d E; apply PQ; eauto|]. intros K t d E. specialize (K t d E). revert K. apply Forall_impl. apply PQ. }
  assert (Sl : (forall jf f l, In (jf, (f, l)) (jfields W J ty) -> has (f, l) m = true -> slot_printable utf8_ok fshow fparse P jf f l (slot_at m l)) -> forall jf f l, In (jf, (f, l)) (jfields W J ty) -> has (f, l) m = true -> slot_printable utf8_ok fshow fparse Q jf f l (slot_at m l)) by (intros A jf f l Hi Hh; apply S; apply A; assumption).
  unfold printable_body. cbv zeta. destruct (w_entry (wty W ty)); [intros [A B]; split; [exact (Sl A)|exact B]|].
  destruct (known_of J ty); try (intros A; exact A); try (intros [A B]; split; [exact (Sl A)|exact B]).
  - exact Sl.
  - intros (i & jf & f & l & A & B & C & D). exists i, jf, f, l. split; [exact A|]. split; [exact B|]. split; [exact C|]. intros K. apply S. exact (D K).
Qed.
Lemma printable_showable W J utf8_ok fshow fparse n : forall ty m, printable W J utf8_ok fshow fparse n ty m -> showable W J utf8_ok fshow fparse false n ty m.
Proof. induction n as [|n IH]; intros ty m; [intros []|]. cbn [printable showable]. intros H. split; [revert H; apply printable_mono; exact IH|discriminate]. Qed.
