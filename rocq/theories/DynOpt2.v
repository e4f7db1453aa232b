(** Reading back the members that the options of DynOpt add. *)
Require Import Verif.Bits Verif.Varint.
Require Import Verif.DynSlots Verif.Dyn Verif.Schema Verif.Archive Verif.Decode Verif.Encode Verif.DynWire Verif.DynDecode Verif.DynView Verif.DynEncode1 Verif.DynDecode1 Verif.DynEncode3 Verif.DynDecode3.
Require Import Verif.DynJson Verif.DynJsonSpec Verif.DynJson1 Verif.DynJson2 Verif.DynJson3 Verif.DynJson4 Verif.DynJson5 Verif.DynJson6 Verif.DynOpt Verif.DynOptSpec Verif.DynOpt1.

Section Body.
  Context (W : list wtype) (J : list jtype) (utf8_ok : bytes -> bool) (le : bool) (fshow : bool -> Z -> bytes) (fparse : bool -> bytes -> option Z) (always preserve : bool).
  Hypothesis HW : wtypes_ok W.
  Hypothesis HJ : jtypes_ok W J.
  Hypothesis HN : names_found W J preserve.
  Notation slot_printable := (slot_printable utf8_ok fshow fparse).
  Context (strict : bool) (n : nat) (Pr : nat -> list slot -> Prop) (recw : bool -> nat -> list slot -> res (list tok)) (recr : nat -> list slot -> list tok -> res (list slot * list tok)).
  Hypothesis RT : forall ty m ts, typed W n ty m -> Pr ty m -> recw false ty m = Ok ts ->
    wrote W J ty ts /\ (forall r, exists m', recr ty (new_slots W ty) (ts ++ r) = Ok (m', r) /\ same W n ty m m') /\
    (known_of J ty = KValue -> forall r, w_fields (wty W ty) <> [] /\ recr ty (new_slots W ty) (TNull :: r) = Ok (null_value W ty, r)).
  Notation read_field := (read_field W J utf8_ok fparse recr).
  Notation read_at := (read_at W J utf8_ok fparse recr).
  Notation fresh := (fresh utf8_ok fshow fparse).

  (** ** Fields without a value *)
  Lemma empty_read brace {B} (one : list tok -> res (B * list tok)) r : read_repeated brace one (opening brace :: closing brace :: r) = Ok ([], r).
  Proof using Type. exact (tree_repeated brace one (fun a : False => match a with end) (fun a : False => match a with end) [] (fun a => match a with end) (fun a => match a with end) r). Qed.
  Lemma zero_value f l s : fst s = 0 -> is_rep f = true -> value (dyn_of f) l s = match w_elem f with EBytes _ _ => FStrs [] | EMsg _ _ => FMsgs [] | _ => FInts [] end.
  Proof using Type. intros H R. unfold value, dyn_of. rewrite R. cbn [y_kind]. destruct (w_elem f); cbn [kind_of]; rewrite H; reflexivity. Qed.
  Lemma repeated_unset q jf f l s s0 p : w_rep f = Some p -> fst s = 0 -> fst s0 = 0 ->
    exists j, write_field W le fshow recw q jf f l s = Ok (render j) /\ j <> JNull /\ forall r, exists s', read_into W utf8_ok fparse recr false jf f l s0 (render j ++ r) = Ok (s', r) /\ fst s' = 0.
  Proof using Type.
    intros R H H0. assert (Ri : is_rep f = true) by (unfold is_rep; rewrite R; reflexivity). pose proof (zero_value f l s H Ri) as V. pose proof (zero_value f l s0 H0 Ri) as V0.
    unfold write_field, DynJson.write_field, read_into, DynJson.read_into, several. rewrite R, V, V0.
    destruct (w_elem f) as [t| |is64 fl|c|st v|ty d] eqn:E;
      try (exists (JArr []); split; [reflexivity|]; split; [discriminate|]; intros r; cbn [map bind]; change (render (JArr []) ++ r) with (opening false :: closing false :: r); rewrite empty_read; eexists; split; [reflexivity|reflexivity]).
    destruct (w_entry (wty W ty)) eqn:En.
    - exists (JObj []). unfold write_messages. rewrite En. split; [reflexivity|]. split; [discriminate|]. intros r. change (render (JObj []) ++ r) with (opening true :: closing true :: r). rewrite empty_read. eexists. split; reflexivity.
    - exists (JArr []). unfold write_messages. rewrite En. split; [reflexivity|]. split; [discriminate|]. intros r. change (render (JArr []) ++ r) with (opening false :: closing false :: r). rewrite empty_read. eexists. split; reflexivity.
  Qed.
  Definition is_number (e : elem) : Prop := match e with EVar _ | EBool | EFix _ _ => True | _ => False end.
  Lemma fits_zero e : is_number e -> fits e (VInt 0).
  Proof using Type. destruct e as [[]| |[] []| | |]; intros H; try contradiction; unfold fits, in_vtype, fix_size; cbn; try (left; reflexivity); split; reflexivity || discriminate. Qed.
  Lemma number_unset ty jf f l m s0 ts : In (jf, (f, l)) (jfields W J ty) -> is_number (w_elem f) -> w_rep f = None -> value (dyn_of f) l (slot_at m l) = FInt 0 -> scalar_printable utf8_ok fshow fparse jf (w_elem f) (VInt 0) -> fst s0 = 0 ->
    write_field W le fshow recw false jf f l (slot_at m l) = Ok ts ->
    exists j, ts = render j /\ forall r, exists s', read_field jf f l s0 (ts ++ r) = Ok (s', r) /\ back (same W n) f l (slot_at m l) s'.
  Proof.
    intros Hin En R V P H0 H. set (s := (l_ordinal l, CInt 0)).
    assert (Hh : has_value (dyn_of f) l s = true) by (rewrite single_word by exact R; apply Z.eqb_refl).
    assert (Vs : value (dyn_of f) l s = FInt 0).
    { unfold value. rewrite Hh. cbn [negb]. rewrite andb_false_r. unfold dyn_of, is_rep. rewrite R. cbn [y_kind]. destruct (w_elem f); try contradiction; reflexivity. }
    assert (Hs : write_field W le fshow recw false jf f l s = Ok ts).
    { rewrite <- H. assert (Nm : not_message f) by (unfold not_message; destruct (w_elem f); try contradiction; exact Logic.I). rewrite !write_plain, R by exact Nm. unfold single. rewrite V, Vs. reflexivity. }
    assert (So : slot_ok (typed W n) f l s) by (intros _; rewrite Vs; apply fits_zero; exact En).
    assert (Sp : slot_printable Pr jf f l s) by (unfold DynJsonSpec.slot_printable; rewrite Vs; exact P).
    destruct (field_back W J utf8_ok le fshow fparse HW HJ n Pr recw recr RT ty jf f l s s0 ts Hin Hh So Sp H0 Hs) as [(j & -> & _) K].
    exists j. split; [reflexivity|]. intros r. destruct (K r) as (s' & E & B & Nl). exists s'. split.
    - unfold DynJson.read_field. destruct j as [b|b|[]| |l'|l']; try exact E. cbn [render app] in *. rewrite (Nl eq_refl). reflexivity.
    - destruct B as [B1 B2]. split; [exact B1|]. rewrite V. rewrite Vs in B2. exact B2.
  Qed.
  (** What is written for them *)
  Lemma unset_written q jf f l s : fresh jf f l s -> has_value (dyn_of f) l s = false -> q = false ->
    write_shown W le fshow recw q jf f l s = Ok (render (absent_form W fshow f)).
  Proof using Type.
    clear RT recr n Pr. intros Hf Hh ->. unfold write_shown. rewrite Hh. unfold DynOptSpec.fresh in Hf. unfold absent_form. destruct (w_rep f) as [p|] eqn:R.
    - assert (Z0 : fst s = 0) by (rewrite (rep_word f l _ p R) in Hh; destruct (w_elem f); lia). assert (Ri : is_rep f = true) by (unfold is_rep; rewrite R; reflexivity). pose proof (zero_value f l s Z0 Ri) as V.
      unfold write_field, several. rewrite R, V. destruct (w_elem f) as [| | | | |tm d]; try reflexivity. unfold write_messages. cbn [write_all bind filter commas app]. destruct (w_entry (wty W tm)); reflexivity.
    - unfold write_field, single. rewrite R. destruct (w_elem f) as [[]| |[] []| | |] eqn:E; try reflexivity; destruct Hf as [V _]; rewrite V; cbn [bind write_scalar orb]; unfold wide, number_text; cbn [int_kind]; try reflexivity; destruct (j_signed jf); reflexivity.
  Qed.
  (** A member that is written gives its field back, or leaves one that is absent so. *)
  Lemma shown_read ty jf f l m s0 ts : In (jf, (f, l)) (jfields W J ty) -> typed W (S n) ty m -> fst s0 = 0 -> shows always f l (slot_at m l) = true ->
    (has (f, l) m = true -> slot_printable Pr jf f l (slot_at m l)) -> (has (f, l) m = false -> always = true -> w_explicit f = false -> fresh jf f l (slot_at m l)) ->
    write_shown W le fshow recw false jf f l (slot_at m l) = Ok ts ->
    exists j, ts = render j /\ forall r, exists s', read_field jf f l s0 (ts ++ r) = Ok (s', r) /\
      ((has (f, l) m = true \/ zeroed m f l) /\ back (same W n) f l (slot_at m l) s' \/ has (f, l) m = false /\ w_oneof f = None /\ fst s' = 0).
  Proof.
    intros Hin Ht H0 Sh Hp Hf H. unfold shows in Sh. unfold write_shown in H. destruct (has_value (dyn_of f) l (slot_at m l)) eqn:Hh.
    - destruct (field_read W J utf8_ok le fshow fparse HW HJ n Pr recw recr RT ty jf f l m s0 ts Hin Ht Hh (Hp Hh) H0 H) as [(j & -> & _) K].
      exists j. split; [reflexivity|]. intros r. destruct (K r) as (s' & E & B). exists s'. auto.
    - cbn [orb] in Sh. apply andb_prop in Sh. destruct Sh as [Al Ex]. apply negb_true_iff in Ex. specialize (Hf Hh Al Ex). pose proof (jfield_in W J HJ _ _ _ _ Hin) as Hw. pose proof (oneof_explicit W HW ty f l Hw Ex) as Ho. unfold DynOptSpec.fresh in Hf.
      destruct (w_rep f) as [p|] eqn:R.
      + assert (Z0 : fst (slot_at m l) = 0) by (rewrite (rep_word f l _ p R) in Hh; destruct (w_elem f); lia).
        destruct (repeated_unset false jf f l (slot_at m l) s0 p R Z0 H0) as (j & Hw' & Nn & K). assert (ts = render j) as -> by (destruct (w_elem f); rewrite Hw' in H; injection H as <-; reflexivity).
        exists j. split; [reflexivity|]. intros r. destruct (K r) as (s' & E & Es). exists s'. split; [|auto]. unfold DynJson.read_field. destruct j as [b|b|[]| |l'|l']; try exact E. congruence.
      + assert (Num : is_number (w_elem f) \/ exists z, w_elem f = z /\ ~ is_number z) by (destruct (w_elem f); cbn; eauto).
        destruct Num as [Num|(e & Ee & Nn)].
        * assert (H' : write_field W le fshow recw false jf f l (slot_at m l) = Ok ts) by (destruct (w_elem f); try contradiction; exact H).
          assert (Hf' : value (dyn_of f) l (slot_at m l) = FInt 0 /\ scalar_printable utf8_ok fshow fparse jf (w_elem f) (VInt 0)) by (destruct (w_elem f); try contradiction; exact Hf). destruct Hf' as [V P].
          destruct (number_unset ty jf f l m s0 ts Hin Num R V P H0 H') as (j & -> & K). exists j. split; [reflexivity|]. intros r. destruct (K r) as (s' & E & B). exists s'. split; [exact E|]. left. split; [|exact B]. right.
          split; [exact Hh|]. split; [exact Ex|]. split; [exact R|]. split; [unfold not_message; destruct (w_elem f); try contradiction; exact Logic.I|]. split; [exact V|exact Num].
        * assert (ts = [TNull]) as -> by (rewrite Ee in H; destruct e; try (exfalso; apply Nn; exact Logic.I); injection H as <-; reflexivity).
          exists JNull. split; [reflexivity|]. intros r. exists (clear_slot s0). split; [|right; auto].
          cbn [render app DynJson.read_field]. unfold set_null. rewrite Ee. destruct e as [| | | | |tm d]; try reflexivity.
          exfalso. destruct (field_in W HW _ _ _ Hw) as ((_ & _ & Kx & _) & _). cbn [fst] in Kx. rewrite (Kx tm d Ee R) in Ex. discriminate Ex.
  Qed.
End Body.
