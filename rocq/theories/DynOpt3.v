(** Writing a dynamic message with the options of DynOpt and reading it back. *)
Require Import Verif.Bits Verif.Varint.
Require Import Verif.DynSlots Verif.Dyn Verif.Schema Verif.Archive Verif.Decode Verif.Encode Verif.DynWire Verif.DynDecode Verif.DynView Verif.DynEncode1 Verif.DynDecode1 Verif.DynEncode3 Verif.DynDecode3.
Require Import Verif.DynJson Verif.DynJsonSpec Verif.DynJson1 Verif.DynJson2 Verif.DynJson3 Verif.DynJson4 Verif.DynJson5 Verif.DynJson6 Verif.DynOpt Verif.DynOptSpec Verif.DynOpt1 Verif.DynOpt2.

Section Body.
  Context (W : list wtype) (J : list jtype) (utf8_ok : bytes -> bool) (le : bool) (fshow : bool -> Z -> bytes) (fparse : bool -> bytes -> option Z) (always preserve : bool).
  Hypothesis HW : wtypes_ok W.
  Hypothesis HJ : jtypes_ok W J.
  Hypothesis HN : names_found W J preserve.
  Notation slot_printable := (slot_printable utf8_ok fshow fparse).
  Context (strict : bool) (n : nat) (Pr : nat -> list slot -> Prop) (recw : bool -> nat -> list slot -> res (list tok)) (recr : nat -> list slot -> list tok -> res (list slot * list tok)).
  Hypothesis RT : forall ty m ts, typed W n ty m -> Pr ty m -> recw false ty m = Ok ts ->
    wrote W J ty ts /\ (forall r, exists m', recr ty (new_slots W ty) (ts ++ r) = Ok (m', r) /\ same W n ty m m') /\
    (known_of J ty = KValue -> forall r, w_fields (wty W ty) <> [] /\ recr ty (new_slots W ty) (TNull :: r) = Ok (null_value W ty, r)).
  Hypothesis PV : forall ty m, known_of J ty = KValue -> w_entry (wty W ty) = false -> Pr ty m ->
    exists i jf f l, nth_error (jfields W J ty) i = Some (jf, (f, l)) /\ has (f, l) m = true.
  Notation read_field := (read_field W J utf8_ok fparse recr).
  Notation read_at := (read_at W J utf8_ok fparse recr).
  Notation fresh := (fresh utf8_ok fshow fparse).
  Notation show_members := (show_members W le fshow always preserve recw).

  Lemma find_shown ty jf f l : In (jf, (f, l)) (jfields W J ty) -> find_field W J ty (name_in preserve jf) = Some (jf, (f, l)).
  Proof.
    intros H. unfold name_in. pose proof HN as HN'. unfold names_found in HN'. destruct preserve; [|exact (find_own W J HJ ty jf f l H)]. exact (HN' eq_refl ty (jf, (f, l)) H).
  Qed.
  Lemma shows_printed f l m : shows always f l (slot_at m l) = printed always (f, l) m.
  Proof. reflexivity. Qed.
  (** The text of a member *)
  Definition member_text (m : list slot) (x : jfield * (wfield * layout)) (p : bytes * json) : Prop :=
    member_for W fshow preserve m x p /\ write_shown W le fshow recw false (fst x) (fst (snd x)) (snd (snd x)) (slot_at m (snd (snd x))) = Ok (render (snd p)).
  Lemma show_back ty m0 : typed W (S n) ty m0 -> (forall jf f l, In (jf, (f, l)) (jfields W J ty) -> has (f, l) m0 = true -> slot_printable Pr jf f l (slot_at m0 l)) ->
    (forall jf f l, In (jf, (f, l)) (jfields W J ty) -> has (f, l) m0 = false -> always = true -> w_explicit f = false -> fresh jf f l (slot_at m0 l)) ->
    forall fs2 fs1 done m first ts, jfields W J ty = fs1 ++ fs2 -> inv2 W (same W n) ty m0 done m -> incl done (map snd fs1) -> (forall x, In x (map snd fs1) -> has x m0 = true -> In x done) ->
    show_members false first fs2 m0 = Ok ts ->
    (exists ms, Forall2 (member_text m0) (filter (fun x => printed always (snd x) m0) fs2) ms /\ ts = (if first then [] else match ms with [] => [] | _ => [Comma] end) ++ separated (map member ms)) /\
    forall k r, (length ts < k)%nat -> exists m', read_members W J utf8_ok fparse strict recr k first ty m (ts ++ RBrace :: r) = Ok (m', r) /\ same W (S n) ty m0 m'.
  Proof.
    intros Ht Hp Hz. induction fs2 as [|[jf [f l]] fs2 IH]; intros fs1 done m first ts Hfs I Hd Hc H.
    - cbn [DynOpt.show_members] in H. apply Ok_inj in H. subst ts. split; [exists []; split; [apply Forall2_nil|destruct first; reflexivity]|]. intros [|k] r Hk; [cbn in Hk; lia|]. exists m. split; [reflexivity|].
      apply (done2 W HW (same W n) ty m0 n done m eq_refl I). intros f l Hf Hh. apply Hc; [|exact Hh]. rewrite app_nil_r in Hfs. rewrite <- Hfs, (jfields_fields W J HJ). exact Hf.
    - cbn [DynOpt.show_members] in H. assert (Hin : In (jf, (f, l)) (jfields W J ty)) by (rewrite Hfs; apply in_or_app; right; left; reflexivity).
      assert (Hfs' : jfields W J ty = (fs1 ++ [(jf, (f, l))]) ++ fs2) by (rewrite <- app_assoc; exact Hfs).
      destruct (shows always f l (slot_at m0 l)) eqn:Sh.
      + destruct (write_shown W le fshow recw false jf f l (slot_at m0 l)) as [x| | | |] eqn:Hx; try discriminate H. cbn [bind] in H. destruct (show_members false false fs2 m0) as [y| | | |] eqn:Hy; try discriminate H. cbn [bind] in H. apply Ok_inj in H. subst ts.
        assert (Hap : apart_from done (f, l)).
        { intros z Hz'. left. destruct (wtype_layout _ (wty_ok W ty HW)) as [FOP _]. rewrite <- (jfields_fields W J HJ), Hfs, map_app in FOP. destruct (fop_app _ _ _ FOP) as (_ & _ & K). apply K; [apply Hd; exact Hz'|left; reflexivity]. }
        pose proof (jfield_in W J HJ _ _ _ _ Hin) as Hw.
        assert (Own : has (f, l) m0 = true \/ w_oneof f = None).
        { destruct (has (f, l) m0) eqn:Hh; [left; reflexivity|right]. unfold shows in Sh. unfold has in Hh. cbn [fst snd] in Hh. rewrite Hh in Sh. cbn [orb] in Sh. apply andb_prop in Sh. destruct Sh as [_ Ex]. apply negb_true_iff in Ex. exact (oneof_explicit W HW ty f l Hw Ex). }
        pose proof (free2 W HW (same W n) ty m0 done m f l I Hw Own Hap) as H0.
        destruct (shown_read W J utf8_ok le fshow fparse always HW HJ n Pr recw recr RT ty jf f l m0 (slot_at m l) x Hin Ht H0 Sh (Hp _ _ _ Hin) (Hz _ _ _ Hin) Hx) as (j & -> & R).
        assert (Fm : exists j', render j = render j' /\ (has (f, l) m0 = false -> j' = absent_form W fshow f)).
        { destruct (has (f, l) m0) eqn:Hh; [exists j; split; [reflexivity|discriminate]|]. exists (absent_form W fshow f). split; [|reflexivity]. pose proof Hh as Hh0. unfold shows in Sh. unfold has in Hh. cbn [fst snd] in Hh. rewrite Hh in Sh. cbn [orb] in Sh. apply andb_prop in Sh. destruct Sh as [Al Ex]. apply negb_true_iff in Ex.
          rewrite (unset_written W utf8_ok le fshow fparse recw false jf f l (slot_at m0 l) (Hz _ _ _ Hin Hh0 Al Ex) Hh eq_refl) in Hx. apply Ok_inj in Hx. symmetry. exact Hx. }
        destruct Fm as (j' & Ej & Fm). rewrite Ej in *. clear j Ej. rename j' into j.
        assert (St : forall s', (has (f, l) m0 = true \/ zeroed m0 f l) /\ back (same W n) f l (slot_at m0 l) s' \/ has (f, l) m0 = false /\ w_oneof f = None /\ fst s' = 0 ->
          (exists ms, Forall2 (member_text m0) (filter (fun x => printed always (snd x) m0) fs2) ms /\ y = (match ms with [] => [] | _ => [Comma] end) ++ separated (map member ms)) /\
          forall k r, (length y < k)%nat -> exists m', read_members W J utf8_ok fparse strict recr k false ty (put m (l_slot l) s') (y ++ RBrace :: r) = Ok (m', r) /\ same W (S n) ty m0 m').
        { intros s' [[Hh B]|(Hh & Ho & Es)].
          - destruct (IH (fs1 ++ [(jf, (f, l))]) ((f, l) :: done) (put m (l_slot l) s') false y Hfs') as [K1 K2]; auto.
            + apply step2; auto.
            + rewrite map_app. intros z [<-|Hz']; apply in_or_app; [right; left; reflexivity|left; apply Hd; exact Hz'].
            + rewrite map_app. intros z Hz' Hz2. apply in_app_or in Hz'. destruct Hz' as [Hz'|[<-|[]]]; [right; apply Hc; assumption|left; reflexivity].
          - destruct (IH (fs1 ++ [(jf, (f, l))]) done (put m (l_slot l) s') false y Hfs') as [K1 K2]; auto.
            + apply (zero2 W HW (same W n) ty m0 done m f l s'); auto.
            + intros z Hz'. rewrite map_app. apply in_or_app. left. apply Hd. exact Hz'.
            + rewrite map_app. intros z Hz' Hz2. apply in_app_or in Hz'. destruct Hz' as [Hz'|[<-|[]]]; [apply Hc; assumption|]. cbn [snd] in Hz2. congruence. }
        split.
        * destruct (R []) as (s' & _ & B). destruct (St s' B) as [(ms & Em & ->) _]. exists ((name_in preserve jf, j) :: ms). split; [cbn [filter snd]; rewrite <- shows_printed, Sh; apply Forall2_cons; [split; [split; [reflexivity|cbn [fst snd]; exact Fm]|exact Hx]|exact Em]|]. destruct first; cbn [app]; destruct ms as [|p ms]; cbn [map separated app]; unfold member at 1; cbn [fst snd app]; rewrite ?app_nil_r; reflexivity.
        * intros k r Hk. destruct (R (y ++ RBrace :: r)) as (s' & E & B). destruct (St s' B) as [_ K].
          assert (Sd : forall b, read_members W J utf8_ok fparse strict recr k first ty m ((if first then [] else [Comma]) ++ Str (name_in preserve jf) :: Colon :: render j ++ b) =
            match k with O => NoFuel | S k' => '(m1, r1) <- read_at (jf, (f, l)) m (render j ++ b) ;; read_members W J utf8_ok fparse strict recr k' false ty m1 r1 end).
          { intros b. destruct k as [|k]; [reflexivity|]. cbn [read_members]. destruct first; cbn [app bind]; rewrite (find_shown ty jf f l Hin); reflexivity. }
          replace (((if first then [] else [Comma]) ++ Str (name_in preserve jf) :: Colon :: render j ++ y) ++ RBrace :: r) with ((if first then [] else [Comma]) ++ Str (name_in preserve jf) :: Colon :: render j ++ (y ++ RBrace :: r)) by (rewrite <- !app_assoc; cbn [app]; rewrite <- app_assoc; reflexivity).
          rewrite Sd. destruct k as [|k]; [lia|]. cbn [DynJson.read_at]. rewrite E. cbn [bind]. apply K. rewrite app_length in Hk. cbn [length] in Hk. rewrite app_length in Hk. lia.
      + cbn [filter snd]. rewrite <- shows_printed, Sh. apply (IH (fs1 ++ [(jf, (f, l))]) done m first ts Hfs' I); auto.
        * intros z Hz'. rewrite map_app. apply in_or_app. left. apply Hd. exact Hz'.
        * rewrite map_app. intros z Hz' Hz2. apply in_app_or in Hz'. destruct Hz' as [Hz'|[<-|[]]]; [apply Hc; assumption|]. unfold shows in Sh. apply orb_false_iff in Sh. destruct Sh as [Sh _]. unfold has in Hz2. cbn [fst snd] in Hz2. congruence.
  Qed.

  (** The members of an object *)
  Definition members_shown ty m0 (ts : list tok) : Prop :=
    w_entry (wty W ty) = false -> known_of J ty = KNone -> exists ms, ts = render (JObj ms) /\ Forall2 (member_text m0) (filter (fun x => printed always (snd x) m0) (jfields W J ty)) ms.

  (** Where every field has a value the options make no difference. *)
  Lemma shown_has q jf f l s : has_value (dyn_of f) l s = true -> write_shown W le fshow recw q jf f l s = write_field W le fshow recw q jf f l s.
  Proof. intros H. unfold write_shown. rewrite H. reflexivity. Qed.
  Lemma ref_has q jf f l s : has_value (dyn_of f) l s = true -> write_ref W le fshow always recw q jf f l s = write_cref W le fshow recw q jf f l s.
  Proof. intros H. unfold write_ref, write_cref, shows. rewrite H, shown_has by exact H. reflexivity. Qed.
  Lemma entry_has fs m : Forall (fun x => has (snd x) m = true) fs -> forall q first, show_entry_fields W le fshow always recw q first fs m = write_entry_fields W le fshow recw q first fs m.
  Proof.
    intros F. induction F as [|[jf [f l]] t H F IH]; intros q first; [reflexivity|]. cbn [show_entry_fields write_entry_fields]. unfold shows. cbn [snd] in H. unfold has in H. cbn [fst snd] in H. rewrite H. cbn [orb]. rewrite shown_has by exact H. rewrite IH. reflexivity.
  Qed.
  Lemma body_same q ty m : printable_body W J utf8_ok fshow fparse Pr ty m -> (w_entry (wty W ty) = false -> known_of J ty <> KNone) ->
    show_body W J le fshow always preserve recw q ty m = write_body W J le fshow recw q ty m.
  Proof.
    intros Hp Nk. unfold show_body, write_body, printable_body in *. destruct (w_entry (wty W ty)) eqn:En.
    - unfold write_entry. rewrite entry_has; [reflexivity|]. destruct Hp as [_ Ha]. rewrite <- (jfields_fields W J HJ) in Ha. rewrite Forall_map in Ha. exact Ha.
    - specialize (Nk eq_refl). destruct (known_of J ty) eqn:K; try reflexivity; [congruence| |].
      + destruct Hp as (i & jf & f & l & Hi & Hh & _). destruct (value_active W J HJ ty m i jf f l K Hi Hh) as (f0 & Hhd & Ha). unfold show_value, write_value.
        destruct (w_fields (wty W ty)) as [|[f0' l0] t]; [discriminate Hhd|]. cbn [hd_error] in Hhd. injection Hhd as -> ->. cbv zeta. rewrite Ha. destruct (Z.of_nat i <? 0); [reflexivity|]. rewrite Nat2Z.id, Hi. apply ref_has. exact Hh.
      + destruct Hp as [_ Ha]. rewrite <- (jfields_fields W J HJ) in Ha. destruct (jfields W J ty) as [|[jf [f l]] t]; [reflexivity|]. apply ref_has. inversion Ha as [|? ? Hh _]; subst. exact Hh.
  Qed.

  Lemma show_body_back ty m0 ts : typed W (S n) ty m0 -> printable_body W J utf8_ok fshow fparse Pr ty m0 ->
    (always = true -> known_of J ty = KNone -> w_entry (wty W ty) = false -> forall jf f l, In (jf, (f, l)) (jfields W J ty) -> has (f, l) m0 = false -> w_explicit f = false -> fresh jf f l (slot_at m0 l)) ->
    show_body W J le fshow always preserve recw false ty m0 = Ok ts ->
    (wrote W J ty ts /\ (forall r, exists m', read_body W J utf8_ok fparse strict recr ty (new_slots W ty) (ts ++ r) = Ok (m', r) /\ same W (S n) ty m0 m') /\
     (known_of J ty = KValue -> forall r, w_fields (wty W ty) <> [] /\ read_body W J utf8_ok fparse strict recr ty (new_slots W ty) (TNull :: r) = Ok (null_value W ty, r))) /\ members_shown ty m0 ts.
  Proof.
    intros Ht Hp Hz H. destruct (w_entry (wty W ty)) eqn:En; [|destruct (known_of J ty) eqn:K];
      try (rewrite (body_same false ty m0 Hp) in H by (intros X; congruence); split; [|intros E1 E2; congruence];
           destruct (body_back W J utf8_ok le fshow fparse HW HJ strict n Pr recw recr RT PV ty m0 ts Ht Hp H) as (A & B & C); rewrite ?K in C; split; [exact A|split; [exact B|exact C]]).
    unfold show_body in H. unfold printable_body in Hp. unfold wrote, read_body, members_shown. rewrite En, K in *.
    destruct (show_members false true (jfields W J ty) m0) as [x| | | |] eqn:X; try discriminate H. cbn [bind] in H. apply Ok_inj in H.
    destruct (show_back ty m0 Ht Hp (fun jf f l A B C D => Hz C eq_refl eq_refl jf f l A B D) (jfields W J ty) [] [] (new_slots W ty) true x eq_refl) as [(ms & Mn & Ms) R]; auto; [apply new2|intros z []|].
    subst ts. cbn [app] in Ms. split; [split; [|split; [|discriminate]]|].
    - exists (JObj ms). split; [rewrite Ms; reflexivity|]. split; [discriminate|]. split; discriminate.
    - intros r. cbn [app]. rewrite <- app_assoc. cbn [app]. apply R. rewrite app_length. cbn [length]. lia.
    - intros _ _. exists ms. split; [rewrite Ms; reflexivity|exact Mn].
  Qed.
End Body.

Section Main.
  Context (W : list wtype) (J : list jtype) (utf8_ok : bytes -> bool) (le : bool) (maxd : Z) (fshow : bool -> Z -> bytes) (fparse : bool -> bytes -> option Z) (always preserve : bool).
  Hypothesis HW : wtypes_ok W.
  Hypothesis HJ : jtypes_ok W J.
  Lemma showable_value n ty m : known_of J ty = KValue -> w_entry (wty W ty) = false -> showable W J utf8_ok fshow fparse always n ty m ->
    exists i jf f l, nth_error (jfields W J ty) i = Some (jf, (f, l)) /\ has (f, l) m = true.
  Proof. intros K E. destruct n as [|n]; [intros []|]. cbn [showable]. unfold printable_body. rewrite K, E. intros ((i & jf & f & l & A & B & _) & _). eauto 6. Qed.
  Hypothesis HN : names_found W J preserve.
  Lemma show_msg_back strict n : forall d ty m ts, typed W n ty m -> showable W J utf8_ok fshow fparse always n ty m -> show_msg W J le maxd fshow always preserve n d false ty m = Ok ts ->
    (wrote W J ty ts /\ (forall r, exists m', read_msg W J utf8_ok maxd fparse strict n d ty (new_slots W ty) (ts ++ r) = Ok (m', r) /\ same W n ty m m') /\
     (known_of J ty = KValue -> forall r, w_fields (wty W ty) <> [] /\ read_msg W J utf8_ok maxd fparse strict n d ty (new_slots W ty) (TNull :: r) = Ok (null_value W ty, r))) /\
    match n with O => True | S k => members_shown W J le fshow always preserve (show_msg W J le maxd fshow always preserve k (d + 1)) ty m ts end.
  Proof.
    induction n as [|n IH]; intros d ty m ts Ht Hp H; [discriminate H|]. cbn [show_msg read_msg showable] in *. destruct Hp as [Hp Hz]. destruct (scope_ok maxd d); [|discriminate H].
    apply (show_body_back W J utf8_ok le fshow fparse always preserve HW HJ HN strict n (showable W J utf8_ok fshow fparse always n) (show_msg W J le maxd fshow always preserve n (d + 1)) (read_msg W J utf8_ok maxd fparse strict n (d + 1))); auto.
    - intros ty' m' ts' A B C. exact (proj1 (IH (d + 1) ty' m' ts' A B C)).
    - exact (showable_value n).
  Qed.
End Main.

(** ** Agreement with DynJson *)
Section Plain.
  Context (W : list wtype) (J : list jtype) (le : bool) (maxd : Z) (fshow : bool -> Z -> bytes).
  Lemma shows_plain f l s : shows false f l s = has_value (dyn_of f) l s.
  Proof. unfold shows. cbn [andb]. apply orb_false_r. Qed.
  Section Level.
    Context (rec1 rec2 : bool -> nat -> list slot -> res (list tok)).
    Hypothesis E : forall q ty m, rec1 q ty m = rec2 q ty m.
    Lemma write_all_ext q ty x : write_all rec1 q ty x = write_all rec2 q ty x.
    Proof. induction x as [|m t IH]; [reflexivity|]. cbn [write_all]. rewrite E, IH. reflexivity. Qed.
    Lemma write_messages_ext q ty x : write_messages W rec1 q ty x = write_messages W rec2 q ty x.
    Proof. unfold write_messages. rewrite write_all_ext. reflexivity. Qed.
    Lemma write_field_ext q jf f l s : write_field W le fshow rec1 q jf f l s = write_field W le fshow rec2 q jf f l s.
    Proof. unfold write_field. destruct (w_elem f), (w_rep f); try reflexivity; destruct (value (dyn_of f) l s); try reflexivity; [apply write_messages_ext|apply E]. Qed.
    Lemma write_ref_plain q jf f l s : write_ref W le fshow false rec1 q jf f l s = write_cref W le fshow rec2 q jf f l s.
    Proof. unfold write_ref, write_cref. rewrite shows_plain. destruct (has_value (dyn_of f) l s) eqn:H; [|reflexivity]. unfold write_shown. rewrite H. apply write_field_ext. Qed.
    Lemma members_plain q fs m : forall first, show_members W le fshow false false rec1 q first fs m = write_members W le fshow rec2 q first fs m.
    Proof.
      induction fs as [|[jf [f l]] t IH]; intros first; [reflexivity|]. cbn [show_members write_members]. rewrite shows_plain. destruct (has_value (dyn_of f) l (slot_at m l)) eqn:H; [|apply IH].
      unfold write_shown. rewrite H, write_field_ext, IH. reflexivity.
    Qed.
    Lemma entry_plain q fs m : forall first, show_entry_fields W le fshow false rec1 q first fs m = write_entry_fields W le fshow rec2 q first fs m.
    Proof.
      induction fs as [|[jf [f l]] t IH]; intros first; [reflexivity|]. cbn [show_entry_fields write_entry_fields]. rewrite shows_plain. destruct (has_value (dyn_of f) l (slot_at m l)) eqn:H; [|apply IH].
      unfold write_shown. rewrite H, write_field_ext, IH. reflexivity.
    Qed.
    Lemma body_plain q ty m : show_body W J le fshow false false rec1 q ty m = write_body W J le fshow rec2 q ty m.
    Proof.
      unfold show_body, write_body. destruct (w_entry (wty W ty)); [unfold write_entry; rewrite entry_plain; reflexivity|].
      destruct (known_of J ty); try reflexivity.
      - rewrite members_plain. reflexivity.
      - unfold show_value, write_value. destruct (w_fields (wty W ty)) as [|[f0 l0] t]; [reflexivity|]. cbv zeta. destruct (_ <? 0); [reflexivity|]. destruct (nth_error _ _) as [[jf [f l]]|]; [apply write_ref_plain|reflexivity].
      - destruct (jfields W J ty) as [|[jf [f l]] t]; [reflexivity|]. destruct (w_elem f), (w_rep f), (value (dyn_of f) l (slot_at m l)); try reflexivity. apply write_messages_ext.
      - destruct (jfields W J ty) as [|[jf [f l]] t]; [reflexivity|]. destruct (w_elem f), (w_rep f), (value (dyn_of f) l (slot_at m l)); try reflexivity. apply write_messages_ext.
      - destruct (jfields W J ty) as [|[jf [f l]] t]; [reflexivity|]. apply write_ref_plain.
    Qed.
  End Level.
  Lemma msg_plain n : forall d q ty m, show_msg W J le maxd fshow false false n d q ty m = write_msg W J le maxd fshow n d q ty m.
  Proof. induction n as [|n IH]; intros d q ty m; [reflexivity|]. cbn [show_msg write_msg]. destruct (scope_ok maxd d); [|reflexivity]. apply body_plain. apply IH. Qed.
End Plain.
