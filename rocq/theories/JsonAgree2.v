(** Fields and members are written the same, if nested messages are. *)
Require Import Verif.Bits Verif.Varint.
Require Import Verif.DynSlots Verif.Dyn Verif.Schema Verif.Archive Verif.Decode Verif.Encode Verif.DynWire Verif.DynView Verif.DynEncode1 Verif.DynEncode3 Verif.DynJson Verif.DynJsonSpec Verif.DynJson1 Verif.DynJson2 Verif.DynJson3 Verif.GenJson Verif.JsonAgreeSpec Verif.JsonAgree1.

Definition message_elem (e : elem) : bool := match e with EMsg _ _ => true | _ => false end.

Section Values.
  Context (W : list wtype) (n : nat) (rec : nat -> list slot -> val) (crec : nat -> list slot -> Prop).
  Lemma value_scalar jf f l s : w_rep f = None -> message_elem (w_elem f) = false -> has_value (dyn_of f) l s = true -> slot_ok (typed W n) f l s -> slot_common crec jf f l s ->
    exists v, single f l s = Ok v /\ fits (w_elem f) v /\ slot_vals rec f l s = [v] /\ scalar_common jf (w_elem f) v.
  Proof.
    intros R M H S (_ & C). specialize (S H). unfold single, slot_vals. unfold value in *. cbn [dyn_of y_kind y_explicit y_dint y_dbytes] in *. unfold is_rep in *. rewrite R, H in *. cbn [negb] in *. rewrite Bool.andb_false_r in *.
    destruct (w_elem f) eqn:Ef; try discriminate M; cbn [kind_of] in *; destruct (snd s); try contradiction S; eexists; (split; [reflexivity|]); (split; [exact S|]); (split; [reflexivity|]); try exact C; exact I.
  Qed.
  Lemma value_scalars jf f l s p : w_rep f = Some p -> message_elem (w_elem f) = false -> has_value (dyn_of f) l s = true -> slot_ok (typed W n) f l s -> slot_common crec jf f l s ->
    exists vs, several f l s = Ok vs /\ Forall (fits (w_elem f)) vs /\ slot_vals rec f l s = vs /\ Forall (scalar_common jf (w_elem f)) vs /\ vs <> [].
  Proof.
    intros R M H S (_ & C). specialize (S H). rewrite (rep_word f l s p R) in H. unfold several, slot_vals. 
    assert (N : forall A B (g : A -> B) (x : list A), Z.of_nat (length x) = fst s -> map g x <> []).
    { intros A B g [|a x] L; cbn in *; [lia|discriminate]. }
    destruct (value (dyn_of f) l s) as [z|b|m|x|x|x| |] eqn:V; try contradiction S.
    1,2,3,6: exfalso; unfold value in V; cbn [dyn_of y_kind] in V; unfold is_rep in V; rewrite R in V; destruct (w_elem f); try discriminate M; cbn [kind_of] in V; destruct (fst s =? 0); try discriminate V; destruct (snd s); discriminate V.
    - destruct S as (L & S). exists (map VInt x). split; [reflexivity|]. split; [apply Forall_map; exact S|]. split; [reflexivity|]. split; [apply Forall_map; exact C|]. apply N. exact L.
    - destruct S as (L & S). exists (map VBytes x). split; [reflexivity|]. split; [apply Forall_map; exact S|]. split; [reflexivity|]. split; [|apply N; exact L].
      apply Forall_map. apply Forall_forall. intros b _. unfold scalar_common. destruct (w_elem f); exact I.
  Qed.
  Lemma value_message jf f l s ty d : w_rep f = None -> w_elem f = EMsg ty d -> has_value (dyn_of f) l s = true -> slot_ok (typed W n) f l s -> slot_common crec jf f l s ->
    exists x, snd s = CMsg x /\ value (dyn_of f) l s = FMsg x /\ typed W n ty x /\ crec ty x /\ slot_vals rec f l s = [rec ty x].
  Proof.
    intros R M H S (_ & C). specialize (S H). unfold slot_vals. unfold value in *. cbn [dyn_of y_kind] in *. unfold is_rep in *. rewrite R, M in *. cbn [kind_of] in *. rewrite H in *.
    destruct (snd s) as [| | |x| | | |]; try contradiction S. exists x. split; [reflexivity|]. split; [reflexivity|]. split; [exact S|]. split; [exact (C ty d eq_refl)|reflexivity].
  Qed.
  Lemma value_messages jf f l s ty d p : w_rep f = Some p -> w_elem f = EMsg ty d -> has_value (dyn_of f) l s = true -> slot_ok (typed W n) f l s -> slot_common crec jf f l s ->
    exists x, value (dyn_of f) l s = FMsgs x /\ Forall (typed W n ty) x /\ Forall (crec ty) x /\ slot_vals rec f l s = map (rec ty) x /\ x <> [].
  Proof.
    intros R M H S (_ & C). specialize (S H). rewrite (rep_word f l s p R) in H. unfold slot_vals.
    destruct (value (dyn_of f) l s) as [z|b|m|x|x|x| |] eqn:V; try contradiction S.
    1,2,3,4,5: exfalso; unfold value in V; cbn [dyn_of y_kind] in V; unfold is_rep in V; rewrite R, M in V; cbn [kind_of] in V; destruct (fst s =? 0); try discriminate V; destruct (snd s); discriminate V.
    rewrite M in *. destruct S as (L & S). exists x. split; [reflexivity|]. split; [exact S|]. split; [exact (C ty d eq_refl)|]. split; [reflexivity|]. intros ->. cbn in L. lia.
  Qed.
End Values.

Section Fields.
  Context (W : list wtype) (J : list jtype) (E : env) (G : list gtype) (le : bool) (fshow : bool -> Z -> bytes).
  Hypothesis HW : wtypes_ok W.
  Hypothesis HJ : jtypes_ok W J.
  Context (n : nat) (recd : bool -> nat -> list slot -> res (list tok)) (recg : nat -> val -> res (list tok)) (recv : nat -> list slot -> val).
  Notation common := (common W J n).
  Hypothesis RM : forall ty m, w_entry (wty W ty) = false -> typed W n ty m -> common ty m -> agree (recd false ty m) (recg ty (recv ty m)).
  Hypothesis RE : forall te m, w_entry (wty W te) = true -> typed W n te m -> common te m -> agree (recd false te m) (gwrite_entry E G le fshow recg te (recv te m)).
  Hypothesis RN : forall ty m x, typed W n ty m -> common ty m -> recd false ty m = Ok x -> x <> [].
  Notation write_field := (write_field W le fshow recd).
  Notation gwrite_elem := (gwrite_elem le fshow recg).
  Notation gwrite_array := (gwrite_array le fshow recg).
  Notation gwrite_map := (gwrite_map E G le fshow recg).
  Notation slot_vals := (slot_vals recv).

  Lemma all_nonempty ty x : forall xs, Forall (typed W n ty) x -> Forall (common ty) x -> write_all recd false ty x = Ok xs -> filter nonempty xs = xs.
  Proof.
    induction x as [|m x IH]; intros xs T C H; cbn [write_all] in H; [apply Ok_inj in H; subst; reflexivity|]. inversion T; inversion C; subst.
    destruct (recd false ty m) as [a| | | |] eqn:Ea; cbn in H; try discriminate H. destruct (write_all recd false ty x) as [b| | | |]; cbn in H; try discriminate H. apply Ok_inj in H. subst xs.
    cbn [filter]. rewrite (IH b) by auto. pose proof (RN ty m a ltac:(assumption) ltac:(assumption) Ea). destruct a; [congruence|reflexivity].
  Qed.
  Lemma entries_same te x : w_entry (wty W te) = true -> Forall (typed W n te) x -> Forall (common te) x ->
    agree (write_all recd false te x) (gwrite_entries E G le fshow recg te (map (recv te) x)).
  Proof.
    intros He. induction x as [|m x IH]; intros T C; [apply agree_refl|]. inversion T; inversion C; subst. cbn [write_all map gwrite_entries].
    apply agree_bind; [apply RE; assumption|]. intros a _. apply agree_bind; [apply IH; assumption|]. intros b _. apply agree_refl.
  Qed.
  Lemma elems_same q jf ty d x : w_entry (wty W ty) = false -> Forall (typed W n ty) x -> Forall (common ty) x ->
    agree (write_all recd false ty x) (gwrite_elems le fshow recg q jf (EMsg ty d) (map (recv ty) x)).
  Proof.
    intros He. induction x as [|m x IH]; intros T C; [apply agree_refl|]. inversion T; inversion C; subst. cbn [write_all map gwrite_elems].
    apply agree_bind; [apply RM; assumption|]. intros a _. apply agree_bind; [apply IH; assumption|]. intros b _. apply agree_refl.
  Qed.
  Lemma map_same te x : w_entry (wty W te) = true -> Forall (typed W n te) x -> Forall (common te) x -> agree (write_messages W recd false te x) (gwrite_map te (map (recv te) x)).
  Proof.
    intros He T C. unfold write_messages, GenJson.gwrite_map. apply agree_bind; [apply entries_same; assumption|]. intros xs Hx. rewrite He, (all_nonempty te x xs T C Hx). apply agree_refl.
  Qed.
  Lemma list_same jf ty d x : w_entry (wty W ty) = false -> Forall (typed W n ty) x -> Forall (common ty) x -> agree (write_messages W recd false ty x) (gwrite_array jf (EMsg ty d) (map (recv ty) x)).
  Proof.
    intros He T C. unfold write_messages, GenJson.gwrite_array. apply agree_bind; [apply elems_same; assumption|]. intros xs Hx. rewrite He, (all_nonempty ty x xs T C Hx). apply agree_refl.
  Qed.

  (** A field that has a value. *)
  Lemma field_single q ty jf f l s : In (jf, (f, l)) (jfields W J ty) -> w_rep f = None -> has_value (dyn_of f) l s = true -> slot_ok (typed W n) f l s -> slot_common common jf f l s -> q = wide jf (w_elem f) ->
    exists v, slot_vals f l s = [v] /\ agree (write_field false jf f l s) (gwrite_elem q jf (w_elem f) v).
  Proof.
    intros Hin R H S C ->. destruct (HJ ty) as (_ & _ & FJ & _). rewrite Forall_forall in FJ. destruct (FJ _ Hin) as (_ & Nn & Ne). cbn [fst snd] in *.
    destruct (message_elem (w_elem f)) eqn:Me.
    - destruct (w_elem f) as [| | | | |te d] eqn:Ef; try discriminate Me. destruct (value_message W n recv common jf f l s te d R Ef H S C) as (x & _ & V & T & Cx & Sv). exists (recv te x). split; [exact Sv|].
      unfold DynJson.write_field, GenJson.gwrite_elem. rewrite Ef, R, V. apply RM; [apply (Ne te d eq_refl R)|exact T|exact Cx].
    - destruct (value_scalar W n recv common jf f l s R Me H S C) as (v & Sg & Fv & Sv & Cv). exists v. split; [exact Sv|]. left.
      unfold DynJson.write_field, GenJson.gwrite_elem. rewrite R, Sg. cbn [bind]. rewrite <- (scalar_same le fshow (wide jf (w_elem f)) jf (w_elem f) v Nn Fv Cv eq_refl). destruct (w_elem f); try discriminate Me; reflexivity.
  Qed.
  Lemma field_list ty jf f l s p : In (jf, (f, l)) (jfields W J ty) -> w_rep f = Some p -> (forall te d, w_elem f = EMsg te d -> w_entry (wty W te) = false) ->
    has_value (dyn_of f) l s = true -> slot_ok (typed W n) f l s -> slot_common common jf f l s ->
    slot_vals f l s <> [] /\ agree (write_field false jf f l s) (gwrite_array jf (w_elem f) (slot_vals f l s)).
  Proof.
    intros Hin R Hent H S C. destruct (HJ ty) as (_ & _ & FJ & _). rewrite Forall_forall in FJ. destruct (FJ _ Hin) as (_ & Nn & Ne). cbn [fst snd] in *.
    destruct (message_elem (w_elem f)) eqn:Me.
    - destruct (w_elem f) as [| | | | |te d] eqn:Ef; try discriminate Me. destruct (value_messages W n recv common jf f l s te d p R Ef H S C) as (x & V & T & Cx & Sv & Nx).
      rewrite Sv. split; [intro Q; apply map_eq_nil in Q; contradiction|]. unfold DynJson.write_field. rewrite Ef, R, V. apply list_same; [apply (Hent te d eq_refl)|exact T|exact Cx].
    - destruct (value_scalars W n recv common jf f l s p R Me H S C) as (vs & Sg & Fv & Sv & Cv & Nv). rewrite Sv. split; [exact Nv|]. left.
      unfold DynJson.write_field, GenJson.gwrite_array. rewrite R, Sg. cbn [bind]. rewrite <- (scalars_same le fshow recg jf (w_elem f) vs) by (auto; destruct (w_elem f); try discriminate Me; exact I). destruct (w_elem f); try discriminate Me; reflexivity.
  Qed.
  Lemma field_map jf f l s te d p : w_rep f = Some p -> w_elem f = EMsg te d -> w_entry (wty W te) = true -> has_value (dyn_of f) l s = true -> slot_ok (typed W n) f l s -> slot_common common jf f l s ->
    slot_vals f l s <> [] /\ agree (write_field false jf f l s) (gwrite_map te (slot_vals f l s)).
  Proof.
    intros R Ef He H S C. destruct (value_messages W n recv common jf f l s te d p R Ef H S C) as (x & V & T & Cx & Sv & Nx). rewrite Sv. split; [intro Q; apply map_eq_nil in Q; contradiction|].
    unfold DynJson.write_field. rewrite Ef, R, V. apply map_same; assumption.
  Qed.

  (** ** Members *)
  Definition out (first : bool) (ms : list (bytes * list tok)) : list tok :=
    match ms with [] => [] | _ => (if first then [] else [Comma]) ++ commas (map (fun p => Str (fst p) :: Colon :: snd p) ms) end.
  Lemma out_cons first k x ms : out first ((k, x) :: ms) = (if first then [] else [Comma]) ++ Str k :: Colon :: x ++ out false ms.
  Proof. unfold out. f_equal. destruct ms as [|p ms]; [cbn; rewrite app_nil_r; reflexivity|]. cbn [map]. rewrite commas_cons. reflexivity. Qed.
  Notation write_members := (write_members W le fshow recd false).
  Notation gwrite_member := (gwrite_member E G le fshow false false recg).
  Notation gwrite_members := (gwrite_members E G le fshow false false recg).
  Notation hasx m x := (has (snd x) m = true).

  Lemma group_cases xs m : forall g i, ForallOrdPairs (fun a b => ~ (hasx m a /\ hasx m b)) g ->
    (group_vals recv i (map snd g) m = [] /\ forall first, write_members first (g ++ xs) m = write_members first xs m) \/
    (exists j jf f l, nth_error g j = Some (jf, (f, l)) /\ has (f, l) m = true /\ group_vals recv i (map snd g) m = map (VAlt (i + j)) (slot_vals f l (slot_at m l)) /\
       forall first, write_members first (g ++ xs) m = (x <- write_field false jf f l (slot_at m l) ;; y <- write_members false xs m ;; Ok ((if first then [] else [Comma]) ++ Str (j_json jf) :: Colon :: x ++ y))).
  Proof.
    induction g as [|[jf [f l]] g IH]; intros i P; [left; split; reflexivity|]. inversion P as [|? ? Pa Pg]; subst. cbn [map snd group_vals app DynJson.write_members].
    destruct (has_value (dyn_of f) l (slot_at m l)) eqn:Hh.
    - right. exists 0%nat, jf, f, l. split; [reflexivity|]. split; [exact Hh|]. split; [rewrite Nat.add_0_r; reflexivity|]. intros first.
      assert (Q : forall first, write_members first (g ++ xs) m = write_members first xs m).
      { clear - Pa Hh. induction g as [|[jg [fg lg]] g IH]; intros first; [reflexivity|]. inversion Pa as [|? ? A B]; subst. cbn [app DynJson.write_members].
        destruct (has_value (dyn_of fg) lg (slot_at m lg)) eqn:Hg; [exfalso; apply A; split; [exact Hh|exact Hg]|]. apply IH. exact B. }
      rewrite Q. reflexivity.
    - destruct (IH (S i) Pg) as [(A & B)|(j & jf' & f' & l' & A & B & C & D)]; [left; auto|right]. exists (S j), jf', f', l'. split; [exact A|]. split; [exact B|]. split; [rewrite C; f_equal; f_equal; lia|exact D].
  Qed.

  Lemma fop_app {T} (R : T -> T -> Prop) a b : ForallOrdPairs R (a ++ b) -> ForallOrdPairs R a /\ ForallOrdPairs R b.
  Proof.
    induction a as [|x a IH]; intros H; [split; [constructor|exact H]|]. inversion H as [|? ? A B]; subst. destruct (IH B) as [C D]. apply Forall_app in A. split; [constructor; [apply A|exact C]|exact D].
  Qed.

  (** What is known of each of the fields. *)
  Definition facts (ty : nat) (m : list slot) (x : jfield * (wfield * layout)) : Prop :=
    In x (jfields W J ty) /\
    (hasx m x -> slot_ok (typed W n) (fst (snd x)) (snd (snd x)) (slot_at m (snd (snd x))) /\ slot_common common (fst x) (fst (snd x)) (snd (snd x)) (slot_at m (snd (snd x)))) /\
    (hasx m x -> w_rep (fst (snd x)) = None -> w_explicit (fst (snd x)) = false ->
       forall v, single (fst (snd x)) (snd (snd x)) (slot_at m (snd (snd x))) = Ok v -> is_default (w_elem (fst (snd x))) (w_default (fst (snd x))) v = false).
  Definition exclusive (m : list slot) (a b : jfield * (wfield * layout)) : Prop :=
    forall o, w_oneof (fst (snd a)) = Some o -> w_oneof (fst (snd b)) = Some o -> ~ (hasx m a /\ hasx m b).

  Lemma default_is ty jf f l : In (jf, (f, l)) (jfields W J ty) -> w_rep f = None -> w_explicit f = false -> message_elem (w_elem f) = false /\ is_default (w_elem f) (w_default f) (w_default f) = true.
  Proof.
    intros Hin R X. destruct (field_in W HW ty f l (jfield_in W J HJ ty jf f l Hin)) as ((_ & _ & M & D) & _). cbn [fst] in *. destruct (D X) as (D1 & D2).
    assert (Me : message_elem (w_elem f) = false) by (destruct (w_elem f) as [| | | | |te d] eqn:Ef; try reflexivity; rewrite (M te d eq_refl R) in X; discriminate).
    split; [exact Me|]. unfold w_default. rewrite D1, D2. destruct (w_elem f) as [| |b fl| | |]; try discriminate Me; try reflexivity. destruct b, fl; reflexivity.
  Qed.

  Lemma members_same ty m xs bs fds : matches W xs bs fds -> Forall (facts ty m) xs -> ForallOrdPairs (exclusive m) xs ->
    forall first, agree (write_members first xs m) (ms <- gwrite_members bs fds (view_members recv bs xs m) ;; Ok (out first ms)).
  Proof.
    intros M. induction M as [|jf f l std c xs bs fds Hstd Hc Ha M IH|g o xs bs fds Hlen Hg Ha M IH]; intros Fa Ex first.
    - apply agree_refl.
    - inversion Fa as [|? ? F0 Fr]; subst. inversion Ex as [|? ? E0 Er]; subst. specialize (IH Fr Er). destruct F0 as (Hin & Hs & Hd). cbn [fst snd] in Hs, Hd.
      cbn [DynJson.write_members view_members GenJson.gwrite_members].
      assert (Skip : gwrite_member (GField jf std) (Field (w_num f) (w_elem f) c) (member_vals recv m (MOne f l)) = Ok [] -> has_value (dyn_of f) l (slot_at m l) = false ->
        agree (write_members first xs m) (ms <- (x <- gwrite_member (GField jf std) (Field (w_num f) (w_elem f) c) (member_vals recv m (MOne f l)) ;; y <- gwrite_members bs fds (view_members recv bs xs m) ;; Ok (x ++ y)) ;; Ok (out first ms))).
      { intros -> _. cbn [bind app]. specialize (IH first). destruct (gwrite_members bs fds (view_members recv bs xs m)); exact IH. }
      assert (Take : forall w, has_value (dyn_of f) l (slot_at m l) = true -> gwrite_member (GField jf std) (Field (w_num f) (w_elem f) c) (member_vals recv m (MOne f l)) = (x <- w ;; Ok [(j_json jf, x)]) ->
        agree (write_field false jf f l (slot_at m l)) w ->
        agree (x <- write_field false jf f l (slot_at m l) ;; y <- write_members false xs m ;; Ok ((if first then [] else [Comma]) ++ Str (j_json jf) :: Colon :: x ++ y))
          (ms <- (x <- gwrite_member (GField jf std) (Field (w_num f) (w_elem f) c) (member_vals recv m (MOne f l)) ;; y <- gwrite_members bs fds (view_members recv bs xs m) ;; Ok (x ++ y)) ;; Ok (out first ms))).
      { intros w _ -> [A|A]; [|right; rewrite A; reflexivity]. rewrite A. destruct w as [x| | | |]; try apply agree_refl. cbn [bind]. specialize (IH false).
        destruct (gwrite_members bs fds (view_members recv bs xs m)) as [ms| | | |]; cbn [bind] in *; (destruct IH as [IH|IH]; rewrite IH; [|right; reflexivity]); try apply agree_refl. left. cbn [bind app]. rewrite out_cons. reflexivity. }
      destruct (has_value (dyn_of f) l (slot_at m l)) eqn:Hh.
      + destruct (Hs Hh) as (So & Sc). cbn [member_vals] in *. rewrite Hh in *. destruct c as [ex d| |pk|pk]; cbn [card_matches] in Hc.
        * destruct ex; [contradiction|]. destruct Hc as (R & X & ->). destruct (field_single (wide jf (w_elem f)) ty jf f l _ Hin R Hh So Sc eq_refl) as (v & Sv & A).
          destruct (default_is ty jf f l Hin R X) as (Me & _). destruct (value_scalar W n recv common jf f l _ R Me Hh So Sc) as (v' & Sg & _ & Sv' & _). rewrite Sv in Sv'. injection Sv' as <-.
          rewrite Sv in *. eapply Take; [reflexivity| |exact A]. cbn [GenJson.gwrite_member orb]. rewrite (Hd Hh R X v Sg). reflexivity.
        * destruct Hc as (R & X). destruct (field_single (negb std && wide jf (w_elem f)) ty jf f l _ Hin R Hh So Sc) as (v & Sv & A).
          { destruct std; [|reflexivity]. destruct Sc as (Wd & _). rewrite (Wd (Hstd eq_refl)). reflexivity. }
          rewrite Sv in *. eapply Take; [reflexivity| |exact A]. reflexivity.
        * destruct Hc as (R & He). destruct (w_rep f) as [p|] eqn:Rp; [|contradiction]. destruct (field_list ty jf f l _ p Hin Rp He Hh So Sc) as (Nn & A).
          eapply Take; [reflexivity| |exact A]. cbn [GenJson.gwrite_member]. destruct (slot_vals f l (slot_at m l)); [contradiction|reflexivity].
        * destruct Hc as (R & te & d & Ef & He). destruct (w_rep f) as [p|] eqn:Rp; [|contradiction]. destruct (field_map jf f l _ te d p Rp Ef He Hh So Sc) as (Nn & A).
          eapply Take; [reflexivity| |exact A]. cbn [GenJson.gwrite_member]. rewrite Ef. destruct (slot_vals f l (slot_at m l)); [contradiction|reflexivity].
      + apply Skip; [|reflexivity]. cbn [member_vals]. rewrite Hh. destruct c as [ex d| |pk|pk]; cbn [card_matches] in Hc.
        * destruct ex; [contradiction|]. destruct Hc as (R & X & ->). rewrite X. unfold is_rep. rewrite R. cbn [orb GenJson.gwrite_member]. destruct (default_is ty jf f l Hin R X) as (_ & D). rewrite D. reflexivity.
        * destruct Hc as (R & X). rewrite X, Bool.orb_true_r. reflexivity.
        * destruct Hc as (R & _). unfold is_rep. destruct (w_rep f); [|contradiction]. reflexivity.
        * destruct Hc as (R & te & d & Ef & _). unfold is_rep. destruct (w_rep f); [|contradiction]. cbn [orb GenJson.gwrite_member]. rewrite Ef. reflexivity.
    - apply Forall_app in Fa. destruct Fa as (Fg & Fr). apply fop_app in Ex. destruct Ex as (Eg & Er). specialize (IH Fr Er).
      cbn [view_members GenJson.gwrite_members]. rewrite map_length, firstn_app, Nat.sub_diag, firstn_all, skipn_app, Nat.sub_diag, skipn_all. cbn [firstn skipn app]. rewrite app_nil_r.
      assert (Eg' : ForallOrdPairs (fun a b => ~ (hasx m a /\ hasx m b)) g).
      { clear - Eg Hg. induction Eg as [|a g A B IH]; [constructor|]. inversion Hg as [|? ? Oa Og]; subst. constructor; [|exact (IH Og)]. rewrite Forall_forall in *. intros b Hb. exact (A b Hb o Oa (Og b Hb)). }
      destruct (group_cases xs m g 0 Eg') as [(A & B)|(j & jf & f & l & A & B & C & D)].
      + rewrite A, B. cbn [GenJson.gwrite_member bind app]. specialize (IH first). destruct (gwrite_members bs fds (view_members recv bs xs m)); exact IH.
      + rewrite C, D. apply nth_error_In in A as Hj. rewrite Forall_forall in Fg, Hg. destruct (Fg _ Hj) as (Hin & Hs & _). destruct (Hs B) as (So & Sc). pose proof (Hg _ Hj) as Ho. cbn [fst snd] in *.
        destruct (field_in W HW ty f l (jfield_in W J HJ ty jf f l Hin)) as (_ & Rn & _). cbn [fst] in Rn. pose proof (Rn o Ho) as R.
        destruct (field_single false ty jf f l (slot_at m l) Hin R B So Sc) as (v & Sv & Ag).
        { destruct Sc as (Wd & _). symmetry. apply Wd. congruence. }
        rewrite Sv. cbn [map GenJson.gwrite_member Nat.add]. rewrite (map_nth_error fst j g A). rewrite (map_nth_error (fun x => (w_num (fst (snd x)), w_elem (fst (snd x)))) j g A). cbn [fst snd].
        destruct Ag as [Ag|Ag]; rewrite Ag; [|right; reflexivity]. destruct (gwrite_elem false jf (w_elem f) v) as [x| | | |]; try apply agree_refl. cbn [bind]. specialize (IH false).
        destruct (gwrite_members bs fds (view_members recv bs xs m)) as [ms| | | |]; cbn [bind] in *; (destruct IH as [IH|IH]; rewrite IH; [|right; reflexivity]); try apply agree_refl. left. cbn [bind app primary]. rewrite out_cons. reflexivity.
  Qed.
End Fields.
