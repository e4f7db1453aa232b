(** Writing a well-formed dynamic message in binary is defined, whatever its enums and strings. *)
Require Import Verif.Bits Verif.Varint Verif.DynSlots Verif.Dyn Verif.Schema Verif.Archive Verif.Decode Verif.Encode Verif.Output Verif.DynWire.
Require Import Verif.DecodeSafe Verif.WellTyped Verif.EncodeSpec Verif.DynView Verif.DynEncode1 Verif.DynEncode3 Verif.DynEncode4 Verif.DynJson5.
Require Verif.EncodeProofs2 Verif.EncodeMain Verif.EncodeMain2.

(** The schema with all enums open: writing does not look at the numbers of enums. *)
Definition open_elem (e : elem) : elem := match e with EEnum _ => EEnum None | _ => e end.
Definition open_field (f : wfield) : wfield := WField (w_num f) (open_elem (w_elem f)) (w_rep f) (w_oneof f) (w_explicit f) (w_dint f) (w_dbytes f).
Definition open_at (fl : wfield * layout) : wfield * layout := (open_field (fst fl), snd fl).
Definition open_type (t : wtype) : wtype := WType (map open_at (w_fields t)) (w_slots t) (w_entry t).

Lemma open_dyn f : dyn_of (open_field f) = dyn_of f.
Proof. unfold dyn_of, open_field, is_rep. cbn. destruct (w_elem f); reflexivity. Qed.
Lemma open_packed f : packed (open_field f) = packed f.
Proof. unfold packed, open_field. cbn. destruct (w_rep f); [|reflexivity]. destruct (w_elem f); reflexivity. Qed.
Lemma open_stag f : stag (open_field f) = stag f.
Proof. unfold stag, wire_of. rewrite open_packed. unfold open_field. cbn [w_num w_elem]. destruct (packed f); [reflexivity|]. destruct (w_elem f); reflexivity. Qed.
Lemma open_single f l s : single (open_field f) l s = single f l s.
Proof. unfold single. rewrite open_dyn. reflexivity. Qed.
Lemma open_several f l s : several (open_field f) l s = several f l s.
Proof. unfold several. rewrite open_dyn. reflexivity. Qed.
Lemma open_present f l s : present (open_field f) l s = present f l s.
Proof. unfold present. rewrite open_dyn, open_single. unfold open_field, is_rep, w_default. cbn. destruct (w_elem f); reflexivity. Qed.
Lemma open_sizes c vs : sum_sizes (EEnum None) vs = sum_sizes (EEnum c) vs.
Proof. induction vs as [|v vs IH]; [reflexivity|]. cbn [sum_sizes]. rewrite IH. reflexivity. Qed.
Lemma open_sums ts c vs : sum_with_tag ts (EEnum None) vs = sum_with_tag ts (EEnum c) vs.
Proof. induction vs as [|v vs IH]; [reflexivity|]. cbn [sum_with_tag]. rewrite IH. reflexivity. Qed.
Lemma open_ops utf8_ok pre c vs : dlist_ops utf8_ok pre (EEnum None) vs = dlist_ops utf8_ok pre (EEnum c) vs.
Proof. induction vs as [|v vs IH]; [reflexivity|]. cbn [dlist_ops]. rewrite IH. destruct v; reflexivity. Qed.

Section Open.
  Context (W : list wtype) (utf8_ok : bytes -> bool) (maxd : Z).
  Notation W' := (map open_type W).
  Lemma open_wty ty : wty W' ty = open_type (wty W ty).
  Proof. unfold wty. change (WType [] 0 false) with (open_type (WType [] 0 false)) at 1. apply map_nth. Qed.
  Definition rec_eq {T} (g g' : nat -> list slot -> T) : Prop := forall ty m, g ty m = g' ty m.

  Lemma open_dcnt_list g g' ty x : rec_eq g g' -> dcnt_list g ty x = dcnt_list g' ty x.
  Proof. intros G. induction x as [|m x IH]; [reflexivity|]. cbn [dcnt_list]. rewrite G, IH. reflexivity. Qed.
  Lemma open_dcnt_field g g' f l s : rec_eq g g' -> dcnt_field g (open_field f) l s = dcnt_field g' f l s.
  Proof.
    intros G. unfold dcnt_field. rewrite open_dyn, open_packed. unfold open_field. cbn [w_elem w_rep]. destruct (w_elem f) as [| | | | |ty d]; cbn [open_elem]; try reflexivity. destruct (w_rep f), (value (dyn_of f) l s); try reflexivity; [rewrite (open_dcnt_list g g' _ _ G)|rewrite G]; reflexivity.
  Qed.
  Lemma open_dcnt n : forall d, rec_eq (dcnt W' maxd n d) (dcnt W maxd n d).
  Proof.
    induction n as [|n IH]; intros d ty m; [reflexivity|]. cbn [dcnt]. destruct (scope_ok maxd d); [|reflexivity]. rewrite open_wty. cbn [open_type w_fields]. induction (w_fields (wty W ty)) as [|[f l] t IHt]; [reflexivity|]. cbn [map open_at dcnt_fields fst snd]. rewrite IHt, open_present, (open_dcnt_field _ _ f l _ (IH (d + 1))). reflexivity.
  Qed.
  Lemma open_dsz_message g g' f ty d m : rec_eq g g' -> dsz_message g (open_field f) ty d m = dsz_message g' f ty d m.
  Proof. intros G. unfold dsz_message, wtag_size. rewrite G, open_stag. reflexivity. Qed.
  Lemma open_dsz_messages g g' f ty d x : rec_eq g g' -> dsz_messages g (open_field f) ty d x = dsz_messages g' f ty d x.
  Proof. intros G. induction x as [|m x IH]; [reflexivity|]. cbn [dsz_messages]. rewrite (open_dsz_message g g' _ _ _ _ G), IH. reflexivity. Qed.
  Lemma open_dsz_field g g' f l s : rec_eq g g' -> dsz_field g (open_field f) l s = dsz_field g' f l s.
  Proof.
    intros G. unfold dsz_field. rewrite open_dyn, open_packed, open_single, open_several. unfold wtag_size. rewrite open_stag. cbn [w_elem w_rep open_field]. destruct (w_elem f) as [| | |c| |ty d]; cbn [open_elem]; try reflexivity.
    - destruct (w_rep f); [|reflexivity]. destruct (several f l s) as [vs| | | |]; try reflexivity. cbn [bind]. rewrite (open_sizes c), (open_sums _ c). reflexivity.
    - destruct (w_rep f), (value (dyn_of f) l s); try reflexivity; [apply open_dsz_messages|apply open_dsz_message]; exact G.
  Qed.
  Lemma open_dsz n : rec_eq (dsz W' n) (dsz W n).
  Proof.
    induction n as [|n IH]; intros ty m; [reflexivity|]. cbn [dsz]. rewrite open_wty. cbn [open_type w_fields]. induction (w_fields (wty W ty)) as [|[f l] t IHt]; [reflexivity|]. cbn [map open_at dsz_fields fst snd]. rewrite IHt, open_present, (open_dsz_field _ _ f l _ IH). reflexivity.
  Qed.
  Definition rec_eq3 {T} (g g' : nat -> list slot -> list Z -> T) : Prop := forall ty m c, g ty m c = g' ty m c.
  Lemma open_dser_message g g' f ty d m c : rec_eq3 g g' -> dser_message g (open_field f) ty d m c = dser_message g' f ty d m c.
  Proof. intros G. unfold dser_message. destruct d; [rewrite G; reflexivity|]. destruct c; [reflexivity|]. rewrite G. reflexivity. Qed.
  Lemma open_dser_messages g g' f ty d x : rec_eq3 g g' -> forall c, dser_messages g (open_field f) ty d x c = dser_messages g' f ty d x c.
  Proof. intros G. induction x as [|m x IH]; intros c; [reflexivity|]. cbn [dser_messages]. rewrite (open_dser_message g g' _ _ _ _ c G). apply seq_ext. exact IH. Qed.
  Lemma open_dser_field g g' f l s c : rec_eq3 g g' -> dser_field utf8_ok g (open_field f) l s c = dser_field utf8_ok g' f l s c.
  Proof.
    intros G. unfold dser_field. rewrite open_dyn, open_packed, open_single, open_several, open_stag. cbn [w_elem w_rep open_field]. destruct (w_elem f) as [| | |cl| |ty d]; cbn [open_elem]; try reflexivity.
    - destruct (w_rep f).
      + destruct (several f l s) as [vs| | | |]; try reflexivity. cbn [bind]. rewrite !(open_ops utf8_ok _ cl). reflexivity.
      + destruct (single f l s) as [v| | | |]; try reflexivity.
    - destruct (w_rep f), (value (dyn_of f) l s); try reflexivity; [apply open_dser_messages|apply open_dser_message]; exact G.
  Qed.
  Lemma open_dser n : forall d, rec_eq3 (dser W' utf8_ok maxd n d) (dser W utf8_ok maxd n d).
  Proof.
    induction n as [|n IH]; intros d ty m c; [reflexivity|]. cbn [dser]. destruct (scope_ok maxd d); [|reflexivity]. rewrite open_wty. cbn [open_type w_fields]. revert c. induction (w_fields (wty W ty)) as [|[f l] t IHt]; intros c; [reflexivity|]. cbn [map open_at dser_fields fst snd]. rewrite open_present, (open_dser_field _ _ f l _ c (IH (d + 1))). apply seq_ext. exact IHt.
  Qed.
  Lemma open_encode n ty m : dyn_encode W' utf8_ok maxd n ty m = dyn_encode W utf8_ok maxd n ty m.
  Proof.
    unfold dyn_encode, dplan. rewrite open_dcnt, open_dsz. destruct (dcnt W maxd n 0 ty m) as [k| | | |]; try reflexivity. cbn [bind]. destruct (dsz W n ty m) as [[s c]| | | |]; try reflexivity. cbn [bind]. rewrite open_dser. reflexivity.
  Qed.

  (** ** The open schema is one, with the same messages *)
  Lemma open_ok : wtypes_ok W -> wtypes_ok W'.
  Proof.
    intros H. apply Forall_map. eapply Forall_impl; [|exact H]. intros t (count & fs & Ho & Hf & Ht). exists count, (map open_field fs).
    assert (Ed : map (fun f => DField (w_oneof f) (is_rep f)) (map open_field fs) = map (fun f => DField (w_oneof f) (is_rep f)) fs) by (rewrite map_map; apply map_ext; intros f; reflexivity). rewrite Ed.
    split; [exact Ho|]. split.
    - apply Forall_map. eapply Forall_impl; [|exact Hf]. intros f (H1 & H2 & H3 & H4). split; [exact H1|]. split; [exact H2|]. split; [|exact H4]. cbn [open_field w_elem w_rep w_explicit]. intros ty d E. destruct (w_elem f) eqn:Ef; try discriminate E. intros R. exact (H3 ty d E R).
    - unfold wtype_of in *. rewrite Ed. destruct (slot_layout _ _) as [[ls k]|]; [|discriminate Ht]. injection Ht as Ht. destruct t as [fl sl en]. injection Ht as Hc Hk. subst. cbn [open_type w_fields w_slots w_entry]. assert (C : forall gs ks, combine (map open_field gs) ks = map open_at (combine gs ks)) by (induction gs as [|g gs IH]; intros [|q ks]; try reflexivity; cbn [map combine]; rewrite IH; reflexivity). rewrite C. reflexivity.
  Qed.
  Lemma open_fits e v : fits e v -> fits (open_elem e) v.
  Proof. destruct e; exact (fun H => H). Qed.
  Lemma open_typed n : forall ty m, typed W n ty m -> typed W' n ty m.
  Proof.
    induction n as [|n IH]; intros ty m H; [exact H|]. destruct H as [L F]. split; [rewrite open_wty; exact L|]. rewrite open_wty. cbn [open_type w_fields]. apply Forall_map. eapply Forall_impl; [|exact F]. intros [f l] H. cbn [open_at fst snd] in *. unfold slot_ok in *. rewrite open_dyn. intros Hh. specialize (H Hh).
    destruct (value (dyn_of f) l (slot_at m l)); cbn [open_field w_elem]; try exact H; try (apply open_fits; exact H).
    - destruct (w_elem f); try contradiction. apply IH. exact H.
    - destruct H as [H1 H2]. split; [exact H1|]. eapply Forall_impl; [|exact H2]. intros z. apply open_fits.
    - destruct H as [H1 H2]. split; [exact H1|]. eapply Forall_impl; [|exact H2]. intros z. apply open_fits.
    - destruct H as [H1 H2]. split; [exact H1|]. destruct (w_elem f); try contradiction. eapply Forall_impl; [|exact H2]. intros z. apply IH.
  Qed.
  Lemma open_clean_val e v : clean_val (fun _ => true) (open_elem e) v.
  Proof. destruct e as [| | | |[]|], v; cbn; auto. Qed.
  Lemma open_clean n : forall ty m, clean W' (fun _ => true) n ty m.
  Proof.
    induction n as [|n IH]; intros ty m; [exact I|]. cbn [clean]. rewrite open_wty. cbn [open_type w_fields]. apply Forall_map, Forall_forall. intros [f l] _ _. cbn [open_at fst snd open_field w_elem].
    destruct (value _ _ _); try exact I; try apply open_clean_val.
    - destruct (open_elem (w_elem f)); try exact I. apply IH.
    - apply Forall_forall. intros z _. apply open_clean_val.
    - apply Forall_forall. intros z _. apply open_clean_val.
    - destruct (open_elem (w_elem f)); try exact I. apply Forall_forall. intros z _. apply IH.
  Qed.
  Theorem encode_settled n ty m : wtypes_ok W -> typed W n ty m -> settled (dyn_encode W utf8_ok maxd n ty m).
  Proof.
    intros HW Ht. rewrite <- open_encode. pose proof (open_ok HW) as HW'. pose proof (open_typed n ty m Ht) as Ht'. rewrite (dyn_encode_ok W' utf8_ok maxd HW' n ty m Ht').
    pose proof (val_wt W' (fun _ => true) HW' eq_refl n ty m Ht' (open_clean n ty m) false) as Hw. fold (wt_msg (env_of W') (fun _ => true) ty (val_of W' n ty m)) in Hw.
    unfold encode_bytes. pose proof (EncodeProofs2.plan_eq (env_of W') (fun _ => true) utf8_ok maxd (legal_env W' HW') ty _ Hw) as K. destruct (cnt_msg (env_of W') maxd 0 ty (val_of W' n ty m)); [|rewrite K; exact I].
    destruct (max_message_size <=? _); [rewrite K; exact I|]. destruct K as [(ws' & K1 & K2)|[K _]]; [rewrite K1|rewrite K]; exact I.
  Qed.
  Theorem encode_is_bytes n ty m bs : wtypes_ok W -> typed W n ty m -> dyn_encode W utf8_ok maxd n ty m = Ok bs -> all_bytes bs.
  Proof.
    intros HW Ht H. rewrite <- open_encode in H. pose proof (open_ok HW) as HW'. pose proof (open_typed n ty m Ht) as Ht'. rewrite (dyn_encode_ok W' utf8_ok maxd HW' n ty m Ht') in H.
    pose proof (val_wt W' (fun _ => true) HW' eq_refl n ty m Ht' (open_clean n ty m) false) as Hw. fold (wt_msg (env_of W') (fun _ => true) ty (val_of W' n ty m)) in Hw.
    rewrite (EncodeMain2.e_utf8 (env_of W') utf8_ok maxd (legal_env W' HW') ty _ bs Hw H). eapply EncodeMain.enc_bytes; [exact (legal_env W' HW')|exact Hw].
  Qed.
End Open.
