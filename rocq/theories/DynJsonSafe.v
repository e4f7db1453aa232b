(** Reading JSON, whatever the text, is defined and leaves a well-formed message. *)
Require Import Verif.Bits Verif.Varint Verif.Base64 Verif.TextNum Verif.Timestamp Verif.Duration Verif.TimestampProofs Verif.DurationProofs Verif.CppSpec Verif.Defaults.
Require Import Verif.DynSlots Verif.Dyn Verif.Schema Verif.Archive Verif.Decode Verif.Encode Verif.DynWire Verif.DynDecode Verif.DynView Verif.DynEncode1 Verif.DynDecode1 Verif.DynEncode3 Verif.DynJson Verif.DynJsonSpec Verif.DynJson1 Verif.DynJson2 Verif.DynJson3.

(** ** Specification *)
(** The storage of a message all of whose fields hold values of their types: [typed], the
    sizes of repeated fields are not negative, and the entries of maps have their value. *)
Definition finished (W : list wtype) (ty : nat) (m : list slot) : Prop :=
  w_entry (wty W ty) = true -> forall f l, nth_error (w_fields (wty W ty)) 1 = Some (f, l) -> has_value (dyn_of f) l (slot_at m l) = true.
Definition slot_sound (rec : nat -> list slot -> Prop) (f : wfield) (l : layout) (s : slot) : Prop := slot_ok rec f l s /\ (w_rep f <> None -> 0 <= fst s).
Fixpoint sound (W : list wtype) (fuel : nat) (ty : nat) (m : list slot) : Prop :=
  match fuel with
  | O => False
  | S n => length m = w_slots (wty W ty) /\ Forall (fun fl => slot_sound (fun ty m => sound W n ty m /\ finished W ty m) (fst fl) (snd fl) (slot_at m (snd fl))) (w_fields (wty W ty))
  end.
Definition whole (W : list wtype) (n : nat) (ty : nat) (m : list slot) : Prop := sound W n ty m /\ finished W ty m.
(** Strings are bytes. *)
Definition text (ts : list tok) : Prop := forall b, In (Str b) ts -> all_bytes b.
(** No field is a list of google.protobuf.Value, except that of google.protobuf.ListValue,
    or a list of google.protobuf.ListValue. *)
Definition nulls_ok (W : list wtype) (J : list jtype) : Prop :=
  forall ty f l te d, In (f, l) (w_fields (wty W ty)) -> w_rep f <> None -> w_elem f = EMsg te d ->
    (known_of J te = KValue -> known_of J ty = KListValue) /\ known_of J te <> KListValue.
(** The texts whose reading into a message of type [ty] is defined: a google.protobuf.ListValue
    is not read from null, and either the schema or the text has no other place for a null
    that is not handled. *)
Definition quiet_if (nulls : Prop) (ts : list tok) : Prop := text ts /\ (nulls \/ ~ In TNull ts).
Definition quiet (W : list wtype) (J : list jtype) : list tok -> Prop := quiet_if (nulls_ok W J).
Definition calm (J : list jtype) (ty : nat) (ts : list tok) : Prop := known_of J ty = KListValue -> hd_error ts <> Some TNull.
(** The numbers of enums are those of int32_t. *)
Definition enums_fit (J : list jtype) : Prop := forall ty jf, In jf (jt_fields (jty J ty)) -> Forall (fun p => fits_s 32 (snd p)) (j_values jf).
(** What glaze reads for a float or double is one. *)
Definition floats_fit (fparse : bool -> bytes -> option Z) : Prop := forall b t z, fparse b t = Some z -> 0 <= z < 2 ^ (if b then 64 else 32).

(** ** Proof *)
Lemma land_byte z : 0 <= Z.land z 255 < 256.
Proof. change 255 with (Z.ones 8). rewrite Z.land_ones by lia. apply Z.mod_pos_bound. lia. Qed.
Lemma b64_loop_bytes s : forall room o, b64_dec_loop s room = Some o -> all_bytes o.
Proof.
  assert (H : forall n s room o, (length s <= n)%nat -> b64_dec_loop s room = Some o -> all_bytes o).
  { clear s. induction n as [|n IH]; intros s room o L.
    - destruct s; [|cbn in L; lia]. cbn [b64_dec_loop]. destruct (room =? 0); [|discriminate]. intros [= <-]. constructor.
    - destruct s as [|a [|b [|c [|d s]]]]; cbn [b64_dec_loop]; try (destruct (room =? 0); [|discriminate]; intros [= <-]; constructor).
      destruct (b64_validate _ _ _ _ _ _ _); [|discriminate]. match goal with |- context [b64_write ?t ?r] => set (w := b64_write t r) end. destruct (b64_dec_loop s (room - zlen w)) as [o'|] eqn:E; [|discriminate]. intros [= <-]. apply Forall_app. split; [|eapply IH; [|exact E]; cbn in L; lia].
      subst w. unfold b64_write. match goal with |- Forall _ (firstn ?k ?x) => assert (F : Forall is_byte x) by (repeat constructor; apply land_byte); rewrite <- (firstn_skipn k x) in F; apply Forall_app in F; apply F end. }
  intros room o. apply (H (length s)). lia.
Qed.
Lemma b64_bytes s o : b64_decode s = Some o -> all_bytes o.
Proof. unfold b64_decode. destruct (zlen s =? 0); [intros [= <-]; constructor|]. destruct (negb _); [discriminate|]. apply b64_loop_bytes. Qed.
Lemma split_bytes t : forall cur, all_bytes cur -> all_bytes t -> Forall all_bytes (split_commas cur t).
Proof.
  induction t as [|c t IH]; intros cur Hc Ht; cbn [split_commas]; [repeat constructor; exact Hc|]. inversion Ht; subst. destruct (c =? 44); [constructor; [exact Hc|apply IH; [constructor|assumption]]|]. apply IH; [|assumption]. apply Forall_app. split; [exact Hc|]. repeat constructor; apply H1.
Qed.

Section Safe.
  Context (W : list wtype) (J : list jtype) (utf8_ok : bytes -> bool) (maxd : Z) (fparse : bool -> bytes -> option Z) (strict : bool).
  Hypothesis HW : wtypes_ok W.
  Hypothesis HJ : jtypes_ok W J.
  Hypothesis HE : enums_fit J.
  Hypothesis HF : floats_fit fparse.
  Context (nulls : Prop).
  Hypothesis HN : nulls -> nulls_ok W J.

  Definition suffix (r ts : list tok) : Prop := exists p, ts = p ++ r.
  Lemma suffix_refl r : suffix r r.
  Proof. exists []. reflexivity. Qed.
  Lemma suffix_cons t r : suffix r (t :: r).
  Proof. exists [t]. reflexivity. Qed.
  Lemma suffix_trans a b c : suffix a b -> suffix b c -> suffix a c.
  Proof. intros [p ->] [q ->]. exists (q ++ p). rewrite app_assoc. reflexivity. Qed.
  Lemma suffix_len a b : suffix a b -> (length a <= length b)%nat.
  Proof. intros [p ->]. rewrite app_length. lia. Qed.
  Notation quiet := (quiet_if nulls).
  Notation calm := (calm J).
  Lemma quiet_suffix a b : suffix a b -> quiet b -> quiet a.
  Proof. intros [p ->] [T N]. split; [intros x H; apply T; apply in_or_app; right; exact H|]. destruct N as [N|N]; [left; exact N|]. right. intros H. apply N. apply in_or_app. right. exact H. Qed.
  Lemma quiet_tail t r : quiet (t :: r) -> quiet r.
  Proof. apply quiet_suffix, suffix_cons. Qed.
  (** The outcome of reading from [ts]. *)
  Definition fine {T} (P : T -> Prop) (ts : list tok) (x : res (T * list tok)) : Prop :=
    match x with Ok (v, r) => P v /\ suffix r ts | Err _ => True | _ => False end.
  Lemma fine_bind {A B} (P : A -> Prop) (Q : B -> Prop) ts ts' x (k : A -> list tok -> res (B * list tok)) : fine P ts' x -> suffix ts' ts -> (forall v r, P v -> suffix r ts' -> fine Q r (k v r)) -> fine Q ts (bind x (fun p => let '(v, r) := p in k v r)).
  Proof.
    intros H S K. destruct x as [[v r]| | | |]; try exact H. destruct H as [Hv Hr]. cbn [bind]. specialize (K v r Hv Hr). unfold fine in *. destruct (k v r) as [[v' r']| | | |]; try exact K. destruct K as [K1 K2]. split; [exact K1|]. eapply suffix_trans; [exact K2|]. eapply suffix_trans; [exact Hr|exact S].
  Qed.
  Lemma fine_ok {T} (P : T -> Prop) ts v r : P v -> suffix r ts -> fine P ts (Ok (v, r)).
  Proof. split; assumption. Qed.
  Lemma fine_weaken {T} (P Q : T -> Prop) ts x : (forall v, P v -> Q v) -> fine P ts x -> fine Q ts x.
  Proof. intros H. unfold fine. destruct x as [[v r]| | | |]; auto. intros [A B]. auto. Qed.

  Lemma number_fits jf e t z : number_value fparse jf e t = Some z -> match e with EVar _ | EFix _ _ => fits e (VInt z) | _ => True end.
  Proof.
    unfold number_value. destruct e as [v| |b fl|c|u w|ty d]; try (intros; exact I).
    - assert (P : forall sg w, match t with [] => None | _ => match parse_default sg w t with Some z => Some (stored w (EVar v) z) | None => None end end = Some z -> t <> [] /\ parse_default sg w t = Some z).
      { intros sg w. destruct t; [discriminate|]. destruct (parse_default sg w (z0 :: t)); [|discriminate]. cbn [stored]. intros [= <-]. split; [discriminate|reflexivity]. }
      destruct v; cbn [int_kind]; intros H; apply P in H; destruct H as [N H]; apply parse_exact in H; try exact N; destruct H as (l & ds & D & R & H); cbn [fits in_vtype]; unfold fits_s, fits_u, in_type in *; try lia; (split; [|exact R]); (destruct H as [(_ & ->)|(K & _)]; [|discriminate K]); (apply number_nonneg; [lia|exact (CppNumbers.digits_nonneg _ _ _ D)]).
    - cbn [int_kind]. destruct fl.
      + intros H. apply HF in H. cbn [fits]. destruct b; exact H.
      + destruct t; [discriminate|]. destruct (parse_default _ _ _) as [x|]; [|discriminate]. intros [= <-]. cbn [fits stored]. destruct b; cbn [fix_size]; [change (8 * Z.of_nat 8) with 64|change (8 * Z.of_nat 4) with 32]; apply wrapU_range; lia.
  Qed.
  Lemma value_fits ty jf t z : In jf (jt_fields (jty J ty)) -> value_of (j_values jf) t = Some z -> fits_s 32 z.
  Proof. intros H. unfold value_of. destruct (find _ _) as [p|] eqn:F; [|discriminate]. intros [= <-]. apply find_some in F. pose proof (HE ty jf H) as K. rewrite Forall_forall in K. apply K, F. Qed.

  Lemma fine_scalar q ty jf e ts : In jf (jt_fields (jty J ty)) -> (forall t d, e <> EMsg t d) -> quiet ts -> fine (fits e) ts (read_scalar utf8_ok fparse q jf e ts).
  Proof.
    intros Hj N [Tx _]. unfold read_scalar. destruct e as [v| |b fl|c|u w|t d]; [| | | | |destruct (N t d eq_refl)].
    - destruct ts as [|[] r]; try exact I; destruct (q || wide jf (EVar v)); try exact I; destruct (number_value fparse jf (EVar v) b) eqn:E; try exact I; (split; [exact (number_fits _ _ _ _ E)|apply suffix_cons]).
    - destruct ts as [|[] r]; try exact I; destruct q; try exact I; try (split; [cbn; auto|apply suffix_cons]). destruct (eqb_bytes b true_text); [split; [cbn; auto|apply suffix_cons]|]. destruct (eqb_bytes b false_text); [split; [cbn; auto|apply suffix_cons]|exact I].
    - destruct ts as [|[] r]; try exact I; destruct (q || wide jf (EFix b fl)); try exact I; destruct (number_value fparse jf (EFix b fl) b0) eqn:E; try exact I; (split; [exact (number_fits _ _ _ _ E)|apply suffix_cons]).
    - destruct ts as [|[] r]; try exact I.
      + destruct (value_of (j_values jf) b) eqn:E; [|exact I]. split; [exact (value_fits _ _ _ _ Hj E)|apply suffix_cons].
      + destruct (number_value fparse jf (EVar VI32) b) eqn:E; [|exact I]. split; [exact (number_fits _ _ _ _ E)|apply suffix_cons].
    - destruct ts as [|[] r]; try exact I. destruct (j_string jf).
      + destruct (utf8_ok b); [|exact I]. split; [apply Tx; left; reflexivity|apply suffix_cons].
      + destruct (b64_decode b) eqn:E; [|exact I]. split; [exact (b64_bytes _ _ E)|apply suffix_cons].
  Qed.

  (** Lists *)
  Lemma count_settled brace ts : forall c sk, match count_elems brace c sk ts with Ok _ | Err _ => True | _ => False end.
  Proof.
    induction ts as [|t r IH]; intros c sk; cbn [count_elems]; [exact I|]. destruct sk as [[b d]|].
    - destruct (opens b t); [apply IH|]. destruct (closes b t); [destruct d; apply IH|apply IH].
    - destruct t; try apply IH; destruct (closes brace _); try exact I; apply IH.
  Qed.
  Lemma fine_elems {X} (P : X -> Prop) one : (forall ts, quiet ts -> fine P ts (one ts)) -> forall n ts, quiet ts -> fine (Forall P) ts (read_elems one n ts).
  Proof.
    intros H. induction n as [|k IH]; intros ts Q; cbn [read_elems]; [split; [constructor|apply suffix_refl]|].
    apply (fine_bind P _ ts ts _ _ (H ts Q) (suffix_refl ts)). intros x r Hx Hr. destruct k as [|k]; [apply fine_ok; [repeat constructor; exact Hx|apply suffix_refl]|]. destruct r as [|[] r]; try exact I.
    apply (fine_bind (Forall P) _ _ r _ _ (IH r (quiet_tail _ _ (quiet_suffix _ _ Hr Q))) (suffix_cons _ _)). intros xs r2 Hxs _. apply fine_ok; [constructor; assumption|apply suffix_refl].
  Qed.
  Lemma fine_repeated {X} (P : X -> Prop) brace one ts : (forall ts, quiet ts -> fine P ts (one ts)) -> quiet ts -> fine (Forall P) ts (read_repeated brace one ts).
  Proof.
    intros H Q. unfold read_repeated. destruct ts as [|t r]; [exact I|]. destruct (opens brace t); [|exact I].
    assert (N : match number_of_elements brace r with Ok _ | Err _ => True | _ => False end) by (unfold number_of_elements; destruct r; [exact I|]; destruct (closes _ _); [exact I|apply count_settled]).
    destruct (number_of_elements brace r) as [n| | | |]; try contradiction; [|exact I]. cbn [bind].
    apply (fine_bind (Forall P) _ _ r _ _ (fine_elems P one H n r (quiet_tail _ _ Q)) (suffix_cons _ _)). intros xs r1 Hx _. apply fine_ok; [exact Hx|]. destruct r1 as [|t1 r2]; [apply suffix_refl|]. destruct (closes brace t1); [apply suffix_cons|apply suffix_refl].
  Qed.
  Lemma skip_fine b ts : forall d, match skip_closed b d ts with Ok r => suffix r ts | Err _ => True | _ => False end.
  Proof.
    induction ts as [|t r IH]; intros d; cbn [skip_closed]; [exact I|].
    assert (K : forall d', match skip_closed b d' r with Ok r' => suffix r' (t :: r) | Err _ => True | _ => False end) by (intros d'; specialize (IH d'); destruct (skip_closed b d' r); try exact IH; eapply suffix_trans; [exact IH|apply suffix_cons]).
    destruct (opens b t); [apply K|]. destruct (closes b t); [destruct d; [apply suffix_cons|apply K]|apply K].
  Qed.
  Lemma skip_value_fine ts : match skip_value ts with Ok r => suffix r ts | Err _ => True | _ => False end.
  Proof.
    destruct ts as [|[] r]; try exact I; cbn [skip_value]; try apply suffix_cons.
    - pose proof (skip_fine true r 0) as K. destruct (skip_closed true 0 r); try exact K. eapply suffix_trans; [exact K|apply suffix_cons].
    - pose proof (skip_fine false r 0) as K. destruct (skip_closed false 0 r); try exact K. eapply suffix_trans; [exact K|apply suffix_cons].
  Qed.

  (** Slots *)
  Lemma other_field ty a b : In a (w_fields (wty W ty)) -> In b (w_fields (wty W ty)) -> l_slot (snd a) = l_slot (snd b) ->
    a = b \/ (w_rep (fst a) = None /\ w_rep (fst b) = None /\ l_ordinal (snd a) <> l_ordinal (snd b)).
  Proof.
    intros Ha Hb E. destruct (wtype_layout _ (wty_ok W ty HW)) as [F _]. destruct (ForallOrdPairs_In F a b Ha Hb) as [K|K]; [left; exact K|]. right. apply (share W HW ty a b Ha Hb K E).
  Qed.
  Lemma sound_put n ty m f l s : sound W (S n) ty m -> In (f, l) (w_fields (wty W ty)) -> slot_sound (whole W n) f l s -> (w_rep f = None -> fst s = 0 \/ fst s = l_ordinal l) -> sound W (S n) ty (put m (l_slot l) s).
  Proof.
    intros [L F] Hi Hs Ho. split; [rewrite put_length; exact L|]. rewrite Forall_forall in *. intros [g k] Hg. cbn [fst snd]. pose proof (field_in W HW _ _ _ Hi) as (_ & _ & Hl & _). cbn [snd] in Hl. unfold slot_at. destruct (Nat.eq_dec (l_slot l) (l_slot k)) as [E|E]; [|rewrite put_other by exact E; apply (F (g, k) Hg)].
    rewrite <- E, put_same by (rewrite L; exact Hl). destruct (other_field ty (f, l) (g, k) Hi Hg E) as [K|(R1 & R2 & R3)]; cbn [fst snd] in *; [injection K as <- <-; exact Hs|].
    split; [|intros K; congruence]. intros Hh. exfalso. rewrite (single_word g k s R2) in Hh. apply Z.eqb_eq in Hh. pose proof (field_in W HW _ _ _ Hg) as (_ & _ & _ & Og). cbn [fst snd] in Og. specialize (Og R2). destruct (Ho R1) as [K|K]; [lia|]. congruence.
  Qed.
  Lemma sound_new n ty : sound W (S n) ty (new_slots W ty).
  Proof. split; [apply repeat_length|]. apply Forall_forall. intros [f l] H. cbn [fst snd]. rewrite new_zero. split; [|intros _; cbn; lia]. intros Hh. rewrite (zero_absent W HW ty f l zero_slot H eq_refl) in Hh. discriminate. Qed.
  Lemma sound_slot n ty m f l : sound W (S n) ty m -> In (f, l) (w_fields (wty W ty)) -> slot_sound (whole W n) f l (slot_at m l).
  Proof. intros [_ F] H. rewrite Forall_forall in F. apply (F (f, l) H). Qed.
  Lemma cleared_sound (rec : nat -> list slot -> Prop) ty f l c : In (f, l) (w_fields (wty W ty)) -> slot_sound rec f l (0, c).
  Proof. intros H. split; [|intros _; cbn; lia]. intros Hh. rewrite (zero_absent W HW ty f l (0, c) H eq_refl) in Hh. discriminate. Qed.

  (** A slot that was given to a field. *)
  Definition given (rec : nat -> list slot -> Prop) (f : wfield) (l : layout) (s : slot) : Prop := slot_sound rec f l s /\ (w_rep f = None -> fst s = 0 \/ fst s = l_ordinal l).
  Definition taken (rec : nat -> list slot -> Prop) (f : wfield) (l : layout) (s : slot) : Prop := given rec f l s /\ (w_rep f = None -> fst s = l_ordinal l).
  Lemma given_scalar (rec : nat -> list slot -> Prop) f l v : w_rep f = None -> not_message f -> fits (w_elem f) v -> given rec f l (l_ordinal l, content_of v).
  Proof.
    intros R N F. split; [|right; reflexivity]. split; [|congruence]. intros Hh. unfold value. rewrite Hh. unfold dyn_of, is_rep. cbn [y_kind y_explicit snd]. rewrite R, andb_false_r. unfold not_message in N. destruct (w_elem f), v; try contradiction; exact F.
  Qed.
  Lemma given_message (rec : nat -> list slot -> Prop) f l ty d m : w_rep f = None -> w_elem f = EMsg ty d -> rec ty m -> given rec f l (l_ordinal l, CMsg m).
  Proof. intros R E H. split; [|right; reflexivity]. split; [|congruence]. intros Hh. unfold value. rewrite Hh. unfold dyn_of, is_rep. cbn [y_kind snd]. rewrite R, E. cbn [kind_of]. exact H. Qed.
  Lemma given_list (rec : nat -> list slot -> Prop) f l p c : w_rep f = Some p -> slot_ok rec f l c -> 0 <= fst c -> given rec f l c.
  Proof. intros R H K. split; [split; [exact H|intros _; exact K]|congruence]. Qed.
  Lemma given_scalars (rec : nat -> list slot -> Prop) f l p vs : w_rep f = Some p -> not_message f -> Forall (fits (w_elem f)) vs -> given rec f l (elems_slot (w_elem f) vs).
  Proof.
    intros R N F. apply (given_list rec f l p _ R); [|unfold elems_slot, zlen; cbn; lia]. intros Hh. unfold value, dyn_of, is_rep. cbn [y_kind]. rewrite R. unfold elems_slot. cbn [fst snd]. rewrite (rep_word f l _ p R) in Hh. cbn [elems_slot fst] in Hh. replace (zlen vs =? 0) with false by lia.
    replace (Z.to_nat (zlen vs)) with (length vs) by (unfold zlen; lia).
    assert (K : forall {X} (h : val -> X) (Q : X -> Prop), (forall v, fits (w_elem f) v -> Q (h v)) -> Z.of_nat (length (firstn (length vs) (map h vs))) = zlen vs /\ Forall Q (firstn (length vs) (map h vs))).
    { intros X h Q HQ. replace (firstn (length vs) (map h vs)) with (map h vs) by (rewrite <- (map_length h vs), firstn_all; reflexivity). rewrite map_length. split; [reflexivity|]. apply Forall_map. eapply Forall_impl; [|exact F]. exact HQ. }
    unfold not_message in N. destruct (w_elem f) eqn:E; try contradiction; cbn [kind_of]; apply K; intros v Hv; destruct v; try contradiction; exact Hv.
  Qed.
  Lemma given_messages (rec : nat -> list slot -> Prop) f l p ty d x : w_rep f = Some p -> w_elem f = EMsg ty d -> Forall (rec ty) x -> given rec f l (zlen x, CMsgs x).
  Proof.
    intros R E F. apply (given_list rec f l p _ R); [|unfold zlen; cbn; lia]. intros Hh. unfold value, dyn_of, is_rep. cbn [y_kind]. rewrite R, E. cbn [kind_of fst snd]. rewrite (rep_word f l _ p R) in Hh. cbn [fst] in Hh. replace (zlen x =? 0) with false by lia. replace (Z.to_nat (zlen x)) with (length x) by (unfold zlen; lia). rewrite firstn_all. split; [reflexivity|exact F].
  Qed.
  Lemma several_sound (rec : nat -> list slot -> Prop) f l s p : w_rep f = Some p -> not_message f -> slot_sound rec f l s -> exists vs, several f l s = Ok vs /\ Forall (fits (w_elem f)) vs.
  Proof.
    intros R N [H K]. specialize (K ltac:(congruence)). unfold several. destruct (Z.eq_dec (fst s) 0) as [E|E].
    - unfold value, dyn_of, is_rep. cbn [y_kind]. rewrite R, E. unfold not_message in N. destruct (w_elem f); try contradiction; eexists; (split; [reflexivity|constructor]).
    - assert (Hh : has_value (dyn_of f) l s = true) by (rewrite (rep_word f l s p R); lia). specialize (H Hh). revert H. unfold value, dyn_of, is_rep. cbn [y_kind]. rewrite R. replace (fst s =? 0) with false by lia. unfold not_message in N.
      destruct (w_elem f); try contradiction; cbn [kind_of]; destruct (snd s); try contradiction; intros [_ H]; eexists; (split; [reflexivity|]); apply Forall_map; exact H.
  Qed.
  Lemma messages_sound (rec : nat -> list slot -> Prop) f l s p ty d : w_rep f = Some p -> w_elem f = EMsg ty d -> slot_sound rec f l s -> exists x, value (dyn_of f) l s = FMsgs x /\ Forall (rec ty) x.
  Proof.
    intros R E [H K]. specialize (K ltac:(congruence)). destruct (Z.eq_dec (fst s) 0) as [E0|E0].
    - exists []. split; [|constructor]. unfold value, dyn_of, is_rep. cbn [y_kind]. rewrite R, E, E0. reflexivity.
    - assert (Hh : has_value (dyn_of f) l s = true) by (rewrite (rep_word f l s p R); lia). specialize (H Hh). revert H. rewrite E. unfold value, dyn_of, is_rep. cbn [y_kind]. rewrite R, E. replace (fst s =? 0) with false by lia. cbn [kind_of]. destruct (snd s); try contradiction. intros [_ H]. eexists. split; [reflexivity|exact H].
  Qed.
  Lemma message_sound (rec : nat -> list slot -> Prop) f l s ty d : w_rep f = None -> w_elem f = EMsg ty d -> slot_sound rec f l s -> has_value (dyn_of f) l s = true -> exists m, value (dyn_of f) l s = FMsg m /\ rec ty m.
  Proof.
    intros R E [H _] Hh. specialize (H Hh). revert H. rewrite E. unfold value. rewrite Hh. unfold dyn_of, is_rep. cbn [y_kind]. rewrite R, E. cbn [kind_of]. destruct (snd s); try contradiction. intros H. eexists. split; [reflexivity|exact H].
  Qed.

  Lemma value_first ty : known_of J ty = KValue -> exists f0 l0 c, In (f0, l0) (w_fields (wty W ty)) /\ w_elem f0 = EEnum c /\ w_rep f0 = None /\ hd_error (w_fields (wty W ty)) = Some (f0, l0) /\ length (jfields W J ty) = 6%nat.
  Proof.
    intros K. destruct (HJ ty) as (_ & _ & _ & Kv & _). destruct (value_layout W J ty Kv K) as (f0 & f1 & f2 & f3 & f4 & f5 & jn & jd & js & jb & jt & jl & c & v & st & sl & d1 & d2 & Hw & Hj & _ & _ & E0 & _ & _ & _ & _ & _ & (R0 & _) & _).
    exists f0, (value_at 2), c. unfold jfields. rewrite Hw, Hj. split; [left; reflexivity|]. split; [exact E0|]. split; [exact R0|]. split; reflexivity.
  Qed.
  Lemma null_sound n ty f0 l0 c m : In (f0, l0) (w_fields (wty W ty)) -> w_elem f0 = EEnum c -> w_rep f0 = None -> sound W (S n) ty m -> sound W (S n) ty (put m (l_slot l0) (l_ordinal l0, CInt 0)).
  Proof. intros Hi E R Hm. destruct (given_scalar (whole W n) f0 l0 (VInt 0) R) as [G1 G2]; [unfold not_message; rewrite E; exact I|rewrite E; cbn; unfold fits_s; lia|]. apply (sound_put n ty m f0 l0 _ Hm Hi G1 G2). Qed.

  Section Level.
    Context (n : nat) (rec : nat -> list slot -> list tok -> res (list slot * list tok)).
    Hypothesis Hn : (1 <= n)%nat.
    Hypothesis R : forall ty m ts, sound W n ty m -> quiet ts -> calm ty ts -> fine (whole W n ty) ts (rec ty m ts).

    Lemma new_at ty : sound W n ty (new_slots W ty).
    Proof. destruct n as [|k]; [lia|]. apply sound_new. Qed.
    Lemma null_given ty f l s : In (f, l) (w_fields (wty W ty)) -> (nulls_ok W J /\ known_of J ty <> KListValue) \/ w_rep f = None -> exists s', set_null W J f l s = Ok s' /\ given (whole W n) f l s' /\ (forall te d, w_elem f = EMsg te d -> known_of J te = KValue -> fst s' = l_ordinal l).
    Proof.
      intros Hi Hq. assert (C : given (whole W n) f l (clear_slot s)) by (split; [apply (cleared_sound _ ty); exact Hi|left; reflexivity]).
      unfold set_null. destruct (w_elem f) as [| | | | |te d] eqn:E; try (eexists; split; [reflexivity|]; split; [exact C|discriminate]). destruct (known_of J te) eqn:K; try (eexists; split; [reflexivity|]; split; [exact C|congruence]).
      assert (Rf : w_rep f = None). { destruct Hq as [[Hq Hy]|Hq]; [|exact Hq]. destruct (w_rep f) eqn:Rf; [|reflexivity]. destruct (Hq ty f l te d Hi ltac:(congruence) E) as [Hq1 _]. destruct (Hy (Hq1 K)). }
      unfold is_rep. rewrite Rf. destruct (value_first te K) as (f0 & l0 & c & H0 & E0 & R0 & Hd & L6). destruct (w_fields (wty W te)) as [|[g0 k0] t] eqn:Hw; [destruct H0|]. injection Hd as -> ->. eexists. split; [reflexivity|]. split; [|reflexivity].
      apply (given_message _ f l te d _ Rf E). split; [|intros En; destruct (HJ te) as (_ & _ & _ & _ & He); destruct (He En) as (? & ? & ? & ? & ? & ? & Hj2 & _); rewrite Hj2 in L6; discriminate L6]. assert (Nw := new_at te). destruct n as [|k]; [lia|]. apply (null_sound k te f0 l0 c); [rewrite Hw; exact H0|exact E0|exact R0|exact Nw].
    Qed.
    Lemma fine_into ty jf f l s ts : In (jf, (f, l)) (jfields W J ty) -> slot_sound (whole W n) f l s -> quiet ts -> hd_error ts <> Some TNull -> fine (taken (whole W n) f l) ts (read_into W utf8_ok fparse rec false jf f l s ts).
    Proof.
      intros Hi Hs Q Hd. pose proof (jfield_in W J HJ _ _ _ _ Hi) as Hf. assert (Hj : In jf (jt_fields (jty J ty))) by (unfold jfields in Hi; apply in_combine_l in Hi; exact Hi).
      assert (C : not_message f \/ exists te d, w_elem f = EMsg te d) by (unfold not_message; destruct (w_elem f); eauto). destruct C as [N|(te & d & E)].
      - assert (Nm : forall t d, w_elem f <> EMsg t d) by (intros t d E; unfold not_message in N; rewrite E in N; contradiction). rewrite read_plain by exact N. destruct (w_rep f) as [p|] eqn:Rf.
        + destruct (several_sound (whole W n) f l s p Rf N Hs) as (vs & -> & Fv). cbn [bind]. apply (fine_bind (Forall (fits (w_elem f))) _ ts ts); [apply fine_repeated; [|exact Q]; intros ts0 Q0; apply (fine_scalar false ty); assumption|apply suffix_refl|]. intros ws r Hw _. apply fine_ok; [|apply suffix_refl]. split; [|congruence]. apply (given_scalars _ f l p); [exact Rf|exact N|apply Forall_app; split; assumption].
        + apply (fine_bind (fits (w_elem f)) _ ts ts); [apply (fine_scalar false ty); assumption|apply suffix_refl|]. intros v r Hv _. apply fine_ok; [|apply suffix_refl]. split; [apply given_scalar; assumption|reflexivity].
      - unfold read_into. rewrite E. destruct (w_rep f) as [p|] eqn:Rf.
        + destruct (messages_sound (whole W n) f l s p te d Rf E Hs) as (x & -> & Fx). apply (fine_bind (Forall (whole W n te)) _ ts ts); [apply fine_repeated; [|exact Q]; intros ts0 Q0; apply R; [apply new_at|exact Q0|]; destruct Q0 as [_ [Q0|Q0]]; [destruct (HN Q0 ty f l te d Hf ltac:(congruence) E); intros Kl; congruence|intros _ Hn0; apply Q0; destruct ts0; [discriminate|]; injection Hn0 as ->; left; reflexivity]|apply suffix_refl|]. intros y r Hy _. apply fine_ok; [|apply suffix_refl]. split; [|congruence]. apply (given_messages _ f l p te d); [exact Rf|exact E|apply Forall_app; split; assumption].
        + assert (K : exists m, (if has_value (dyn_of f) l s then match value (dyn_of f) l s with FMsg m => Ok m | _ => UB end else Ok (new_slots W te)) = Ok m /\ sound W n te m).
          { destruct (has_value (dyn_of f) l s) eqn:Hh; [|eexists; split; [reflexivity|apply new_at]]. destruct (message_sound (whole W n) f l s te d Rf E Hs Hh) as (m & -> & Hm & _). eexists. split; [reflexivity|exact Hm]. }
          destruct K as (m & -> & Hm). cbn [bind]. apply (fine_bind (whole W n te) _ ts ts); [apply R; [exact Hm|exact Q|intros _; exact Hd]|apply suffix_refl|]. intros m1 r H1 _. apply fine_ok; [|apply suffix_refl]. split; [apply (given_message _ f l te d); assumption|reflexivity].
    Qed.
    Lemma quiet_null ty r : quiet (TNull :: r) -> calm ty (TNull :: r) -> nulls_ok W J /\ known_of J ty <> KListValue.
    Proof. intros [_ [Q|Q]] C; [split; [exact (HN Q)|]; intros K; apply (C K); reflexivity|]. destruct Q. left. reflexivity. Qed.
    Lemma fine_taken f l ts x : fine (taken (whole W n) f l) ts x -> fine (given (whole W n) f l) ts x.
    Proof. unfold fine. destruct x as [[v r]| | | |]; auto. intros [[H _] K]. auto. Qed.
    Lemma fine_at ty x m ts : In x (jfields W J ty) -> sound W (S n) ty m -> quiet ts -> calm ty ts -> fine (sound W (S n) ty) ts (read_at W J utf8_ok fparse rec x m ts).
    Proof.
      intros Hi Hm Q Ca. destruct x as [jf [f l]]. pose proof (jfield_in W J HJ _ _ _ _ Hi) as Hf. unfold read_at. apply (fine_bind (given (whole W n) f l) _ ts ts); [|apply suffix_refl|].
      - unfold read_field. destruct ts as [|t r]; [apply fine_taken, (fine_into ty); [exact Hi|apply (sound_slot n ty); assumption|exact Q|discriminate]|]. destruct t; try (apply fine_taken, (fine_into ty); [exact Hi|apply (sound_slot n ty); assumption|exact Q|discriminate]).
        destruct (null_given ty f l (slot_at m l) Hf (or_introl (quiet_null ty r Q Ca))) as (s' & -> & G & _). apply fine_ok; [exact G|apply suffix_cons].
      - intros s r [G1 G2] _. apply fine_ok; [|apply suffix_refl]. apply (sound_put n ty m f l); assumption.
    Qed.
    Lemma fine_nth i ty m ts : (i < length (jfields W J ty))%nat -> sound W (S n) ty m -> quiet ts -> calm ty ts -> fine (sound W (S n) ty) ts (read_nth W J utf8_ok fparse rec i ty m ts).
    Proof. intros L Hm Q Ca. unfold read_nth. destruct (nth_error (jfields W J ty) i) as [x|] eqn:E; [|apply nth_error_None in E; lia]. apply nth_error_In in E. apply fine_at; assumption. Qed.
    Lemma found_in ty key x : find_field W J ty key = Some x -> In x (jfields W J ty).
    Proof. unfold find_field. destruct (find _ _) eqn:E; [intros H; injection H as <-; apply find_some in E; apply E|]. intros H. apply find_some in H. apply H. Qed.
    Lemma fine_members k : forall first ty m ts, known_of J ty <> KListValue -> (length ts < k)%nat -> sound W (S n) ty m -> quiet ts -> fine (sound W (S n) ty) ts (read_members W J utf8_ok fparse strict rec k first ty m ts).
    Proof.
      induction k as [|k IH]; intros first ty m ts Hk L Hm Q; [lia|]. cbn [read_members].
      assert (Step : forall ts1, suffix ts1 ts -> fine (sound W (S n) ty) ts (match ts1 with
          | Str key :: Colon :: r =>
              '(m1, r1) <- (match find_field W J ty key with Some x => read_at W J utf8_ok fparse rec x m r | None => if strict then Err BadMessage else r1 <- skip_value r ;; Ok (m, r1) end) ;;
              read_members W J utf8_ok fparse strict rec k false ty m1 r1
          | _ => Err BadMessage
          end)).
      { intros ts1 S1. destruct ts1 as [|[] [|[] r]]; try exact I. pose proof (suffix_len _ _ S1) as L1. cbn [length] in L1. assert (Sr : suffix r ts) by (eapply suffix_trans; [|exact S1]; exists [Str b; Colon]; reflexivity). pose proof (quiet_suffix _ _ Sr Q) as Qr.
        apply (fine_bind (sound W (S n) ty) _ ts r); [|exact Sr|].
        - destruct (find_field W J ty b) as [x|] eqn:F; [apply fine_at; [apply (found_in _ _ _ F)|exact Hm|exact Qr|intros K; congruence]|]. destruct strict; [exact I|]. pose proof (skip_value_fine r) as K. destruct (skip_value r); try exact K. cbn [bind]. apply fine_ok; assumption.
        - intros m1 r1 H1 S2. pose proof (suffix_len _ _ S2). apply IH; [exact Hk|lia|exact H1|]. eapply quiet_suffix; [exact S2|exact Qr]. }
      destruct ts as [|t r].
      - destruct first; exact I.
      - destruct t; try (destruct first; [apply (Step _ (suffix_refl _))|]); try exact I; [apply fine_ok; [exact Hm|apply suffix_cons]|]. cbn [bind]. apply (Step _ (suffix_cons _ _)).
    Qed.
    Lemma key_scalar kj kf : key_elem kj kf = true -> w_rep kf = None /\ not_message kf.
    Proof. unfold key_elem, not_message. destruct (w_elem kf), (w_rep kf); try discriminate; cbn; auto. Qed.
    Lemma fine_entry ty m ts : w_entry (wty W ty) = true -> sound W (S n) ty m -> quiet ts -> fine (whole W (S n) ty) ts (read_entry W J utf8_ok fparse rec ty m ts).
    Proof.
      intros En Hm Q. unfold read_entry. destruct (HJ ty) as (_ & _ & _ & _ & He). destruct (He En) as (kj & kf & kl & vj & vf & vl & Hj & Ke & Rv & _). rewrite Hj, Ke. destruct (key_scalar _ _ Ke) as [Rk Nk].
      assert (Ik : In (kj, (kf, kl)) (jfields W J ty)) by (rewrite Hj; left; reflexivity). assert (Iv : In (vj, (vf, vl)) (jfields W J ty)) by (rewrite Hj; right; left; reflexivity).
      assert (Jk : In kj (jt_fields (jty J ty))) by (unfold jfields in Ik; apply in_combine_l in Ik; exact Ik).
      apply (fine_bind (fits (w_elem kf)) _ ts ts); [apply (fine_scalar true ty); [exact Jk| |exact Q]; intros t d E; unfold not_message in Nk; rewrite E in Nk; contradiction|apply suffix_refl|].
      intros k r Hk Sr. destruct (given_scalar (whole W n) kf kl k Rk Nk Hk) as [G1 G2]. pose proof (sound_put n ty m kf kl _ Hm (jfield_in W J HJ _ _ _ _ Ik) G1 G2) as H1. set (m1 := put m (l_slot kl) (l_ordinal kl, content_of k)) in *. pose proof (quiet_suffix _ _ Sr Q) as Qr.
      destruct r as [|[] r1]; try exact I. pose proof (quiet_tail _ _ Qr) as Q1. pose proof (jfield_in W J HJ _ _ _ _ Iv) as Fv.
      apply (fine_bind (taken (whole W n) vf vl) _ _ r1); [|apply suffix_cons|intros s r2 [[V1 V2] V3] _; apply fine_ok; [split; [apply (sound_put n ty m1 vf vl); assumption|]|apply suffix_refl]].
      2: { intros _ f l Hn1. pose proof (jfields_fields W J HJ ty) as Hw. rewrite Hj in Hw. cbn [map snd] in Hw. rewrite <- Hw in Hn1. cbn [nth_error] in Hn1. injection Hn1 as <- <-.
        pose proof (field_in W HW _ _ _ Fv) as (_ & _ & Hl & _). cbn [snd] in Hl. unfold slot_at. rewrite put_same by (destruct H1 as [L1 _]; rewrite L1; exact Hl). rewrite (single_word vf vl s Rv), (V3 Rv). apply Z.eqb_refl. }
      unfold read_mapped. destruct r1 as [|t r1]; [apply (fine_into ty); [exact Iv|apply (sound_slot n ty); assumption|exact Q1|discriminate]|]. destruct t; try (apply (fine_into ty); [exact Iv|apply (sound_slot n ty); assumption|exact Q1|discriminate]).
      destruct (null_given ty vf vl (slot_at m1 vl) Fv (or_intror Rv)) as (s' & -> & G & Gk). cbn [bind]. destruct (w_elem vf) as [| | | | |tv dv] eqn:Ev; try exact I. destruct (known_of J tv) eqn:Kv; try exact I. apply fine_ok; [split; [exact G|intros _; apply (Gk tv dv eq_refl Kv)]|apply suffix_cons].
    Qed.
    Lemma two_fields ty a b oa ob xa xb : shapes W ty = [(a, false, oa, xa); (b, false, ob, xb)] -> exists f0 l0 f1 l1, w_fields (wty W ty) = [(f0, l0); (f1, l1)] /\ w_elem f0 = a /\ w_elem f1 = b /\ w_rep f0 = None /\ w_rep f1 = None.
    Proof.
      unfold shapes. destruct (w_fields (wty W ty)) as [|[f0 l0] [|[f1 l1] [|? ?]]]; try discriminate. cbn [map fst]. unfold shape. intros H. injection H as H1 H2 H3 H4 H5 H6 H7 H8. assert (K : forall f, is_rep f = false -> w_rep f = None) by (unfold is_rep; intros f; destruct (w_rep f); [discriminate|reflexivity]). exists f0, l0, f1, l1. auto 8.
    Qed.
    Lemma fine_time ty decode m ts : shapes W ty = [(EVar VI64, false, None, false); (EVar VI32, false, None, false)] -> (forall t s k, decode t = Some (s, k) -> fits_s 64 s /\ fits_s 32 k) -> sound W (S n) ty m -> fine (sound W (S n) ty) ts (read_time W decode ty m ts).
    Proof.
      intros Sh D Hm. unfold read_time. destruct ts as [|[] r]; try exact I. destruct (decode b) as [[s k]|] eqn:E; [|exact I]. destruct (D _ _ _ E) as [D1 D2]. destruct (two_fields _ _ _ _ _ _ _ Sh) as (f0 & l0 & f1 & l1 & Hw & E0 & E1 & R0 & R1). rewrite Hw. apply fine_ok; [|apply suffix_cons].
      destruct (given_scalar (whole W n) f0 l0 (VInt s) R0) as [G1 G2]; [unfold not_message; rewrite E0; exact I|rewrite E0; exact D1|]. destruct (given_scalar (whole W n) f1 l1 (VInt k) R1) as [K1 K2]; [unfold not_message; rewrite E1; exact I|rewrite E1; exact D2|].
      apply (sound_put n ty _ f1 l1); [|rewrite Hw; right; left; reflexivity|exact K1|exact K2]. apply (sound_put n ty _ f0 l0); [exact Hm|rewrite Hw; left; reflexivity|exact G1|exact G2].
    Qed.
    Lemma fine_plain ty m ts : sound W (S n) ty m -> quiet ts -> calm ty ts -> w_entry (wty W ty) = false -> fine (sound W (S n) ty) ts (read_body W J utf8_ok fparse strict rec ty m ts).
    Proof.
      intros Hm Q Ca En. unfold read_body. rewrite En. destruct (HJ ty) as (_ & _ & _ & Ko & _). pose proof Ko as Ko'. unfold known_ok in Ko. destruct (known_of J ty) eqn:K.
      - destruct ts as [|[] r]; try exact I. pose proof (fine_members (S (length r)) true ty m r ltac:(congruence) ltac:(lia) Hm (quiet_tail _ _ Q)) as F. unfold fine in *. destruct (read_members _ _ _ _ _ _ _ _ _ _ _) as [[v r']| | | |]; try exact F. destruct F as [F1 F2]. split; [exact F1|]. eapply suffix_trans; [exact F2|apply suffix_cons].
      - exact I.
      - apply fine_time; [exact Ko| |exact Hm]. intros t s k H. apply timestamp_decode_spec, timestamp_text_valid in H. destruct H as [H1 H2]. apply seconds_range in H1. unfold fits_s. lia.
      - apply fine_time; [exact Ko| |exact Hm]. intros t s k H. apply duration_decode_spec in H. destruct H as [A B]. destruct (duration_text_valid t s k A B) as (H1 & H2 & _). unfold fits_s. lia.
      - unfold read_mask. destruct Ko as (v & Sh). destruct (shapes_one W J HJ _ _ _ _ _ Sh) as (jf & f & l & Hj & Hw & Ef & Er & _). destruct ts as [|[] r]; try exact I. destruct b as [|c b]; [apply fine_ok; [exact Hm|apply suffix_cons]|]. rewrite Hw. apply fine_ok; [|apply suffix_cons].
        unfold is_rep in Er. destruct (w_rep f) as [p|] eqn:Rf; [|discriminate Er]. set (ps := split_commas [] (c :: b)). assert (Fb : Forall all_bytes ps) by (apply split_bytes; [constructor|]; destruct Q as [Q _]; apply Q; left; reflexivity).
        assert (G : given (whole W n) f l (zlen ps, CStrs ps)).
        { pose proof (given_scalars (whole W n) f l p (map VBytes ps) Rf) as G. unfold elems_slot in G. rewrite Ef in G. rewrite map_map in G. rewrite map_id in G. unfold zlen in *. rewrite map_length in G. apply G; [unfold not_message; rewrite Ef; exact I|]. apply Forall_map. exact Fb. }
        destruct G as [G1 G2]. apply (sound_put n ty m f l); [exact Hm|rewrite Hw; left; reflexivity|exact G1|exact G2].
      - destruct (value_first ty K) as (f0 & l0 & c & H0 & E0 & R0 & Hd & L6). unfold read_value. destruct ts as [|t r]; [exact I|]. destruct t; try (apply fine_nth; [lia|exact Hm|exact Q|exact Ca]).
        destruct (w_fields (wty W ty)) as [|[g0 k0] u] eqn:Hw; [destruct H0|]. injection Hd as -> ->. cbn [nth_error]. apply fine_ok; [|apply suffix_cons]. apply (null_sound n ty f0 l0 c); [rewrite Hw; exact H0|exact E0|exact R0|exact Hm].
      - destruct Ko as (te & d & Sh & _). destruct (shapes_one W J HJ _ _ _ _ _ Sh) as (jf & f & l & Hj & _). apply fine_nth; [rewrite Hj; cbn; lia|exact Hm|exact Q|exact Ca].
      - destruct Ko as (te & d & Sh & _). destruct (shapes_one W J HJ _ _ _ _ _ Sh) as (jf & f & l & Hj & _). apply fine_nth; [rewrite Hj; cbn; lia|exact Hm|exact Q|exact Ca].
      - destruct Ko as (e & Sh & _). destruct (shapes_one W J HJ _ _ _ _ _ Sh) as (jf & f & l & Hj & _). apply fine_nth; [rewrite Hj; cbn; lia|exact Hm|exact Q|exact Ca].
    Qed.
    Lemma fine_body ty m ts : sound W (S n) ty m -> quiet ts -> calm ty ts -> fine (whole W (S n) ty) ts (read_body W J utf8_ok fparse strict rec ty m ts).
    Proof.
      intros Hm Q Ca. destruct (w_entry (wty W ty)) eqn:En; [unfold read_body; rewrite En; apply fine_entry; assumption|]. pose proof (fine_plain ty m ts Hm Q Ca En) as F. unfold fine in *. destruct (read_body _ _ _ _ _ _ _ _ _) as [[v r]| | | |]; auto. destruct F as [F1 F2]. split; [|exact F2]. split; [exact F1|]. intros K. congruence.
    Qed.
  End Level.
  Lemma read_fine n : forall d ty m ts, maxd + 2 - d <= Z.of_nat n -> 0 < Z.of_nat n -> sound W n ty m -> quiet ts -> calm ty ts -> fine (whole W n ty) ts (read_msg W J utf8_ok maxd fparse strict n d ty m ts).
  Proof.
    induction n as [|n IH]; intros d ty m ts L L0 Hm Q Ca; [lia|]. cbn [read_msg]. destruct (scope_ok maxd d) eqn:Sc; [|exact I]. unfold scope_ok in Sc. apply andb_true_iff in Sc. destruct Sc as [Sc _]. apply Z.leb_le in Sc. apply fine_body; [lia| |exact Hm|exact Q|exact Ca]. intros ty0 m0 ts0 H0 Q0 C0. apply IH; [lia|lia|exact H0|exact Q0|exact C0].
  Qed.
End Safe.
Lemma sound_typed W n : forall ty m, sound W n ty m -> typed W n ty m.
Proof.
  induction n as [|n IH]; intros ty m H; [exact H|]. destruct H as [L F]. split; [exact L|]. eapply Forall_impl; [|exact F]. intros [f l] [H _] Hh. cbn [fst snd] in *. specialize (H Hh). destruct (value (dyn_of f) l (slot_at m l)); try exact H.
  - destruct (w_elem f); try exact H. apply IH, H.
  - destruct H as [H1 H]. split; [exact H1|]. destruct (w_elem f); try exact H. eapply Forall_impl; [|exact H]. intros a [K _]. apply IH, K.
Qed.
