(** Reading the tokens of a JSON value does what the value stands for, with Any. *)
Require Import Verif.Bits Verif.Varint.
Require Import Verif.DynSlots Verif.Dyn Verif.Schema Verif.Archive Verif.Decode Verif.Encode Verif.DynWire Verif.DynDecode Verif.DynJson Verif.DynJsonSpec Verif.DynJsonTree Verif.DynJson1 Verif.DynJson2 Verif.DynJson6 Verif.DynAny Verif.DynAnySpec.

(** The tokens of members and what follows them. *)
Definition toks (first : bool) (ps : list (bytes * json)) (z : list tok) : list tok :=
  (if first then commas (map member ps) else match ps with [] => [] | _ => Comma :: commas (map member ps) end) ++ z.
Lemma toks_cons p t z : toks true (p :: t) z = Str (fst p) :: Colon :: render (snd p) ++ toks false t z.
Proof. unfold toks. destruct t as [|p' t']; [reflexivity|]. cbn [map]. rewrite commas_cons. unfold member at 1. cbn [app]. rewrite <- app_assoc. reflexivity. Qed.
Lemma toks_next p t z : toks false (p :: t) z = Comma :: toks true (p :: t) z.
Proof. reflexivity. Qed.
Lemma render_some j : (0 < length (render j))%nat.
Proof. destruct j as [t|t|[]| |l|l]; cbn; lia. Qed.
Lemma toks_length p t : (length (commas (map member t)) + 2 < length (commas (map member (p :: t))))%nat.
Proof.
  pose proof (render_some (snd p)) as P. destruct t as [|p' t']; [cbn [map commas length]; unfold member; cbn [length]; lia|]. change (map member (p :: p' :: t')) with (member p :: member p' :: map member t'). rewrite commas_cons, app_length. change (map member (p' :: t')) with (member p' :: map member t'). assert (M : (2 < length (member p))%nat) by (unfold member; cbn [length]; lia). cbn [length]. lia.
Qed.

Definition all_strings (ps : list (bytes * json)) : bool := forallb (fun p => negb (called type_key p) || is_string (snd p)) ps.
Definition url_of (url : bytes) (ps : list (bytes * json)) : bytes :=
  fold_left (fun u p => if called type_key p then match snd p with JStr v => v | _ => u end else u) ps url.
Fixpoint drop_lead (ps : list (bytes * json)) : list (bytes * json) :=
  match ps with p :: t => if called type_key p then drop_lead t else ps | [] => [] end.

(** The tokens of a member that is not the end, as each scan looks at them. *)
Lemma scan_after ps : forall k url pos r, (length (commas (map member ps)) < k)%nat ->
  type_scan k false false url pos (toks false ps (RBrace :: r)) = if all_strings ps then Ok (url_of url ps, pos) else Err BadMessage.
Proof.
  induction ps as [|p t IH]; intros k url pos r Hk; destruct k as [|k]; try (cbn in Hk; lia); [reflexivity|]. pose proof (toks_length p t) as L.
  rewrite toks_next, toks_cons. cbn [type_scan bind orb]. cbn [all_strings forallb url_of fold_left]. change (eqb_bytes (fst p) type_key) with (called type_key p). destruct (called type_key p) eqn:E.
  - destruct (snd p) as [u|u|[]| |u|u]; cbn [render app is_string negb orb andb]; try reflexivity. apply IH. lia.
  - rewrite tree_skip. cbn [bind negb orb andb]. apply IH. lia.
Qed.
Lemma scan_lead ps : forall k first url pos r, (length (commas (map member ps)) < k)%nat -> (ps = [] -> pos = RBrace :: r) ->
  type_scan k first true url pos (toks first ps (RBrace :: r)) = if all_strings ps then Ok (url_of url ps, toks true (drop_lead ps) (RBrace :: r)) else Err BadMessage.
Proof.
  induction ps as [|p t IH]; intros k first url pos r Hk Hp; destruct k as [|k]; try (cbn in Hk; lia).
  { rewrite (Hp eq_refl). destruct first; reflexivity. }
  pose proof (toks_length p t) as L.
  assert (Step : forall ts1, ts1 = toks true (p :: t) (RBrace :: r) ->
    match ts1 with
    | Str key :: Colon :: r =>
        if eqb_bytes key type_key then match r with Str u :: r1 => type_scan k false true u r1 r1 | _ => Err BadMessage end
        else r1 <- skip_value r ;; type_scan k false false url ts1 r1
    | _ => Err BadMessage
    end = if all_strings (p :: t) then Ok (url_of url (p :: t), toks true (drop_lead (p :: t)) (RBrace :: r)) else Err BadMessage).
  { intros ts1 E1. rewrite E1 at 1. rewrite toks_cons. cbn [all_strings forallb url_of fold_left drop_lead]. change (eqb_bytes (fst p) type_key) with (called type_key p). destruct (called type_key p) eqn:E.
    - destruct (snd p) as [u|u|[]| |u|u]; cbn [render app is_string negb orb andb]; try reflexivity. apply IH; [lia|intros ->; reflexivity].
    - rewrite tree_skip. cbn [bind negb orb andb]. rewrite scan_after by lia. rewrite E1. reflexivity. }
  destruct first; [|rewrite toks_next; cbn [type_scan bind orb]; exact (Step _ eq_refl)].
  specialize (Step _ eq_refl). rewrite toks_cons in *. cbn [type_scan bind orb]. exact Step.
Qed.
Definition value_found (found : option (list tok)) (ps : list (bytes * json)) : option (list tok) :=
  fold_left (fun x p => if called value_key p then Some (render (snd p)) else x) ps found.
Lemma value_scanned ps : forall k first found r, (length (commas (map member ps)) < k)%nat ->
  value_scan k first found (toks first ps (RBrace :: r)) = if forallb (fun p => called type_key p || called value_key p) ps then Ok (value_found found ps, r) else Err BadMessage.
Proof.
  induction ps as [|p t IH]; intros k first found r Hk; destruct k as [|k]; try (cbn in Hk; lia); [destruct first; reflexivity|]. pose proof (toks_length p t) as L.
  assert (Step : match toks true (p :: t) (RBrace :: r) with
    | Str key :: Colon :: r =>
        if eqb_bytes key value_key then r1 <- skip_value r ;; value_scan k false (Some (firstn (length r - length r1) r)) r1
        else if eqb_bytes key type_key then r1 <- skip_value r ;; value_scan k false found r1
        else Err BadMessage
    | _ => Err BadMessage
    end = if forallb (fun p => called type_key p || called value_key p) (p :: t) then Ok (value_found found (p :: t), r) else Err BadMessage).
  { rewrite toks_cons, tree_skip. cbn [bind forallb value_found fold_left]. change (eqb_bytes (fst p) type_key) with (called type_key p). change (eqb_bytes (fst p) value_key) with (called value_key p). destruct (called value_key p) eqn:V.
    - rewrite orb_true_r. cbn [andb]. rewrite app_length. replace (length (render (snd p)) + length (toks false t (RBrace :: r)) - length (toks false t (RBrace :: r)))%nat with (length (render (snd p))) by lia.
      rewrite firstn_app, Nat.sub_diag, firstn_O, firstn_all, app_nil_r. apply IH. lia.
    - rewrite orb_false_r. destruct (called type_key p); [|reflexivity]. cbn [andb]. apply IH. lia. }
  destruct first; [rewrite toks_cons in *; exact Step|rewrite toks_next; cbn [value_scan bind]; exact Step].
Qed.

(** The same by the members that count *)
Lemma last_app key ps p : last_called key (ps ++ [p]) = if called key p then Some (snd p) else last_called key ps.
Proof. unfold last_called. rewrite rev_app_distr. cbn [rev app find]. destruct (called key p); reflexivity. Qed.
Lemma url_last ps : all_strings ps = true -> match last_called type_key ps with Some (JStr u) => url_of [] ps = u | Some _ => False | None => url_of [] ps = [] end.
Proof.
  induction ps as [|p ps IH] using rev_ind; [reflexivity|]. unfold all_strings. rewrite forallb_app. intros H. apply andb_true_iff in H. destruct H as [H1 H2]. specialize (IH H1). cbn [forallb] in H2. rewrite andb_true_r in H2.
  rewrite last_app. unfold url_of. rewrite fold_left_app. cbn [fold_left]. destruct (called type_key p); [|exact IH]. cbn [negb orb] in H2. destruct (snd p); try discriminate H2. reflexivity.
Qed.
Lemma value_last ps : value_found None ps = option_map render (last_called value_key ps).
Proof.
  induction ps as [|p ps IH] using rev_ind; [reflexivity|]. rewrite last_app. unfold value_found. rewrite fold_left_app. cbn [fold_left]. destruct (called value_key p); [reflexivity|exact IH].
Qed.
Lemma keys_apart p : called type_key p = true -> called value_key p = false.
Proof. unfold called. intros H. apply eqb_bytes_eq in H. rewrite H. reflexivity. Qed.
Lemma lead_value ps : value_found None (drop_lead ps) = value_found None ps.
Proof. induction ps as [|p t IH]; [reflexivity|]. cbn [drop_lead]. destruct (called type_key p) eqn:E; [|reflexivity]. rewrite IH. unfold value_found. cbn [fold_left]. rewrite (keys_apart p E). reflexivity. Qed.
Lemma lead_keys ps : forallb (fun p => called type_key p || called value_key p) (drop_lead ps) = forallb (fun p => called type_key p || called value_key p) ps.
Proof. induction ps as [|p t IH]; [reflexivity|]. cbn [drop_lead]. destruct (called type_key p) eqn:E; [|reflexivity]. rewrite IH. cbn [forallb]. rewrite E. reflexivity. Qed.
Lemma lead_filter ps : filter (fun p => negb (called type_key p)) (drop_lead ps) = filter (fun p => negb (called type_key p)) ps.
Proof. induction ps as [|p t IH]; [reflexivity|]. cbn [drop_lead]. destruct (called type_key p) eqn:E; [|reflexivity]. rewrite IH. cbn [filter]. rewrite E. reflexivity. Qed.

Section Tree.
  Context (W : list wtype) (J : list jtype) (utf8_ok : bytes -> bool) (maxd : Z) (fparse : bool -> bytes -> option Z) (find_type : bytes -> option nat) (strict : bool).

  Section Level.
    Context (sub : nat -> list slot -> json -> res (list slot)) (pair : nat -> list slot -> bytes * json -> res (list slot)) (rec : nat -> list slot -> list tok -> res (list slot * list tok)).
    Hypothesis Hsub : forall ty m j r, w_entry (wty W ty) = false -> rec ty m (render j ++ r) = leaving r (sub ty m j).
    Hypothesis Hpair : forall ty m p r, w_entry (wty W ty) = true -> rec ty m (member p ++ r) = leaving r (pair ty m p).
    Lemma tree_payload ty ps : fields_ok W J ty -> forall k first m r, (length (commas (map member ps)) < k)%nat ->
      payload_members W J utf8_ok fparse strict rec k first ty m (toks first ps (RBrace :: r)) = leaving r (in_turn (set_member W J utf8_ok fparse strict sub pair ty) m (filter (fun p => negb (called type_key p)) ps)).
    Proof.
      intros Ne. induction ps as [|p t IH]; intros k first m r Hk; destruct k as [|k]; try (cbn in Hk; lia); [destruct first; reflexivity|]. pose proof (toks_length p t) as L.
      assert (Step : match toks true (p :: t) (RBrace :: r) with
        | Str key :: Colon :: r0 =>
            '(m1, r1) <- (if eqb_bytes key type_key then r1 <- skip_value r0 ;; Ok (m, r1)
                          else match find_field W J ty key with Some x => read_at W J utf8_ok fparse rec x m r0 | None => if strict then Err BadMessage else r1 <- skip_value r0 ;; Ok (m, r1) end) ;;
            payload_members W J utf8_ok fparse strict rec k false ty m1 r1
        | _ => Err BadMessage
        end = leaving r (in_turn (set_member W J utf8_ok fparse strict sub pair ty) m (filter (fun p => negb (called type_key p)) (p :: t)))).
      { rewrite toks_cons, tree_skip. cbn [filter]. change (eqb_bytes (fst p) type_key) with (called type_key p). destruct (called type_key p); cbn [negb bind]; [apply IH; lia|].
        cbn [in_turn]. unfold set_member at 1. destruct (find_field W J ty (fst p)) as [x|] eqn:F.
        - rewrite (tree_field W J utf8_ok fparse sub pair rec Hsub Hpair) by (apply Ne; apply (find_in _ _ _ _ _ F)). unfold leaving at 1. destruct (set_field W J utf8_ok fparse sub pair x m (snd p)) as [m1| | | |]; try reflexivity. cbn [bind]. apply IH. lia.
        - pose proof (IH k false m r) as IH'. revert IH'. generalize strict. intros [] IH'; [reflexivity|]. cbn [bind]. apply IH'. lia. }
      destruct first; [rewrite toks_cons in *; exact Step|rewrite toks_next; cbn [payload_members bind]; exact Step].
    Qed.

    Context (payload : nat -> list slot -> list (bytes * json) -> res (list slot)) (within : nat -> list slot -> list tok -> res (list slot * list tok)).
    Hypothesis Hwithin : forall ty m ps r, within ty m (toks true ps (RBrace :: r)) = leaving r (payload ty m (filter (fun p => negb (called type_key p)) ps)).
    Hypothesis Hentry : forall ty, known_of J ty <> KNone -> w_entry (wty W ty) = false.
    Lemma tree_parts encode j r : any_parts W J find_type rec within encode (render j ++ r) = leaving r (parts_of W J find_type sub payload encode j).
    Proof using Hsub Hwithin Hentry. clear Hpair pair strict utf8_ok fparse.
      destruct j as [t|t|[]| |l|ps]; try reflexivity. assert (R : render (JObj ps) ++ r = LBrace :: toks true ps (RBrace :: r)) by (cbn [render app]; rewrite <- commas_separated, <- app_assoc; reflexivity). rewrite R. unfold any_parts, parts_of.
      rewrite scan_lead; [|unfold toks; rewrite app_length; lia|intros ->; reflexivity]. fold (all_strings ps). destruct (all_strings ps) eqn:A; [|reflexivity]. cbn [bind]. pose proof (url_last ps A) as U. destruct (last_called type_key ps) as [[u|u|u| |u|u]|]; try contradiction; rewrite U; [|reflexivity].
      destruct u as [|c u]; [reflexivity|]. destruct (type_of find_type (c :: u)) as [t| | | |]; try reflexivity. cbn [bind].
      assert (K : (match known_of J t with
                   | KNone => within t (new_slots W t) (toks true (drop_lead ps) (RBrace :: r))
                   | _ => '(v, r) <- value_scan (S (length (toks true (drop_lead ps) (RBrace :: r)))) true None (toks true (drop_lead ps) (RBrace :: r)) ;;
                          match v with None => Ok (new_slots W t, r) | Some ts1 => '(p, _) <- rec t (new_slots W t) ts1 ;; Ok (p, r) end
                   end) = leaving r (match known_of J t with
                    | KNone => payload t (new_slots W t) (filter (fun p => negb (called type_key p)) ps)
                    | _ => if forallb (fun p => called type_key p || called value_key p) ps then match last_called value_key ps with Some v => sub t (new_slots W t) v | None => Ok (new_slots W t) end else Err BadMessage
                    end)).
      { assert (V : known_of J t <> KNone -> ('(v, r) <- value_scan (S (length (toks true (drop_lead ps) (RBrace :: r)))) true None (toks true (drop_lead ps) (RBrace :: r)) ;;
                          match v with None => Ok (new_slots W t, r) | Some ts1 => '(p, _) <- rec t (new_slots W t) ts1 ;; Ok (p, r) end) =
                      leaving r (if forallb (fun p => called type_key p || called value_key p) ps then match last_called value_key ps with Some v => sub t (new_slots W t) v | None => Ok (new_slots W t) end else Err BadMessage)).
        { intros Hk. rewrite value_scanned by (unfold toks; rewrite app_length; lia). rewrite lead_keys, lead_value, value_last. destruct (forallb _ ps); [|reflexivity]. cbn [bind]. destruct (last_called value_key ps) as [v|]; [|reflexivity]. cbn [option_map].
          pose proof (Hsub t (new_slots W t) v [] (Hentry t Hk)) as S. rewrite app_nil_r in S. rewrite S. unfold leaving. destruct (sub t (new_slots W t) v); reflexivity. }
        destruct (known_of J t); try (apply V; discriminate). rewrite Hwithin, lead_filter. reflexivity. }
      rewrite K. unfold leaving. match goal with |- context [bind ?x (fun v => Ok (v, r))] => destruct x as [pm| | | |] end; try reflexivity. cbn [bind]. destruct (or_syntax (encode t pm)); reflexivity.
    Qed.
    Lemma tree_any encode ty m j r : read_any W J find_type rec within encode ty m (render j ++ r) = leaving r (set_any W J find_type sub payload encode ty m j).
    Proof using Hsub Hwithin Hentry. clear Hpair pair strict utf8_ok fparse.
      unfold read_any, set_any. rewrite tree_parts. unfold leaving. destruct (parts_of _ _ _ _ _ _ j) as [[url data]| | | |]; try reflexivity. cbn [bind fst snd]. destruct (w_fields (wty W ty)) as [|[? ?] [|[? ?] [|? ?]]]; reflexivity.
    Qed.
  End Level.

  Hypothesis Hf : forall ty, fields_ok W J ty.
  Hypothesis Hentry : forall ty, known_of J ty <> KNone -> w_entry (wty W ty) = false.
  Notation aread_msg := (aread_msg W J utf8_ok maxd fparse find_type strict).
  Lemma tree_aread n : forall d ty m,
    (forall j r, w_entry (wty W ty) = false -> aread_msg n d false ty m (render j ++ r) = leaving r (aset_json W J utf8_ok maxd fparse find_type strict n d ty m j)) /\
    (forall p r, w_entry (wty W ty) = true -> aread_msg n d false ty m (member p ++ r) = leaving r (aset_pair W J utf8_ok maxd fparse find_type strict n d ty m p)) /\
    (forall ps r, aread_msg n d true ty m (toks true ps (RBrace :: r)) = leaving r (aset_payload W J utf8_ok maxd fparse find_type strict n d ty m (filter (fun p => negb (called type_key p)) ps))).
  Proof.
    induction n as [|n IH]; intros d ty m; [split; [|split]; reflexivity|]. cbn [DynAny.aread_msg aset_json aset_pair aset_payload]. destruct (scope_ok maxd d); [|split; [|split]; reflexivity].
    assert (H1 : forall ty m j r, w_entry (wty W ty) = false -> aread_msg n (d + 1) false ty m (render j ++ r) = leaving r (aset_json W J utf8_ok maxd fparse find_type strict n (d + 1) ty m j)) by (intros; apply (IH (d + 1)); assumption).
    assert (H2 : forall ty m p r, w_entry (wty W ty) = true -> aread_msg n (d + 1) false ty m (member p ++ r) = leaving r (aset_pair W J utf8_ok maxd fparse find_type strict n (d + 1) ty m p)) by (intros; apply (IH (d + 1)); assumption).
    split; [|split].
    - intros j r En. rewrite En.
      assert (B := tree_body W J utf8_ok fparse strict _ _ _ H1 H2 ty m j r En (Hf ty)).
      destruct (known_of J ty) eqn:K; try exact B. apply tree_any; auto. intros ty0 m0 ps r0. apply (IH (d + 1)).
    - intros p r En. rewrite En. pose proof (tree_entry W J utf8_ok fparse strict _ _ _ H1 H2 ty m p r En (Hf ty)) as B. unfold read_body in B. rewrite En in B. exact B.
    - intros ps r. apply tree_payload; auto. unfold toks. rewrite app_length. lia.
  Qed.
End Tree.
