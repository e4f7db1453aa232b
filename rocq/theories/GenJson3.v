(** Reading the tokens of a JSON value does what the value stands for. *)
Require Import Verif.Bits Verif.Varint Verif.Base64 Verif.Timestamp Verif.Duration Verif.FieldMask.
Require Import Verif.Schema Verif.Archive Verif.Decode Verif.Encode Verif.DynJson Verif.DynJsonSpec Verif.DynJsonTree Verif.DynJson1 Verif.DynJson2 Verif.DynJson6 Verif.DynJson7 Verif.GenJson Verif.GenJsonSpec Verif.GenJson2 Verif.GenJsonTree.

Section Follow.
  Context (E : env) (G : list gtype) (utf8_ok : bytes -> bool) (fparse : bool -> bytes -> option Z) (lenient strict : bool).
  Lemma follow_scalar checked q jf e j r : gread_scalar utf8_ok fparse lenient checked q jf e (render j ++ r) = leaving r (gscalar_of utf8_ok fparse lenient checked q jf e j).
  Proof.
    unfold gread_scalar, gscalar_of. destruct e as [vk| |b f|c|u v|ty d]; [| | | | |reflexivity].
    - destruct j as [t|t|[]| |l|l]; cbn [render app]; try reflexivity; [destruct q|destruct (negb q || lenient)]; try reflexivity; destruct (number_value fparse jf (EVar vk) t); reflexivity.
    - destruct j as [t|t|[]| |l|l]; cbn [render app]; destruct q; try reflexivity. destruct (eqb_bytes t true_text); [reflexivity|]. destruct (eqb_bytes t false_text); reflexivity.
    - destruct j as [t|t|[]| |l|l]; cbn [render app]; try reflexivity; [destruct q|destruct (negb q || lenient)]; try reflexivity; destruct (number_value fparse jf (EFix b f) t); reflexivity.
    - destruct j as [t|t|[]| |l|l]; cbn [render app]; try reflexivity; [destruct (j_null jf); [reflexivity|destruct (value_of (j_values jf) t); reflexivity]|destruct checked; [destruct (number_value fparse jf (EVar VI32) t); reflexivity|reflexivity]|destruct (j_null jf && negb checked); reflexivity].
    - destruct j as [t|t|[]| |l|l]; cbn [render app]; try reflexivity. destruct (j_string jf); [destruct (negb checked || utf8_ok t)|destruct (b64_decode t)]; reflexivity.
  Qed.
  Lemma follow_bind {A B} r (x : res A) (f : A -> res B) : bind (leaving r x) (fun p => let '(v, r') := p in leaving r' (f v)) = leaving r (bind x f).
  Proof. unfold leaving. destruct x; reflexivity. Qed.
  Lemma follow_ok {A B} r (x : res A) (f : A -> B) : bind (leaving r x) (fun p => let '(v, r') := p in Ok (f v, r')) = leaving r (v <- x ;; Ok (f v)).
  Proof. unfold leaving. destruct x; reflexivity. Qed.

  Section Level.
    Context (sub : nat -> val -> json -> res val) (rec : nat -> val -> list tok -> res (val * list tok)).
    Hypothesis H : forall ty cur j r, rec ty cur (render j ++ r) = leaving r (sub ty cur j).
    Lemma follow_value checked q jf e cur j r : gread_elem utf8_ok fparse lenient rec checked q jf e cur (render j ++ r) = leaving r (gvalue_of utf8_ok fparse lenient sub checked q jf e cur j).
    Proof. unfold gread_elem, gvalue_of. destruct e; try apply follow_scalar. apply H. Qed.
    Lemma follow_list jf e j r : gread_array E utf8_ok fparse lenient rec jf e (render j ++ r) = leaving r (glist_of E utf8_ok fparse lenient sub jf e j).
    Proof. unfold gread_array, glist_of. apply tree_array. intros a r'. apply follow_value. Qed.
    Lemma follow_pair te p r : gread_pair E G utf8_ok fparse lenient rec te (member p ++ r) = leaving r (gpair_of E G utf8_ok fparse lenient sub te p).
    Proof.
      unfold gread_pair, gpair_of. destruct (entry_of E G te) as [[[kj ek] [vj ev]]|]; [|reflexivity]. unfold member. cbn [app].
      pose proof (follow_scalar true true kj ek (JStr (fst p)) (Colon :: render (snd p) ++ r)) as S. cbn [render app] in S. rewrite S. unfold leaving at 1. destruct (gscalar_of utf8_ok fparse lenient true true kj ek (JStr (fst p))); try reflexivity. cbn [bind].
      rewrite follow_value, follow_ok. reflexivity.
    Qed.
    Lemma commas_first (p : bytes * json) t z : commas (map member (p :: t)) ++ z = Str (fst p) :: Colon :: render (snd p) ++ (match t with [] => [] | _ => Comma :: commas (map member t) end ++ z).
    Proof. destruct t as [|p' t']; [reflexivity|]. cbn [map]. rewrite commas_cons. unfold member at 1. cbn [app]. rewrite <- app_assoc. reflexivity. Qed.
    Lemma commas_shrink (p : bytes * json) t : (length (commas (map member t)) + 2 < length (commas (map member (p :: t))))%nat.
    Proof.
      pose proof (commas_first p t []) as C. rewrite app_nil_r in C. rewrite C. cbn [length]. rewrite !app_length. assert (P : (0 < length (render (snd p)))%nat) by (clear; destruct (snd p) as [x|x|[]| |l|l]; cbn; apply Nat.lt_0_succ). destruct t; cbn [map commas length]; [lia|]. cbn [length app]. lia.
    Qed.
    Lemma follow_entries te ps : forall k first cur r, (length (commas (map member ps)) < k)%nat ->
      gread_entries E G utf8_ok fparse lenient rec k first te cur ((if first then commas (map member ps) else match ps with [] => [] | _ => Comma :: commas (map member ps) end) ++ RBrace :: r) =
      leaving r (in_turn (fun es p => e <- gpair_of E G utf8_ok fparse lenient sub te p ;; Ok (map_put e es)) cur ps).
    Proof.
      induction ps as [|p t IH]; intros k first cur r Hk; (destruct k as [|k]; [lia|]); [destruct first; reflexivity|]. pose proof (commas_shrink p t) as L.
      assert (Step : ('(e, r0) <- gread_pair E G utf8_ok fparse lenient rec te (commas (map member (p :: t)) ++ RBrace :: r) ;; gread_entries E G utf8_ok fparse lenient rec k false te (map_put e cur) r0) =
        leaving r (in_turn (fun es p => e <- gpair_of E G utf8_ok fparse lenient sub te p ;; Ok (map_put e es)) cur (p :: t))).
      { rewrite commas_first. change (Str (fst p) :: Colon :: render (snd p) ++ ?z) with (member p ++ z). rewrite follow_pair. unfold leaving at 1. cbn [in_turn]. destruct (gpair_of E G utf8_ok fparse lenient sub te p) as [e| | | |]; try reflexivity. cbn [bind]. apply (IH k false (map_put e cur) r). lia. }
      destruct first; cbn [app]; [|exact Step]. revert Step. rewrite commas_first. intros Step. exact Step.
    Qed.
    Lemma follow_map assoc te cur j r : gread_map E G utf8_ok fparse lenient rec assoc te cur (render j ++ r) = leaving r (gmap_of E G utf8_ok fparse lenient sub assoc te cur j).
    Proof.
      unfold gread_map, gmap_of. destruct assoc.
      - destruct j as [t|t|[]| |l|l]; try reflexivity. cbn [render app]. rewrite <- commas_separated, <- app_assoc. cbn [app]. apply (follow_entries te l _ true cur r). rewrite app_length. cbn [length]. unfold member. lia.
      - rewrite (tree_object (gread_pair E G utf8_ok fparse lenient rec te) (gpair_of E G utf8_ok fparse lenient sub te)) by (intros; apply follow_pair). rewrite (follow_ok r _ (fun es => cur ++ es)). destruct j; reflexivity.
    Qed.
    Lemma follow_field jf std e c cur j r : gread_field E G utf8_ok fparse lenient rec jf std e c cur (render j ++ r) = leaving r (gfield_of E G utf8_ok fparse lenient sub jf std e c cur j).
    Proof.
      unfold gread_field, gfield_of. destruct c as [ex d| |p|assoc].
      - set (cur' := match cur with [v] => v | _ => _ end). pose proof (follow_value (negb ex) (wide jf e) jf e cur' j r) as V. destruct j as [t|t|[]| |l|l]; cbn [render app] in *; try (rewrite V, follow_ok; reflexivity). destruct ex; [rewrite V, follow_ok|]; reflexivity.
      - set (cur' := match cur with [v] => v | _ => _ end). pose proof (follow_value (negb std) (negb std && wide jf e) jf e cur' j r) as V. destruct j as [t|t|[]| |l|l]; cbn [render app] in *; try (rewrite V, follow_ok; reflexivity). reflexivity.
      - pose proof (follow_list jf e j r) as V. destruct j as [t|t|[]| |l|l]; cbn [render app] in *; try (rewrite V, (follow_ok r _ (fun vs => cur ++ vs)); reflexivity). reflexivity.
      - destruct e as [vk| |b f|cc|u v|te d]; try (destruct j as [t|t|[]| |l|l]; reflexivity). pose proof (follow_map assoc te cur j r) as V. destruct j as [t|t|[]| |l|l]; cbn [render app] in *; try (rewrite V; reflexivity). reflexivity.
    Qed.
    Lemma follow_alt jf k e j r : gread_alt E utf8_ok fparse lenient rec jf k e (render j ++ r) = leaving r (galt_of E utf8_ok fparse lenient sub jf k e j).
    Proof.
      unfold gread_alt, galt_of. pose proof (follow_value true (wide jf e) jf e (elem_default E e) j r) as V. destruct j as [t|t|[]| |l|l]; cbn [render app] in *; try (rewrite V, (follow_ok r _ (fun v => [VAlt k v])); reflexivity). reflexivity.
    Qed.
    Lemma follow_target t ty fs j r : gread_target E G utf8_ok fparse lenient rec t ty fs (render j ++ r) = leaving r (gtarget_of E G utf8_ok fparse lenient sub t ty fs j).
    Proof.
      unfold gread_target, gtarget_of. destruct t as [i|i k].
      - destruct (nth_error (g_members (gty G ty)) i) as [[jf std|]|]; try reflexivity. destruct (nth_error (m_fields (desc_of E ty)) i) as [[num e c|]|]; try reflexivity. destruct (nth_error fs i); [|reflexivity]. rewrite follow_field, (follow_ok r _ (fun vs => Schema.set_nth i vs fs)). reflexivity.
      - destruct (nth_error (g_members (gty G ty)) i) as [[|jfs]|]; try reflexivity. destruct (nth_error (m_fields (desc_of E ty)) i) as [[|alts]|]; try reflexivity. destruct (nth_error jfs k); [|reflexivity]. destruct (nth_error alts k) as [[num e]|]; [|reflexivity]. rewrite follow_alt, (follow_ok r _ (fun vs => Schema.set_nth i vs fs)). reflexivity.
    Qed.
    Lemma follow_members ty ps : forall k first fs r, (length (commas (map member ps)) < k)%nat ->
      gread_members E G utf8_ok fparse lenient strict rec k first ty fs ((if first then commas (map member ps) else match ps with [] => [] | _ => Comma :: commas (map member ps) end) ++ RBrace :: r) =
      leaving r (in_turn (gmember_of E G utf8_ok fparse lenient strict sub ty) fs ps).
    Proof.
      induction ps as [|p t IH]; intros k first fs r Hk; (destruct k as [|k]; [lia|]); [destruct first; reflexivity|]. pose proof (commas_shrink p t) as L.
      set (rest := match t with [] => [] | _ => Comma :: commas (map member t) end ++ RBrace :: r).
      assert (Step : ('(fs1, r1) <- (match locate (fst p) (g_members (gty G ty)) 0 with
                                     | Some t => gread_target E G utf8_ok fparse lenient rec t ty fs (render (snd p) ++ rest)
                                     | None => if strict then Err BadMessage else r1 <- skip_value (render (snd p) ++ rest) ;; Ok (fs, r1)
                                     end) ;; gread_members E G utf8_ok fparse lenient strict rec k false ty fs1 r1) =
        leaving r (in_turn (gmember_of E G utf8_ok fparse lenient strict sub ty) fs (p :: t))).
      { cbn [in_turn]. unfold gmember_of at 1. destruct (locate (fst p) (g_members (gty G ty)) 0) as [tg|].
        - rewrite follow_target. unfold leaving at 1. destruct (gtarget_of E G utf8_ok fparse lenient sub tg ty fs (snd p)) as [fs1| | | |]; try reflexivity. cbn [bind]. apply (IH k false fs1 r). lia.
        - pose proof (IH k false fs r) as IH'. revert IH'. generalize strict. intros [] IH'; [reflexivity|]. rewrite tree_skip. cbn [bind]. apply IH'. lia. }
      destruct first; cbn [app]; rewrite commas_first; exact Step.
    Qed.
    Lemma follow_kind ty i j r : gread_kind E G utf8_ok fparse lenient rec ty i (render j ++ r) = leaving r (gkind_of E G utf8_ok fparse lenient sub ty i j).
    Proof.
      unfold gread_kind, gkind_of. destruct (m_fields (desc_of E ty)) as [|[|alts] [|? ?]]; try reflexivity. destruct (g_members (gty G ty)) as [|[|jfs] [|? ?]]; try reflexivity.
      destruct (nth_error jfs i) as [jf|]; [|reflexivity]. destruct (nth_error alts i) as [[num e]|]; [|reflexivity].
      destruct e as [vk| |b f|cc|uu v|st d]; try (rewrite follow_scalar, (follow_ok r _ (fun v => [[VAlt i v]])); reflexivity).
      destruct (m_fields (desc_of E st)) as [|[num' e c|] [|? ?]]; try reflexivity; try (destruct e, c; reflexivity).
      destruct e as [vk| |b f|cc|uu v|te d'], c as [| | |assoc]; try reflexivity;
        try (rewrite follow_map, (follow_ok r _ (fun es => [[VAlt i (VMsg [es] [])]])); reflexivity);
        (destruct (g_members (gty G st)) as [|[lj ?|] [|? ?]]; try reflexivity; rewrite follow_list, (follow_ok r _ (fun vs => [[VAlt i (VMsg [vs] [])]])); reflexivity).
    Qed.
    Lemma follow_body ty cur j r : gread_body E G utf8_ok fparse lenient strict rec ty cur (render j ++ r) = leaving r (gbody_of E G utf8_ok fparse lenient strict sub ty cur j).
    Proof.
      unfold gread_body, gbody_of. destruct cur as [| |fs u|]; try reflexivity. rewrite <- (follow_ok r _ (fun fs' => VMsg fs' u)). f_equal.
      destruct (gknown G ty).
      - destruct j as [t|t|[]| |l|l]; try reflexivity. cbn [render app]. rewrite <- commas_separated, <- app_assoc. cbn [app]. apply (follow_members ty l _ true fs r). rewrite app_length. unfold member. lia.
      - reflexivity.
      - destruct j as [t|t|[]| |l|l]; try reflexivity. cbn [render app]. destruct (timestamp_decode t) as [[s n]|]; reflexivity.
      - destruct j as [t|t|[]| |l|l]; try reflexivity. cbn [render app]. destruct (duration_decode t) as [[s n]|]; reflexivity.
      - destruct j as [t|t|[]| |l|l]; reflexivity.
      - unfold gread_value. pose proof (fun i => follow_kind ty i j r) as K. destruct j as [t|t|[]| |l|l]; cbn [render app] in *; try apply K. reflexivity.
      - destruct (m_fields (desc_of E ty)) as [|[num' e c|] [|? ?]]; try reflexivity; try (destruct e, c; reflexivity). destruct e as [vk| |b f|cc|uu v|te d']; try reflexivity. destruct c; try reflexivity. destruct fs as [|es [|? ?]]; try reflexivity. rewrite follow_map, (follow_ok r _ (fun es' => [es'])). reflexivity.
      - destruct (m_fields (desc_of E ty)) as [|[num' e c|] [|? ?]]; try reflexivity; try (destruct e, c; reflexivity). destruct c; try reflexivity. destruct (g_members (gty G ty)) as [|[lj ?|] [|? ?]]; try reflexivity. destruct fs as [|vs [|? ?]]; try reflexivity. rewrite follow_list, (follow_ok r _ (fun vs' => [vs ++ vs'])). reflexivity.
      - destruct (m_fields (desc_of E ty)) as [|[num' e c|] [|? ?]]; try reflexivity; try (destruct e, c; reflexivity). destruct c; try reflexivity. destruct (g_members (gty G ty)) as [|[lj ?|] [|? ?]]; try reflexivity. rewrite follow_scalar, (follow_ok r _ (fun v => [[v]])). reflexivity.
    Qed.
  End Level.
  Theorem follow n : forall ty cur j r, gread E G utf8_ok fparse lenient strict n ty cur (render j ++ r) = leaving r (gset E G utf8_ok fparse lenient strict n ty cur j).
  Proof. induction n as [|n IH]; intros ty cur j r; [reflexivity|]. cbn [gread gset]. apply follow_body. exact IH. Qed.
End Follow.
