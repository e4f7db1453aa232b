(** Proofs about the FieldMask text codec. *)
Require Import Verif.Bits Verif.FieldMask.
Open Scope Z_scope.

(** ** Specification *)

(** Reading a JSON string body (RFC 8259, section 7), for [\u] escapes below
    U+0080; [None] for a malformed body. *)
Definition hex_val (c : Z) : option Z :=
  if (48 <=? c) && (c <=? 57) then Some (c - 48)
  else if (97 <=? c) && (c <=? 102) then Some (c - 87)
  else if (65 <=? c) && (c <=? 70) then Some (c - 55) else None.

Definition simple_escape (c : Z) : option Z :=
  if c =? 34 then Some 34 else if c =? 92 then Some 92 else if c =? 47 then Some 47
  else if c =? 98 then Some 8 else if c =? 102 then Some 12 else if c =? 110 then Some 10
  else if c =? 114 then Some 13 else if c =? 116 then Some 9 else None.

Fixpoint json_unescape (s : list Z) : option (list Z) :=
  match s with
  | [] => Some []
  | c :: s' =>
    if c =? 92 then
      match s' with
      | [] => None
      | e :: s2 =>
        if e =? 117 then
          match s2 with
          | a :: b :: h :: l :: s3 =>
            if (a =? 48) && (b =? 48) then
              match hex_val h, hex_val l, json_unescape s3 with
              | Some x, Some y, Some r => if x <? 8 then Some (x * 16 + y :: r) else None
              | _, _, _ => None
              end
            else None
          | _ => None
          end
        else match simple_escape e, json_unescape s2 with
             | Some x, Some r => Some (x :: r)
             | _, _ => None
             end
      end
    else if (c <? 32) || (c =? 34) then None
    else match json_unescape s' with Some r => Some (c :: r) | None => None end
  end.

(** Paths joined by commas. *)
Fixpoint join (paths : list (list Z)) : list Z :=
  match paths with
  | [] => []
  | [p] => p
  | p :: rest => p ++ 44 :: join rest
  end.

Definition comma_free (p : list Z) : Prop := ~ In 44 p.

(** ** Escaping *)

Lemma hex_val_digit v : 0 <= v < 16 -> hex_val (hex_digit v) = Some v.
Proof.
  intros H. assert (M : v = 0 \/ v = 1 \/ v = 2 \/ v = 3 \/ v = 4 \/ v = 5 \/ v = 6 \/ v = 7 \/ v = 8 \/ v = 9 \/ v = 10 \/ v = 11 \/ v = 12 \/ v = 13 \/ v = 14 \/ v = 15) by lia.
  repeat (destruct M as [-> | M]; [reflexivity|]). subst; reflexivity.
Qed.

Lemma unescape_char c s r : 0 <= c < 256 -> json_unescape s = Some r ->
  json_unescape (escape_char c ++ s) = Some (c :: r).
Proof.
  intros Hc H. unfold escape_char, char_escape.
  destruct (Z.eqb_spec c 8) as [->|]; [cbn [app json_unescape]; rewrite H; reflexivity|].
  destruct (Z.eqb_spec c 9) as [->|]; [cbn [app json_unescape]; rewrite H; reflexivity|].
  destruct (Z.eqb_spec c 10) as [->|]; [cbn [app json_unescape]; rewrite H; reflexivity|].
  destruct (Z.eqb_spec c 12) as [->|]; [cbn [app json_unescape]; rewrite H; reflexivity|].
  destruct (Z.eqb_spec c 13) as [->|]; [cbn [app json_unescape]; rewrite H; reflexivity|].
  destruct (Z.eqb_spec c 34) as [->|]; [cbn [app json_unescape]; rewrite H; reflexivity|].
  destruct (Z.eqb_spec c 92) as [->|]; [cbn [app json_unescape]; rewrite H; reflexivity|].
  destruct (Z.ltb_spec c 32) as [L|L].
  - assert (S4 : Z.shiftr c 4 = c / 16) by (rewrite Z.shiftr_div_pow2 by lia; reflexivity).
    assert (A15 : Z.land c 15 = c mod 16) by (change 15 with (Z.ones 4); rewrite Z.land_ones by lia; reflexivity).
    rewrite S4, A15. cbn [app json_unescape]. change (92 =? 92) with true. change (117 =? 117) with true.
    change ((48 =? 48) && (48 =? 48)) with true. cbv iota.
    rewrite !hex_val_digit by lia. rewrite H. replace (c / 16 <? 8) with true by lia. do 2 f_equal. lia.
  - cbn [app json_unescape]. replace (c =? 92) with false by lia.
    replace ((c <? 32) || (c =? 34)) with false by lia. rewrite H. reflexivity.
Qed.

Lemma unescape_path p s r : all_bytes p -> json_unescape s = Some r ->
  json_unescape (escape_path p ++ s) = Some (p ++ r).
Proof.
  intros Hp H. induction Hp as [|c p Hc Hp IH]; auto.
  unfold escape_path in *. cbn [flat_map app]. rewrite <- app_assoc. apply unescape_char; auto.
Qed.

Lemma unescape_rest rest : Forall all_bytes rest ->
  json_unescape (flat_map (fun q => 44 :: escape_path q) rest) = Some (flat_map (fun q => 44 :: q) rest).
Proof.
  induction 1 as [|p rest Hp Hr IH]; auto. cbn [flat_map app].
  assert (E : json_unescape (44 :: escape_path p ++ flat_map (fun q => 44 :: escape_path q) rest)
    = match json_unescape (escape_path p ++ flat_map (fun q => 44 :: escape_path q) rest) with Some r => Some (44 :: r) | None => None end) by reflexivity.
  rewrite E. rewrite (unescape_path p _ _ Hp IH). reflexivity.
Qed.

Lemma join_flat p rest : join (p :: rest) = p ++ flat_map (fun q => 44 :: q) rest.
Proof.
  revert p; induction rest as [|q rest IH]; intros p; [cbn [join flat_map]; rewrite app_nil_r; reflexivity|].
  change (join (p :: q :: rest)) with (p ++ 44 :: join (q :: rest)). rewrite IH. reflexivity.
Qed.

(** The text written is a JSON string body that denotes the joined paths. *)
Lemma mask_encode_unescape paths : Forall all_bytes paths -> json_unescape (mask_encode paths) = Some (join paths).
Proof.
  intros H. destruct H as [|p rest Hp Hr]; [reflexivity|]. rewrite join_flat. unfold mask_encode.
  apply unescape_path; auto. apply unescape_rest; auto.
Qed.

(** ** Size *)

Lemma escape_char_len c : zlen (escape_char c) <= escaped_char_size c.
Proof.
  unfold escape_char, char_escape, escaped_char_size.
  destruct (Z.eqb_spec c 8); [subst; vm_compute; discriminate|]. destruct (Z.eqb_spec c 9); [subst; vm_compute; discriminate|].
  destruct (Z.eqb_spec c 10); [subst; vm_compute; discriminate|]. destruct (Z.eqb_spec c 12); [subst; vm_compute; discriminate|].
  destruct (Z.eqb_spec c 13); [subst; vm_compute; discriminate|]. destruct (Z.eqb_spec c 34); [subst; vm_compute; discriminate|].
  destruct (Z.eqb_spec c 92); [subst; vm_compute; discriminate|].
  destruct (Z.ltb_spec c 32); unfold zlen; cbn [length]; cbn [orb]; lia.
Qed.

Definition path_bound (p : list Z) : Z := fold_left (fun b c => b + escaped_char_size c) p 0.

Lemma fold_left_add {A} (f : A -> Z) l : forall a, fold_left (fun b c => b + f c) l a = a + fold_left (fun b c => b + f c) l 0.
Proof.
  induction l as [|x l IH]; intros a; cbn [fold_left]; [lia|]. rewrite (IH (a + f x)), (IH (0 + f x)). lia.
Qed.

Lemma zlen_app {A} (u v : list A) : zlen (u ++ v) = zlen u + zlen v.
Proof. unfold zlen. rewrite app_length. lia. Qed.

Lemma escape_path_len p : zlen (escape_path p) <= path_bound p.
Proof.
  unfold escape_path, path_bound. induction p as [|c p IH]; [vm_compute; discriminate|].
  cbn [flat_map fold_left]. rewrite zlen_app, fold_left_add. pose proof (escape_char_len c). lia.
Qed.

Lemma mask_encode_len paths : zlen (mask_encode paths) <= mask_max_encode_size paths.
Proof.
  unfold mask_max_encode_size, mask_encode.
  assert (R : forall rest, zlen (flat_map (fun q => 44 :: escape_path q) rest) <= zlen rest + fold_left (fun a p => a + path_bound p) rest 0).
  { induction rest as [|q rest IH]; [vm_compute; discriminate|]. cbn [flat_map fold_left]. rewrite zlen_app, fold_left_add.
    pose proof (escape_path_len q). assert (zlen (44 :: escape_path q) = zlen (escape_path q) + 1) by (unfold zlen; cbn [length]; lia).
    assert (zlen (q :: rest) = zlen rest + 1) by (unfold zlen; cbn [length]; lia). lia. }
  destruct paths as [|p rest]; [vm_compute; discriminate|].
  fold path_bound. change (fun a p0 => a + fold_left (fun b c => b + escaped_char_size c) p0 0) with (fun a p0 => a + path_bound p0).
  cbn [fold_left]. rewrite zlen_app, fold_left_add. specialize (R rest). pose proof (escape_path_len p).
  assert (zlen (p :: rest) = zlen rest + 1) by (unfold zlen; cbn [length]; lia). lia.
Qed.

(** ** Parsing *)

Lemma until_comma_free p r : comma_free p -> until_comma (p ++ 44 :: r) = (p, 44 :: r).
Proof.
  intros H. induction p as [|c p IH]; [reflexivity|]. cbn [app until_comma].
  destruct (Z.eqb_spec c 44) as [->|]; [exfalso; apply H; left; auto|]. rewrite IH; auto. intros K. apply H. right; auto.
Qed.

Lemma until_comma_end p : comma_free p -> until_comma p = (p, []).
Proof.
  intros H. induction p as [|c p IH]; [reflexivity|]. cbn [until_comma].
  destruct (Z.eqb_spec c 44) as [->|]; [exfalso; apply H; left; auto|]. rewrite IH; auto. intros K. apply H. right; auto.
Qed.

Lemma until_comma_inv s a b : until_comma s = (a, b) -> s = a ++ b /\ comma_free a /\ (b = [] \/ exists r, b = 44 :: r).
Proof.
  revert a b; induction s as [|c s IH]; intros a b H; cbn [until_comma] in H.
  - injection H as <- <-. repeat split; auto. intros [].
  - destruct (Z.eqb_spec c 44) as [->|].
    + injection H as <- <-. repeat split; eauto. intros [].
    + destruct (until_comma s) as [a' b'] eqn:E. injection H as <- <-. destruct (IH a' b' eq_refl) as (-> & F & K).
      repeat split; auto. intros [->|I]; [lia|]. apply F; auto.
Qed.

Lemma count_free p : comma_free p -> filter (fun c => c =? 44) p = [].
Proof.
  intros H. induction p as [|c p IH]; auto. cbn [filter]. destruct (Z.eqb_spec c 44) as [->|]; [exfalso; apply H; left; auto|].
  apply IH. intros K. apply H. right; auto.
Qed.

Lemma mask_fill_join paths : paths <> [] -> Forall comma_free paths -> mask_fill (length paths) (join paths) = paths.
Proof.
  intros N H. induction H as [|p rest Hp Hr IH]; [contradiction|].
  destruct rest as [|q rest].
  - cbn [length join mask_fill]. rewrite until_comma_end by auto. reflexivity.
  - change (join (p :: q :: rest)) with (p ++ 44 :: join (q :: rest)).
    change (length (p :: q :: rest)) with (S (length (q :: rest))). cbn [mask_fill].
    rewrite until_comma_free by auto. f_equal. apply IH; auto. discriminate.
Qed.

Lemma count_join paths : paths <> [] -> Forall comma_free paths ->
  S (length (filter (fun c => c =? 44) (join paths))) = length paths.
Proof.
  intros N H. induction H as [|p rest Hp Hr IH]; [contradiction|].
  destruct rest as [|q rest].
  - cbn [join]. rewrite count_free by auto. reflexivity.
  - change (join (p :: q :: rest)) with (p ++ 44 :: join (q :: rest)).
    rewrite filter_app, count_free by auto. cbn [app filter]. change (44 =? 44) with true. cbv iota. cbn [length] in *.
    rewrite IH by (auto; discriminate). reflexivity.
Qed.

Lemma mask_decode_join paths : Forall comma_free paths -> paths <> [[]] -> mask_decode (join paths) = paths.
Proof.
  intros H N. unfold mask_decode. destruct paths as [|p rest]; [reflexivity|].
  destruct (join (p :: rest)) as [|c s] eqn:J.
  - destruct rest as [|q rest].
    + cbn [join] in J. subst p. contradiction.
    + change (join (p :: q :: rest)) with (p ++ 44 :: join (q :: rest)) in J. destruct p; discriminate.
  - rewrite <- J. rewrite count_join by (auto; discriminate). apply mask_fill_join; auto. discriminate.
Qed.

(** Every text is the comma-join of what it decodes to; the paths are comma-free. *)
Lemma mask_fill_inv n : forall s, length (filter (fun c => c =? 44) s) = n ->
  join (mask_fill (S n) s) = s /\ Forall comma_free (mask_fill (S n) s).
Proof.
  induction n as [|n IH]; intros s H; cbn [mask_fill]; destruct (until_comma s) as [a b] eqn:U;
    apply until_comma_inv in U; destruct U as (-> & F & K).
  - destruct K as [->|(r & ->)].
    + rewrite app_nil_r. cbn [join]. auto.
    + rewrite filter_app in H. cbn [filter] in H. change (44 =? 44) with true in H. cbv iota in H. rewrite app_length in H. cbn [length] in H. lia.
  - destruct K as [->|(r & ->)].
    + rewrite app_nil_r, count_free in H by auto. discriminate.
    + rewrite filter_app, count_free in H by auto. cbn [filter app length] in H. change (44 =? 44) with true in H. cbv iota in H. cbn [length] in H.
      injection H as H. destruct (IH r H) as [J G].
      cbn [mask_fill] in J, G. destruct (until_comma r) as [a' b'] eqn:U.
      split; [|apply Forall_cons; auto]. 
      change (join (a :: a' :: ?t)) with (a ++ 44 :: join (a' :: t)). rewrite J. reflexivity.
Qed.

Lemma mask_decode_inv s : join (mask_decode s) = s /\ Forall comma_free (mask_decode s) /\ mask_decode s <> [[]].
Proof.
  unfold mask_decode. destruct s as [|c s]; [repeat split; auto; discriminate|].
  destruct (mask_fill_inv _ (c :: s) eq_refl) as [J F]. repeat split; auto. intros E. rewrite E in J. discriminate.
Qed.

(** Exactly the masks that survive. *)
Lemma mask_roundtrip_iff paths : mask_decode (join paths) = paths <-> Forall comma_free paths /\ paths <> [[]].
Proof.
  split.
  - intros H. rewrite <- H. apply mask_decode_inv.
  - intros [F N]. apply mask_decode_join; auto.
Qed.

Lemma mask_roundtrip paths : Forall all_bytes paths ->
  (exists s, json_unescape (mask_encode paths) = Some s /\ mask_decode s = paths) <->
  Forall (fun p => ~ In 44 p) paths /\ paths <> [[]].
Proof.
  intros H. rewrite (mask_encode_unescape paths H). split.
  - intros (s & E & D). injection E as <-. apply mask_roundtrip_iff; auto.
  - intros K. exists (join paths). split; auto. apply mask_roundtrip_iff; auto.
Qed.
