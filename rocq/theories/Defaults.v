(** Default values of fields: what a dynamic message makes of the text in the descriptor
    (dynamic_message/factory_addons.hpp:72-122, 188-225; bytes_fields.hpp:62-66), next to
    what the generator writes (CppText.v). *)
From Coq Require Import Ascii String.
Require Import Verif.Bits Verif.CppText Verif.CppSpec Verif.CppNames Verif.CppNumbers Verif.CppProofs.
Local Open Scope list_scope.
Local Open Scope Z_scope.

(** ** Model *)
(** factory_addons.hpp:72-122 for integers: std::from_chars of base 10 must consume the
    whole text.  [None]: the factory refuses the schema (452-455 of factory.cpp). *)
Definition parse_default (signed : bool) (w : Z) (value : bytes) : option Z :=
  match value with
  | [] => Some 0
  | c :: t =>
      let neg := signed && (c =? 45) in
      let body := if neg then t else value in
      match body with
      | [] => None
      | d :: _ =>
          match digit 10 d with
          | None => None
          | Some _ =>
              let '(m, rest) := scan_digits 10 0 body in
              let z := if neg then - m else m in
              if (if signed then (- 2 ^ (w - 1) <=? z) && (z <? 2 ^ (w - 1)) else z <? 2 ^ w)
              then match rest with [] => Some z | _ => None end else None
          end
      end
  end.
(** hpp_generator.cpp:353-358 set_bytes_default_value: the text in the descriptor as a
    string literal; bytes_fields.hpp:62-66 default_value(): the text itself. *)
Definition bytes_default_literal (text : bytes) : bytes := string_literal text.
Definition bytes_default_dynamic (text : bytes) : bytes := text.

(** ** Specification *)
(** The integers protoc writes: decimal, no leading zeros. *)
Inductive decimal_text : bytes -> Z -> Prop :=
| DZero : decimal_text [48] 0
| DPos c l ds : c <> 48 -> digits_of 10 (c :: l) ds -> decimal_text (c :: l) (number 10 ds)
| DNeg c l ds : c <> 48 -> digits_of 10 (c :: l) ds -> decimal_text (45 :: c :: l) (- number 10 ds).
(** "For bytes, contains the C escaped value" (FieldDescriptorProto.default_value): three
    octal digits, or one of the letters. *)
Definition escape_letter (c : Z) : option Z :=
  if c =? 110 then Some 10 else if c =? 114 then Some 13 else if c =? 116 then Some 9
  else if (c =? 34) || (c =? 39) || (c =? 92) then Some c else None.
Fixpoint unescape (t : bytes) : option bytes :=
  match t with
  | [] => Some []
  | c :: r =>
      if c =? 92 then
        match r with
        | a :: ((b :: d :: r3) as r1) =>
            match escape_letter a with
            | Some v => option_map (cons v) (unescape r1)
            | None => if forallb (fun x => (48 <=? x) && (x <=? 55)) [a; b; d] then option_map (cons ((a - 48) * 64 + (b - 48) * 8 + (d - 48))) (unescape r3) else None
            end
        | a :: r1 => match escape_letter a with Some v => option_map (cons v) (unescape r1) | None => None end
        | [] => None
        end
      else option_map (cons c) (unescape r)
  end.

(** ** Proofs *)
Lemma digits_scan l ds : digits_of 10 l ds -> scan_digits 10 0 l = (number 10 ds, []) /\ (forall c t, l = c :: t -> exists d, digit 10 c = Some d).
Proof.
  intros H. pose proof H as (_ & F). apply digits_then_spec in H. destruct H as (_ & H). split.
  - rewrite scan_digits_spec by lia. rewrite H. reflexivity.
  - intros c t ->. inversion F as [|? d ? ? (K1 & K2)]; subst. rewrite digit_spec by lia. destruct (Z.ltb_spec (hex_value c) 10); [eexists; reflexivity|lia].
Qed.
Lemma digit_not_minus c : hex_value c < 10 -> c <> 45.
Proof. intros H ->. revert H. vm_compute. discriminate. Qed.
Lemma hex_nonneg c : 0 <= hex_value c.
Proof. apply hex_value_range. Qed.
Lemma number_nonneg base ds : 0 <= base -> Forall (fun d => 0 <= d) ds -> 0 <= number base ds.
Proof.
  intros B F. unfold number. assert (K : forall l acc, 0 <= acc -> Forall (fun d => 0 <= d) l -> 0 <= fold_left (fun v d => v * base + d) l acc); [|apply K; [lia|exact F]].
  induction l as [|d l IH]; intros acc Ha Hl; [exact Ha|]. inversion Hl; subst. cbn. apply IH; [nia|assumption].
Qed.
Lemma parse_signed w t z : 1 <= w -> decimal_text t z -> - 2 ^ (w - 1) <= z < 2 ^ (w - 1) -> parse_default true w t = Some z.
Proof.
  intros Hw H R. assert (P : 1 <= 2 ^ (w - 1)) by (apply (Z.pow_le_mono_r 2 0 (w - 1)); lia). inversion H as [|c l ds N D|c l ds N D]; subst.
  - cbn. change (match 0 with 0 => 0 | _ => 0 end) with 0. destruct (Z.leb_spec (- 2 ^ (w - 1)) 0); [|lia]. destruct (Z.ltb_spec 0 (2 ^ (w - 1))); [reflexivity|lia].
  - destruct (digits_scan _ _ D) as (S1 & S2). destruct (S2 c l eq_refl) as (d & Hd). unfold parse_default. cbn [andb].
    assert (Hc : (c =? 45) = false). { destruct D as (_ & F). inversion F as [|? ? ? ? (K1 & K2)]; subst. apply Z.eqb_neq, digit_not_minus. lia. }
    rewrite Hc, Hd, S1. destruct (Z.leb_spec (- 2 ^ (w - 1)) (number 10 ds)); [|lia]. destruct (Z.ltb_spec (number 10 ds) (2 ^ (w - 1))); [reflexivity|lia].
  - destruct (digits_scan _ _ D) as (S1 & S2). destruct (S2 c l eq_refl) as (d & Hd). unfold parse_default. change (45 =? 45) with true. cbn [andb].
    rewrite Hd, S1. destruct (Z.leb_spec (- 2 ^ (w - 1)) (- number 10 ds)); [|lia]. destruct (Z.ltb_spec (- number 10 ds) (2 ^ (w - 1))); [reflexivity|lia].
Qed.
Lemma parse_unsigned w t z : 1 <= w -> decimal_text t z -> 0 <= z < 2 ^ w -> hd 0 t <> 45 -> parse_default false w t = Some z.
Proof.
  intros Hw H R M. inversion H as [|c l ds N D|c l ds N D]; subst.
  - cbn. destruct (Z.ltb_spec 0 (2 ^ w)); [reflexivity|lia].
  - destruct (digits_scan _ _ D) as (S1 & S2). destruct (S2 c l eq_refl) as (d & Hd). unfold parse_default. cbn [andb]. rewrite Hd, S1.
    destruct (Z.ltb_spec (number 10 ds) (2 ^ w)); [reflexivity|lia].
  - cbn in M. congruence.
Qed.
Lemma digits_scanned body m rest : scan_digits 10 0 body = (m, rest) -> rest = [] -> (exists c t d, body = c :: t /\ digit 10 c = Some d) -> exists ds, digits_of 10 body ds /\ m = number 10 ds.
Proof.
  intros H -> (c & t & d & -> & Hd). rewrite scan_digits_spec in H by lia. destruct (digits_then 10 (c :: t)) as [ds r] eqn:E. injection H as H ->. exists ds. split; [|symmetry; exact H].
  apply digits_then_spec. split; [discriminate|exact E].
Qed.
Definition in_type (signed : bool) (w z : Z) : Prop := if signed then - 2 ^ (w - 1) <= z < 2 ^ (w - 1) else z < 2 ^ w.
(** What is accepted. *)
Lemma parse_exact sgn w t z : t <> [] -> (parse_default sgn w t = Some z <->
  exists l ds, digits_of 10 l ds /\ in_type sgn w z /\ ((t = l /\ z = number 10 ds) \/ (sgn = true /\ t = 45 :: l /\ z = - number 10 ds))).
Proof.
  intros N. destruct t as [|c t]; [congruence|]. unfold parse_default, in_type. split.
  - destruct (sgn && (c =? 45)) eqn:M.
    + destruct t as [|d t]; [discriminate|]. destruct (digit 10 d) as [x|] eqn:D; [|discriminate]. destruct (scan_digits 10 0 (d :: t)) as [m rest] eqn:E. apply andb_true_iff in M. destruct M as (-> & M). apply Z.eqb_eq in M. subst c.
      destruct ((- 2 ^ (w - 1) <=? - m) && (- m <? 2 ^ (w - 1))) eqn:R; [|discriminate]. destruct rest; [|discriminate]. intros [= <-].
      destruct (digits_scanned _ _ _ E eq_refl) as (ds & Hd & ->); [eauto 6|]. exists (d :: t), ds. split; [exact Hd|]. apply andb_true_iff in R. rewrite Z.leb_le, Z.ltb_lt in R. split; [exact R|]. right. auto.
    + destruct (digit 10 c) as [x|] eqn:D; [|discriminate]. destruct (scan_digits 10 0 (c :: t)) as [m rest] eqn:E.
      destruct (if sgn then _ else _) eqn:R; [|discriminate]. destruct rest; [|discriminate]. intros [= <-].
      destruct (digits_scanned _ _ _ E eq_refl) as (ds & Hd & ->); [eauto 6|]. exists (c :: t), ds. split; [exact Hd|]. split; [|left; auto]. destruct sgn; [apply andb_true_iff in R; rewrite Z.leb_le, Z.ltb_lt in R; exact R|apply Z.ltb_lt; exact R].
  - intros (l & ds & D & R & [(<- & ->) | (-> & K & ->)]).
    + destruct (digits_scan _ _ D) as (S1 & S2). destruct (S2 c t eq_refl) as (d & Hd).
      assert (Hc : (c =? 45) = false). { destruct D as (_ & F). inversion F as [|? ? ? ? (K1 & K2)]; subst. apply Z.eqb_neq, digit_not_minus. lia. }
      rewrite Hc, andb_false_r, Hd, S1. destruct sgn; [|apply Z.ltb_lt in R; rewrite R; reflexivity]. destruct R as (R1 & R2). apply Z.leb_le in R1. apply Z.ltb_lt in R2. rewrite R1, R2. reflexivity.
    + injection K as -> ->. change (45 =? 45) with true. cbn [andb]. destruct (digits_scan _ _ D) as (S1 & S2). destruct l as [|d l]; [destruct D as (D & _); congruence|]. destruct (S2 d l eq_refl) as (x & Hx).
      rewrite Hx, S1. destruct R as (R1 & R2). apply Z.leb_le in R1. apply Z.ltb_lt in R2. rewrite R1, R2. reflexivity.
Qed.
Lemma decimal_integer t z : decimal_text t z -> integer_text t z.
Proof.
  intros [|c l ds N D|c l ds N D]; [apply TPlain; constructor|apply TPlain; constructor; assumption|apply TMinus; constructor; assumption].
Qed.
Lemma decimal_magnitude t z : decimal_text t z -> hd 0 t <> 45 -> magnitude t z.
Proof. intros [|c l ds N D|c l ds N D] M; [constructor|constructor; assumption|cbn in M; congruence]. Qed.

(** Unescaping shortens a text exactly if there is something to unescape. *)
Lemma unescape_plain t : ~ In 92 t -> unescape t = Some t.
Proof.
  induction t as [|c r IH]; intros H; [reflexivity|]. cbn [unescape]. destruct (Z.eqb_spec c 92) as [-> | N]; [exfalso; apply H; left; reflexivity|].
  rewrite IH; [reflexivity|]. intros K. apply H. right. exact K.
Qed.
Lemma unescape_shorter n : forall t v, (length t <= n)%nat -> unescape t = Some v -> (length v <= length t)%nat /\ (In 92 t -> (length v < length t)%nat).
Proof.
  induction n as [|n IH]; intros t v Hn H; [destruct t; [injection H as <-; split; [lia|intros []]|cbn in Hn; lia]|].
  destruct t as [|c r]; [injection H as <-; split; [lia|intros []]|]. cbn [unescape] in H. cbn [length] in *. destruct (Z.eqb_spec c 92) as [-> | N].
  - assert (Q : forall r' x, (length r' <= n)%nat -> (length r' < length r)%nat -> option_map (cons x) (unescape r') = Some v -> (length v <= S (length r))%nat /\ (In 92 (92 :: r) -> (length v < S (length r))%nat)).
    { intros r' x L1 L2 K. destruct (unescape r') as [u|] eqn:E; [|discriminate K]. injection K as <-. destruct (IH r' u L1 E) as (K & _). cbn [length]. lia. }
    destruct r as [|a r]; [discriminate H|]. destruct r as [|b r]; [destruct (escape_letter a); [|discriminate H]; apply Q in H; cbn [length] in *; [exact H|lia|lia]|].
    destruct r as [|d r]; [destruct (escape_letter a); [|discriminate H]; apply Q in H; cbn [length] in *; [exact H|lia|lia]|].
    destruct (escape_letter a); [apply Q in H; cbn [length] in *; [exact H|lia|lia]|]. destruct (forallb _ _); [|discriminate H]. apply Q in H; cbn [length] in *; [exact H|lia|lia].
  - destruct (unescape r) as [u|] eqn:E; [|discriminate H]. injection H as <-. destruct (IH r u ltac:(lia) E) as (K1 & K2). cbn [length]. split; [lia|]. intros [K | K]; [congruence|]. specialize (K2 K). lia.
Qed.
Theorem bytes_default_exact t v r : all_bytes t -> unescape t = Some v -> (read_literal (bytes_default_literal t ++ r) = Some (v, r) <-> ~ In 92 t).
Proof.
  intros A U. unfold bytes_default_literal. rewrite literal_denotes by exact A. split.
  - intros K I. injection K as ->. destruct (unescape_shorter (length v) v v (le_n _) U) as (_ & L). specialize (L I). lia.
  - intros I. rewrite (unescape_plain t I) in U. congruence.
Qed.
Theorem bytes_default_exact_dynamic t v : unescape t = Some v -> (bytes_default_dynamic t = v <-> ~ In 92 t).
Proof.
  intros U. unfold bytes_default_dynamic. split.
  - intros <- I. destruct (unescape_shorter (length t) t t (le_n _) U) as (_ & L). specialize (L I). lia.
  - intros I. rewrite (unescape_plain t I) in U. congruence.
Qed.
