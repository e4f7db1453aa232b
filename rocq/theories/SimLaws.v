(** What an input archive has to provide so that decoding through it agrees with
    decoding through the reference archive of Archive.v: laws of the single
    operations, phrased with logical positions in the input [T]. *)
Require Import Verif.Bits Verif.Varint Verif.VarintSpec Verif.VarintFacts.
Require Import Verif.Schema Verif.Archive Verif.Decode Verif.DecodeSafe Verif.DecodeSpec1.
Local Open Scope nat_scope.

Definition slice (T : bytes) (p q : nat) : bytes := firstn (q - p) (skipn p T).

(** The reference archive at position [p] with limit [lim]. *)
Definition zz (T : bytes) (lim p : nat) : zip := Zip (rev (firstn p T)) (slice T p lim).

Section Laws.
  Context {A : Type} (AR : aops A) (T : bytes).

  (** Bytes that no reader of tags accepts. *)
  Definition no_tag (d : bytes) : Prop := forall v k, shift_mix SMTAG d <> POk v k.

  (** [St x lim p a]: the archive [a] is at position [p] of [T] and its limit is
      [lim]; [p] can be beyond [lim] when the archive overran it, which is
      impossible when [x].  [Tg x tag lim p a]: [tag] was just read.
      [Ln x lim p a]: a varint was just read. *)
  Record laws (St : bool -> nat -> nat -> A -> Prop) (Tg : bool -> Z -> nat -> nat -> A -> Prop)
    (Ln : bool -> nat -> nat -> A -> Prop) : Prop := Laws {
    l_st : forall x lim p a, St x lim p a ->
      a_avail AR a = (Z.of_nat lim - Z.of_nat p)%Z /\ lim <= length T /\ p <= length T;
    l_exact : forall lim p a, St true lim p a -> p <= lim;
    l_tg : forall x v lim p a, Tg x v lim p a -> St x lim p a;
    l_ln : forall x lim p a, Ln x lim p a -> St x lim p a;
    l_weak : forall x lim p a, St x lim p a -> St false lim p a;
    l_tag : forall x lim p a, St x lim p a ->
      exists v a', a_tag AR a = Ok (v, a') /\
        match shift_mix SMTAG (slice T p lim) with
        | POk w k => v = wrapU 32 w /\ Tg x v lim (p + k) a'
        | _ => (v = 0%Z /\ a_avail AR a' = (Z.of_nat lim - Z.of_nat p)%Z) \/
               (x = false /\ p <> lim /\ exists q, p < q /\ lim < q /\ Tg false v lim q a')
        end;
    l_match : forall x tag lim p a, St x lim p a ->
      exists m a', a_match AR tag a = Ok (m, a') /\
        match shift_mix SMTAG (slice T p lim) with
        | POk w k => if (w =? tag)%Z then m = true /\ Tg x tag lim (p + k) a' else m = false /\ St x lim p a'
        | _ => (m = false /\ (p <= lim -> St x lim p a') /\ a_avail AR a' = (Z.of_nat lim - Z.of_nat p)%Z) \/
               (m = true /\ x = false /\ p <> lim /\ exists q, p < q /\ lim < q /\ Tg false tag lim q a')
        end;
    l_varint : forall x tag t lim p a, Tg x tag lim p a ->
      match parse_varint t (slice T p lim) with
      | POk w k => exists a', a_varint AR t a = Ok (w, a') /\ Ln x lim (p + k) a'
      | _ => a_varint AR t a = Err BadMessage \/
             (x = false /\ exists w q a', a_varint AR t a = Ok (w, a') /\ p < q /\ lim < q /\ Ln false lim q a')
      end;
    l_u32 : forall x tag lim p a v a', Tg x tag lim p a -> a_varint AR VU32 a = Ok (v, a') -> (0 <= v)%Z;
    l_u32_max : forall x tag lim p a v a', Tg x tag lim p a -> a_varint AR VU32 a = Ok (v, a') -> (v < 2 ^ 32)%Z;
    l_bool : forall x tag lim p a, Tg x tag lim p a ->
      match parse_bool (slice T p lim) with
      | POk w k => exists a', a_bool AR a = Ok (w, a') /\ St x lim (p + k) a'
      | _ => a_bool AR a = Err BadMessage \/
             (x = false /\ exists w q a', a_bool AR a = Ok (w, a') /\ p < q /\ lim < q /\ St false lim q a')
      end;
    l_fixed : forall x tag n lim p a, Tg x tag lim p a -> n <= 8 ->
      exists b a', a_fixed AR n a = Ok (b, a') /\
        (if p + n <=? lim then b = slice T p (p + n) /\ St x lim (p + n) a' else (a_avail AR a' < 0)%Z);
    l_skip : forall x n lim p a, St x lim p a -> (0 <= n)%Z ->
      if (Z.of_nat p + n <=? Z.of_nat lim)%Z
      then exists a', a_skip AR n a = Ok a' /\ St x lim (p + Z.to_nat n) a'
      else a_skip AR n a = Err BadMessage;
    l_skip_varint : forall x tag lim p a, Tg x tag lim p a ->
      match find_term 10 (slice T p lim) with
      | Some k => exists a', a_skip_varint AR a = Ok a' /\ St x lim (p + k) a'
      | None => a_skip_varint AR a = Err BadMessage \/
                (x = false /\ exists q a', a_skip_varint AR a = Ok a' /\ p < q /\ lim < q /\ St false lim q a')
      end;
    l_varint_skip : forall x tag t lim p a v a', Tg x tag lim p a -> a_varint AR t a = Ok (v, a') ->
      a_skip_varint AR a = Ok a';
    l_bool_skip : forall x tag lim p a v a', Tg x tag lim p a -> a_bool AR a = Ok (v, a') ->
      a_skip_varint AR a = Ok a';
    l_split : forall x n lim p a, Ln x lim p a -> (0 <= n)%Z -> (Z.of_nat p + n <= Z.of_nat lim)%Z ->
      Ln x (p + Z.to_nat n) p (fst (a_split AR n a)) /\ St x lim (p + Z.to_nat n) (snd (a_split AR n a));
    l_byte0 : forall x lim p a, Ln x lim p a -> p < lim -> a_byte0 AR a = Ok (nth p T 0%Z);
    l_packed : forall x n sz lim p a, St x lim p a -> (0 <= n)%Z -> 0 < sz -> sz <= 8 ->
      if p + Z.to_nat n * sz <=? lim
      then exists a', a_packed AR n sz a = Ok (slice T p (p + Z.to_nat n * sz), a') /\ St x lim (p + Z.to_nat n * sz) a'
      else a_packed AR n sz a = Err BadMessage;
    l_view : forall x n lim p a, a_padded AR = true -> St x lim p a -> (0 <= n)%Z ->
      if p + Z.to_nat n <=? lim
      then exists a', a_view AR n a = (Some (slice T p (p + Z.to_nat n)), a') /\ St x lim (p + Z.to_nat n) a'
      else (a_avail AR (snd (a_view AR n a)) < 0)%Z;
    l_nvarints : forall x n lim p a, Ln x lim p a -> (0 < n)%Z -> (n < 2 ^ 32)%Z ->
      if p + Z.to_nat n <=? lim
      then a_nvarints AR n a = z_nvarints n (zz T lim p)
      else a_nvarints AR n a = Ok None \/ (x = false /\ exists c, a_nvarints AR n a = Ok (Some c));
    l_pvarint : forall x t n c lim p a, Ln x lim p a -> (0 < n)%Z -> (n < 2 ^ 32)%Z -> a_nvarints AR n a = Ok (Some c) ->
      if p + Z.to_nat n <=? lim
      then match z_pvarint t n c (zz T lim p) with
           | Ok (vs, _) => exists a', a_pvarint AR t n c a = Ok (vs, a') /\ St x lim (p + Z.to_nat n) a'
           | _ => a_pvarint AR t n c a = Err BadMessage
           end
      else a_pvarint AR t n c a = Err BadMessage \/
           exists vs a', a_pvarint AR t n c a = Ok (vs, a') /\ (a_avail AR a' < 0)%Z;
    l_pbool : forall x n c lim p a, Ln x lim p a -> (0 < n)%Z -> (n < 2 ^ 32)%Z -> a_nvarints AR n a = Ok (Some c) ->
      if p + Z.to_nat n <=? lim
      then match z_pbool c (zz T lim p) with
           | Ok (vs, z') => exists a' q, p <= q /\ q <= lim /\ a_pbool AR c a = Ok (vs, a') /\ z' = zz T lim q /\ St x lim q a'
           | _ => a_pbool AR c a = Err BadMessage \/
                  (x = false /\ exists vs a', a_pbool AR c a = Ok (vs, a') /\ (a_avail AR a' < 0)%Z)
           end
      else a_pbool AR c a = Err BadMessage \/
           exists vs a', a_pbool AR c a = Ok (vs, a') /\ (a_avail AR a' < 0)%Z;
    (* the tag can be taken back, and the bytes from there to any later position [q] copied *)
    l_unwind : forall x tag lim p a, Tg x tag lim p a -> tag <> 0%Z ->
      let k := Z.to_nat (varint_size_u tag) in
      k <= p /\ a_avail AR (a_unwind AR tag a) = (Z.of_nat lim - Z.of_nat (p - k))%Z /\
      forall q, p <= q -> q <= length T -> q <= lim \/ ~ Tg true tag lim p a ->
        exists a', a_packed AR (Z.of_nat (q - (p - k))) 1
                     (fst (a_split AR (Z.of_nat (q - (p - k))) (a_unwind AR tag a))) = Ok (slice T (p - k) q, a');
    l_dec : forall x tag lim p a, Tg x tag lim p a -> Tg true tag lim p a \/ ~ Tg true tag lim p a
  }.
End Laws.

(** ** The reference archive at a position *)
Section Zz.
  Context (T : bytes).
  Notation zz := (zz T). Notation slice := (slice T).

  Lemma slice_len p q : q <= length T -> length (slice p q) = q - p.
  Proof. intros H. unfold SimLaws.slice. rewrite firstn_length, skipn_length. lia. Qed.
  Lemma slice_nil p q : q <= p -> slice p q = [].
  Proof. intros H. unfold SimLaws.slice. replace (q - p) with 0 by lia. reflexivity. Qed.
  Lemma slice_bytes p q : all_bytes T -> all_bytes (slice p q).
  Proof. intros H. apply all_bytes_firstn, all_bytes_skipn, H. Qed.
  Lemma slice_firstn p n lim : p + n <= lim -> firstn n (slice p lim) = slice p (p + n).
  Proof. intros H. unfold SimLaws.slice. rewrite firstn_firstn. f_equal. lia. Qed.
  Lemma slice_skipn p n lim : skipn n (slice p lim) = slice (p + n) lim.
  Proof.
    unfold SimLaws.slice. rewrite skipn_firstn_comm. rewrite <- skipn_add. f_equal. lia.
  Qed.
  Lemma slice_app p q r : p <= q -> q <= r -> slice p q ++ slice q r = slice p r.
  Proof.
    intros H K. rewrite <- (firstn_skipn (q - p) (slice p r)).
    rewrite slice_firstn by lia. rewrite slice_skipn. replace (p + (q - p)) with q by lia. reflexivity.
  Qed.
  Lemma slice_full p : slice p (length T) = skipn p T.
  Proof. unfold SimLaws.slice. apply firstn_all2. rewrite skipn_length. lia. Qed.
  Lemma slice_nth p q i : p + i < q -> q <= length T -> nth i (slice p q) 0%Z = nth (p + i) T 0%Z.
  Proof.
    intros H K. unfold SimLaws.slice.
    rewrite <- (firstn_skipn p T) at 2. rewrite app_nth2; rewrite firstn_length; [|lia].
    rewrite <- (firstn_skipn (q - p) (skipn p T)) at 2.
    replace (p + i - Nat.min p (length T)) with i by lia.
    rewrite app_nth1; [reflexivity|]. rewrite firstn_length, skipn_length. lia.
  Qed.

  Lemma zz_adv lim p k : p + k <= lim -> lim <= length T -> zadv k (zz lim p) = zz lim (p + k).
  Proof.
    intros H K. unfold zadv, SimLaws.zz. cbn [za zb]. rewrite slice_skipn, slice_firstn by lia. f_equal.
    rewrite firstn_add, rev_app_distr. f_equal. unfold SimLaws.slice. f_equal. f_equal. lia.
  Qed.
  Lemma zz_avail lim p : p <= lim -> lim <= length T -> zlen (za (zz lim p)) = (Z.of_nat lim - Z.of_nat p)%Z.
  Proof. intros H K. unfold zlen, SimLaws.zz. cbn [za]. rewrite slice_len by lia. lia. Qed.
  Lemma zz_sub lim p n : p + n <= lim -> Zip (zb (zz lim p)) (firstn n (za (zz lim p))) = zz (p + n) p.
  Proof. intros H. unfold SimLaws.zz. cbn [za zb]. rewrite slice_firstn by lia. reflexivity. Qed.
  Lemma zz_unwind lim p tag : let k := Z.to_nat (varint_size_u tag) in
    k <= p -> p <= lim -> lim <= length T -> z_unwind tag (zz lim p) = zz lim (p - k).
  Proof.
    intros k H K L. unfold z_unwind, SimLaws.zz. cbn [za zb]. fold k.
    assert (E : firstn p T = firstn (p - k) T ++ slice (p - k) p).
    { replace p with ((p - k) + k) at 1 by lia. rewrite firstn_add. unfold SimLaws.slice. repeat f_equal. lia. }
    assert (Hl : length (slice (p - k) p) = k) by (rewrite slice_len; lia).
    rewrite E, rev_app_distr. f_equal.
    - rewrite skipn_app, rev_length, Hl, Nat.sub_diag. rewrite skipn_all2 by (rewrite rev_length; lia). reflexivity.
    - rewrite firstn_app, rev_length, Hl, Nat.sub_diag. rewrite firstn_all2 by (rewrite rev_length; lia).
      cbn [firstn]. rewrite app_nil_r, rev_involutive. apply slice_app; lia.
  Qed.
End Zz.
