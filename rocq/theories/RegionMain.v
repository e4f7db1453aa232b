(** The region archives as built by the code, and the decoder running on them. *)
Require Import Verif.Bits Verif.Varint Verif.VarintSpec Verif.VarintProofs Verif.VarintFacts.
Require Import Verif.Schema Verif.Archive Verif.Decode Verif.DecodeSafe Verif.DecodeSpec1 Verif.DecodeSpec2.
Require Import Verif.Wire Verif.WireFacts Verif.SimLaws Verif.SimSkip Verif.SimValue Verif.SimMain.
Require Import Verif.Region Verif.RegionInv Verif.RegionLaws1 Verif.RegionLaws2 Verif.RegionLaws3.
Local Open Scope nat_scope.

Section Laws.
  Context (T : bytes) (HT : all_bytes T) (Hlen : (zlen T < 2 ^ 62)%Z) (cont padded big : bool) (path : copy_path)
    (Hpc : padded = true -> cont = true).

  Theorem region_laws : laws (rops cont padded big path) T (StC T cont padded) (TgC T cont padded) (LnC T cont padded).
  Proof.
    constructor; cbn [rops a_padded a_avail a_tag a_match a_varint a_bool a_fixed a_skip a_skip_varint a_split a_packed
                      a_view a_nvarints a_pvarint a_pbool a_unwind a_byte0]; intros.
    - eapply c_st; eauto.
    - eapply c_exact; eauto.
    - destruct H as (o & s & H & _). exists o, s. exact H.
    - destruct H as (o & s & H & _). exists o, s. exact H.
    - eapply c_weak; eauto.
    - eapply c_tag; eauto.
    - eapply c_match; eauto.
    - eapply c_varint; eauto.
    - eapply c_u32; eauto.
    - eapply c_u32_max; eauto.
    - eapply c_bool; eauto.
    - eapply c_fixed; eauto.
    - eapply c_skip; eauto.
    - eapply c_skip_varint; eauto.
    - eapply c_varint_skip; eauto.
    - eapply c_bool_skip; eauto.
    - eapply c_split; eauto.
    - eapply c_byte0; eauto.
    - eapply c_packed; eauto.
    - eapply c_view; eauto.
    - eapply c_nvarints; eauto.
    - eapply c_pvarint; eauto.
    - eapply c_pbool; eauto.
    - eapply c_unwind; eauto.
    - eapply c_dec; eauto.
  Qed.
End Laws.

(** ** The table of regions *)

(** Finished regions: each shares its last sixteen bytes with what follows. *)
Fixpoint pre (D : bytes) (off : nat) (l : list region) (o : nat) : Prop :=
  match l with
  | [] => off = o
  | r :: t => exists s0, r = Reg (slice D off (off + s0 + 16)) (Z.of_nat (s0 + 16)) (Z.of_nat s0) /\
      off + s0 + 16 <= length D /\ pre D (off + s0) t o
  end.

Lemma slice_grow (D E : bytes) p q : q <= length D -> slice (D ++ E) p q = slice D p q.
Proof.
  intros H. unfold slice. rewrite skipn_app, firstn_app, skipn_length.
  destruct (le_lt_dec q p) as [Hq|Hq].
  - replace (q - p) with 0 by lia. cbn [firstn]. reflexivity.
  - replace (q - p - (length D - p)) with 0 by lia. cbn [firstn]. apply app_nil_r.
Qed.
Lemma pre_grow D E l : forall off o, pre D off l o -> pre (D ++ E) off l o.
Proof.
  induction l as [|r t IH]; intros off o; cbn [pre]; auto. intros (s0 & -> & H & Hp). exists s0.
  rewrite slice_grow by lia. rewrite app_length. split; [reflexivity|]. split; [lia|auto].
Qed.
Lemma pre_app D l m : forall off o o', pre D off l o -> pre D o m o' -> pre D off (l ++ m) o'.
Proof.
  induction l as [|r t IH]; intros off o o'; cbn [pre app].
  - intros ->. auto.
  - intros (s0 & -> & H & Hp) Hm. exists s0. split; [reflexivity|]. split; [lia|]. eapply IH; eauto.
Qed.
Lemma slice_mid (D E : bytes) o n : o <= length D -> n <= length E ->
  slice (D ++ E) o (length D + n) = skipn o D ++ firstn n E.
Proof.
  intros Ho Hn. unfold slice. rewrite skipn_app. replace (o - length D) with 0 by lia. cbn [skipn].
  rewrite firstn_app, skipn_length. replace (length D + n - o - (length D - o)) with n by lia.
  rewrite firstn_all2 by (rewrite skipn_length; lia). reflexivity.
Qed.

Definition binv (D : bytes) (st : build) : Prop :=
  match open st with
  | None => D = [] /\ done st = [] /\ patch st = []
  | Some (d, s) => exists o, pre D 0 (done st) o /\ o <= length D /\ d = skipn o D /\ s = zlen d /\ (done st <> [] -> 16 <= length d)
  end.

Lemma add_segment_inv first seg D st : binv D st -> (first = false -> open st <> None) ->
  binv (D ++ seg) (add_segment first seg st) /\ open (add_segment first seg st) <> None.
Proof.
  intros H Hf. unfold add_segment. destruct (negb first && (zlen seg =? 0)%Z) eqn:E1.
  { apply andb_prop in E1. destruct E1 as [E1 E2]. destruct first; [discriminate|]. apply Z.eqb_eq in E2. unfold zlen in E2.
    destruct seg; [|cbn [length] in E2; lia]. rewrite app_nil_r. auto. }
  destruct (Z.leb_spec (zlen seg) slope_size) as [Hs|Hs]; unfold slope_size in Hs; unfold binv in H.
  - destruct (open st) as [[d s]|] eqn:Eo; cbn [open]; (split; [|discriminate]); unfold binv; cbn [open done patch].
    + destruct H as (o & H1 & H2 & -> & H4 & H5). exists o. split; [apply pre_grow, H1|]. rewrite app_length. split; [lia|].
      split. { rewrite skipn_app. replace (o - length D) with 0 by lia. reflexivity. }
      split; [reflexivity|]. intros Hd. rewrite app_length. specialize (H5 Hd). lia.
    + destruct H as (-> & -> & _). exists 0. cbn. repeat split; auto. lia. congruence.
  - unfold zlen in Hs. assert (Hl : 16 < length seg) by lia.
    assert (Et : length (skipn (length seg - 16) seg) = 16) by (rewrite skipn_length; lia).
    assert (Ez : (zlen seg - slope_size)%Z = Z.of_nat (length seg - 16)) by (unfold zlen, slope_size; lia).
    destruct (open st) as [[d s]|] eqn:Eo; cbn [open]; (split; [|discriminate]); unfold binv; cbn [open done patch].
    + destruct H as (o & H1 & H2 & -> & -> & H5). exists (length D + (length seg - 16)).
      assert (Eh : length (firstn 16 seg) = 16) by (rewrite firstn_length; lia).
      split; [|split; [rewrite app_length; lia|split; [|split; [reflexivity|lia]]]].
      * apply pre_app with (o := o); [apply pre_grow, H1|]. cbn [pre].
        exists (length D - o). replace (o + (length D - o)) with (length D) by lia.
        rewrite slice_mid by lia. unfold zlen. rewrite !app_length, skipn_length, Eh. split; [reflexivity|]. split; [lia|].
        exists (length seg - 16). replace (length D + (length seg - 16) + 16) with (length D + length seg) by lia.
        rewrite slice_mid by lia. rewrite skipn_all, firstn_all. cbn [app].
        replace (length seg - 16 + 16) with (length seg) by lia. unfold zlen in Ez. rewrite Ez.
        split; [reflexivity|]. split; [lia|]. reflexivity.
      * rewrite skipn_app. rewrite (skipn_all2 D) by lia. cbn [app]. f_equal. lia.
    + destruct H as (-> & -> & _). exists (length seg - 16). cbn [app length].
      split; [|split; [lia|split; [reflexivity|split; [reflexivity|lia]]]].
      cbn [pre]. exists (length seg - 16). rewrite Ez. replace (0 + (length seg - 16) + 16) with (length seg) by lia.
      rewrite slice_full. replace (length seg - 16 + 16) with (length seg) by lia. split; [reflexivity|]. split; [lia|lia].
Qed.

Lemma add_segments_inv segs : forall first D st, binv D st -> (first = false -> open st <> None) ->
  binv (D ++ concat segs) (add_segments first segs st) /\ (segs <> [] -> open (add_segments first segs st) <> None).
Proof.
  induction segs as [|seg t IH]; intros first D st H Hf; cbn [add_segments concat].
  - rewrite app_nil_r. split; [exact H|congruence].
  - destruct (add_segment_inv first seg D st H Hf) as [K1 K2].
    destruct (IH false (D ++ seg) _ K1 (fun _ => K2)) as [R1 R2]. rewrite app_assoc. split; [exact R1|].
    intros _. destruct t; [exact K2|]. apply R2. discriminate.
Qed.

Lemma zeros_bytes : all_bytes zeros.
Proof. unfold zeros. apply Forall_forall. intros b Hb. apply repeat_spec in Hb. subst b. unfold is_byte. lia. Qed.

Lemma pre_chain T l : forall off o, pre T off l o -> 16 <= length (skipn o T) -> o <= length T ->
  chain T false off (l ++ [Reg (skipn o T ++ zeros) (zlen (skipn o T)) (zlen (skipn o T))]).
Proof.
  induction l as [|r t IH]; intros off o Hp Ho Hl.
  - cbn [pre] in Hp. subst off. cbn [app chain r_s r_e r_mem]. exists (length (skipn o T)).
    split; [reflexivity|]. rewrite skipn_length in *. split; [|split; [unfold zlen; rewrite skipn_length; reflexivity|split; [lia|exact I]]].
    unfold cur_ok. split; [lia|]. exists zeros. split; [reflexivity|]. split; [cbn; lia|]. split; [apply zeros_bytes|reflexivity].
  - cbn [pre] in Hp. destruct Hp as (s0 & -> & H & Hp). cbn [app chain r_s r_e r_mem]. exists s0. split; [reflexivity|].
    specialize (IH _ _ Hp Ho Hl).
    destruct (t ++ [Reg (skipn o T ++ zeros) (zlen (skipn o T)) (zlen (skipn o T))]) as [|r2 t2] eqn:Et.
    { destruct t; discriminate. }
    split; [split; [reflexivity|exact H]|]. split; [reflexivity|]. split; [congruence|exact IH].
Qed.

Lemma pre_end T l off o : pre T off l o -> off <= o.
Proof. revert off; induction l as [|r t IH]; intros off; cbn [pre]; [lia|]. intros (s0 & _ & _ & H). apply IH in H. lia. Qed.

(** The archives begin at the start of the input, with all of it before them. *)
Theorem open_segments_ok segs : segs <> [] -> StC (concat segs) false false false (length (concat segs)) 0 (open_segments segs).
Proof.
  intros Hs. unfold open_segments, table.
  destruct (add_segments_inv segs true [] (Build [] None []) ltac:(unfold binv; cbn; auto) ltac:(discriminate)) as [H Ho].
  specialize (Ho Hs). cbn [app] in H. set (T := concat segs) in *. unfold binv in H.
  destruct (open _) as [[d s]|] eqn:Eo; [|congruence]. destruct H as (o & H1 & H2 & -> & H4 & H5).
  destruct (done _) as [|r t] eqn:Ed.
  - cbn [pre] in H1. subst o. cbn [app r_mem r_e r_s]. exists 0, (length T). cbn [skipn]. unfold zlen.
    assert (B : base T false 0 (length T) 0 (Arch (T ++ zeros) 0 (Z.of_nat (length T)) (Z.min (Z.of_nat (length T)) (Z.of_nat (length T))) [] (Z.of_nat (length T) - Z.of_nat (length T)))).
    { unfold base; cbn. split; [|repeat split; auto; lia]. split; [reflexivity|]. exists zeros. split; [reflexivity|].
      split; [cbn; lia|]. split; [apply zeros_bytes|reflexivity]. }
    split; [exact B|]. split; [|intros [X|X]; discriminate].
    left. unfold exact. cbn [c_e c_s c_sec c_rest]. repeat split; try lia.
  - cbn [pre] in H1. destruct H1 as (s0 & -> & Hs0 & Hp). cbn [app r_mem r_e r_s]. exists 0, s0. specialize (H5 ltac:(discriminate)).
    pose proof (pre_chain T t _ _ Hp H5 H2) as Hc.
    assert (Hne : t ++ [Reg (skipn o T ++ zeros) (zlen (skipn o T)) (zlen (skipn o T))] <> []) by (destruct t; discriminate).
    split; [|split; [right|intros [X|X]; discriminate]].
    + unfold base. cbn [c_mem c_rest c_b]. split; [|split; [exact Hc|repeat split; try lia; discriminate]].
      unfold cur_ok. destruct (t ++ _); [congruence|]. auto.
    + unfold slack, hop. cbn [c_e c_s c_sec c_rest]. unfold zlen. cbn [Nat.add] in Hs0. repeat split; try lia; auto.
Qed.

Theorem open_one_ok cont bs : StC bs cont false true (length bs) 0 (open_segments [bs]).
Proof.
  unfold open_segments, table. cbn [concat add_segments]. rewrite app_nil_r.
  unfold add_segment. cbn [negb andb open done patch].
  destruct (Z.leb_spec (zlen bs) slope_size) as [Hs|Hs]; unfold slope_size in Hs; unfold zlen in Hs; cbn [open done app r_mem r_e r_s].
  - exists 0, (length bs). unfold zlen.
    assert (Ex : exact bs 0 (length bs) (length bs) 0 (Arch (bs ++ zeros) 0 (Z.of_nat (length bs)) (Z.min (Z.of_nat (length bs)) (Z.of_nat (length bs))) [] (Z.of_nat (length bs) - Z.of_nat (length bs)))).
    { unfold exact. cbn [c_e c_s c_sec c_rest]. repeat split; try lia. }
    split; [|split; [left; exact Ex|intros _; split; [exact Ex|left; lia]]].
    unfold base; cbn. split; [|repeat split; auto; lia]. split; [reflexivity|]. exists zeros. split; [reflexivity|].
    split; [cbn; lia|]. split; [apply zeros_bytes|reflexivity].
  - set (s0 := length bs - 16). assert (Hl : length bs = s0 + 16) by lia.
    set (d := skipn s0 bs). assert (Hd : length d = 16) by (unfold d; rewrite skipn_length; lia).
    exists 0, s0. unfold zlen, slope_size.
    set (a := Arch _ _ _ _ _ _).
    assert (Ex : exact bs 0 s0 (length bs) 0 a).
    { unfold exact, a. cbn [c_e c_s c_sec c_rest]. repeat split; try lia. }
    split; [|split; [left; exact Ex|intros _; split; [exact Ex|right; unfold a; cbn [c_rest]; eauto]]].
    unfold base, a. cbn [c_mem c_rest c_b]. split; [|split; [|repeat split; try lia; discriminate]].
    + unfold cur_ok. split; [|lia]. rewrite <- Hl, Nat.add_0_l || rewrite Nat.add_0_l, <- Hl. rewrite slice_full. reflexivity.
    + apply (pre_chain bs [] s0 s0); [reflexivity|fold d; lia|lia].
Qed.

Theorem open_padded_ok bs pad : all_bytes pad -> 16 <= length pad -> StC bs true true true (length bs) 0 (open_padded bs pad).
Proof.
  intros Hb Hp. exists 0, (length bs). unfold open_padded, zlen.
  assert (Ex : exact bs 0 (length bs) (length bs) 0 (Arch (bs ++ pad) 0 (Z.of_nat (length bs)) (Z.of_nat (length bs)) [] 0)).
  { unfold exact. cbn [c_e c_s c_sec c_rest]. repeat split; try lia. }
  split; [|split; [left; exact Ex|intros _; split; [exact Ex|left; lia]]].
  unfold base; cbn. split; [|repeat split; auto; lia]. split; [reflexivity|]. exists pad. split; [reflexivity|].
  split; [exact Hp|]. split; [exact Hb|discriminate].
Qed.

(** ** What memory the regions cover *)
Definition infix (m l : bytes) : Prop := exists x y, l = x ++ m ++ y.

Lemma infix_grow m l e : infix m l -> infix m (l ++ e).
Proof. intros (x & y & ->). exists x, (y ++ e). rewrite <- !app_assoc. reflexivity. Qed.

(** [P]: what a finished region may cover; the open region is the end of what was written. *)
Definition minv (segs : list bytes) (n : nat) (st : build) : Prop :=
  (forall r, In r (done st) -> In (r_mem r) segs \/ infix (r_mem r) (patch st)) /\
  (match open st with None => n = 0 | Some (d, _) => exists x, patch st = x ++ d end) /\
  length (patch st) + (if n =? 0 then 0 else 16) <= 32 * n /\
  (if n =? 0 then length (done st) = 0 else length (done st) < 2 * n).

Lemma add_segment_minv segs n first seg st : In seg segs -> minv segs n st -> (n = 0 <-> open st = None) -> (open st = None -> done st = [] /\ patch st = []) ->
  (first = true <-> n = 0) ->
  minv segs (S n) (add_segment first seg st) /\ open (add_segment first seg st) <> None.
Proof.
  intros Hin (M1 & M2 & M3 & M4) Hn0 Hn Hf. unfold add_segment. destruct (negb first && (zlen seg =? 0)%Z) eqn:E1.
  { apply andb_prop in E1. destruct E1 as [E1 E2]. destruct first; [discriminate|].
    assert (n <> 0) by (intros K; apply Hf in K; discriminate). destruct (Nat.eqb_spec n 0); [lia|].
    split; [|intros K; apply Hn0 in K; lia]. split; [exact M1|]. cbn [Nat.eqb].
    split; [destruct (open st) as [[d s]|]; [exact M2|lia]|]. split; lia. }
  unfold slope_size. destruct (Z.leb_spec (zlen seg) 16) as [Hs|Hs]; unfold zlen in Hs.
  - split; [|cbn [open]; discriminate]. unfold minv; cbn [open done patch Nat.eqb]. rewrite app_length.
    split; [|split; [|split]].
    + intros r Hr. destruct (M1 r Hr) as [K|K]; [left; exact K|right; apply infix_grow, K].
    + destruct (open st) as [[d s]|] eqn:Eo.
      * destruct M2 as [x ->]. exists x. rewrite app_assoc. reflexivity.
      * destruct (Hn eq_refl) as [_ ->]. exists []. reflexivity.
    + destruct (Nat.eqb_spec n 0); lia.
    + destruct (Nat.eqb_spec n 0); lia.
  - assert (Et : length (skipn (length seg - 16) seg) = 16) by (rewrite skipn_length; lia).
    assert (Eh : length (firstn 16 seg) = 16) by (rewrite firstn_length; lia).
    destruct (open st) as [[d s]|] eqn:Eo; (split; [|cbn [open]; discriminate]); unfold minv; cbn [open done patch Nat.eqb].
    + destruct M2 as [x Hx]. rewrite !app_length, Et, Eh. cbn [length].
      destruct (Nat.eqb_spec n 0) as [->|Hz]; [exfalso; destruct Hn0 as [Hn0 _]; specialize (Hn0 eq_refl); discriminate|].
      split; [|split; [exists (patch st ++ firstn 16 seg); rewrite app_assoc; reflexivity|split; lia]].
      intros r Hr. apply in_app_or in Hr. destruct Hr as [Hr|[<-|[<-|[]]]].
      * destruct (M1 r Hr) as [K|K]; [left; exact K|right; apply infix_grow, K].
      * right. cbn [r_mem]. exists x, (skipn (length seg - 16) seg). rewrite Hx, <- !app_assoc. reflexivity.
      * left. exact Hin.
    + destruct (Hn eq_refl) as [Hd Hp]. rewrite Hd, Hp in *. cbn [app length]. rewrite Et.
      split; [|split; [exists []; reflexivity|split; [lia|lia]]].
      intros r [<-|[]]. left. exact Hin.
Qed.

Lemma add_segments_minv all segs : forall first n st, incl segs all -> minv all n st -> (n = 0 <-> open st = None) ->
  (open st = None -> done st = [] /\ patch st = []) -> (first = true <-> n = 0) ->
  minv all (n + length segs) (add_segments first segs st).
Proof.
  induction segs as [|seg t IH]; intros first n st Hi HM H1 H2 H3; cbn [add_segments length].
  - rewrite Nat.add_0_r. exact HM.
  - destruct (add_segment_minv all n first seg st (Hi seg (or_introl eq_refl)) HM H1 H2 H3) as [K1 K2].
    replace (n + S (length t)) with (S n + length t) by lia. apply IH.
    + intros b Hb. apply Hi. right. exact Hb.
    + exact K1.
    + split; [discriminate|]. intros K. congruence.
    + intros K. congruence.
    + split; discriminate.
Qed.

Theorem table_memory segs r : In r (table segs) -> In (r_mem r) segs \/ infix (r_mem r) (patch_written segs).
Proof.
  unfold table, patch_written.
  pose proof (add_segments_minv segs segs true 0 (Build [] None []) (incl_refl _)) as K. cbn [open done patch Nat.eqb] in K.
  destruct K as (M1 & M2 & _); auto.
  { unfold minv; cbn. repeat split; auto. intros r' []. }
  { split; auto. } { split; auto. }
  destruct segs as [|seg t]; [intros []|]. set (st := add_segments true (seg :: t) (Build [] None [])) in *.
  destruct (open st) as [[d s]|] eqn:Eo.
  - intros Hr. apply in_app_or in Hr. destruct Hr as [Hr|[<-|[]]].
    + destruct (M1 r Hr) as [K|K]; [left; exact K|right; apply infix_grow, K].
    + right. destruct M2 as [x ->]. exists x, []. cbn [r_mem]. rewrite app_nil_r, app_assoc. reflexivity.
  - intros Hr. destruct (M1 r Hr) as [K|K]; [left; exact K|right; apply infix_grow, K].
Qed.

Theorem table_fits segs : length (patch_written segs) <= 32 * length segs /\ length (table segs) <= 2 * length segs.
Proof.
  unfold table, patch_written.
  pose proof (add_segments_minv segs segs true 0 (Build [] None []) (incl_refl _)) as K. cbn [open done patch Nat.eqb] in K.
  destruct K as (M1 & M2 & M3 & M4); auto.
  { unfold minv; cbn. repeat split; auto. intros r' []. }
  { split; auto. } { split; auto. }
  destruct segs as [|seg t]; [cbn; lia|]. set (st := add_segments true (seg :: t) (Build [] None [])) in *.
  cbn [Nat.add] in *. destruct (Nat.eqb_spec (length (seg :: t)) 0); [discriminate|]. rewrite app_length.
  change (length zeros) with 16. split; [lia|]. destruct (open st) as [[d s]|]; [rewrite app_length; cbn [length] in *; lia|lia].
Qed.

(** ** Reading *)
Section Read.
  Context (big : bool) (path : copy_path) (E : env) (utf8_ok : bytes -> bool) (maxd : Z).

  (** deserialize on a contiguous buffer without padding, deserialize.hpp:1414-1474. *)
  Definition read_contiguous (ty : nat) (cur : val) (bs : bytes) : res val :=
    '(v, _) <- decode (rops true false big path) E utf8_ok maxd (S (length bs)) ty cur (open_segments [bs]) ;; Ok v.

  (** deserialize on a sequence of segments, deserialize.hpp:1476-1503. *)
  Definition read_segments (ty : nat) (cur : val) (segs : list bytes) : res val :=
    '(v, _) <- decode (rops false false big path) E utf8_ok maxd (S (length (concat segs))) ty cur (open_segments segs) ;; Ok v.

  (** deserialize on a buffer followed by the padding bytes [pad], deserialize.hpp:1437-1458. *)
  Definition read_padded (ty : nat) (cur : val) (bs pad : bytes) : res val :=
    '(v, _) <- decode (rops true true big path) E utf8_ok maxd (S (length bs)) ty cur (open_padded bs pad) ;; Ok v.

  Hypothesis Hse : safe_env E.

  Lemma plain_unpadded cont : env_plain (rops cont false big path) E.
  Proof.
    intros ty. apply Forall_forall. intros f _. destruct f as [num e c|alts]; cbn.
    - intros u v _. reflexivity.
    - apply Forall_forall. intros [? e] _ u v _. reflexivity.
  Qed.

  Theorem read_contiguous_eq ty cur bs : m_entry (desc_of E ty) = false -> all_bytes bs -> (zlen bs < 2 ^ 62)%Z ->
    read_contiguous ty cur bs = decode_bytes E utf8_ok maxd ty cur bs.
  Proof.
    intros He Hb Hl. unfold read_contiguous, decode_bytes.
    pose proof (decode_rel _ bs E utf8_ok maxd _ _ _ (region_laws bs Hb Hl true false big path ltac:(discriminate)) Hse Hb
      (plain_unpadded true) (S (length bs)) true ty cur (open_segments [bs]) He (open_one_ok true bs) ltac:(lia)) as K.
    destruct (decode (rops true false big path) _ _ _ _ _ _ _) as [[v a]|e| | |]; try contradiction.
    - destruct K as (z' & ->). reflexivity.
    - cbn [bad] in K. rewrite K. reflexivity.
  Qed.

  Theorem read_padded_eq ty cur bs pad : env_plain (rops true true big path) E ->
    m_entry (desc_of E ty) = false -> all_bytes bs -> all_bytes pad -> 16 <= length pad -> (zlen bs < 2 ^ 62)%Z ->
    read_padded ty cur bs pad = decode_bytes E utf8_ok maxd ty cur bs.
  Proof.
    intros Hpl He Hb Hp Hn Hl. unfold read_padded, decode_bytes.
    pose proof (decode_rel _ bs E utf8_ok maxd _ _ _ (region_laws bs Hb Hl true true big path ltac:(auto)) Hse Hb
      Hpl (S (length bs)) true ty cur (open_padded bs pad) He (open_padded_ok bs pad Hp Hn) ltac:(lia)) as K.
    destruct (decode (rops true true big path) _ _ _ _ _ _ _) as [[v a]|e| | |]; try contradiction.
    - destruct K as (z' & ->). reflexivity.
    - cbn [bad] in K. rewrite K. reflexivity.
  Qed.

  Theorem read_segments_rel ty cur segs : m_entry (desc_of E ty) = false -> all_bytes (concat segs) -> (zlen (concat segs) < 2 ^ 62)%Z ->
    match read_segments ty cur segs with
    | Ok v => decode_bytes E utf8_ok maxd ty cur (concat segs) = Ok v
    | Err e => is_err (decode_bytes E utf8_ok maxd ty cur (concat segs))
    | _ => False
    end.
  Proof.
    intros He Hb Hl. unfold read_segments, decode_bytes. destruct segs as [|seg t].
    { cbn [concat length]. unfold decode, dec_msg. rewrite He. cbn [andb bind]. destruct (negb _); cbn [bind]; [eexists; reflexivity|].
      reflexivity. }
    assert (Hne : seg :: t <> []) by discriminate. set (segs := seg :: t) in *.
    pose proof (decode_rel _ (concat segs) E utf8_ok maxd _ _ _ (region_laws (concat segs) Hb Hl false false big path ltac:(discriminate)) Hse Hb
      (plain_unpadded false) (S (length (concat segs))) false ty cur (open_segments segs) He (open_segments_ok segs Hne) ltac:(lia)) as K.
    destruct (decode (rops false false big path) _ _ _ _ _ _ _) as [[v a]|e| | |]; try contradiction.
    - destruct K as (z' & ->). reflexivity.
    - cbn [bad] in K. destruct K as [e' K]. rewrite K. eexists. reflexivity.
  Qed.
End Read.
