(** Proofs about packed values of fixed size. *)
Require Import Verif.Bits Verif.Schema Verif.Archive Verif.Decode Verif.RawPacked Verif.RawPackedSpec.
Local Open Scope list_scope.
Local Open Scope nat_scope.

Lemma skip_twice {A} a b (l : list A) : skipn a (skipn b l) = skipn (a + b) l.
Proof. revert l. induction b as [|b IH]; intros l; [rewrite Nat.add_0_r; reflexivity|]. rewrite <- plus_n_Sm. destruct l as [|x l]; [rewrite !skipn_nil; reflexivity|]. cbn [skipn]. apply IH. Qed.
Lemma wire_len sz x : length (wire sz x) = sz.
Proof. revert x. induction sz as [|k IH]; intros x; cbn; [reflexivity|]. rewrite IH. reflexivity. Qed.
Lemma wire_val sz x : (0 <= x < 256 ^ Z.of_nat sz)%Z -> le_val (wire sz x) = x.
Proof.
  revert x. induction sz as [|k IH]; intros x H; cbn [wire le_val]; [cbn in H; lia|]. rewrite Nat2Z.inj_succ, Z.pow_succ_r in H by lia. rewrite IH; [pose proof (Z.div_mod x 256 ltac:(lia)); lia|]. split; [apply Z.div_pos; lia|apply Z.div_lt_upper_bound; lia].
Qed.
Lemma native_swap (le : bool) v : native le (if le then v else rev v) = le_val v.
Proof. unfold native. destruct le; [reflexivity|]. rewrite rev_involutive. reflexivity. Qed.
Lemma small_rev (v : bytes) : length v <= 1 -> rev v = v.
Proof. destruct v as [|a [|b v]]; cbn; intros H; [reflexivity|reflexivity|lia]. Qed.
Lemma native_small le v : length v <= 1 -> native le v = le_val v.
Proof. intros H. unfold native. destruct le; [reflexivity|]. rewrite small_rev by exact H. reflexivity. Qed.
Lemma swap_elem le sz v : length v <= sz -> native le (if byteswap le sz then rev v else v) = le_val v.
Proof.
  intros H. unfold byteswap. destruct (1 <? sz) eqn:E; cbn [andb].
  - destruct le; cbn [negb]; [reflexivity|]. unfold native. rewrite rev_involutive. reflexivity.
  - apply Nat.ltb_ge in E. apply native_small. lia.
Qed.
Lemma each_chunks le n sz bs : each_elem le n sz bs = chunks n sz bs.
Proof.
  revert bs. induction n as [|k IH]; intros bs; cbn [each_elem chunks]; [reflexivity|]. rewrite IH, swap_elem; [reflexivity|]. rewrite firstn_length. lia.
Qed.
Lemma objects_chunks le n sz bs : byteswap le sz = false -> objects le n sz bs = chunks n sz bs.
Proof.
  intros B. revert bs. induction n as [|k IH]; intros bs; cbn [objects chunks]; [reflexivity|]. rewrite IH. f_equal. pose proof (swap_elem le sz (firstn sz bs)) as S. rewrite B in S. apply S. rewrite firstn_length. lia.
Qed.
Lemma chunks_prefix n sz bs : chunks n sz (firstn (n * sz) bs) = chunks n sz bs.
Proof.
  revert bs. induction n as [|k IH]; intros bs; cbn [chunks]; [reflexivity|]. f_equal.
  - rewrite firstn_firstn. f_equal. f_equal. lia.
  - rewrite skipn_firstn_comm. replace (S k * sz - sz) with (k * sz) by lia. apply IH.
Qed.
Lemma view_chunks fuel le n sz bs : sz <> 0 -> length bs = n * sz -> n < fuel -> view_elems fuel le sz bs = Ok (chunks n sz bs).
Proof.
  intros Z. revert n bs. induction fuel as [|k IH]; intros n bs L F; [lia|]. cbn [view_elems]. destruct n as [|n].
  - destruct bs; [reflexivity|discriminate L].
  - destruct bs as [|b bs]; [cbn in L; lia|]. assert (Hl : length (b :: bs) <? sz = false) by (apply Nat.ltb_ge; lia). rewrite Hl. rewrite (IH n); [|rewrite skipn_length; lia|lia]. cbn [bind chunks]. unfold view_elem. rewrite native_swap. reflexivity.
Qed.
Lemma chunks_len n sz bs : length (chunks n sz bs) = n.
Proof. revert bs. induction n as [|k IH]; intros bs; cbn [chunks length]; [reflexivity|]. rewrite IH. reflexivity. Qed.
Lemma raw_chunks const le n sz bs : sz <> 0 -> length bs = n * sz -> append_raw_data const le sz bs = Ok (chunks n sz bs).
Proof.
  intros Z L. unfold append_raw_data. rewrite L, Nat.div_mul by exact Z. destruct (const || ((1 <? sz) && negb le)) eqn:E.
  - rewrite (view_chunks _ le n) by (try exact Z; try exact L; nia). cbn [bind]. rewrite chunks_len, Nat.ltb_irrefl. reflexivity.
  - rewrite Nat.ltb_irrefl. apply orb_false_iff in E. rewrite objects_chunks by exact (proj2 E). reflexivity.
Qed.
Theorem fixed_chunks raw const le n sz bs : sz <> 0 -> packed_fixed raw const le n sz bs = if length bs <? n * sz then Err BadMessage else Ok (chunks n sz bs, skipn (n * sz) bs).
Proof.
  intros Z. unfold packed_fixed. destruct (length bs <? n * sz) eqn:E; [reflexivity|]. apply Nat.ltb_ge in E. destruct (raw && negb (byteswap le sz)).
  - rewrite (raw_chunks const le n sz _ Z) by (rewrite firstn_length; lia). cbn [bind]. rewrite chunks_prefix. reflexivity.
  - unfold packed_resize. destruct (const || byteswap le sz) eqn:B; [rewrite each_chunks; reflexivity|]. apply orb_false_iff in B. rewrite objects_chunks by exact (proj2 B). rewrite chunks_prefix. reflexivity.
Qed.
Lemma wires_len sz xs : length (wires sz xs) = length xs * sz.
Proof. unfold wires. induction xs as [|x xs IH]; cbn; [reflexivity|]. rewrite app_length, wire_len, IH. reflexivity. Qed.
Lemma chunks_wires sz xs rest : Forall (fun x => 0 <= x < 256 ^ Z.of_nat sz)%Z xs -> chunks (length xs) sz (wires sz xs ++ rest) = xs.
Proof.
  induction 1 as [|x xs Hx _ IH]; cbn [length chunks]; [reflexivity|]. unfold wires in *. cbn [map concat]. rewrite <- app_assoc. rewrite firstn_app, wire_len, Nat.sub_diag, firstn_O, app_nil_r. rewrite firstn_all2 by (rewrite wire_len; lia). rewrite wire_val by exact Hx. f_equal.
  rewrite skipn_app, wire_len, Nat.sub_diag. rewrite skipn_all2 by (rewrite wire_len; lia). exact IH.
Qed.
Theorem fixed_wires raw const le sz xs rest : sz <> 0 -> Forall (fun x => 0 <= x < 256 ^ Z.of_nat sz)%Z xs -> packed_fixed raw const le (length xs) sz (wires sz xs ++ rest) = Ok (xs, rest).
Proof.
  intros Z H. rewrite fixed_chunks by exact Z. rewrite app_length, wires_len. assert (E : length xs * sz + length rest <? length xs * sz = false) by (apply Nat.ltb_ge; lia). rewrite E, chunks_wires by exact H. rewrite skipn_app, wires_len, Nat.sub_diag, skipn_all2 by (rewrite wires_len; lia). reflexivity.
Qed.
Theorem raw_wires const le sz xs : sz <> 0 -> Forall (fun x => 0 <= x < 256 ^ Z.of_nat sz)%Z xs -> append_raw_data const le sz (wires sz xs) = Ok xs.
Proof. intros Z H. rewrite (raw_chunks const le (length xs)) by (try exact Z; apply wires_len). f_equal. pose proof (chunks_wires sz xs [] H) as K. rewrite app_nil_r in K. exact K. Qed.
(** Every sequence of bytes is that of some numbers. *)
Lemma val_range p : all_bytes p -> (0 <= le_val p < 256 ^ Z.of_nat (length p))%Z.
Proof.
  induction 1 as [|b p Hb Hp IH]; [cbn; lia|]. cbn [le_val length]. rewrite Nat2Z.inj_succ, Z.pow_succ_r by lia. unfold is_byte in Hb. lia.
Qed.
Lemma wire_back p : all_bytes p -> wire (length p) (le_val p) = p.
Proof.
  induction 1 as [|b p Hb Hp IH]; [reflexivity|]. cbn [le_val length wire]. unfold is_byte in Hb.
  assert (A : ((b + 256 * le_val p) mod 256 = b)%Z) by (rewrite Z.mul_comm, Z.mod_add by lia; apply Z.mod_small; lia). assert (B : ((b + 256 * le_val p) / 256 = le_val p)%Z) by (rewrite Z.mul_comm, Z.div_add by lia; rewrite Z.div_small by lia; lia). rewrite A, B, IH. reflexivity.
Qed.
Lemma le_wire sz x : le_bytes sz x = wire sz x.
Proof. revert x. induction sz as [|k IH]; intros x; cbn; [reflexivity|]. rewrite IH. reflexivity. Qed.
Lemma repr_wire le sz x : le = true \/ sz = 1 -> repr le sz x = wire sz x.
Proof. unfold repr. rewrite le_wire. destruct le; [reflexivity|]. intros [[=]|H]. apply small_rev. rewrite wire_len. lia. Qed.
Theorem write_wire le sz x : write_fixed le sz x = wire sz x.
Proof.
  unfold write_fixed. destruct le; cbn [negb andb]; [apply repr_wire; auto|]. destruct (sz =? 1) eqn:E; cbn [negb]; [apply Nat.eqb_eq in E; apply repr_wire; auto|]. unfold repr. rewrite rev_involutive. apply le_wire.
Qed.
Theorem writes_wires const le sz xs : write_fixeds const le sz xs = wires sz xs.
Proof.
  unfold write_fixeds, wires. destruct (negb const && (le || (sz =? 1))) eqn:E; f_equal; apply map_ext; intros x; [|apply write_wire]. apply repr_wire. apply andb_prop in E. destruct E as [_ E]. apply orb_prop in E. destruct E as [E|E]; [auto|apply Nat.eqb_eq in E; auto].
Qed.
Theorem read_wire le sz x rest : (0 <= x < 256 ^ Z.of_nat sz)%Z -> read_fixed le sz (wire sz x ++ rest) = (x, rest).
Proof.
  intros H. unfold read_fixed. rewrite firstn_app, wire_len, Nat.sub_diag, firstn_O, app_nil_r, firstn_all2 by (rewrite wire_len; lia). rewrite skipn_app, wire_len, Nat.sub_diag, skipn_all2 by (rewrite wire_len; lia). cbn [app skipn].
  f_equal. pose proof (native_swap le (wire sz x)) as N. destruct le; cbn [negb]; rewrite N; apply wire_val; exact H.
Qed.
(** Bytes that are no multiple of the size. *)
Lemma view_odd fuel le sz bs : sz <> 0 -> length bs mod sz <> 0 -> length bs < fuel -> view_elems fuel le sz bs = UB.
Proof.
  intros Z. revert bs. induction fuel as [|k IH]; intros bs H F; [lia|]. cbn [view_elems]. destruct bs as [|b bs]; [cbn [length] in H; rewrite Nat.mod_0_l in H by exact Z; congruence|].
  destruct (length (b :: bs) <? sz) eqn:E; [reflexivity|]. apply Nat.ltb_ge in E. rewrite IH; [reflexivity| |rewrite skipn_length; cbn [length] in *; lia].
  rewrite skipn_length. intros K. apply H. replace (length (b :: bs)) with (length (b :: bs) - sz + 1 * sz) by lia. rewrite Nat.mod_add by exact Z. exact K.
Qed.
Theorem raw_odd const le sz bs : sz <> 0 -> length bs mod sz <> 0 -> append_raw_data const le sz bs = UB.
Proof.
  intros Z H. unfold append_raw_data. destruct (const || _); [rewrite view_odd by (try exact Z; try exact H; lia); reflexivity|].
  assert (K : length bs / sz * sz <? length bs = true) by (apply Nat.ltb_lt; pose proof (Nat.div_mod (length bs) sz Z); nia). rewrite K. reflexivity.
Qed.
Theorem fixed_all raw const le n sz bs : sz <> 0 -> all_bytes bs -> length bs >= n * sz ->
  exists xs, length xs = n /\ Forall (fun x => 0 <= x < 256 ^ Z.of_nat sz)%Z xs /\ bs = wires sz xs ++ skipn (n * sz) bs /\ packed_fixed raw const le n sz bs = Ok (xs, skipn (n * sz) bs).
Proof.
  intros Z B L. exists (chunks n sz bs). split; [apply chunks_len|]. assert (K : Forall (fun x => 0 <= x < 256 ^ Z.of_nat sz)%Z (chunks n sz bs) /\ bs = wires sz (chunks n sz bs) ++ skipn (n * sz) bs).
  { revert bs B L. induction n as [|k IH]; intros bs B L; [split; [constructor|reflexivity]|]. assert (B1 : all_bytes (firstn sz bs) /\ all_bytes (skipn sz bs)) by (apply Forall_app; rewrite firstn_skipn; exact B). destruct B1 as [B1 B2].
    assert (Hl : length (firstn sz bs) = sz) by (rewrite firstn_length; lia). destruct (IH (skipn sz bs) B2) as [I1 I2]; [rewrite skipn_length; lia|]. cbn [chunks]. split.
    - constructor; [|exact I1]. pose proof (val_range _ B1) as V. rewrite Hl in V. exact V.
    - unfold wires. cbn [map concat]. pose proof (wire_back _ B1) as Wb. rewrite Hl in Wb. rewrite Wb, <- app_assoc. fold (wires sz (chunks k sz (skipn sz bs))). replace (S k * sz) with (k * sz + sz) by lia.
      rewrite <- skip_twice, <- I2. symmetry. apply firstn_skipn. }
  split; [exact (proj1 K)|]. split; [exact (proj2 K)|]. rewrite fixed_chunks by exact Z. assert (E : length bs <? n * sz = false) by (apply Nat.ltb_ge; lia). rewrite E. reflexivity.
Qed.
