(** The properties of reading from memory, from RegionMain.v. *)
Require Import Verif.Bits Verif.Varint Verif.Schema Verif.Archive Verif.Decode Verif.DecodeSafe Verif.DecodeSpec1.
Require Import Verif.SimMain Verif.Region Verif.RegionMain Verif.ExampleSchema Verif.ExampleMessage Verif.ExampleRegion.

Lemma segments_in_bounds big path E utf8_ok maxd ty cur segs :
  safe_env E -> m_entry (desc_of E ty) = false -> all_bytes (concat segs) -> zlen (concat segs) < 2 ^ 62 ->
  (exists v, read_segments big path E utf8_ok maxd ty cur segs = Ok v) \/ (exists e, read_segments big path E utf8_ok maxd ty cur segs = Err e).
Proof.
  intros Hs He Hb Hl. pose proof (read_segments_rel big path E utf8_ok maxd Hs ty cur segs He Hb Hl) as K.
  destruct (read_segments _ _ _ _ _ _ _ _); try contradiction; eauto.
Qed.

(** The reference decoder gives a message or an error: cut nowhere, it is the decoder on one segment. *)
Lemma decode_bytes_total E utf8_ok maxd ty cur bs :
  safe_env E -> m_entry (desc_of E ty) = false -> all_bytes bs -> zlen bs < 2 ^ 62 ->
  (exists v, decode_bytes E utf8_ok maxd ty cur bs = Ok v) \/ (exists e, decode_bytes E utf8_ok maxd ty cur bs = Err e).
Proof.
  intros Hs He Hb Hl.
  pose proof (read_segments_rel false CopyRaw E utf8_ok maxd Hs ty cur [bs] He) as K. cbn [concat] in K. rewrite app_nil_r in K.
  specialize (K Hb Hl). destruct (read_segments _ _ _ _ _ _ _ _); try contradiction; [left; eauto|right; exact K].
Qed.

Lemma contiguous_in_bounds big path E utf8_ok maxd ty cur bs :
  safe_env E -> m_entry (desc_of E ty) = false -> all_bytes bs -> zlen bs < 2 ^ 62 ->
  (exists v, read_contiguous big path E utf8_ok maxd ty cur bs = Ok v) \/ (exists e, read_contiguous big path E utf8_ok maxd ty cur bs = Err e).
Proof. intros. rewrite read_contiguous_eq by assumption. apply decode_bytes_total; assumption. Qed.

Lemma padded_in_bounds big path E utf8_ok maxd ty cur bs pad :
  safe_env E -> env_plain (rops true true big path) E ->
  m_entry (desc_of E ty) = false -> all_bytes bs -> all_bytes pad -> (16 <= length pad)%nat -> zlen bs < 2 ^ 62 ->
  (exists v, read_padded big path E utf8_ok maxd ty cur bs pad = Ok v) \/ (exists e, read_padded big path E utf8_ok maxd ty cur bs pad = Err e).
Proof. intros. rewrite read_padded_eq by assumption. apply decode_bytes_total; assumption. Qed.

Lemma padded_same big path E utf8_ok maxd ty cur bs pad :
  safe_env E -> env_plain (rops true true big path) E ->
  m_entry (desc_of E ty) = false -> all_bytes bs -> all_bytes pad -> (16 <= length pad)%nat -> zlen bs < 2 ^ 62 ->
  read_padded big path E utf8_ok maxd ty cur bs pad = read_contiguous big path E utf8_ok maxd ty cur bs.
Proof. intros. rewrite read_padded_eq, read_contiguous_eq by assumption. reflexivity. Qed.

Lemma segments_same big path E utf8_ok maxd ty cur segs :
  safe_env E -> m_entry (desc_of E ty) = false -> all_bytes (concat segs) -> zlen (concat segs) < 2 ^ 62 ->
  forall v, read_segments big path E utf8_ok maxd ty cur segs = Ok v <-> read_contiguous big path E utf8_ok maxd ty cur (concat segs) = Ok v.
Proof.
  intros Hs He Hb Hl v. rewrite read_contiguous_eq by assumption.
  pose proof (read_segments_rel big path E utf8_ok maxd Hs ty cur segs He Hb Hl) as K.
  destruct (read_segments _ _ _ _ _ _ _ _); try contradiction.
  - rewrite K. reflexivity.
  - destruct K as [e' K]. rewrite K. split; discriminate.
Qed.

Lemma cuts_same big path E utf8_ok maxd ty cur segs segs' :
  safe_env E -> m_entry (desc_of E ty) = false -> all_bytes (concat segs) -> zlen (concat segs) < 2 ^ 62 -> concat segs = concat segs' ->
  forall v, read_segments big path E utf8_ok maxd ty cur segs = Ok v <-> read_segments big path E utf8_ok maxd ty cur segs' = Ok v.
Proof.
  intros Hs He Hb Hl Hc v. rewrite segments_same by assumption. rewrite Hc. symmetry. rewrite Hc in Hb, Hl. apply segments_same; assumption.
Qed.

Lemma contiguous_memory bs r : In r (table [bs]) -> r_mem r = bs \/ exists x y, patch_written [bs] = x ++ r_mem r ++ y.
Proof. intros H. destruct (table_memory [bs] r H) as [[K|[]]|K]; auto. Qed.
Lemma contiguous_patch bs : (length (patch_written [bs]) <= 32)%nat.
Proof. destruct (table_fits [bs]) as [H _]. cbn [length] in H. lia. Qed.

Lemma view_out_of_bounds : exists E bs pad, safe_env E /\ all_bytes bs /\ all_bytes pad /\ (16 <= length pad)%nat /\
  read_padded false CopyRaw E any_utf8 100 0 (default_msg E 0) bs pad = UB.
Proof.
  exists (view_env true), [10; 100; 104; 105], zeros. split; [apply view_safe|]. split; [apply bytesb_ok; reflexivity|].
  split; [apply zeros_bytes|]. split; [cbn; lia|]. vm_compute. reflexivity.
Qed.
Lemma status_differs : exists E segs, safe_env E /\ all_bytes (concat segs) /\
  read_segments false CopyRaw E any_utf8 1 0 (default_msg E 0) segs = Err TooLarge /\
  read_contiguous false CopyRaw E any_utf8 1 0 (default_msg E 0) (concat segs) = Err BadMessage.
Proof.
  exists deep_env, deep_segs. split; [exact deep_safe|]. split; [apply bytesb_ok; reflexivity|]. split; vm_compute; reflexivity.
Qed.
