(** Conversion between the binary and the JSON form of a message. *)
Require Import Verif.Bits Verif.Varint Verif.DynSlots Verif.Dyn Verif.Schema Verif.Archive Verif.Decode Verif.Encode Verif.DynWire Verif.DynDecode Verif.DynView Verif.DynAgree.
Require Import Verif.DynJson Verif.DynJsonSpec Verif.DynJson5 Verif.DynJsonSafe Verif.DynConvert Verif.DynConvert1 Verif.DynConvert2 Verif.DynConvert3.
Require Verif.DynJson7.

Section Convert.
  Context (W : list wtype) (J : list jtype) (utf8_ok : bytes -> bool) (le : bool) (maxj maxb : Z) (fshow : bool -> Z -> bytes) (fparse : bool -> bytes -> option Z).
  Hypothesis HW : wtypes_ok W.
  Hypothesis HJ : jtypes_ok W J.

  Lemma to_binary strict n ty ts : enums_fit J -> floats_fit fparse -> maxj + 2 <= Z.of_nat n -> 0 < Z.of_nat n -> quiet W J ts -> calm J ty ts ->
    settled (json_to_binpb W J utf8_ok maxj maxb fparse strict n ty ts).
  Proof.
    intros HE HF L L0 Q C. unfold json_to_binpb. destruct n as [|n]; [lia|]. pose proof (DynJson7.read_defined W J utf8_ok maxj fparse HW HJ strict (S n) ty _ ts HE HF L L0 (sound_new W HW n ty) Q C) as K.
    destruct (read_json _ _ _ _ _ _ _ _ _ _) as [m| | | |]; try exact K. cbn [bind]. pose proof (encode_settled W utf8_ok maxb (S n) ty m HW (sound_typed _ _ _ _ K)) as S. destruct (dyn_encode _ _ _ _ _ _); exact S.
  Qed.
  Lemma to_text ty bs : readable W -> utf8_ok [] = true -> defaults_fit W -> all_bytes bs -> w_entry (wty W ty) = false ->
    exists n, forall k, (n <= k)%nat -> settled (binpb_to_json W J utf8_ok le maxj maxb fshow k ty bs).
  Proof.
    intros Hr Hu Hd Hb He. unfold binpb_to_json. pose proof (DynDecode4.read_same W utf8_ok maxb HW Hr Hu ty bs) as K. destruct (decode_bytes _ _ _ _ _ _) as [v|e| | |]; try contradiction.
    - destruct K as (m & K & _). destruct (read_sound W utf8_ok maxb HW Hr Hu Hd ty bs m Hb K) as (n & Hn). exists n. intros k Hk. rewrite K. cbn [bind]. pose proof (write_whole W J le maxj fshow HJ k 0 false ty m) as S. unfold write_json. destruct (write_msg _ _ _ _ _ _ _ _ _ _); try exact I; apply S; (split; [apply Hn, Hk|intros E; congruence]).
    - destruct K as (e' & K). exists 0%nat. intros k _. rewrite K. exact I.
  Qed.
  Lemma there_and_back strict n ty bs m ts : dyn_read W utf8_ok maxb ty bs = Ok m -> typed W n ty m -> printable W J utf8_ok fshow fparse n ty m ->
    binpb_to_json W J utf8_ok le maxj maxb fshow n ty bs = Ok ts ->
    forall out, json_to_binpb W J utf8_ok maxj maxb fparse strict n ty ts = Ok out <-> dyn_encode W utf8_ok maxb n ty m = Ok out.
  Proof.
    intros Hm Ht Hp H out. unfold binpb_to_json in H. rewrite Hm in H. cbn [bind] in H. destruct (write_json W J le maxj fshow n ty m) as [ts'| | | |] eqn:E; try discriminate H. apply DynEncode3.Ok_inj in H. subst ts'.
    destruct (DynJson7.round_trip W J utf8_ok le maxj fshow fparse HW HJ strict n ty m ts Ht Hp E) as (m' & R & _ & B). unfold json_to_binpb. rewrite R. cbn [bind]. rewrite B. destruct (dyn_encode W utf8_ok maxb n ty m); split; intros K; try discriminate K; exact K.
  Qed.
End Convert.
