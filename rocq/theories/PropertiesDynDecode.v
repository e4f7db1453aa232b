(** Properties of the binary decoder of dynamic messages. *)
Require Import Verif.Bits Verif.Varint Verif.DynSlots Verif.Dyn Verif.Schema Verif.Archive Verif.Decode Verif.Encode Verif.DynWire.
Require Import Verif.WellTyped Verif.RoundTrip Verif.Reencode Verif.DynView Verif.DynDecode Verif.DynAgree Verif.DynWireEx Verif.DynDecodeEx.
Require Import Verif.DynEncode4.
Require Verif.DynDecode4 Verif.DynEncode5 Verif.DynRelay.

(** ** C66: a dynamic message reads what a generated message of the schema reads. *)
(** Whatever the bytes: both are read and then hold the same fields, or both are
    rejected.  There is no undefined behaviour. *)
Theorem C66_same_fields W utf8_ok maxd ty bs : wtypes_ok W -> readable W -> utf8_ok [] = true ->
  match decode_bytes (env_of W) utf8_ok maxd ty (default_msg (env_of W) ty) bs with
  | Ok v => exists m, dyn_read W utf8_ok maxd ty bs = Ok m /\ agree W ty m v
  | Err _ => exists e, dyn_read W utf8_ok maxd ty bs = Err e
  | UB | Exn | NoFuel => False
  end.
Proof. exact (fun HW Hr Hu => DynDecode4.read_same W utf8_ok maxd HW Hr Hu ty bs). Qed.
Print Assumptions C66_same_fields.

(** What a dynamic message writes a dynamic message reads back. *)
Theorem C66_round_trip W utf8_ok maxd limit n ty m bs : wtypes_ok W -> readable W -> utf8_ok [] = true -> typed W n ty m -> clean W utf8_ok n ty m ->
  generated (env_of W) -> maxd <= limit -> canonical (env_of W) limit 1 ty (val_of W n ty m) ->
  dyn_encode W utf8_ok maxd n ty m = Ok bs ->
  exists m', dyn_read W utf8_ok limit ty bs = Ok m' /\ agree W ty m' (val_of W n ty m).
Proof.
  intros HW Hr Hu Ht Hc Hg Hl Hn He. pose proof (DynDecode4.read_same W utf8_ok limit HW Hr Hu ty bs) as H.
  rewrite (DynEncode5.read_back W utf8_ok maxd limit n ty m bs HW Hu Ht Hc Hg Hl Hn He) in H. exact H.
Qed.
Print Assumptions C66_round_trip.

(** Finding: for a map entry type with a single field, which the pool accepts, reading
    an entry indexes the fields out of bounds. *)
Theorem C66_short_entry_refuted : exists W bs, wtypes_ok W /\ dyn_read W (fun _ => true) 100 0 bs = UB.
Proof. exists de_short, [10; 0]. split; [exact de_short_ok|vm_compute; reflexivity]. Qed.
Print Assumptions C66_short_entry_refuted.

(** Finding: a field without presence that is read twice, the second time as its default
    value, is absent but shows the value of the first time. *)
Theorem C66_stale_value_refuted : exists W bs m f l, wtypes_ok W /\ readable W /\ dyn_read W (fun _ => true) 100 0 bs = Ok m /\
  decode_bytes (env_of W) (fun _ => true) 100 0 (default_msg (env_of W) 0) bs = Ok (VMsg [[VInt 0]] []) /\
  w_fields (wty W 0) = [(f, l)] /\ has_value (dyn_of f) l (slot_at m l) = false /\ value (dyn_of f) l (slot_at m l) = FInt 5.
Proof.
  exists de_plain, [8; 5; 8; 0]. do 3 eexists. split; [exact de_plain_ok|]. split; [exact de_plain_readable|]. split; [vm_compute; reflexivity|]. split; [vm_compute; reflexivity|]. split; [reflexivity|]. split; vm_compute; reflexivity.
Qed.
Print Assumptions C66_stale_value_refuted.

(** The message of C65_case is read back, and messages in pieces, unpacked or not, with
    an alternative replaced, are merged. *)
Example C66_case : wtypes_ok dw_types /\ readable dw_types /\
  dyn_read dw_types (fun _ => true) 100 0 dw_written = Ok
    [ (1, CInt (-2)); (1, CBytes []); (2, CInts [1; -64]); (2, CMsg [(0, CZero)]); (2, CMsgs [[(1, CInt 5)]; [(0, CZero)]]); (1, CInts [1065353216]); (2, CInts [1; 0]); (0, CZero) ].
Proof. split; [exact dw_ok|]. split; [exact dw_readable|vm_compute; reflexivity]. Qed.
Example C66_merge_case :
  dyn_read dw_types (fun _ => true) 100 0 [34; 2; 8; 5; 24; 2; 98; 1; 7; 26; 1; 127; 34; 2; 8; 9; 8; 1] = Ok
    [ (1, CInt 1); (0, CZero); (2, CInts [1; -64]); (2, CMsg [(1, CInt 5)]); (0, CZero); (0, CZero); (0, CZero); (0, CZero) ].
Proof. vm_compute. reflexivity. Qed.
Example C66_map_case : wtypes_ok de_map /\ readable de_map /\
  dyn_read de_map (fun _ => true) 100 0 [10; 2; 8; 7] = Ok [ (1, CMsgs [[(1, CInt 7); (1, CBytes [])]]) ].
Proof. split; [exact de_ok|]. split; [exact de_readable|vm_compute; reflexivity]. Qed.
Example C66_reject_case : dyn_read dw_types (fun _ => true) 100 0 [34; 2; 8] = Err BadMessage /\ dyn_read dw_types (fun _ => true) 0 0 [34; 0] = Err TooLarge.
Proof. split; vm_compute; reflexivity. Qed.

(** ** C67: what a dynamic message has read it can write. *)
(** Its storage is well-formed, so that writing it is defined (C65_same_bytes). *)
Theorem C67_well_formed W utf8_ok maxd ty bs m : wtypes_ok W -> readable W -> utf8_ok [] = true -> defaults_fit W -> all_bytes bs ->
  dyn_read W utf8_ok maxd ty bs = Ok m -> exists n, forall k, (n <= k)%nat -> typed W k ty m.
Proof. exact (fun HW Hr Hu => DynRelay.read_typed W utf8_ok maxd HW Hr Hu ty bs m). Qed.
Print Assumptions C67_well_formed.

(** Without maps, reading and writing gives exactly the bytes, or the error, that a
    generated message gives that reads and writes the same. *)
Theorem C67_same_relay W utf8_ok maxd limit ty bs m : wtypes_ok W -> readable W -> utf8_ok [] = true -> defaults_fit W -> no_maps W -> all_bytes bs ->
  dyn_read W utf8_ok maxd ty bs = Ok m ->
  exists v n, decode_bytes (env_of W) utf8_ok maxd ty (default_msg (env_of W) ty) bs = Ok v /\
    forall k, (n <= k)%nat -> dyn_encode W utf8_ok limit k ty m = encode_bytes (env_of W) utf8_ok limit ty v.
Proof. exact (DynRelay.relay W utf8_ok maxd limit ty bs m). Qed.
Print Assumptions C67_same_relay.

(** The merged message of C66_merge_case, and a map entry, which is completed. *)
Example C67_case : defaults_fit dw_types /\ no_maps dw_types /\
  (m <- dyn_read dw_types (fun _ => true) 100 0 [34; 2; 8; 5; 24; 2; 98; 1; 7; 26; 1; 127; 34; 2; 8; 9; 8; 1] ;; dyn_encode dw_types (fun _ => true) 100 3 0 m) = Ok [8; 1; 26; 2; 2; 127; 34; 2; 8; 5].
Proof. split; [exact dw_fit|]. split; [exact dw_no_maps|vm_compute; reflexivity]. Qed.
Example C67_map_case : defaults_fit de_map /\
  (m <- dyn_read de_map (fun _ => true) 100 0 [10; 2; 8; 7] ;; dyn_encode de_map (fun _ => true) 100 3 0 m) = Ok [10; 4; 8; 7; 18; 0].
Proof. split; [exact de_fit|vm_compute; reflexivity]. Qed.
