(** Properties of the binary encoder of dynamic messages. *)
Require Import Verif.Bits Verif.Varint Verif.DynSlots Verif.Dyn Verif.Schema Verif.Archive Verif.Decode Verif.Encode Verif.DynWire.
Require Import Verif.WellTyped Verif.EncodeSpec Verif.RoundTrip Verif.Reencode Verif.Output Verif.OutputSpec Verif.DynView Verif.DynEncode3 Verif.DynEncode4 Verif.DynWireEx.
Require Verif.EncodeMain Verif.DynEncode5.

(** ** C65: a dynamic message is written as a generated message with the same fields. *)
(** Whatever the message and the options: the same bytes, or the same error. *)
Theorem C65_same_bytes W utf8_ok maxd n ty m : wtypes_ok W -> typed W n ty m ->
  dyn_encode W utf8_ok maxd n ty m = encode_bytes (env_of W) utf8_ok maxd ty (val_of W n ty m).
Proof. exact (fun H => dyn_encode_ok W utf8_ok maxd H n ty m). Qed.
Print Assumptions C65_same_bytes.

(** The message value is well-formed, so that all that is proved of generated messages
    applies. *)
Theorem C65_well_formed W utf8_ok n ty m : wtypes_ok W -> utf8_ok [] = true -> typed W n ty m -> clean W utf8_ok n ty m ->
  wt_msg (env_of W) utf8_ok ty (val_of W n ty m).
Proof. exact (fun H H0 Ht Hc => val_wt W utf8_ok H H0 n ty m Ht Hc false). Qed.
Print Assumptions C65_well_formed.

(** In particular a generated message of that schema reads it. *)
Theorem C65_read_by_generated W utf8_ok maxd limit n ty m bs : wtypes_ok W -> utf8_ok [] = true -> typed W n ty m -> clean W utf8_ok n ty m ->
  generated (env_of W) -> maxd <= limit -> canonical (env_of W) limit 1 ty (val_of W n ty m) ->
  dyn_encode W utf8_ok maxd n ty m = Ok bs ->
  decode_bytes (env_of W) utf8_ok limit ty (default_msg (env_of W) ty) bs = Ok (val_of W n ty m).
Proof. exact (DynEncode5.read_back W utf8_ok maxd limit n ty m bs). Qed.
Print Assumptions C65_read_by_generated.

(** With a sink that has enough space the chunks hold these bytes, ... *)
Theorem C65_chunked W utf8_ok maxd k n ty m bs : wtypes_ok W -> typed W n ty m -> wt_msg (env_of W) utf8_ok ty (val_of W n ty m) ->
  dyn_encode W utf8_ok maxd n ty m = Ok bs -> (forall i, k (length bs) i = 0%nat -> (length bs <= space (k (length bs)) i)%nat) ->
  exists chunks, dyn_write_chunked W utf8_ok maxd k n ty m = Ok (Some chunks) /\ filled (k (length bs)) bs chunks.
Proof. exact (dyn_chunked_ok W utf8_ok maxd k n ty m bs). Qed.
Print Assumptions C65_chunked.

(** ... but with one that has not, writing can succeed all the same, unlike that of
    generated messages (C11_chunked_fails): here nothing is written of two bytes. *)
Theorem C65_exhausted_sink_refuted : exists W m, wtypes_ok W /\ typed W 2 0 m /\ wt_msg (env_of W) (fun _ => true) 0 (val_of W 2 0 m) /\
  dyn_encode W (fun _ => true) 100 2 0 m = Ok [34; 0] /\
  option_map (@concat Z) (match dyn_write_chunked W (fun _ => true) 100 (fun _ _ => 0%nat) 2 0 m with Ok r => r | _ => None end) = Some [] /\
  write_sink (env_of W) (fun _ => true) 100 Chunked 0 (fun _ _ => 0%nat) (fun _ => 0) 0 (val_of W 2 0 m) = Ok None.
Proof. exact DynEncode5.exhausted. Qed.
Print Assumptions C65_exhausted_sink_refuted.

Example C65_case : wtypes_ok dw_types /\ typed dw_types 2 0 dw_message /\ clean dw_types (fun _ => true) 2 0 dw_message /\
  val_of dw_types 2 0 dw_message = dw_value /\ dyn_encode dw_types (fun _ => true) 100 2 0 dw_message = Ok dw_written.
Proof. split; [exact dw_ok|]. split; [exact dw_typed|]. split; [apply dw_clean; reflexivity|]. split; reflexivity. Qed.
Example C65_read_case : generated (env_of dw_types) /\ canonical (env_of dw_types) 100 1 0 dw_value /\
  decode_bytes (env_of dw_types) (fun _ => true) 100 0 (default_msg (env_of dw_types) 0) dw_written = Ok dw_value.
Proof. split; [exact DynEncode5.dw_generated|]. split; [exact DynEncode5.dw_canonical|vm_compute; reflexivity]. Qed.
Example C65_chunked_case :
  option_map (@concat Z) (match dyn_write_chunked dw_types (fun _ => true) 100 (fun _ i => 3%nat) 2 0 dw_message with Ok r => r | _ => None end) = Some dw_written.
Proof. vm_compute. reflexivity. Qed.
