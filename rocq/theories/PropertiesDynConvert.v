(** Properties of the conversions between the binary and the JSON form of messages. *)
From Coq Require Import Ascii String.
Require Import Verif.Bits Verif.Varint Verif.CppText.
Require Import Verif.DynSlots Verif.Dyn Verif.Schema Verif.Archive Verif.Decode Verif.Encode Verif.DynWire Verif.DynDecode Verif.DynView Verif.DynAgree.
Require Import Verif.DynJson Verif.DynJsonSpec Verif.DynJsonSafe Verif.DynConvert.
Require Verif.DynJson5 Verif.DynConvert1 Verif.DynConvert2 Verif.DynConvert4 Verif.DynJsonEx Verif.DynJsonBad Verif.DynConvertEx.
Import Verif.DynJsonEx Verif.DynJsonBad Verif.DynConvertEx.
Local Open Scope string_scope.
Local Open Scope list_scope.
Local Open Scope Z_scope.

(** ** C83: conversion is defined *)
(** Any text is converted to bytes or refused, ... *)
Theorem C83_to_binary W J utf8_ok maxj maxb fparse strict n ty ts : wtypes_ok W -> jtypes_ok W J -> enums_fit J -> floats_fit fparse -> maxj + 2 <= Z.of_nat n -> 0 < Z.of_nat n -> quiet W J ts -> calm J ty ts ->
  match json_to_binpb W J utf8_ok maxj maxb fparse strict n ty ts with Ok _ | Err _ => True | UB | Exn | NoFuel => False end.
Proof. exact (fun HW HJ => DynConvert4.to_binary W J utf8_ok maxj maxb (fun _ _ => []) fparse HW HJ strict n ty ts). Qed.
Print Assumptions C83_to_binary.
(** ... and so are any bytes to a text. *)
Theorem C83_to_json W J utf8_ok le maxj maxb fshow ty bs : wtypes_ok W -> jtypes_ok W J -> readable W -> utf8_ok [] = true -> defaults_fit W -> all_bytes bs -> w_entry (wty W ty) = false ->
  exists n, forall k, (n <= k)%nat -> match binpb_to_json W J utf8_ok le maxj maxb fshow k ty bs with Ok _ | Err _ => True | UB | Exn | NoFuel => False end.
Proof. exact (fun HW HJ => DynConvert4.to_text W J utf8_ok le maxj maxb fshow HW HJ ty bs). Qed.
Print Assumptions C83_to_json.
(** What makes it so: the entries of maps of a message that was read have their value, even
    if it was not in the bytes or the text ([whole]), and then writing is defined.  That it can
    be undefined for other messages is C77_absent_mapped_refuted. *)
Theorem C83_writes W J le maxd fshow n ty m : jtypes_ok W J -> whole W n ty m ->
  match write_json W J le maxd fshow n ty m with Ok _ | Err _ => True | UB | Exn | NoFuel => False end.
Proof. exact (fun HJ => DynConvert1.write_whole W J le maxd fshow HJ n 0 false ty m). Qed.
Print Assumptions C83_writes.
Theorem C83_whole W utf8_ok maxd ty bs m : wtypes_ok W -> readable W -> utf8_ok [] = true -> defaults_fit W -> all_bytes bs -> w_entry (wty W ty) = false -> dyn_read W utf8_ok maxd ty bs = Ok m ->
  exists n, forall k, (n <= k)%nat -> whole W k ty m.
Proof.
  intros HW Hr Hu Hd Hb He H. destruct (DynConvert2.read_sound W utf8_ok maxd HW Hr Hu Hd ty bs m Hb H) as (n & Hn). exists n. intros k Hk. split; [exact (Hn k Hk)|]. intros E. rewrite He in E. discriminate E.
Qed.
Print Assumptions C83_whole.

(** ** C84: conversion keeps the message *)
(** The text of a message that was read from bytes is converted to the bytes that the
    message is written as: those it was read from, if they are its binary form. *)
Theorem C84_there_and_back W J utf8_ok le maxj maxb fshow fparse strict n ty bs m ts : wtypes_ok W -> jtypes_ok W J ->
  dyn_read W utf8_ok maxb ty bs = Ok m -> typed W n ty m -> printable W J utf8_ok fshow fparse n ty m ->
  binpb_to_json W J utf8_ok le maxj maxb fshow n ty bs = Ok ts ->
  forall out, json_to_binpb W J utf8_ok maxj maxb fparse strict n ty ts = Ok out <-> dyn_encode W utf8_ok maxb n ty m = Ok out.
Proof. exact (fun HW HJ => DynConvert4.there_and_back W J utf8_ok le maxj maxb fshow fparse HW HJ strict n ty bs m ts). Qed.
Print Assumptions C84_there_and_back.
(** By way of bytes a wrapper of a default value, which a message reads and writes as
    such, becomes what is not JSON. *)
Theorem C84_zero_wrapper_refuted : wtypes_ok dj_types /\ jtypes_ok dj_types dj_json /\
  let ts := render (JObj [(txt "i", JNum (txt "0"))]) in
  (m <- read_json dj_types dj_json any_text 8 dj_parse true 10 0 (new_slots dj_types 0) ts ;; write_json dj_types dj_json true 8 dj_show 10 0 m) = Ok ts /\
  exists bs ts', json_to_binpb dj_types dj_json any_text 8 8 dj_parse true 10 0 ts = Ok bs /\ binpb_to_json dj_types dj_json any_text true 8 8 dj_show 10 0 bs = Ok ts' /\ forall j, ts' <> render j.
Proof. exact (conj dj_ok (conj dj_json_ok zero_wrapper)). Qed.
Print Assumptions C84_zero_wrapper_refuted.

Example C83_case : readable dj_types /\ defaults_fit dj_types /\ all_bytes dj_binary /\ w_entry (wty dj_types 0) = false /\ quiet dj_types dj_json (render dj_tree) /\ calm dj_json 0 (render dj_tree) /\
  json_to_binpb dj_types dj_json any_text 8 8 dj_parse true 10 0 (render dj_tree) = Ok dj_binary.
Proof. split; [exact dj_readable|]. split; [exact dj_fit|]. split; [exact dj_binary_bytes|]. split; [reflexivity|]. split; [apply dj_text|]. split; [apply dj_text|exact dj_to_binary]. Qed.
Example C84_case : dyn_read dj_types any_text 8 0 dj_binary = Ok dj_again /\ typed dj_types 10 0 dj_again /\ printable dj_types dj_json any_text dj_show dj_parse 10 0 dj_again /\
  binpb_to_json dj_types dj_json any_text true 8 8 dj_show 10 0 dj_binary = Ok (render dj_tree) /\ dyn_encode dj_types any_text 8 10 0 dj_again = Ok dj_binary.
Proof. split; [exact dj_from_binary|]. split; [exact dj_again_typed|]. split; [exact dj_again_printable|]. split; [exact dj_to_text|exact dj_again_written]. Qed.
