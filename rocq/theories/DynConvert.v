(** Conversion between the binary and the JSON form of a message by way of a dynamic
    message: model of include/hpp_proto/dynamic_message/json.hpp:1227-1267.
    The lookup of the name of the message, which comes first, is not modelled. *)
Require Import Verif.Bits Verif.Archive Verif.DynSlots Verif.Dyn Verif.DynWire Verif.DynDecode Verif.DynJson.

Section Convert.
  Context (W : list wtype) (J : list jtype) (utf8_ok : bytes -> bool).
  (** 1227-1247.  [maxj] and [maxb] are the recursion limits for JSON and binary; the
      error of the encoder is replaced by one of the JSON reader, shown as [BadMessage]. *)
  Definition json_to_binpb (maxj maxb : Z) (fparse : bool -> bytes -> option Z) (strict : bool) (fuel ty : nat) (ts : list tok) : res bytes :=
    m <- read_json W J utf8_ok maxj fparse strict fuel ty (new_slots W ty) ts ;;
    match dyn_encode W utf8_ok maxb fuel ty m with Err _ => Err BadMessage | r => r end.

  (** 1249-1265: the error of the JSON writer is replaced by io_error, shown as [BadMessage]. *)
  Definition binpb_to_json (le : bool) (maxj maxb : Z) (fshow : bool -> Z -> bytes) (fuel ty : nat) (bs : bytes) : res (list tok) :=
    m <- dyn_read W utf8_ok maxb ty bs ;;
    match write_json W J le maxj fshow fuel ty m with Err _ => Err BadMessage | r => r end.
End Convert.
