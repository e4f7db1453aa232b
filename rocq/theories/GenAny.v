(** google.protobuf.Any in the JSON of generated messages: model of the functions for
    [is_any] of any_message_json_serializer, include/hpp_proto/dynamic_message/json.hpp:505-535,
    which the code that src/protoc-plugin/hpp_generator.cpp writes into .glz.hpp files calls.
    The payload is a dynamic message of the factory in the context: DynAny.v. *)
Require Import Verif.Bits Verif.Varint.
Require Import Verif.DynSlots Verif.Dyn Verif.Schema Verif.Archive Verif.Decode Verif.Encode Verif.DynWire Verif.DynDecode Verif.DynJson Verif.DynAny Verif.GenJson.

Section GenAny.
  (** [W], [J], [maxd], [find_type]: the factory, as in DynAny.v.  [deep]: a bound on the
      nesting of payloads, which is that of the factory where it is at least maxd + 2. *)
  Context (E : env) (G : list gtype) (utf8_ok : bytes -> bool) (le : bool).
  Context (fshow : bool -> Z -> bytes) (fparse : bool -> bytes -> option Z) (lenient preserve : bool).
  Context (W : list wtype) (J : list jtype) (maxd : Z) (find_type : bytes -> option nat) (deep : nat).

  (** to_json, 518-524, with to_json_impl.  The nesting of the message around is not counted. *)
  Definition gwrite_any (url data : bytes) : res (list tok) :=
    any_object W J utf8_ok maxd find_type (awrite_msg W J utf8_ok le maxd fshow find_type deep 0 false false false) (awrite_msg W J utf8_ok le maxd fshow find_type deep 0 true true false) url data.
  Fixpoint gawrite (always : bool) (fuel : nat) (ty : nat) (v : val) : res (list tok) :=
    match fuel with
    | O => NoFuel
    | S n =>
        match gknown G ty with
        | KAny => match v with VMsg [[VBytes url]; [VBytes data]] _ => gwrite_any url data | _ => UB end
        | _ => gwrite_body E G le fshow preserve always (gawrite always n) ty v
        end
    end.

  (** from_json, 526-535, with from_json_impl: what the Any held before is dropped. *)
  Definition gread_any (strict : bool) (ts : list tok) : res ((bytes * bytes) * list tok) :=
    any_parts W J find_type (aread_msg W J utf8_ok maxd fparse find_type strict deep 0 false) (aread_msg W J utf8_ok maxd fparse find_type strict deep 0 true) (dyn_encode W utf8_ok maxd deep) ts.
  Fixpoint garead (strict : bool) (fuel : nat) (ty : nat) (cur : val) (ts : list tok) : res (val * list tok) :=
    match fuel with
    | O => NoFuel
    | S n =>
        match gknown G ty with
        | KAny => match cur with VMsg _ u => '(ud, r) <- gread_any strict ts ;; Ok (VMsg [[VBytes (fst ud)]; [VBytes (snd ud)]] u, r) | _ => UB end
        | _ => gread_body E G utf8_ok fparse lenient strict (garead strict n) ty cur ts
        end
    end.
  (** read_json_buffer, json.hpp:464-487 *)
  Definition garead_json (strict : bool) (fuel : nat) (ty : nat) (ts : list tok) : res val :=
    '(v, r) <- garead strict fuel ty (default_msg E ty) ts ;; match r with [] => Ok v | _ => Err BadMessage end.
End GenAny.
