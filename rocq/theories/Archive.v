(** Input archives.

    The decoder of deserialize.hpp is a template over the archive type
    (basic_in); the model follows suit: [aops] is the interface the decoder uses,
    [zops] below is the reference instance working on a plain byte list, and
    Region.v has the instance that models basic_in with its regions. *)
Require Import Verif.Bits Verif.Varint Verif.Schema.
Require Export Verif.PackedCount.

(** Error codes produced by the decoder: std::errc::bad_message and
    std::errc::value_too_large. *)
Inductive errc := BadMessage | TooLarge.

(** Outcomes: success, error status, undefined behaviour (a read outside the
    readable memory or a dangling view), a C++ exception, or fuel exhaustion of
    the model (shown impossible). *)
Inductive res (T : Type) := Ok (x : T) | Err (e : errc) | UB | Exn | NoFuel.
Arguments Ok {T}. Arguments Err {T}. Arguments UB {T}. Arguments Exn {T}. Arguments NoFuel {T}.

Definition bind {A B} (r : res A) (k : A -> res B) : res B :=
  match r with Ok x => k x | Err e => Err e | UB => UB | Exn => Exn | NoFuel => NoFuel end.
Notation "x <- r ;; k" := (bind r (fun x => k)) (at level 61, r at next level, right associativity).
Notation "' p <- r ;; k" := (bind r (fun p => k)) (at level 61, p pattern, r at next level, right associativity).

(** The archive interface: the member functions of basic_in
    (deserialize.hpp:142-613) used by the decoding functions. *)
Record aops (A : Type) := AOps {
  a_padded : bool;                               (* is_padded_input *)
  a_avail : A -> Z;                              (* in_avail *)
  a_tag : A -> res (Z * A);                      (* read_tag *)
  a_match : Z -> A -> res (bool * A);            (* match_tag *)
  a_varint : vtype -> A -> res (Z * A);          (* deserialize(varint) *)
  a_bool : A -> res (Z * A);                     (* deserialize(bool) *)
  a_fixed : nat -> A -> res (bytes * A);         (* deserialize(byte_deserializable) *)
  a_skip : Z -> A -> res A;                      (* skip *)
  a_skip_varint : A -> res A;                    (* skip_varint *)
  a_split : Z -> A -> A * A;                     (* split: (first half, rest) *)
  a_packed : Z -> nat -> A -> res (bytes * A);   (* deserialize_packed: n elements of given size, raw bytes *)
  a_view : Z -> A -> option bytes * A;           (* read_bytes; None when the view leaves readable memory *)
  a_nvarints : Z -> A -> res (option nat);       (* number_of_varints *)
  a_pvarint : vtype -> Z -> nat -> A -> res (list Z * A);   (* deserialize_packed_varint *)
  a_pbool : nat -> A -> res (list Z * A);        (* deserialize_packed_boolean *)
  a_unwind : Z -> A -> A;                        (* unwind_tag *)
  a_byte0 : A -> res Z                           (* *data() *)
}.
Arguments a_padded {A}. Arguments a_avail {A}. Arguments a_tag {A}. Arguments a_match {A}.
Arguments a_varint {A}. Arguments a_bool {A}. Arguments a_fixed {A}. Arguments a_skip {A}.
Arguments a_skip_varint {A}. Arguments a_split {A}. Arguments a_packed {A}. Arguments a_view {A}.
Arguments a_nvarints {A}. Arguments a_pvarint {A}. Arguments a_pbool {A}. Arguments a_unwind {A}.
Arguments a_byte0 {A}.

(** ** Reference archive: consumed bytes (reversed) and remaining bytes *)
Record zip := Zip { zb : bytes; za : bytes }.

Definition zadv (n : nat) (z : zip) : zip := Zip (rev (firstn n (za z)) ++ zb z) (skipn n (za z)).

(** A parser result applied to a reference archive: running out of bytes is the
    same as leaving the limit in the C++ code, where [p <= current._end] fails. *)
Definition z_parse {T} (p : pres) (z : zip) (fail : res T) (k : Z -> zip -> res T) : res T :=
  match p with POk v n => k v (zadv n z) | _ => fail end.

(** read_tag, deserialize.hpp:591-600. *)
Definition z_tag (z : zip) : res (Z * zip) :=
  z_parse (shift_mix SMTAG (za z)) z (Ok (0, z)) (fun v z' => Ok (wrapU 32 v, z')).

(** match_tag, deserialize.hpp:602-612: compares the 64-bit result. *)
Definition z_match (tag : Z) (z : zip) : res (bool * zip) :=
  z_parse (shift_mix SMTAG (za z)) z (Ok (false, z))
    (fun v z' => if v =? tag then Ok (true, z') else Ok (false, z)).

(** deserialize(varint), deserialize.hpp:279-286. *)
Definition z_varint (t : vtype) (z : zip) : res (Z * zip) :=
  z_parse (parse_varint t (za z)) z (Err BadMessage) (fun v z' => Ok (v, z')).

(** deserialize(bool), deserialize.hpp:257-263. *)
Definition z_bool (z : zip) : res (Z * zip) :=
  z_parse (parse_bool (za z)) z (Err BadMessage) (fun v z' => Ok (v, z')).

(** Taking [n] raw bytes when they are available. *)
Definition z_take (n : nat) (z : zip) : res (bytes * zip) :=
  if (n <=? length (za z))%nat then Ok (firstn n (za z), zadv n z) else Err BadMessage.

(** number_of_varints, deserialize.hpp:554-589; the word-at-a-time count of the
    code is [count_region] of PackedCount.v, shown there to be [terminators]. *)
Definition z_nvarints (n : Z) (z : zip) : res (option nat) :=
  if (Z.to_nat n <=? length (za z))%nat then
    let d := firstn (Z.to_nat n) (za z) in
    if last d 0 <? 128 then Ok (Some (terminators d)) else Ok None
  else Ok None.

(** parse_packed_varints_in_a_region, deserialize.hpp:393-410, over [data];
    [room] is the number of output elements left, [fuel] bounds the loop by the
    number of bytes. *)
Fixpoint parse_region (fuel : nat) (t : vtype) (room : nat) (data : bytes) : res (list Z) :=
  match data with
  | [] => Ok []
  | _ =>
    match fuel, room with
    | O, _ => NoFuel
    | _, O => Err BadMessage
    | S f, S r =>
      match parse_varint t data with
      | POk v n => vs <- parse_region f t r (skipn n data) ;; Ok (v :: vs)
      | _ => Err BadMessage
      end
    end
  end.

(** deserialize_packed_varint, deserialize.hpp:430-441: the caller has made room
    for [room] elements; unused room would keep value-initialised elements. *)
Definition pad_room (room : nat) (vs : list Z) : list Z := vs ++ repeat 0 (room - length vs).

Definition z_pvarint (t : vtype) (n : Z) (room : nat) (z : zip) : res (list Z * zip) :=
  '(d, z') <- z_take (Z.to_nat n) z ;;
  vs <- parse_region (length d) t room d ;;
  Ok (pad_room room vs, z').

(** deserialize_packed_boolean, deserialize.hpp:377-391. *)
Fixpoint z_pbool (n : nat) (z : zip) : res (list Z * zip) :=
  match n with
  | O => Ok ([], z)
  | S k => '(v, z1) <- z_bool z ;; '(vs, z2) <- z_pbool k z1 ;; Ok (v :: vs, z2)
  end.

(** skip_varint, deserialize.hpp:443-452. *)
Fixpoint find_term (max : nat) (bs : bytes) : option nat :=
  match max, bs with
  | S m, b :: t => if b <? 128 then Some 1%nat
                   else match find_term m t with Some k => Some (S k) | None => None end
  | _, _ => None
  end.
Definition z_skip_varint (z : zip) : res zip :=
  match find_term 10 (za z) with Some n => Ok (zadv n z) | None => Err BadMessage end.

(** skip, deserialize.hpp:462-468. *)
Definition z_skip (n : Z) (z : zip) : res zip :=
  if zlen (za z) <? n then Err BadMessage else Ok (zadv (Z.to_nat n) z).

(** split, deserialize.hpp:470-497. *)
Definition z_split (n : Z) (z : zip) : zip * zip :=
  (Zip (zb z) (firstn (Z.to_nat n) (za z)), zadv (Z.to_nat n) z).

(** unwind_tag, deserialize.hpp:509-514: goes back by the canonical size of the tag. *)
Definition z_unwind (tag : Z) (z : zip) : zip :=
  let k := Z.to_nat (varint_size_u tag) in
  Zip (skipn k (zb z)) (rev (firstn k (zb z)) ++ za z).

Definition zops : aops zip := {|
  a_padded := false;
  a_avail z := zlen (za z);
  a_tag := z_tag;
  a_match := z_match;
  a_varint := z_varint;
  a_bool := z_bool;
  a_fixed := z_take;
  a_skip := z_skip;
  a_skip_varint := z_skip_varint;
  a_split := z_split;
  a_packed n sz z := z_take (Z.to_nat n * sz) z;
  a_view n z := (Some (firstn (Z.to_nat n) (za z)), zadv (Z.to_nat n) z);
  a_nvarints := z_nvarints;
  a_pvarint := z_pvarint;
  a_pbool := z_pbool;
  a_unwind := z_unwind;
  a_byte0 z := match za z with b :: _ => Ok b | [] => UB end
|}.
