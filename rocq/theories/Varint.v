(** Model of include/hpp_proto/binpb/varint.hpp *)
Require Import Verif.Bits.

(** The varint instantiations used by the library: varint.hpp:78-85. *)
Inductive vtype := VI32 | VI64 | VU32 | VU64 | VS32 | VS64.

(** [sizeof(value_type) * CHAR_BIT], varint.hpp:56. *)
Definition vbits (t : vtype) : Z :=
  match t with VI32 | VU32 | VS32 => 32 | VI64 | VU64 | VS64 => 64 end.

(** [sizeof(encode_type) * CHAR_BIT], varint.hpp:57-58: a normal int32 is
    encoded as int64. *)
Definition enc_bits (t : vtype) : Z :=
  match t with VI32 => 64 | _ => vbits t end.

(** [Encoding == varint_encoding::zig_zag], varint.hpp:84-85. *)
Definition is_zigzag (t : vtype) : bool :=
  match t with VS32 | VS64 => true | _ => false end.

(** Values representable in [value_type], varint.hpp:56. *)
Definition in_vtype (t : vtype) (v : Z) : Prop :=
  match t with
  | VI32 | VS32 => fits_s 32 v
  | VI64 | VS64 => fits_s 64 v
  | VU32 => fits_u 32 v
  | VU64 => fits_u 64 v
  end.

(** [static_cast<value_type>(x)], varint.hpp:331,335. *)
Definition cast_vtype (t : vtype) (x : Z) : Z :=
  match t with
  | VI32 | VS32 => wrapS 32 x
  | VI64 | VS64 => wrapS 64 x
  | VU32 => wrapU 32 x
  | VU64 => wrapU 64 x
  end.

(** Value handed to the base-128 loop, varint.hpp:97-101.  [item.value] is
    converted to the unsigned encode type; for zigzag it is shifted and xored
    with the arithmetic right shift of the signed value. *)
Definition pack_value (t : vtype) (v : Z) : Z :=
  let w := enc_bits t in
  let u := wrapU w v in
  if is_zigzag t
  then Z.lxor (wrapU w (Z.shiftl u 1)) (wrapU w (Z.shiftr v (w - 1)))
  else u.

(** The emit loop of unchecked_pack_varint, varint.hpp:104-108.  The loop is
    bounded by [fuel]; [pack_varint_spec] (VarintFacts.v) shows 10 always suffices for
    64-bit values. *)
Fixpoint pack_loop (fuel : nat) (value : Z) : bytes :=
  match fuel with
  | O => [Z.land value 255]
  | S f =>
      if 128 <=? value
      then Z.lor (Z.land value 127) 128 :: pack_loop f (Z.shiftr value 7)
      else [value]
  end.

(** unchecked_pack_varint, varint.hpp:95-111. *)
Definition pack_varint (t : vtype) (v : Z) : bytes := pack_loop 10 (pack_value t v).

(** Number of significant bits as computed from [std::countl_zero]:
    [W - countl_zero(x)] is the bit width of [x], varint.hpp:47-48. *)
Definition bit_width (x : Z) : Z := if x <=? 0 then 0 else Z.log2 x + 1.

(** varint_size on an unsigned value of any width, varint.hpp:47-50. *)
Definition varint_size_u (uv : Z) : Z := (bit_width (Z.lor uv 1) + 6) / 7.

(** varint_size<zig_zag>, varint.hpp:43-45: [(value << 1) ^ (value >> (W-1))]
    on the signed value, then converted to unsigned. *)
Definition zigzag_size_arg (w v : Z) : Z :=
  wrapU w (Z.lxor (wrapS w (Z.shiftl v 1)) (Z.shiftr v (w - 1))).

(** varint::encode_size, varint.hpp:72-74. *)
Definition encode_size (t : vtype) (v : Z) : Z :=
  let w := enc_bits t in
  if is_zigzag t then varint_size_u (zigzag_size_arg w v) else varint_size_u (wrapU w v).

(** ** The shift-mix parser, varint.hpp:120-254 *)

(** Instantiations of [shift_mix_parse_varint<Type, MAX_BYTES>]:
    64-bit types, int32 (MAX_BYTES 5), uint32 (MAX_BYTES 5) and the tag parser
    (uint32 with MAX_BYTES 4, deserialize.hpp:594,606). *)
Inductive smtype := SM64 | SMI32 | SMU32 | SMTAG.

(** Outcome of a parser run over readable memory: [PUB] is a read past the
    readable memory (undefined behaviour), [PUnterm] is the "unterminated"
    pointer value, [POk res n] a result with [n] bytes consumed. *)
Inductive pres := PUB | PUnterm | POk (res : Z) (n : nat).

(** [shl_byte], varint.hpp:147-149. *)
Definition shl_byte (n : Z) (byte ones : Z) : Z :=
  wrapS 64 (Z.lor (wrapU 64 (Z.shiftl (wrapU 64 byte) (7 * n)))
                  (Z.shiftr (wrapU 64 ones) (64 - 7 * n))).

(** [*p++] as int8_t, varint.hpp:143. *)
Definition next {R} (ub : R) (m : bytes) (k : Z -> bytes -> R) : R :=
  match m with [] => ub | b :: m' => k b m' end.

(** [done2], varint.hpp:163-171. *)
Definition done2 (res1 res2 res3 : Z) : Z := Z.land res1 (Z.land res2 res3).

(** Tail common to all instantiations, varint.hpp:234-253.  [n] bytes were read
    so far, [is64] is [sizeof(Type) == 8]. *)
Definition sm_last (is64 : bool) (n : nat) (res1 res2 res3 : Z) (m : bytes) : pres :=
  next PUB m (fun b _ =>
    if sext8 b =? 1 then POk (done2 res1 res2 res3) (S n)
    else if negb (Z.land (sext8 b) 128 =? 0) then PUnterm
    else if is64 && (Z.land (sext8 b) 1 =? 0)
         then POk (done2 res1 res2 (wrapS 64 (Z.lxor res3 (wrapS 64 (Z.shiftl 1 63))))) (S n)
         else POk (done2 res1 res2 res3) (S n)).

(** The 64-bit continuation, varint.hpp:198-214. *)
Definition sm_64 (res1 res2 res3 : Z) (m : bytes) : pres :=
  next PUB m (fun b m => let res2 := Z.land res2 (shl_byte 5 (sext8 b) res1) in
  if 0 <=? res2 then POk (done2 res1 res2 res3) 6 else
  next PUB m (fun b m => let res3 := Z.land res3 (shl_byte 6 (sext8 b) res1) in
  if 0 <=? res3 then POk (done2 res1 res2 res3) 7 else
  next PUB m (fun b m => let res2 := Z.land res2 (shl_byte 7 (sext8 b) res1) in
  if 0 <=? res2 then POk (done2 res1 res2 res3) 8 else
  next PUB m (fun b m => let res3 := Z.land res3 (shl_byte 8 (sext8 b) res1) in
  if 0 <=? res3 then POk (done2 res1 res2 res3) 9 else
  sm_last true 9 res1 res2 res3 m)))).

(** The int32 continuation, varint.hpp:215-232: four more bytes of which only
    the continuation bit is looked at. *)
Definition sm_i32 (res1 res2 res3 : Z) (m : bytes) : pres :=
  next PUB m (fun b m => if Z.land (sext8 b) 128 =? 0 then POk (done2 res1 res2 res3) 6 else
  next PUB m (fun b m => if Z.land (sext8 b) 128 =? 0 then POk (done2 res1 res2 res3) 7 else
  next PUB m (fun b m => if Z.land (sext8 b) 128 =? 0 then POk (done2 res1 res2 res3) 8 else
  next PUB m (fun b m => if Z.land (sext8 b) 128 =? 0 then POk (done2 res1 res2 res3) 9 else
  sm_last false 9 res1 res2 res3 m)))).

(** shift_mix_parse_varint, varint.hpp:120-254. *)
Definition shift_mix (ty : smtype) (m : bytes) : pres :=
  next PUB m (fun b m => let res1 := sext8 b in
  if 0 <=? res1 then POk res1 1 else
  next PUB m (fun b m => let res2 := shl_byte 1 (sext8 b) res1 in
  if 0 <=? res2 then POk (Z.land res1 res2) 2 else
  next PUB m (fun b m => let res3 := shl_byte 2 (sext8 b) res1 in
  if 0 <=? res3 then POk (done2 res1 res2 res3) 3 else
  next PUB m (fun b m => let res2 := Z.land res2 (shl_byte 3 (sext8 b) res1) in
  if 0 <=? res2 then POk (done2 res1 res2 res3) 4 else
  match ty with
  | SMTAG => sm_last false 4 res1 res2 res3 m
  | _ =>
      next PUB m (fun b m => let res3 := Z.land res3 (shl_byte 4 (sext8 b) res1) in
      if 0 <=? res3 then POk (done2 res1 res2 res3) 5 else
      match ty with
      | SM64 => sm_64 res1 res2 res3 m
      | SMI32 => sm_i32 res1 res2 res3 m
      | _ => sm_last false 5 res1 res2 res3 m
      end)
  end)))).

(** Which parser instantiation a varint type uses, varint.hpp:328,334. *)
Definition smtype_of (t : vtype) : smtype :=
  match t with VI64 | VU64 | VS64 => SM64 | VI32 | VS32 => SMI32 | VU32 => SMU32 end.

(** unchecked_parse_varint, varint.hpp:319-338.  [-sign] is a signed negation
    cast to uint64. *)
Definition finish_varint (t : vtype) (res : Z) : Z :=
  if is_zigzag t then
    let ures := wrapU 64 res in
    let sign := Z.land ures 1 in
    cast_vtype t (Z.lxor (Z.shiftr ures 1) (wrapU 64 (- sign)))
  else cast_vtype t res.

Definition parse_varint (t : vtype) (m : bytes) : pres :=
  match shift_mix (smtype_of t) m with
  | POk res n => POk (finish_varint t res) n
  | r => r
  end.

(** unchecked_parse_bool, varint.hpp:256-311.  [byte] is an unsigned char; the
    nest of ifs is a loop over bytes 2..9 ([left] bytes left before the tenth),
    the tenth byte being masked with 0x81. *)
Fixpoint parse_bool_loop (left : nat) (n : nat) (byte : Z) (m : bytes) : pres :=
  if Z.land byte 128 =? 0 then POk (if byte =? 0 then 0 else 1) n
  else match left with
       | O =>
           next PUB m (fun b _ =>
             let byte' := Z.lor (byte - 128) (Z.land b 129) in
             if Z.land byte' 128 =? 0 then POk (if byte' =? 0 then 0 else 1) (S n)
             else PUnterm)
       | S l => next PUB m (fun b m' => parse_bool_loop l (S n) (Z.lor (byte - 128) b) m')
       end.

Definition parse_bool (m : bytes) : pres :=
  next PUB m (fun b m' =>
    if (b =? 0) || (b =? 1) then POk b 1 else parse_bool_loop 8 1 b m').
