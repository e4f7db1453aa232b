(** Model of the base64 codec used for JSON [bytes] fields:
    include/hpp_proto/json/base64.hpp. *)
Require Import Verif.Bits.
Require Import String Ascii.
Open Scope Z_scope.

(** A string constant as its character codes. *)
Definition codes (s : string) : list Z :=
  map (fun c => Z.of_N (N_of_ascii c)) (list_ascii_of_string s).

(** base64.hpp 54-56: [base64_chars]. *)
Definition base64_chars : list Z :=
  codes "ABCDEFGHIJKLMNOPQRSTUVWXYZabcdefghijklmnopqrstuvwxyz0123456789+/".

(** [base64_chars[i]]; the default stands for an out of range index, which
    [Base64Proofs] shows is never used. *)
Definition b64c (i : Z) : Z := nth (Z.to_nat i) base64_chars (-1).

(** base64.hpp 44-47: [max_encode_size]. *)
Definition b64_max_encode_size (n : Z) : Z :=
  (n / 3 + (if n mod 3 >? 0 then 1 else 0)) * 4.

(** base64.hpp 67-86 and 92-110: one group of three bytes, for a little-endian
    ([le = true]) or a big-endian host.  [memcpy] of three bytes into the low
    addresses of a zeroed [uint32_t]. *)
Definition b64_enc3 (le : bool) (b0 b1 b2 : Z) : list Z :=
  if le then
    let x := b0 + 256 * b1 + 65536 * b2 in
    [ b64c (Z.land (Z.shiftr x 2) 63);
      b64c (Z.lor (Z.land (wrapU 32 (Z.shiftl x 4)) 48) (Z.land (Z.shiftr x 12) 15));
      b64c (Z.lor (Z.land (Z.shiftr x 6) 60) (Z.land (Z.shiftr x 22) 63));
      b64c (Z.land (Z.shiftr x 16) 63) ]
  else
    let x := Z.shiftr (16777216 * b0 + 65536 * b1 + 256 * b2) 8 in
    let x1 := Z.shiftr x 6 in
    let x2 := Z.shiftr x1 6 in
    let x3 := Z.shiftr x2 6 in
    [ b64c (Z.land x3 63); b64c (Z.land x2 63); b64c (Z.land x1 63); b64c (Z.land x 63) ].

(** base64.hpp 66-87: the inner loop of [k] groups of three bytes.  The cursor
    [i] is the suffix of the source still to be read; [None] stands for reading
    past the end of the source (undefined behaviour). *)
Fixpoint b64_enc_groups (le : bool) (k : nat) (s : bytes) : option (list Z * bytes) :=
  match k with
  | O => Some ([], s)
  | S k' =>
    match s with
    | b0 :: b1 :: b2 :: s' =>
      match b64_enc_groups le k' s' with
      | Some (o, r) => Some (b64_enc3 le b0 b1 b2 ++ o, r)
      | None => None
      end
    | _ => None
    end
  end.

(** base64.hpp 63-88: 24 bytes at a time while 24 bytes remain ([i <= n - 24],
    evaluated only when [n >= 24], so the subtraction does not wrap). *)
Fixpoint b64_enc_unrolled (le : bool) (fuel : nat) (s : bytes) : option (list Z * bytes) :=
  match fuel with
  | O => None
  | S fuel' =>
    if 24 <=? zlen s then
      match b64_enc_groups le 8 s with
      | Some (o, s') =>
        match b64_enc_unrolled le fuel' s' with
        | Some (o', r) => Some (o ++ o', r)
        | None => None
        end
      | None => None
      end
    else Some ([], s)
  end.

(** base64.hpp 91-111: single groups while [i + 2 < n]. *)
Fixpoint b64_enc_rest (le : bool) (fuel : nat) (s : bytes) : option (list Z * bytes) :=
  match fuel with
  | O => None
  | S fuel' =>
    if 2 <? zlen s then
      match b64_enc_groups le 1 s with
      | Some (o, s') =>
        match b64_enc_rest le fuel' s' with
        | Some (o', r) => Some (o ++ o', r)
        | None => None
        end
      | None => None
      end
    else Some ([], s)
  end.

(** base64.hpp 114-127: the last one or two bytes and the padding ([=] is 61). *)
Definition b64_enc_tail (s : bytes) : option (list Z) :=
  match s with
  | [] => Some []
  | [b0] => Some [ b64c (Z.shiftr b0 2); b64c (Z.shiftl (Z.land b0 3) 4); 61; 61 ]
  | [b0; b1] =>
    Some [ b64c (Z.shiftr b0 2);
           b64c (Z.lor (Z.shiftl (Z.land b0 3) 4) (Z.shiftr b1 4));
           b64c (Z.shiftl (Z.land b1 15) 2); 61 ]
  | _ => None
  end.

(** base64.hpp 51-130: [base64::encode].  The characters written to [b], in
    order; the returned count is their number.  [None]: undefined behaviour. *)
Definition b64_encode (le : bool) (s : bytes) : option (list Z) :=
  match b64_enc_unrolled le (S (List.length s)) s with
  | Some (o1, s1) =>
    match b64_enc_rest le (S (List.length s1)) s1 with
    | Some (o2, s2) =>
      match b64_enc_tail s2 with
      | Some o3 => Some (o1 ++ o2 ++ o3)
      | None => None
      end
    | None => None
    end
  | None => None
  end.

(** base64.hpp 153-163: [decode_table] (258 entries, indexed by a byte). *)
Definition b64_table : list Z :=
  [ 64; 64; 64; 64; 64; 64; 64; 64; 64; 64; 64; 64; 64; 64; 64; 64; 64; 64; 64; 64; 64; 64; 64; 64; 64; 64;
    64; 64; 64; 64; 64; 64; 64; 64; 64; 64; 64; 64; 64; 64; 64; 64; 64; 62; 64; 64; 64; 63; 52; 53; 54; 55;
    56; 57; 58; 59; 60; 61; 64; 64; 64; 64; 64; 64; 64; 0;  1;  2;  3;  4;  5;  6;  7;  8;  9;  10; 11; 12;
    13; 14; 15; 16; 17; 18; 19; 20; 21; 22; 23; 24; 25; 64; 64; 64; 64; 64; 64; 26; 27; 28; 29; 30; 31; 32;
    33; 34; 35; 36; 37; 38; 39; 40; 41; 42; 43; 44; 45; 46; 47; 48; 49; 50; 51; 64; 64; 64; 64; 64; 64; 64;
    64; 64; 64; 64; 64; 64; 64; 64; 64; 64; 64; 64; 64; 64; 64; 64; 64; 64; 64; 64; 64; 64; 64; 64; 64; 64;
    64; 64; 64; 64; 64; 64; 64; 64; 64; 64; 64; 64; 64; 64; 64; 64; 64; 64; 64; 64; 64; 64; 64; 64; 64; 64;
    64; 64; 64; 64; 64; 64; 64; 64; 64; 64; 64; 64; 64; 64; 64; 64; 64; 64; 64; 64; 64; 64; 64; 64; 64; 64;
    64; 64; 64; 64; 64; 64; 64; 64; 64; 64; 64; 64; 64; 64; 64; 64; 64; 64; 64; 64; 64; 64; 64; 64; 64; 64;
    64; 64; 64; 64; 64; 64; 64; 64; 64; 64; 64; 64; 64; 64; 64; 64; 64; 64; 64; 64; 64; 64; 64; 64 ].

Definition b64d (c : Z) : Z := nth (Z.to_nat c) b64_table (-1).

(** base64.hpp 198-221: [validate_and_decode_quartet]; [at_end] is
    [source_begin == source_end]. *)
Definition b64_validate (a b c d chc chd : Z) (at_end : bool) : bool :=
  if 64 <=? Z.lor (Z.lor (Z.lor a b) c) d then
    if (chd =? 61) && (chc =? 61) then
      if negb at_end then false
      else if negb (c =? 64) || negb (d =? 64) then false else true
    else if chd =? 61 then
      if negb at_end then false
      else if negb (d =? 64) then false else true
    else false
  else true.

(** base64.hpp 224-236: [write_decoded_bytes] with [room = len - j] bytes left
    to write. *)
Definition b64_write (triple : Z) (room : Z) : list Z :=
  firstn (Z.to_nat room)
    [ Z.land (Z.shiftr triple 16) 255; Z.land (Z.shiftr triple 8) 255;
      Z.land (Z.shiftr triple 0) 255 ].

(** base64.hpp 172-193: the loop over quartets; the cursor is the suffix of the
    text still to be read, [room] is [len - j].  [None] is [return false]; a
    text that is not a whole number of quartets is excluded by the caller. *)
Fixpoint b64_dec_loop (s : bytes) (room : Z) : option bytes :=
  match s with
  | cha :: chb :: chc :: chd :: s' =>
    let a := b64d cha in let b := b64d chb in
    let c := b64d chc in let d := b64d chd in
    if b64_validate a b c d chc chd (match s' with [] => true | _ => false end) then
      let triple := wrapU 32 (Z.shiftl a 18 + Z.shiftl b 12 + Z.shiftl c 6 + d) in
      let w := b64_write triple room in
      match b64_dec_loop s' (room - zlen w) with
      | Some o => Some (w ++ o)
      | None => None
      end
    else None
  | _ => if room =? 0 then Some [] else None
  end.

(** base64.hpp 132-194: [base64::decode]; [Some v] is [true] with [value = v],
    [None] is [false]. *)
Definition b64_decode (s : bytes) : option bytes :=
  let n := zlen s in
  if n =? 0 then Some []
  else if negb (n mod 4 =? 0) then None
  else
    let len0 := n / 4 * 3 in
    let len1 := if nth (Z.to_nat (n - 1)) s 0 =? 61 then len0 - 1 else len0 in
    let len2 := if nth (Z.to_nat (n - 2)) s 0 =? 61 then len1 - 1 else len1 in
    b64_dec_loop s len2.
