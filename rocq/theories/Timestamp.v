(** Model of the JSON text form of google.protobuf.Timestamp:
    include/hpp_proto/json/timestamp_codec.hpp. *)
Require Import Verif.Bits Verif.TextNum Verif.Duration Verif.Calendar.
Open Scope Z_scope.

(** ** Formatting *)

(** timestamp_codec.hpp 119-156: [fixed_len_to_chars] for the three lengths. *)
Definition chars4 (v : Z) (sep : Z) : list Z :=
  [48 + v / 1000; 48 + v / 100 mod 10; 48 + v / 10 mod 10; 48 + v mod 10; sep].
Definition chars2 (v : Z) (sep : Z) : list Z := [48 + v / 10; 48 + v mod 10; sep].
Definition chars9 (v : Z) (sep : Z) : list Z := nanos_digits v ++ [sep].

(** timestamp_codec.hpp 38-40: [std::size] of a literal of 30 characters counts
    its terminator. *)
Definition timestamp_max_encode_size : Z := 31.

(** timestamp_codec.hpp 158-187: [timestamp_codec::encode] ([-] 45, [T] 84, [:] 58,
    [.] 46, [Z] 90); [None] is [-1]. *)
Definition timestamp_encode (seconds nanos : Z) : option (list Z) :=
  if (nanos >? 999999999) || (nanos <? 0) then None
  else if (seconds <? -62135596800) || (seconds >? 253402300799) then None
  else
    let '(y, m, d) := civil_from_days (seconds / 86400) in
    let r := seconds mod 86400 in
    Some (chars4 y 45 ++ chars2 m 45 ++ chars2 d 84 ++
          chars2 (r / 3600) 58 ++ chars2 (r / 60 mod 60) 58 ++
          (if nanos >? 0 then chars2 (r mod 60) 46 ++ chars9 nanos 90
           else chars2 (r mod 60) 90)).

(** ** Parsing *)

(** timestamp_codec.hpp 47-66: [parse_with_separator]; the cursor is the suffix
    of the text, [sep = 0] means no separator.  [None] is [false]. *)
Definition parse_sep (s : list Z) (width : nat) (sep : Z) : option (Z * list Z) :=
  if zlen s <? Z.of_nat width then None
  else match i32_all (firstn width s) with
       | None => None
       | Some v =>
         let r := skipn width s in
         if negb (sep =? 0) then
           match r with
           | c :: r' => if c =? sep then Some (v, r') else None
           | [] => None
           end
         else Some (v, r)
       end.

(** timestamp_codec.hpp 68-77: [parse_datetime]. *)
Definition parse_datetime (s : list Z) : option (Z * Z * Z * Z * Z * Z * list Z) :=
  match parse_sep s 4 45 with None => None | Some (yy, s) =>
  match parse_sep s 2 45 with None => None | Some (mm, s) =>
  match parse_sep s 2 84 with None => None | Some (dd, s) =>
  match parse_sep s 2 58 with None => None | Some (hh, s) =>
  match parse_sep s 2 58 with None => None | Some (mn, s) =>
  match parse_sep s 2 0 with None => None | Some (ss, s) =>
    Some (yy, mm, dd, hh, mn, ss, s) end end end end end end.

(** timestamp_codec.hpp 79-87: [validate_datetime]. *)
Definition validate_datetime (yy mm dd hh mn ss : Z) : bool :=
  if (yy <=? 0) || (mm <=? 0) || (dd <=? 0) || (hh <? 0) || (mn <? 0) || (ss <? 0) then false
  else if (mm >? 12) || (dd >? 31) || (hh >? 23) || (mn >? 59) || (ss >? 59) then false
  else true.

(** timestamp_codec.hpp 89-116: [parse_fractional_nanos]. *)
Definition parse_fractional_nanos (s : list Z) : option Z :=
  match s with
  | [] => Some 0
  | c :: fs =>
    if negb (c =? 46) then None
    else if (zlen fs =? 0) || (9 <? zlen fs) then None
    else match i32_all fs with
         | None => None
         | Some v => if v <? 0 then None else Some (scale10 (9 - length fs) v)
         end
  end.

(** timestamp_codec.hpp 189-218: [timestamp_codec::decode]. *)
Definition timestamp_decode (json : list Z) : option (Z * Z) :=
  match rev json with
  | [] => None
  | c :: r =>
    if negb (c =? 90) then None
    else
      match parse_datetime (rev r) with
      | None => None
      | Some (yy, mm, dd, hh, mn, ss, rest) =>
        if negb (validate_datetime yy mm dd hh mn ss) then None
        else if negb (ymd_ok (yy, mm, dd)) then None
        else
          let seconds := days_from_civil (yy, mm, dd) * 86400 + hh * 3600 + mn * 60 + ss in
          match parse_fractional_nanos rest with
          | None => None
          | Some nanos => Some (seconds, nanos)
          end
      end
  end.
