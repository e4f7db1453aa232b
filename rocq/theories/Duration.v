(** Model of the JSON text form of google.protobuf.Duration:
    include/hpp_proto/json/duration_codec.hpp. *)
Require Import Verif.Bits Verif.TextNum.
Open Scope Z_scope.

(** duration_codec.hpp 60-65 and timestamp_codec.hpp 125-130: [write_3_digits]. *)
Definition write_3_digits (v : Z) : list Z := [48 + v / 100; 48 + v / 10 mod 10; 48 + v mod 10].

(** duration_codec.hpp 66-79 and timestamp_codec.hpp 131-140: the fraction in
    three, six or nine digits. *)
Definition nanos_digits (nanos : Z) : list Z :=
  let ms := nanos / 1000000 in
  let us := nanos / 1000 mod 1000 in
  let ns := nanos mod 1000 in
  write_3_digits ms ++
  (if negb (ns =? 0) then write_3_digits us ++ write_3_digits ns
   else if negb (us =? 0) then write_3_digits us else []).

(** duration_codec.hpp 37: [has_same_sign]. *)
Definition has_same_sign (x y : Z) : bool := (x =? 0) || (y =? 0) || Bool.eqb (x >? 0) (y >? 0).

(** duration_codec.hpp 34: [max_encode_size]. *)
Definition duration_max_encode_size : Z := 32.

(** duration_codec.hpp 36-83: [duration_codec::encode] for a value with [int64_t]
    seconds and [int32_t] nanos.  [None] is [-1]; otherwise the characters
    written ('-' 45, '.' 46, 's' 115). *)
Definition duration_encode (seconds nanos : Z) : option (list Z) :=
  if (seconds <? -315576000000) || (seconds >? 315576000000) || (nanos <? -999999999) ||
     (nanos >? 999999999) || negb (has_same_sign seconds nanos)
  then None
  else
    let is_negative := (nanos <? 0) || (seconds <? 0) in
    let positive_seconds := wrapU 64 (if seconds <? 0 then - seconds else seconds) in
    Some ((if is_negative then [45] else []) ++ u64_to_chars positive_seconds ++
          (if negb (nanos =? 0)
           then 46 :: nanos_digits (wrapU 32 (if nanos <? 0 then - nanos else nanos))
           else []) ++ [115]).

(** [s.find('.')]: the part before the first point, and the part after it if
    there is one. *)
Fixpoint split_point (s : list Z) : list Z * option (list Z) :=
  match s with
  | [] => ([], None)
  | c :: s' => if c =? 46 then ([], Some s')
               else let '(a, b) := split_point s' in (c :: a, b)
  end.

(** duration_codec.hpp 128-131: scaling to nine digits, [n] more times. *)
Fixpoint scale10 (n : nat) (v : Z) : Z := match n with O => v | S n' => scale10 n' (wrapS 32 (v * 10)) end.

(** duration_codec.hpp 86-139: [duration_codec::decode].  [None] is [false];
    [Some (seconds, nanos)] is [true] with that value. *)
Definition duration_decode (json : list Z) : option (Z * Z) :=
  match rev json with
  | [] => None
  | c :: r =>
    if negb (c =? 115) then None
    else
      let s := rev r in
      let is_negative := match s with c :: _ => c =? 45 | [] => false end in
      let s := if is_negative then tl s else s in
      let '(sec_str, point) := split_point s in
      match u64_all sec_str with
      | None => None
      | Some us =>
        let seconds := wrapS 64 us in
        if (seconds >? 315576000000) || (seconds <? 0) then None
        else
          let nanos :=
            match point with
            | None => Some 0
            | Some nanos_str =>
              if match nanos_str with c :: _ => c =? 45 | [] => false end || (9 <? zlen nanos_str) then None
              else match i32_all nanos_str with
                   | None => None
                   | Some v => Some (scale10 (9 - length nanos_str) v)
                   end
            end in
          match nanos with
          | None => None
          | Some nanos => if is_negative then Some (- seconds, - nanos) else Some (seconds, nanos)
          end
      end
  end.
