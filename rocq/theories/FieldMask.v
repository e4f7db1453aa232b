(** Model of the JSON text form of google.protobuf.FieldMask:
    include/hpp_proto/json/field_mask_codec.hpp. *)
Require Import Verif.Bits.
Open Scope Z_scope.

(** [glz::char_escape_table] (glaze, not in the repository): the two-character
    escapes of JSON.  Modelled by the documented table: backspace, tab, line
    feed, form feed, carriage return, quote and backslash. *)
Definition char_escape (c : Z) : option (list Z) :=
  if c =? 8 then Some [92; 98] else if c =? 9 then Some [92; 116]
  else if c =? 10 then Some [92; 110] else if c =? 12 then Some [92; 102]
  else if c =? 13 then Some [92; 114] else if c =? 34 then Some [92; 34]
  else if c =? 92 then Some [92; 92] else None.

(** field_mask_codec.hpp 51-54: [hex_digit]. *)
Definition hex_digit (v : Z) : Z := if v <? 10 then 48 + v else 97 + (v - 10).

(** field_mask_codec.hpp 62-80: [append_escaped_char]. *)
Definition escape_char (c : Z) : list Z :=
  match char_escape c with
  | Some e => e
  | None => if c <? 32 then [92; 117; 48; 48; hex_digit (Z.shiftr c 4); hex_digit (Z.land c 15)] else [c]
  end.

(** field_mask_codec.hpp 82-87: [append_escaped_path]. *)
Definition escape_path (p : list Z) : list Z := flat_map escape_char p.

(** field_mask_codec.hpp 41-49: [escaped_char_size]. *)
Definition escaped_char_size (c : Z) : Z :=
  if c <? 32 then 6 else if (c =? 34) || (c =? 92) then 2 else 1.

(** field_mask_codec.hpp 89-94: [max_encode_size]. *)
Definition mask_max_encode_size (paths : list (list Z)) : Z :=
  fold_left (fun a p => a + fold_left (fun b c => b + escaped_char_size c) p 0) paths (zlen paths).

(** field_mask_codec.hpp 96-111: [encode]; the characters written, [,] is 44. *)
Definition mask_encode (paths : list (list Z)) : list Z :=
  match paths with
  | [] => []
  | p :: rest => escape_path p ++ flat_map (fun q => 44 :: escape_path q) rest
  end.

(** [std::find_if(cur, end, is_comma)]: what is before the comma, and what
    starts at it. *)
Fixpoint until_comma (s : list Z) : list Z * list Z :=
  match s with
  | [] => ([], [])
  | c :: s' => if c =? 44 then ([], s) else let '(a, b) := until_comma s' in (c :: a, b)
  end.

(** field_mask_codec.hpp 125-132: the loop filling [n] paths. *)
Fixpoint mask_fill (n : nat) (cur : list Z) : list (list Z) :=
  match n with
  | O => []
  | S n' =>
    let '(p, at_comma) := until_comma cur in
    p :: mask_fill n' (match at_comma with [] => cur | _ :: r => r end)
  end.

(** field_mask_codec.hpp 114-134: [decode], which always succeeds; the argument
    is the JSON string after unescaping. *)
Definition mask_decode (json : list Z) : list (list Z) :=
  match json with
  | [] => []
  | _ => mask_fill (S (length (filter (fun c => c =? 44) json))) json
  end.
