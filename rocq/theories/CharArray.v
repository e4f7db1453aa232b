(** Setting a field of a dynamic message from an array of char: model of the overloads of set_field_by_name and
    set_field_by_number for char arrays, include/hpp_proto/dynamic_message/message_fields.hpp:376-384 and 401-409. *)
Require Import Verif.Bits Verif.DynSlots Verif.Dyn Verif.DynAccess.
Local Open Scope list_scope.
Local Open Scope Z_scope.

(** The string_view made from the array, 380-383 and 405-408: without the last character if that is the null character. *)
Definition array_text (value : bytes) : bytes :=
  let n := length value in
  let has_trailing_null := nth (n - 1) value 1 =? 0 in
  firstn (if has_trailing_null then n - 1 else n)%nat value.

(** set_field_by_name, 376-384, and set_field_by_number, 401-409; then 366-372 and 393-399 ([set_by]).  There are no arrays
    without elements. *)
Definition set_array (E : nat -> dtype) (fuel : nat) (t : dtype) (fs : list tfield) (k : key) (value : bytes) (m : list slot) : option (list slot * option derr) :=
  match value with
  | [] => None
  | _ => set_by E fuel t fs k (AStr (array_text value)) m
  end.
