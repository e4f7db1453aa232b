(** What an array of char stands for. *)
Require Import Verif.Bits.
Local Open Scope list_scope.
Local Open Scope Z_scope.

(** The C string in a buffer: the characters before the first null character, or all if there is none. *)
Fixpoint c_string (buffer : bytes) : bytes :=
  match buffer with [] => [] | c :: r => if c =? 0 then [] else c :: c_string r end.
