(** Fixed size values on the wire. *)
Require Import Verif.Bits.
Local Open Scope list_scope.
Local Open Scope Z_scope.

(** The [sz] bytes of a number, low byte first. *)
Fixpoint wire (sz : nat) (x : Z) : bytes := match sz with O => [] | S k => x mod 256 :: wire k (x / 256) end.
Definition wires (sz : nat) (xs : list Z) : bytes := concat (map (wire sz) xs).
