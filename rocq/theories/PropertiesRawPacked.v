(** Fixed size values on machines of both byte orders.

    Modelled code: include/hpp_proto/binpb/deserialize.hpp:266-277 and 288-357, include/hpp_proto/binpb/serialize.hpp:73-105 and
    133-169, include/hpp_proto/memory_resource_utils.hpp:177-235 and 370-382. *)
Require Import Verif.Bits Verif.Schema Verif.Archive Verif.Decode Verif.RawPacked Verif.RawPackedSpec.
Require Verif.RawPacked1.
Local Open Scope list_scope.
Local Open Scope nat_scope.

(** ** C112: fixed size values are the same bytes on every machine, and are read back on every other. *)
(** What is written: the low byte first, one value or several, at run time or in constant evaluation. *)
Theorem C112_write const le sz x xs : write_fixed le sz x = wire sz x /\ write_fixeds const le sz xs = wires sz xs.
Proof. exact (conj (RawPacked1.write_wire le sz x) (RawPacked1.writes_wires const le sz xs)). Qed.
Print Assumptions C112_write.
(** What is read: the values, and the bytes after them are left, whichever way the container is filled. *)
Theorem C112_read raw const le sz x xs rest : sz <> 0 -> Forall (fun x => 0 <= x < 256 ^ Z.of_nat sz)%Z (x :: xs) ->
  read_fixed le sz (wire sz x ++ rest) = (x, rest) /\ packed_fixed raw const le (length xs) sz (wires sz xs ++ rest) = Ok (xs, rest) /\ append_raw_data const le sz (wires sz xs) = Ok xs.
Proof.
  exact (fun Z H => conj (RawPacked1.read_wire le sz x rest (Forall_inv H)) (conj (RawPacked1.fixed_wires raw const le sz xs rest Z (Forall_inv_tail H)) (RawPacked1.raw_wires const le sz xs Z (Forall_inv_tail H)))).
Qed.
Print Assumptions C112_read.
(** Any bytes, enough of them, are read as the values they are the bytes of; too few are refused. *)
Theorem C112_all raw const le n sz bs : sz <> 0 -> all_bytes bs -> n * sz <= length bs ->
  exists xs, length xs = n /\ Forall (fun x => 0 <= x < 256 ^ Z.of_nat sz)%Z xs /\ bs = wires sz xs ++ skipn (n * sz) bs /\ packed_fixed raw const le n sz bs = Ok (xs, skipn (n * sz) bs).
Proof. exact (RawPacked1.fixed_all raw const le n sz bs). Qed.
Print Assumptions C112_all.
Theorem C112_short raw const le n sz bs : sz <> 0 -> packed_fixed raw const le n sz bs = Err BadMessage <-> length bs < n * sz.
Proof.
  intros Z. rewrite (RawPacked1.fixed_chunks raw const le n sz bs Z). destruct (length bs <? n * sz) eqn:E; [apply Nat.ltb_lt in E; tauto|]. apply Nat.ltb_ge in E. split; [discriminate|lia].
Qed.
Print Assumptions C112_short.
(** This is what the decoder model, Decode.v, takes of the bytes of a packed field, so it does not depend on the order. *)
Theorem C112_decoder raw const le n sz bs : sz <> 0 -> n * sz <= length bs -> packed_fixed raw const le n sz bs = Ok (chunks n sz bs, skipn (n * sz) bs).
Proof. intros Z L. rewrite (RawPacked1.fixed_chunks raw const le n sz bs Z). apply Nat.ltb_ge in L. rewrite L. reflexivity. Qed.
Print Assumptions C112_decoder.
(** append_raw_data itself, without its assert, is only defined for whole values. *)
Theorem C112_raw_whole const le sz bs : sz <> 0 -> length bs mod sz <> 0 -> append_raw_data const le sz bs = UB.
Proof. exact (RawPacked1.raw_odd const le sz bs). Qed.
Print Assumptions C112_raw_whole.

Example C112_case : (Forall (fun x => 0 <= x < 256 ^ Z.of_nat 4)%Z [16909060; 255; 4278190080]%Z) /\ all_bytes [4; 3; 2; 1; 255; 0; 0; 0; 7]%Z /\
  write_fixeds false true 4 [16909060; 255]%Z = [4; 3; 2; 1; 255; 0; 0; 0]%Z /\ write_fixeds false false 4 [16909060; 255]%Z = [4; 3; 2; 1; 255; 0; 0; 0]%Z /\
  packed_fixed true false true 2 4 [4; 3; 2; 1; 255; 0; 0; 0; 7]%Z = Ok ([16909060; 255], [7])%Z /\
  packed_fixed true true false 2 4 [4; 3; 2; 1; 255; 0; 0; 0; 7]%Z = Ok ([16909060; 255], [7])%Z /\
  append_raw_data true false 4 [4; 3; 2; 1; 255; 0; 0; 0]%Z = Ok [16909060; 255]%Z /\
  packed_fixed false false false 2 4 [4; 3; 2; 1; 255; 0; 0]%Z = Err BadMessage /\ append_raw_data false true 4 [1; 2; 3; 4; 5]%Z = UB.
Proof.
  split; [repeat constructor; cbn; lia|]. split; [repeat constructor; unfold is_byte; lia|]. split; [reflexivity|]. split; [reflexivity|]. split; [reflexivity|]. split; [reflexivity|]. split; [reflexivity|]. split; reflexivity.
Qed.
