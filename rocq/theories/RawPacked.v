(** Packed values of fixed size at the level of bytes: how they get into a container on little and big endian machines, at run
    time and in constant evaluation, by append_raw_data or resize.
    Model of include/hpp_proto/binpb/deserialize.hpp:288-357 for one contiguous region (the branches for several regions only
    differ in taking the bytes from one after the other, Verif.Region) and include/hpp_proto/memory_resource_utils.hpp:177-235,
    370-382, and of the writers in include/hpp_proto/binpb/serialize.hpp:73-105, 133-169.  Memory of the container is modelled in Verif.Arena; here only the appended elements are.  Sizes are not bounded:
    n * sizeof does not wrap around. *)
Require Import Verif.Bits Verif.Schema Verif.Archive.
Local Open Scope list_scope.
Local Open Scope nat_scope.

(** std::bit_cast to an unsigned number of that size; [le]: std::endian::native is little.  Values of other types of the size have
    the same bytes. *)
Definition native (le : bool) (v : bytes) : Z := if le then le_val v else le_val (rev v).
(** [n] elements of [sz] bytes whose object representations are [bs]. *)
Fixpoint objects (le : bool) (n sz : nat) (bs : bytes) : list Z :=
  match n with O => [] | S k => native le (firstn sz bs) :: objects le k sz (skipn sz bs) end.

(** bit_cast_view_t::iterator::operator*, memory_resource_utils.hpp:209-218 *)
Definition view_elem (le : bool) (sz : nat) (bs : bytes) : Z :=
  native le (if le then firstn sz bs else rev (firstn sz bs)).
(** The loop from begin() to end(), 201-205 and 225-229, on the bytes that are left: the end is only met exactly.  [UB]: bytes past the
    end are read. *)
Fixpoint view_elems (fuel : nat) (le : bool) (sz : nat) (bs : bytes) : res (list Z) :=
  match fuel with
  | O => NoFuel
  | S k =>
      match bs with
      | [] => Ok []
      | _ => if length bs <? sz then UB else xs <- view_elems k le sz (skipn sz bs) ;; Ok (view_elem le sz bs :: xs)
      end
  end.
(** append_raw_data, 370-382, with assert off.  [const]: std::is_constant_evaluated().  [UB]: more is written than the
    elements counted. *)
Definition append_raw_data (const le : bool) (sz : nat) (bs : bytes) : res (list Z) :=
  let n := length bs / sz in
  if const || ((1 <? sz) && negb le) then
    xs <- view_elems (S (length bs)) le sz bs ;; if n <? length xs then UB else Ok xs
  else if n * sz <? length bs then UB
  else Ok (objects le n sz bs).

(** requires_byteswap, deserialize.hpp:313,348 *)
Definition byteswap (le : bool) (sz : nat) : bool := (1 <? sz) && negb le.
(** The loop over the elements, 316-324. *)
Fixpoint each_elem (le : bool) (n sz : nat) (bs : bytes) : list Z :=
  match n with
  | O => []
  | S k =>
      let v := firstn sz bs in
      native le (if byteswap le sz then rev v else v) :: each_elem le k sz (skipn sz bs)
  end.
(** do_deserialize_packed_resize, 308-339 *)
Definition packed_resize (const le : bool) (n sz : nat) (bs : bytes) : list Z :=
  if const || byteswap le sz then each_elem le n sz bs else objects le n sz (firstn (n * sz) bs).
(** deserialize_packed, 342-357; [raw]: the container has append_raw_data (288-296).  The elements appended and the bytes left. *)
Definition packed_fixed (raw const le : bool) (n sz : nat) (bs : bytes) : res (list Z * bytes) :=
  let nbytes := n * sz in
  if length bs <? nbytes then Err BadMessage
  else if raw && negb (byteswap le sz) then xs <- append_raw_data const le sz (firstn nbytes bs) ;; Ok (xs, skipn nbytes bs)
  else Ok (packed_resize const le n sz bs, skipn nbytes bs).

(** One value, deserialize.hpp:266-277; the bytes are there (checked by the caller or in the slop region, Verif.Region). *)
Definition read_fixed (le : bool) (sz : nat) (bs : bytes) : Z * bytes :=
  let v := firstn sz bs in (native le (if negb le then rev v else v), skipn sz bs).

(** ** Writing *)
(** std::bit_cast of a number to its bytes. *)
Definition repr (le : bool) (sz : nat) (x : Z) : bytes := if le then le_bytes sz x else rev (le_bytes sz x).
(** contiguous_out::serialize and chunked_out::serialize of a value, serialize.hpp:73-83 and 133-139: the bytes written. *)
Definition write_fixed (le : bool) (sz : nat) (x : Z) : bytes :=
  let v := repr le sz x in if negb le && negb (sz =? 1) then rev v else v.
(** The same of a contiguous range, 90-105 and 159-169.  [const] is false for chunked_out.  Chunks too small for the bytes are not
    modelled here. *)
Definition write_fixeds (const le : bool) (sz : nat) (xs : list Z) : bytes :=
  if negb const && (le || (sz =? 1)) then concat (map (repr le sz) xs) else concat (map (write_fixed le sz) xs).
