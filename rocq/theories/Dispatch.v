(** The lookup from field numbers to members: model of util::reverse_indices,
    include/hpp_proto/binpb/meta.hpp:305-464.

    The tables are built at compile time.  An access outside an array would be a
    compile error; it is modelled by [None]. *)
Require Import Verif.Bits Verif.Schema.
Open Scope Z_scope.

(** One member of the meta tuple: a field (number UINT32_MAX for the member that
    stores unknown fields) or a oneof with the numbers of its alternatives. *)
Inductive meta :=
| MField (num : Z)
| MOneof (nums : list Z).

Definition uint32_max : Z := 4294967295.

(** get_numbers, meta.hpp:307-330. *)
Definition number_of (n : Z) : list Z := if n =? uint32_max then [] else [n].
Definition numbers_of (m : meta) : list Z :=
  match m with MField n => number_of n | MOneof l => List.flat_map number_of l end.
Definition get_numbers (ms : list meta) : list Z := List.flat_map numbers_of ms.

(** index and get_indices, meta.hpp:332-358: an index per field, also for the
    member without a number, and one per alternative. *)
Definition indices_of (i : nat) (m : meta) : list nat :=
  match m with MField _ => [i] | MOneof l => repeat i (length l) end.
Fixpoint get_indices_from (i : nat) (ms : list meta) : list nat :=
  match ms with [] => [] | m :: t => indices_of i m ++ get_indices_from (S i) t end.
Definition get_indices (ms : list meta) : list nat := get_indices_from 0 ms.

(** std::bit_width. *)
Definition bit_width (n : Z) : Z := if n =? 0 then 0 else Z.log2 n + 1.
(** mask, meta.hpp:399. *)
Definition mask_of (numbers : list Z) : Z := 2 ^ bit_width (zlen numbers) - 1.
Definition masked (mask n : Z) : nat := Z.to_nat (Z.land n mask).

(** [a[i] = x]; [None] when out of range. *)
Fixpoint store {T} (i : nat) (x : T) (a : list T) : option (list T) :=
  match a, i with
  | [], _ => None
  | _ :: t, O => Some (x :: t)
  | h :: t, S j => match store j x t with Some t' => Some (h :: t') | None => None end
  end.

(** The counting loop, meta.hpp:401-406. *)
Fixpoint count_masked (mask : Z) (numbers : list Z) (occ : list nat) : option (list nat) :=
  match numbers with
  | [] => Some occ
  | n :: t =>
      match nth_error occ (masked mask n) with
      | Some c => match store (masked mask n) (S c) occ with Some occ' => count_masked mask t occ' | None => None end
      | None => None
      end
  end.

(** std::partial_sum. *)
Fixpoint partial_sums (acc : nat) (l : list nat) : list nat :=
  match l with [] => [] | x :: t => (acc + x)%nat :: partial_sums (acc + x) t end.

(** build_masked_lookup_table_offsets, meta.hpp:400-412. *)
Definition lookup_offsets (mask : Z) (numbers : list Z) : option (list nat) :=
  match count_masked mask numbers (repeat O (Z.to_nat mask + 1)) with
  | Some occ => Some (O :: partial_sums 0 occ)
  | None => None
  end.

(** The filling loop of build_masked_lookup_table, meta.hpp:424-428. *)
Fixpoint fill_table (mask : Z) (numbers : list Z) (indices : list nat) (counts : list nat) (result : list (Z * nat))
  : option (list (Z * nat)) :=
  match numbers, indices with
  | [], _ => Some result
  | n :: t, i :: is =>
      match nth_error counts (masked mask n) with
      | Some c =>
          match store c (n, i) result, store (masked mask n) (S c) counts with
          | Some result', Some counts' => fill_table mask t is counts' result'
          | _, _ => None
          end
      | None => None
      end
  | _ :: _, [] => None
  end.

(** build_masked_lookup_table, meta.hpp:414-432. *)
Definition lookup_table (mask : Z) (numbers : list Z) (indices : list nat) (offsets : list nat) : option (list (Z * nat)) :=
  fill_table mask numbers indices (removelast offsets) (repeat (0, O) (length numbers)).

(** dispatch_by_masked_num, meta.hpp:438-451: the entries from [begin] up to
    [end_]; [Some None] is the call with UINT32_MAX. *)
Fixpoint dispatch_range (fuel : nat) (table : list (Z * nat)) (begin_ end_ : nat) (n : Z) : option (option nat) :=
  match fuel with
  | O => None
  | S f =>
      if Nat.eqb begin_ end_ then Some None
      else
        match nth_error table begin_ with
        | Some (num, i) => if n =? num then Some (Some i) else dispatch_range f table (S begin_) end_ n
        | None => None
        end
  end.

(** The fold over all masked numbers, meta.hpp:453-461: the first [k] with
    [field_number & mask == k]. *)
Fixpoint dispatch_masked (ks : list nat) (mask : Z) (offsets : list nat) (table : list (Z * nat)) (n : Z)
  : option (option nat) :=
  match ks with
  | [] => None
  | k :: t =>
      if Nat.eqb (masked mask n) k then
        match nth_error offsets k, nth_error offsets (S k) with
        | Some b, Some e => dispatch_range (S (length table)) table b e n
        | _, _ => None
        end
      else dispatch_masked t mask offsets table n
  end.

(** dispatch, meta.hpp:463-465, with the tables of lines 399 and 434-435:
    [Some (Some i)] calls the handler of member [i], [Some None] the one for an
    unknown number; [None] is an out of range access or no call at all. *)
Definition dispatch (ms : list meta) (n : Z) : option (option nat) :=
  let numbers := get_numbers ms in
  let mask := mask_of numbers in
  match lookup_offsets mask numbers with
  | Some offsets =>
      match lookup_table mask numbers (get_indices ms) offsets with
      | Some table => dispatch_masked (seq 0 (Z.to_nat mask + 1)) mask offsets table n
      | None => None
      end
  | None => None
  end.

(** The meta tuple of a message descriptor of the decoder model; the member for
    unknown fields, when there is one, comes last. *)
Definition meta_of_field (f : field) : meta :=
  match f with Field num _ _ => MField num | Oneof alts => MOneof (map fst alts) end.
Definition metas_of (d : mdesc) : list meta :=
  map meta_of_field (m_fields d) ++ match m_unk d with UNone => [] | _ => [MField uint32_max] end.
