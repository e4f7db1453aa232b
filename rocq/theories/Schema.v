(** Message descriptors and values: the reflection data (pb_meta) that the C++
    templates in binpb/meta.hpp carry, as plain data, and the values stored in
    generated message structs. *)
Require Import Verif.Bits Verif.Varint.

(** Element types: what one occurrence of a field holds.
    [EVar]: the varint integer types (varint.hpp:78-85);
    [EBool]; [EFix]: 4 or 8 byte little-endian types, [fl] telling float/double;
    [EEnum]: an enum of underlying type int32, [Some l] when the field is marked
    closed_enum, [l] being the values accepted by [is_valid] (meta.hpp:60-67);
    [EBytes]: string/bytes, [utf8] is field_option::utf8_validation, [view] tells
    a non-owning view type (string_view / span);
    [EMsg]: a message type, [delim] is field_option::group (meta.hpp:59). *)
Inductive elem :=
| EVar (t : vtype)
| EBool
| EFix (is64 fl : bool)
| EEnum (closed : option (list Z))
| EBytes (utf8 view : bool)
| EMsg (ty : nat) (delim : bool).

(** Values.  A message is the list of its members followed by its unknown
    fields; every member is a list of values: one value for a plain member, at
    most one for an optional or oneof, any number for repeated and map members
    (a map element is the message value of its entry type, key then value).
    [VAlt i v] is alternative [i] of a oneof ([std::variant] index [i+1]).
    Fixed width and floating point values are their bit patterns. *)
Inductive val :=
| VInt (z : Z)
| VBytes (b : bytes)
| VMsg (fs : list (list val)) (unk : list (Z * bytes))
| VAlt (i : nat) (v : val).

(** How a member stores its element(s): field_option bits and the C++ member type.
    [CPlain ex d]: a plain member of type T with initial value [d]; [ex] is
    explicit_presence (required fields and map entry members);
    [COpt]: optional<T>, optional_indirect, ...;
    [CRep packed]; [CMap assoc]: a map field, [assoc] false for the non-owning
    representation as a sequence of pairs. *)
Inductive card :=
| CPlain (ex : bool) (d : val)
| COpt
| CRep (packed : bool)
| CMap (assoc : bool).

(** Members: field_meta (meta.hpp:86-91) or oneof_field_meta (meta.hpp:93-105). *)
Inductive field :=
| Field (num : Z) (e : elem) (c : card)
| Oneof (alts : list (Z * elem)).

(** Representation of unknown fields / extensions (deserialize.hpp:616-672):
    none (an empty struct), one flat byte string, a map from field number to
    bytes, or a sequence of (number, bytes) pairs. *)
Inductive ukind := UNone | UBytes | UMap | UPairs.

(** A message descriptor; [entry] marks map_entry::mutable_type /
    read_only_type (meta.hpp:192-257). *)
Record mdesc := MDesc { m_fields : list field; m_unk : ukind; m_entry : bool }.

Definition env := list mdesc.
Definition empty_desc : mdesc := MDesc [] UNone false.
Definition desc_of (E : env) (ty : nat) : mdesc := nth ty E empty_desc.

(** Wire types, meta.hpp:107-114, and tag composition, meta.hpp:139-150.  [number << 3U] is on uint32_t. *)
Definition WT_VARINT := 0. Definition WT_I64 := 1. Definition WT_LEN := 2.
Definition WT_SGROUP := 3. Definition WT_EGROUP := 4. Definition WT_I32 := 5.

Definition make_tag (num wt : Z) : Z := Z.lor (wrapU 32 (Z.shiftl num 3)) wt.
Definition tag_type (tag : Z) : Z := Z.land tag 7.
Definition tag_number (tag : Z) : Z := Z.shiftr tag 3.

(** tag_type<T>(), meta.hpp:120-137; groups use sgroup (serialize.hpp:746-750). *)
Definition elem_wt (e : elem) : Z :=
  match e with
  | EVar _ | EBool | EEnum _ => WT_VARINT
  | EFix true _ => WT_I64
  | EFix false _ => WT_I32
  | EBytes _ _ => WT_LEN
  | EMsg _ delim => if delim then WT_SGROUP else WT_LEN
  end.

(** concepts::maybe_packed_value_type, concepts.hpp:128-132. *)
Definition packable (e : elem) : bool :=
  match e with EVar _ | EBool | EFix _ _ | EEnum _ => true | _ => false end.

(** Initial value of a member of a default constructed message. *)
Definition field_default (f : field) : list val :=
  match f with
  | Field _ _ (CPlain _ d) => [d]
  | _ => []
  end.

(** A default constructed message. *)
Definition default_msg (E : env) (ty : nat) : val :=
  VMsg (map field_default (m_fields (desc_of E ty))) [].

Definition msg_fields (v : val) : list (list val) := match v with VMsg fs _ => fs | _ => [] end.
Definition msg_unk (v : val) : list (Z * bytes) := match v with VMsg _ u => u | _ => [] end.

(** Does member [f] accept field number [n]?  has_field_num, meta.hpp:152-162. *)
Definition has_num (n : Z) (f : field) : bool :=
  match f with
  | Field num _ _ => num =? n
  | Oneof alts => existsb (fun a => fst a =? n) alts
  end.

(** The member responsible for a field number: result of
    reverse_indices::dispatch (meta.hpp:305-464; see Dispatch.v for the table
    itself, which is proved to compute this function). *)
Fixpoint find_field (n : Z) (fs : list field) (i : nat) : option (nat * field) :=
  match fs with
  | [] => None
  | f :: t => if has_num n f then Some (i, f) else find_field n t (S i)
  end.

(** Position of the alternative with number [n] in a oneof: the Index search of
    deserialize_oneof (deserialize.hpp:1239-1273). *)
Fixpoint find_alt (n : Z) (alts : list (Z * elem)) (i : nat) : option (nat * elem) :=
  match alts with
  | [] => None
  | (num, e) :: t => if num =? n then Some (i, e) else find_alt n t (S i)
  end.

(** Assignment to member [i].  A message always has all its members, so the
    padding case (index past the end) does not occur for real messages. *)
Fixpoint set_nth (i : nat) (x : list val) (l : list (list val)) : list (list val) :=
  match l, i with
  | [], O => [x]
  | [], S j => [] :: set_nth j x []
  | _ :: t, O => x :: t
  | h :: t, S j => h :: set_nth j x t
  end.

(** Little-endian value of bytes / bytes of a value: std::bit_cast on a
    little-endian machine (deserialize.hpp:267-277, serialize.hpp:77-90). *)
Fixpoint le_val (bs : bytes) : Z :=
  match bs with [] => 0 | b :: t => b + 256 * le_val t end.
Fixpoint le_bytes (n : nat) (v : Z) : bytes :=
  match n with O => [] | S k => v mod 256 :: le_bytes k (v / 256) end.

Definition fix_size (is64 : bool) : nat := if is64 then 8%nat else 4%nat.

(** ** Map keys *)
(** Key of a map element (an entry message). *)
Definition entry_key (v : val) : val :=
  match v with VMsg ([k] :: _) _ => k | _ => VInt 0 end.

Fixpoint bytes_ltb (a b : bytes) : bool :=
  match a, b with
  | _, [] => false
  | [], _ :: _ => true
  | x :: a', y :: b' => if x <? y then true else if x =? y then bytes_ltb a' b' else false
  end.

(** Key order of the default map type ([std::less] on integers / strings). *)
Definition key_ltb (a b : val) : bool :=
  match a, b with
  | VInt x, VInt y => x <? y
  | VBytes x, VBytes y => bytes_ltb x y
  | VInt _, VBytes _ => true
  | _, _ => false
  end.

(** insert_or_assign on a map kept sorted by key; the finite map operation that
    deserialize.hpp:917 performs (FlatMap.v shows flat_map implements it). *)
Fixpoint map_put (e : val) (l : list val) : list val :=
  match l with
  | [] => [e]
  | h :: t =>
      if key_ltb (entry_key h) (entry_key e) then h :: map_put e t
      else if key_ltb (entry_key e) (entry_key h) then e :: l
      else e :: t
  end.

(** Unknown field stores, deserialize.hpp:616-647: append [b] to the bytes kept for [num]. *)
Fixpoint umap_add (num : Z) (b : bytes) (l : list (Z * bytes)) : list (Z * bytes) :=
  match l with
  | [] => [(num, b)]
  | (n, c) :: t =>
      if n =? num then (n, c ++ b) :: t
      else if num <? n then (num, b) :: l
      else (n, c) :: umap_add num b t
  end.

Fixpoint upairs_add (num : Z) (b : bytes) (l : list (Z * bytes)) : list (Z * bytes) :=
  match l with
  | [] => [(num, b)]
  | (n, c) :: t => if n =? num then (n, c ++ b) :: t else (n, c) :: upairs_add num b t
  end.

(** The flat representation is one byte string, kept here as at most one pair
    with number 0. *)
Definition ubytes_add (b : bytes) (l : list (Z * bytes)) : list (Z * bytes) :=
  match l with
  | [] => [(0, b)]
  | (n, c) :: t => (n, c ++ b) :: t
  end.

Definition unk_add (k : ukind) (num : Z) (b : bytes) (l : list (Z * bytes)) : list (Z * bytes) :=
  match k with
  | UNone => l
  | UBytes => ubytes_add b l
  | UMap => umap_add num b l
  | UPairs => upairs_add num b l
  end.
