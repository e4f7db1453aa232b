(** The storage of dynamic messages and the operations on it. *)
Require Import Verif.Bits Verif.DynSlots.

(** ** Types *)
(** The kinds of fields, types.hpp (field_kind_t).  [KInt]: every numeric type and
    bool, whose values are represented by integers; [KBytes]: string and bytes;
    groups are messages; repeated enums are [KInts].  Maps are repeated messages. *)
Inductive dkind := KInt | KEnum | KBytes | KMsg (ty : nat) | KInts | KStrs | KMsgs (ty : nat).
Definition repeated_kind (k : dkind) : bool := match k with KInts | KStrs | KMsgs _ => true | _ => false end.

(** A field: [y_explicit] is explicit_presence() of types.hpp:198-201, [y_dint] and
    [y_dbytes] its default value. *)
Record dynf := DynF { y_kind : dkind; y_oneof : option nat; y_explicit : bool; y_dint : Z; y_dbytes : bytes }.
Definition repeated (f : dynf) : bool := repeated_kind (y_kind f).

(** A message descriptor once its slots are laid out. *)
Record dtype := DType { t_fields : list (dynf * layout); t_slots : nat }.
Definition dtype_of (count : nat) (fs : list dynf) : option dtype :=
  match slot_layout count (map (fun f => DField (y_oneof f) (repeated f)) fs) with
  | None => None
  | Some (ls, n) => Some (DType (combine fs ls) n)
  end.

(** ** Storage *)
(** value_storage, storage.hpp:58-98: the selection word (size of a repeated field)
    and the content.  The size word of strings and the capacity of repeated fields
    are part of the content.  Memory of the arena is represented by what it holds,
    so that two messages sharing memory through adopt or alias_from are not modelled.
    [CBad]: bytes of which the C++ standard does not say what they hold. *)
Inductive content :=
| CZero | CInt (z : Z) | CBytes (b : bytes) | CMsg (m : list (Z * content))
| CInts (l : list Z) | CStrs (l : list bytes) | CMsgs (l : list (list (Z * content))) | CBad.
Definition slot := (Z * content)%type.
Definition zero_slot : slot := (0, CZero).

(** message_value_mref::reset, message_fields.hpp:279-282, and the storage of a new message. *)
Definition new_message (t : dtype) : list slot := repeat zero_slot (t_slots t).

(** ** Reading *)
(** has_value() of every kind of field. *)
Definition has_value (f : dynf) (l : layout) (s : slot) : bool := has_word (repeated f) l (fst s).

(** What value() returns, [FNone] being an exception (bad_optional_access) and
    [FUndef] an unspecified value.  A message is returned as its slots. *)
Inductive fval := FInt (z : Z) | FBytes (b : bytes) | FMsg (m : list slot) | FInts (l : list Z) | FStrs (l : list bytes) | FMsgs (l : list (list slot)) | FNone | FUndef.

(** value(): scalar_fields.hpp:69-74, enum_fields.hpp:175-180, string_fields.hpp:67-72,
    bytes_fields.hpp:69-74, message_fields.hpp:545-550; repeated fields are the
    elements below the size. *)
Definition value (f : dynf) (l : layout) (s : slot) : fval :=
  let absent := y_explicit f && negb (has_value f l s) in
  match y_kind f with
  | KInt | KEnum =>
      if absent then FInt (y_dint f) else match snd s with CZero => FInt 0 | CInt z => FInt z | _ => FUndef end
  | KBytes =>
      if absent then FBytes (y_dbytes f) else match snd s with CZero => FBytes [] | CBytes b => FBytes b | _ => FUndef end
  | KMsg _ => if has_value f l s then match snd s with CMsg m => FMsg m | _ => FUndef end else FNone
  | KInts => if fst s =? 0 then FInts [] else match snd s with CInts x => FInts (firstn (Z.to_nat (fst s)) x) | _ => FUndef end
  | KStrs => if fst s =? 0 then FStrs [] else match snd s with CStrs x => FStrs (firstn (Z.to_nat (fst s)) x) | _ => FUndef end
  | KMsgs _ => if fst s =? 0 then FMsgs [] else match snd s with CMsgs x => FMsgs (firstn (Z.to_nat (fst s)) x) | _ => FUndef end
  end.

(** is_present_or_explicit_default(), scalar_fields.hpp:76-82 and the like: what the
    serializer asks.  The content is only looked at in a field that has a value. *)
Definition is_present (f : dynf) (l : layout) (s : slot) : bool :=
  has_value f l s &&
  match y_kind f with
  | KInt | KEnum => y_explicit f || negb (match value f l s with FInt z => z =? y_dint f | _ => false end)
  | KBytes => y_explicit f || negb (match value f l s with FBytes b => if list_eq_dec Z.eq_dec b (y_dbytes f) then true else false | _ => false end)
  | _ => true
  end.

(** ** Writing *)
Inductive input := IInt (z : Z) | IBytes (b : bytes) | IInts (l : list Z) | IStrs (l : list bytes).

(** set(): scalar_fields.hpp:152-156, enum_fields.hpp:290-293, string_fields.hpp:140-147,
    bytes_fields.hpp:143-150, repeated_scalar_fields.hpp:247-252,
    repeated_enum_fields.hpp:323-328, repeated_string_fields.hpp:166-174.  [None]:
    invalid_field_type.  Sizes are below 2^31 as asserted there.  An integer is
    accepted by every numeric type; the C++ types of the arguments are in DynAccess.v. *)
Definition set_slot (f : dynf) (l : layout) (v : input) (s : slot) : option slot :=
  match y_kind f, v with
  | KInt, IInt z | KEnum, IInt z => Some (l_ordinal l, CInt z)
  | KBytes, IBytes b => Some (l_ordinal l, CBytes b)
  | KInts, IInts x => Some (Z.of_nat (length x), CInts x)
  | KStrs, IStrs x => Some (Z.of_nat (length x), CStrs x)
  | _, _ => None
  end.

(** message_field_mref::emplace, message_fields.hpp:621-630, for a field whose type has [n] slots. *)
Definition emplace_slot (n : nat) (l : layout) (s : slot) : slot := (l_ordinal l, CMsg (repeat zero_slot n)).

(** value_storage::reset, storage.hpp:87-97, called by clear_field (message_fields.hpp:442-446)
    and field_mref::reset (field_refs.hpp:142). *)
Definition clear_slot (s : slot) : slot := (0, snd s).

(** string_field_mref::reset and bytes_field_mref::reset, string_fields.hpp:172-175:
    they set the size to zero too.  The size word means nothing for other contents. *)
Definition reset_bytes (s : slot) : slot := (0, match snd s with CBytes _ => CBytes [] | c => c end).

(** enum_field_mref::value(), enum_fields.hpp:271-276: when the field is absent the
    default is written to the first four bytes of the content.  If an alternative of
    the oneof is active, its content is overwritten: [CBad]. *)
Definition enum_mref_value (f : dynf) (l : layout) (s : slot) : slot :=
  if y_explicit f && negb (has_value f l s) then (fst s, if fst s =? 0 then CInt (y_dint f) else CBad) else s.

(** ** Messages *)
Definition field (t : dtype) (i : nat) : option (dynf * layout) := nth_error (t_fields t) i.
Definition slot_at (m : list slot) (l : layout) : slot := nth (l_slot l) m zero_slot.
Fixpoint put (m : list slot) (i : nat) (s : slot) : list slot :=
  match m, i with
  | [], _ => []
  | _ :: r, O => s :: r
  | x :: r, S j => x :: put r j s
  end.

(** field_by_number(…).set(…), message_fields.hpp:417-423, and clear_field. *)
Definition set_field (t : dtype) (i : nat) (v : input) (m : list slot) : option (list slot) :=
  match field t i with
  | None => None
  | Some (f, l) => match set_slot f l v (slot_at m l) with None => None | Some s => Some (put m (l_slot l) s) end
  end.
Definition emplace_field (n : nat) (t : dtype) (i : nat) (m : list slot) : list slot :=
  match field t i with None => m | Some (_, l) => put m (l_slot l) (emplace_slot n l (slot_at m l)) end.
Definition clear_field (t : dtype) (i : nat) (m : list slot) : list slot :=
  match field t i with None => m | Some (_, l) => put m (l_slot l) (clear_slot (slot_at m l)) end.
Definition peek_enum (t : dtype) (i : nat) (m : list slot) : list slot :=
  match field t i with None => m | Some (f, l) => put m (l_slot l) (enum_mref_value f l (slot_at m l)) end.

(** ** Cloning *)
Section Clone.
  (** The message types. *)
  Variable E : nat -> dtype.

  Fixpoint clone_list {A B} (g : A -> B -> option A) (new : A) (dst : list A) (src : list B) : option (list A) :=
    match src with
    | [] => Some []
    | y :: ys =>
        let (x, xs) := match dst with [] => (new, []) | x :: xs => (x, xs) end in
        match g x y with
        | None => None
        | Some z => match clone_list g new xs ys with None => None | Some zs => Some (z :: zs) end
        end
    end.

  (** clone_from of each kind of field: scalar_fields.hpp:159, enum_fields.hpp:253-261,
      string_fields.hpp:151-157, message_fields.hpp:666-673,
      repeated_scalar_fields.hpp:259-266, repeated_enum_fields.hpp:365-368,
      repeated_string_fields.hpp:181-191, repeated_message_fields.hpp:222-228 with
      resize 170-183 (elements kept are cloned over, new ones start zeroed).
      [clone ty] clones a message of type [ty]; [None]: out of fuel.  An enum is
      cloned by copying the struct of_int32: the selection word and four bytes of
      content, so that the content of another alternative is not copied as a whole. *)
  Definition clone_field (clone : nat -> list slot -> list slot -> option (list slot)) (f : dynf) (l : layout) (dst src : slot) : option slot :=
    match y_kind f with
    | KInt => Some (l_ordinal l, match value f l src with FInt z => CInt z | _ => CBad end)
    | KEnum =>
        Some (fst src,
              if match y_oneof f with None => true | Some _ => (fst src =? 0) || (fst src =? l_ordinal l) end
              then match snd src with CZero => CZero | CInt z => CInt z | _ => CBad end
              else CBad)
    | KBytes =>
        if has_value f l src then Some (l_ordinal l, match value f l src with FBytes b => CBytes b | _ => CBad end)
        else Some (reset_bytes dst)
    | KMsg ty =>
        if has_value f l src then
          match value f l src with
          | FMsg m => match clone ty (new_message (E ty)) m with None => None | Some r => Some (l_ordinal l, CMsg r) end
          | _ => Some (l_ordinal l, CBad)
          end
        else Some (clear_slot dst)
    | KInts => Some (match value f l src with FInts x => if fst src =? 0 then clear_slot dst else (Z.of_nat (length x), CInts x) | _ => (fst src, CBad) end)
    | KStrs => Some (match value f l src with FStrs x => if fst src =? 0 then clear_slot dst else (Z.of_nat (length x), CStrs x) | _ => (fst src, CBad) end)
    | KMsgs ty =>
        match value f l src with
        | FMsgs x =>
            match clone_list (clone ty) (new_message (E ty)) (match value f l dst with FMsgs y => y | _ => [] end) x with
            | None => None
            | Some r => Some (Z.of_nat (length r), CMsgs r)
            end
        | _ => Some (fst src, CBad)
        end
    end.

  (** message_value_mref::clone_from, message_fields.hpp:481-486: the loop runs over
      the first num_slots() fields. *)
  Fixpoint clone_fields (clone : nat -> list slot -> list slot -> option (list slot)) (fs : list (dynf * layout)) (dst src : list slot) : option (list slot) :=
    match fs with
    | [] => Some dst
    | (f, l) :: r =>
        match clone_field clone f l (slot_at dst l) (slot_at src l) with
        | None => None
        | Some s => clone_fields clone r (put dst (l_slot l) s) src
        end
    end.

  Fixpoint clone_message (fuel : nat) (ty : nat) (dst src : list slot) : option (list slot) :=
    match fuel with
    | O => None
    | S n => clone_fields (clone_message n) (firstn (t_slots (E ty)) (t_fields (E ty))) dst src
    end.

  (** message_field_mref::set, message_fields.hpp:675-686, of a message of the type of the field. *)
  Definition set_message (fuel : nat) (ty : nat) (l : layout) (src : list slot) (s : slot) : option slot :=
    match clone_message fuel ty (if fst s =? l_ordinal l then match snd s with CMsg m => m | _ => [] end else new_message (E ty)) src with
    | None => None
    | Some r => Some (l_ordinal l, CMsg r)
    end.

  (** ** What a user sees of a message *)
  (** Each field with whether it has explicit presence, whether it is present and
      its value, messages being looked into to depth [n] ([VDeep]). *)
  Inductive dval := VInt (z : Z) | VEnum (z : Z) | VBytes (b : bytes) | VMsg (m : list (bool * bool * dval)) | VInts (l : list Z) | VStrs (l : list bytes)
    | VMsgs (l : list (list (bool * bool * dval))) | VNone | VUndef | VDeep.

  Definition see (view : nat -> list slot -> dval) (views : nat -> list (list slot) -> dval) (f : dynf) (l : layout) (s : slot) : dval :=
    match value f l s with
    | FInt z => match y_kind f with KEnum => VEnum z | _ => VInt z end
    | FBytes b => VBytes b
    | FMsg m => match y_kind f with KMsg ty => view ty m | _ => VUndef end
    | FInts x => VInts x
    | FStrs x => VStrs x
    | FMsgs x => match y_kind f with KMsgs ty => views ty x | _ => VUndef end
    | FNone => VNone
    | FUndef => VUndef
    end.

  Fixpoint view (n : nat) (ty : nat) (m : list slot) : list (bool * bool * dval) :=
    map (fun fl => (y_explicit (fst fl), is_present (fst fl) (snd fl) (slot_at m (snd fl)),
           see (fun ty' m' => match n with O => VDeep | S k => VMsg (view k ty' m') end)
               (fun ty' x => match n with O => VDeep | S k => VMsgs (map (view k ty') x) end)
               (fst fl) (snd fl) (slot_at m (snd fl)))) (t_fields (E ty)).
End Clone.
