(** Access to the fields of dynamic messages by name and number with values of C++ types: model of
    message_value_mref and message_value_cref, include/hpp_proto/dynamic_message/message_fields.hpp:71-456,
    field_mref and field_cref, field_refs.hpp:48-215, field_visit.hpp:44-121, the functions get and set
    of the fields and expected_message_mref.hpp:75-126.  The storage is that of Dyn.v. *)
Require Import Verif.Bits Verif.DynSlots Verif.Dyn Verif.DynJson.
Local Open Scope Z_scope.

(** ** Types *)
(** The types of fields; field_kind_t, types.hpp:64-100, is the type and whether the field is repeated.
    Enums have the names and numbers of their values. *)
Inductive ptype :=
| PDouble | PFloat | PInt64 | PUInt64 | PInt32 | PFixed64 | PFixed32 | PBool | PString | PMsg (ty : nat) | PBytes | PUInt32
| PEnum (vs : list (bytes * Z)) | PSFixed32 | PSFixed64 | PSInt32 | PSInt64.
Record tfield := TField { tf_name : bytes; tf_number : Z; tf_type : ptype; tf_repeated : bool; tf_oneof : option nat; tf_explicit : bool; tf_dint : Z; tf_dbytes : bytes }.
Definition kind_of (p : ptype) (rep : bool) : dkind :=
  match p with
  | PString | PBytes => if rep then KStrs else KBytes
  | PMsg ty => if rep then KMsgs ty else KMsg ty
  | PEnum _ => if rep then KInts else KEnum
  | _ => if rep then KInts else KInt
  end.
Definition dynf_of (f : tfield) : dynf := DynF (kind_of (tf_type f) (tf_repeated f)) (tf_oneof f) (tf_explicit f) (tf_dint f) (tf_dbytes f).
(** value_type of scalar_field_cref, scalar_fields.hpp:45-46 with 192-208 *)
Inductive num := NDouble | NFloat | NI64 | NU64 | NI32 | NU32 | NBool.
Definition num_of (p : ptype) : option num :=
  match p with
  | PDouble => Some NDouble | PFloat => Some NFloat | PBool => Some NBool
  | PInt64 | PSInt64 | PSFixed64 => Some NI64
  | PUInt64 | PFixed64 => Some NU64
  | PInt32 | PSInt32 | PSFixed32 => Some NI32
  | PUInt32 | PFixed32 => Some NU32
  | _ => None
  end.
Definition num_eqb (a b : num) : bool :=
  match a, b with NDouble, NDouble | NFloat, NFloat | NI64, NI64 | NU64, NU64 | NI32, NI32 | NU32, NU32 | NBool, NBool => true | _, _ => false end.
Definition is_num (p : ptype) (n : num) : bool := match num_of p with Some k => num_eqb k n | None => false end.

(** dynamic_message_errc, types.hpp:232-243: those that occur here *)
Inductive derr := NoSuchField | NoSuchValue | InvalidType | InvalidEnumName | UnknownEnumValue | WrongMessageType.

(** ** Setting *)
(** What set is called with: a number, std::string_view (or what converts to it), a range of
    std::byte, enum_number, enum_name, a message (its type and slots), and ranges of them;
    [ASpan]: enum_numbers_span.  Floating point numbers are their bits. *)
Inductive arg :=
| ANum (n : num) (z : Z) | AStr (b : bytes) | AByt (b : bytes) | AENum (z : Z) | AEName (b : bytes) | AMsg (ty : nat) (m : list slot)
| ANums (n : num) (l : list Z) | AStrs (l : list bytes) | AByts (l : list bytes) | AENums (l : list Z) | AENames (l : list bytes) | AMsgs (l : list (nat * list slot)) | ASpan (l : list Z).

Section Access.
  (** The types of messages; fuel for cloning *)
  Context (E : nat -> dtype) (fuel : nat).

  (** What is in the slot afterwards, and the error *)
  Definition outcome : Type := (slot * option derr)%type.
  Definition stored (f : tfield) (l : layout) (v : input) (s : slot) : option outcome :=
    Some (match set_slot (dynf_of f) l v s with Some s' => (s', None) | None => (s, Some InvalidType) end).
  (** The loop in repeated_enum_field_mref::set with names, repeated_enum_fields.hpp:330-346 *)
  Fixpoint numbers_of (vs : list (bytes * Z)) (names : list bytes) : list Z * bool :=
    match names with
    | [] => ([], true)
    | n :: t => match value_of vs n with Some z => let '(l, ok) := numbers_of vs t in (z :: l, ok) | None => ([], false) end
    end.
  (** repeated_message_field_mref::set, repeated_message_fields.hpp:230-242, after resize *)
  Fixpoint set_elements (ty : nat) (cur : list (list slot)) (src : list (nat * list slot)) : option (list (list slot) * option derr) :=
    match cur, src with
    | x :: cs, (ty', m) :: ss =>
        if (ty' =? ty)%nat then
          match clone_message E fuel ty x m with
          | None => None
          | Some r => match set_elements ty cs ss with None => None | Some (rs, e) => Some (r :: rs, e) end
          end
        else Some (cur, Some WrongMessageType)
    | _, _ => Some (cur, None)
    end.
  Definition resized (n : nat) (new : list slot) (l : list (list slot)) : list (list slot) := firstn n l ++ repeat new (n - length l).

  (** field_mref::set, field_refs.hpp:171-188, with settable_from_v and set of each kind: scalar_fields.hpp:
      134-135,152-156; string_fields.hpp:115-116,140-147; bytes_fields.hpp:121-122,143-150; enum_fields.hpp:
      240-241,290-303; message_fields.hpp:598-599,675-686; repeated_scalar_fields.hpp:152-154,247-252;
      repeated_string_fields.hpp:65-67,166-174; repeated_bytes_fields.hpp:65-67,165-173;
      repeated_enum_fields.hpp:211-213,323-358; repeated_message_fields.hpp:125-127,230-242.
      enum_name converts to std::string_view.  When a name is not known, the elements after those that were set
      are not kept here; they are above the size.  [None]: out of fuel. *)
  Definition set_value (f : tfield) (l : layout) (v : arg) (s : slot) : option outcome :=
    if tf_repeated f then
      match tf_type f, v with
      | PString, AStrs x => stored f l (IStrs x) s
      | PBytes, AByts x => stored f l (IStrs x) s
      | PEnum _, AENums x => stored f l (IInts x) s
      | PEnum vs, AENames x =>
          let '(zs, ok) := numbers_of vs x in
          if ok then stored f l (IInts zs) s else Some ((Z.of_nat (length zs), CInts zs), Some InvalidEnumName)
      | PMsg ty, AMsgs x =>
          match set_elements ty (resized (length x) (new_message (E ty)) (match value (dynf_of f) l s with FMsgs y => y | _ => [] end)) x with
          | None => None
          | Some (r, e) => Some ((Z.of_nat (length r), CMsgs r), e)
          end
      | p, ANums n x => if is_num p n then stored f l (IInts x) s else Some (s, Some InvalidType)
      | _, _ => Some (s, Some InvalidType)
      end
    else
      match tf_type f, v with
      | PString, AStr b => stored f l (IBytes b) s
      | PString, AEName b => stored f l (IBytes b) s
      | PBytes, AByt b => stored f l (IBytes b) s
      | PEnum _, AENum z => stored f l (IInt z) s
      | PEnum vs, AEName b => match value_of vs b with Some z => stored f l (IInt z) s | None => Some (s, Some InvalidEnumName) end
      | PMsg ty, AMsg ty' m =>
          if (ty' =? ty)%nat then match set_message E fuel ty l m s with Some s' => Some (s', None) | None => None end
          else Some (s, Some WrongMessageType)
      | p, ANum n z => if is_num p n then stored f l (IInt z) s else Some (s, Some InvalidType)
      | _, _ => Some (s, Some InvalidType)
      end.

  (** ** Getting *)
  (** The T of get<T>: a number, std::string_view, bytes_view, enum_number, enum_name, enum_value,
      message_value_cref, and std::span of numbers, of std::string_view and of bytes_view,
      enum_numbers_span, enum_names_view *)
  Inductive request := RNum (n : num) | RStr | RByt | RENum | REName | REValue | RMsg | RNums (n : num) | RStrs | RByts | RENums | RENames.
  (** field_cref::get, field_refs.hpp:100-109, with get of each kind: scalar_fields.hpp:84-91, string_fields.hpp:84-91,
      bytes_fields.hpp:86-93, enum_fields.hpp:193-217, message_fields.hpp:561-570, repeated_scalar_fields.hpp:93-100
      (also for strings and bytes), repeated_enum_fields.hpp:181-190.  An enum_value is its number.
      repeated_message_field_cref has no get. *)
  Definition get_value (f : tfield) (l : layout) (r : request) (s : slot) : fval + derr :=
    let v := value (dynf_of f) l s in
    if tf_repeated f then
      match tf_type f, r with
      | PString, RStrs | PBytes, RByts => inl v
      | PEnum _, RENums => inl v
      | PEnum vs, RENames => inl (match v with FInts x => FStrs (map (name_of vs) x) | _ => v end)
      | p, RNums n => if is_num p n then inl v else inr InvalidType
      | _, _ => inr InvalidType
      end
    else
      match tf_type f, r with
      | PString, RStr | PBytes, RByt => inl v
      | PEnum _, RENum | PEnum _, REValue => inl v
      | PEnum vs, REName => match v with FInt z => match name_of vs z with [] => inr UnknownEnumValue | n => inl (FBytes n) end | _ => inl v end
      | PMsg _, RMsg => if has_value (dynf_of f) l s then inl v else inr NoSuchValue
      | p, RNum n => if is_num p n then inl v else inr InvalidType
      | _, _ => inr InvalidType
      end.

  (** ** Messages *)
  (** field_descriptor_by_name and _by_number, message_fields.hpp:80-88 and 113-121 *)
  Inductive key := ByName (n : bytes) | ByNumber (n : Z).
  Definition matches (k : key) (f : tfield) : bool := match k with ByName n => eqb_bytes (tf_name f) n | ByNumber n => tf_number f =? n end.
  Fixpoint found_at (k : key) (fs : list tfield) : option nat :=
    match fs with [] => None | f :: t => if matches k f then Some O else option_map S (found_at k t) end.
  (** set_field_by_name and set_field_by_number, 365-371 and 392-398.  [t]: the layout of [fs] *)
  Definition set_by (t : dtype) (fs : list tfield) (k : key) (v : arg) (m : list slot) : option (list slot * option derr) :=
    match found_at k fs with
    | None => Some (m, Some NoSuchField)
    | Some i =>
        match nth_error fs i, field t i with
        | Some f, Some (_, l) => match set_value f l v (slot_at m l) with Some (s, e) => Some (put m (l_slot l) s, e) | None => None end
        | _, _ => None
        end
    end.
  (** field_value_by_name and field_value_by_number, 163-171 *)
  Definition get_by (t : dtype) (fs : list tfield) (k : key) (r : request) (m : list slot) : fval + derr :=
    match found_at k fs with
    | None => inr NoSuchField
    | Some i => match nth_error fs i, field t i with Some f, Some (_, l) => get_value f l r (slot_at m l) | _, _ => inr NoSuchField end
    end.
  (** expected_message_mref, expected_message_mref.hpp:83-124: a chain of calls and done() *)
  Fixpoint chain (t : dtype) (fs : list tfield) (calls : list (key * arg)) (m : list slot) : option (list slot * option derr) :=
    match calls with
    | [] => Some (m, None)
    | (k, v) :: r =>
        match set_by t fs k v m with
        | Some (m', None) => chain t fs r m'
        | x => x
        end
    end.
End Access.
