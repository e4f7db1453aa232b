(** What a user expects of the access to fields of dynamic messages by name and number. *)
Require Import Verif.Bits Verif.DynSlots Verif.Dyn Verif.DynAccess.
Local Open Scope Z_scope.

(** The field meant by a name or a number: the first that has it *)
Definition is_key (k : key) (f : tfield) : Prop := match k with ByName n => tf_name f = n | ByNumber n => tf_number f = n end.
Definition meant (fs : list tfield) (k : key) (i : nat) (f : tfield) : Prop :=
  nth_error fs i = Some f /\ is_key k f /\ forall j g, (j < i)%nat -> nth_error fs j = Some g -> ~ is_key k g.

(** The C++ types of the numeric types of protobuf *)
Definition num_type (p : ptype) (n : num) : Prop :=
  In (p, n) [(PDouble, NDouble); (PFloat, NFloat); (PBool, NBool);
             (PInt32, NI32); (PSInt32, NI32); (PSFixed32, NI32); (PUInt32, NU32); (PFixed32, NU32);
             (PInt64, NI64); (PSInt64, NI64); (PSFixed64, NI64); (PUInt64, NU64); (PFixed64, NU64)].
Definition is_enum (p : ptype) : Prop := exists vs, p = PEnum vs.
Definition is_message (p : ptype) : Prop := exists ty, p = PMsg ty.

(** ** Setting *)
(** The type of the argument suits a field of type [p], repeated or not. *)
Definition suits (p : ptype) (rep : bool) (v : arg) : Prop :=
  match v with
  | ANum n _ => rep = false /\ num_type p n
  | AStr _ => rep = false /\ p = PString
  | AByt _ => rep = false /\ p = PBytes
  | AENum _ => rep = false /\ is_enum p
  | AEName _ => rep = false /\ (is_enum p \/ p = PString)
  | AMsg _ _ => rep = false /\ is_message p
  | ANums n _ => rep = true /\ num_type p n
  | AStrs _ => rep = true /\ p = PString
  | AByts _ => rep = true /\ p = PBytes
  | AENums _ | AENames _ => rep = true /\ is_enum p
  | AMsgs _ => rep = true /\ is_message p
  | ASpan _ => False
  end.
(** The names and the types of messages among the arguments *)
Definition names_in (v : arg) : list bytes := match v with AEName b => [b] | AENames l => l | _ => [] end.
Definition types_in (v : arg) : list nat := match v with AMsg ty _ => [ty] | AMsgs l => map fst l | _ => [] end.
(** When a call succeeds, and with which error it fails.  No two of the cases hold at once. *)
Definition verdict (p : ptype) (rep : bool) (v : arg) (e : option derr) : Prop :=
  match e with
  | None => suits p rep v /\ (forall vs, p = PEnum vs -> forall b, In b (names_in v) -> In b (map fst vs)) /\ (forall ty, p = PMsg ty -> forall ty', In ty' (types_in v) -> ty' = ty)
  | Some InvalidType => ~ suits p rep v
  | Some InvalidEnumName => suits p rep v /\ exists vs b, p = PEnum vs /\ In b (names_in v) /\ ~ In b (map fst vs)
  | Some WrongMessageType => suits p rep v /\ exists ty ty', p = PMsg ty /\ In ty' (types_in v) /\ ty' <> ty
  | Some _ => False
  end.

(** The number of a name: that of the first value of the enum with this name *)
Definition number_of (vs : list (bytes * Z)) (b : bytes) (z : Z) : Prop := exists h r, vs = h ++ (b, z) :: r /\ ~ In b (map fst h).
(** The value a field has after it was set with what is not a message *)
Inductive means (p : ptype) : arg -> fval -> Prop :=
| MNum n z : means p (ANum n z) (FInt z)
| MStr b : means p (AStr b) (FBytes b)
| MByt b : means p (AByt b) (FBytes b)
| MENum z : means p (AENum z) (FInt z)
| MText b : p = PString -> means p (AEName b) (FBytes b)
| MEName vs b z : p = PEnum vs -> number_of vs b z -> means p (AEName b) (FInt z)
| MNums n l : means p (ANums n l) (FInts l)
| MStrs l : means p (AStrs l) (FStrs l)
| MByts l : means p (AByts l) (FStrs l)
| MENums l : means p (AENums l) (FInts l)
| MENames vs l zs : p = PEnum vs -> Forall2 (number_of vs) l zs -> means p (AENames l) (FInts zs).
(** A field with this value is present. *)
Definition shows (x : fval) : bool := match x with FInts [] | FStrs [] | FMsgs [] => false | _ => true end.
Definition is_messages (v : arg) : Prop := match v with AMsg _ _ | AMsgs _ => True | _ => False end.
(** Lists of names and of messages are taken element by element. *)
Definition by_element (v : arg) : Prop := match v with AENames _ | AMsgs _ => True | _ => False end.

(** ** Getting *)
(** The type asked for suits the field. *)
Definition asks (p : ptype) (rep : bool) (r : request) : Prop :=
  match r with
  | RNum n => rep = false /\ num_type p n
  | RStr => rep = false /\ p = PString
  | RByt => rep = false /\ p = PBytes
  | RENum | REName | REValue => rep = false /\ is_enum p
  | RMsg => rep = false /\ is_message p
  | RNums n => rep = true /\ num_type p n
  | RStrs => rep = true /\ p = PString
  | RByts => rep = true /\ p = PBytes
  | RENums | RENames => rep = true /\ is_enum p
  end.
(** The name of a number: that of the first value of the enum with this number; none if there is no such value. *)
Definition name_is (vs : list (bytes * Z)) (z : Z) (b : bytes) : Prop :=
  (exists h r, vs = h ++ (b, z) :: r /\ ~ In z (map snd h)) \/ (b = [] /\ ~ In z (map snd vs)).
(** The answer of get for a field that is present or not and has the value [x] *)
Inductive answers (p : ptype) (rep : bool) (present : bool) (x : fval) : request -> fval + derr -> Prop :=
| NoType r : ~ asks p rep r -> answers p rep present x r (inr InvalidType)
| AsIs r : asks p rep r -> r <> REName -> r <> RENames -> r <> RMsg -> answers p rep present x r (inl x)
| Name vs z b : rep = false -> p = PEnum vs -> x = FInt z -> name_is vs z b -> b <> [] -> answers p rep present x REName (inl (FBytes b))
| NoName vs z : rep = false -> p = PEnum vs -> x = FInt z -> name_is vs z [] -> answers p rep present x REName (inr UnknownEnumValue)
| Names vs zs bs : rep = true -> p = PEnum vs -> x = FInts zs -> Forall2 (name_is vs) zs bs -> answers p rep present x RENames (inl (FStrs bs))
| Message m : asks p rep RMsg -> present = true -> x = FMsg m -> answers p rep present x RMsg (inl x)
| NoMessage : asks p rep RMsg -> present = false -> answers p rep present x RMsg (inr NoSuchValue).
(** What to ask for to get back what was set, and what that is *)
Inductive back : arg -> request -> fval -> Prop :=
| BNum n z : back (ANum n z) (RNum n) (FInt z)
| BStr b : back (AStr b) RStr (FBytes b)
| BByt b : back (AByt b) RByt (FBytes b)
| BENum z : back (AENum z) RENum (FInt z)
| BEName b : back (AEName b) REName (FBytes b)
| BNums n l : back (ANums n l) (RNums n) (FInts l)
| BStrs l : back (AStrs l) RStrs (FStrs l)
| BByts l : back (AByts l) RByts (FStrs l)
| BENums l : back (AENums l) RENums (FInts l)
| BENames l : back (AENames l) RENames (FStrs l).
(** No two values of the enum have the same number, and all have names. *)
Definition no_aliases (p : ptype) : Prop := forall vs, p = PEnum vs -> NoDup (map snd vs) /\ ~ In [] (map fst vs).

(** ** Chains *)
Section Chains.
  Context (E : nat -> dtype) (fuel : nat) (t : dtype) (fs : list tfield).
  (** The calls all succeed, one after the other. *)
  Inductive all_succeed : list (key * arg) -> list slot -> list slot -> Prop :=
  | Start m : all_succeed [] m m
  | Step k v r m m1 m2 : set_by E fuel t fs k v m = Some (m1, None) -> all_succeed r m1 m2 -> all_succeed ((k, v) :: r) m m2.
End Chains.
