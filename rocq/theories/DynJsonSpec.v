(** What is expected of the JSON of dynamic messages. *)
Require Import Verif.Bits Verif.Varint Verif.FieldMaskProofs.
Require Import Verif.DynSlots Verif.Dyn Verif.Schema Verif.Archive Verif.DynWire Verif.DynView Verif.DynJson.

(** ** JSON values (RFC 8259), and how they are written *)
Inductive json := JStr (b : bytes) | JNum (b : bytes) | JBool (b : bool) | JNull | JArr (l : list json) | JObj (l : list (bytes * json)).
Fixpoint separated (xs : list (list tok)) : list tok :=
  match xs with [] => [] | x :: r => match r with [] => x | _ => x ++ Comma :: separated r end end.
Fixpoint render (j : json) : list tok :=
  match j with
  | JStr b => [Str b]
  | JNum b => [Num b]
  | JBool true => [TTrue]
  | JBool false => [TFalse]
  | JNull => [TNull]
  | JArr l => LBrack :: separated (map render l) ++ [RBrack]
  | JObj l => LBrace :: separated (map (fun p => Str (fst p) :: Colon :: render (snd p)) l) ++ [RBrace]
  end.
(** A member of an object. *)
Definition member (p : bytes * json) : list tok := Str (fst p) :: Colon :: render (snd p).

Section Spec.
  Context (W : list wtype) (J : list jtype) (utf8_ok : bytes -> bool) (fshow : bool -> Z -> bytes) (fparse : bool -> bytes -> option Z).
  Notation known_of := (known_of J).
  Notation jfields := (jfields W J).

  (** ** The same message *)
  (** The same fields are present, by what the binary serializer asks, with the same
      values.  [fuel] bounds the nesting. *)
  Definition same_slot (rec : nat -> list slot -> list slot -> Prop) (f : wfield) (l : layout) (s s' : slot) : Prop :=
    present f l s = present f l s' /\
    (present f l s = true ->
     match w_elem f, value (dyn_of f) l s, value (dyn_of f) l s' with
     | EMsg ty _, FMsg m, FMsg m' => rec ty m m'
     | EMsg ty _, FMsgs x, FMsgs x' => Forall2 (rec ty) x x'
     | EMsg _ _, _, _ => False
     | _, v, v' => v = v'
     end).
  Fixpoint same (fuel : nat) (ty : nat) (m m' : list slot) : Prop :=
    match fuel with
    | O => False
    | S n => length m' = w_slots (wty W ty) /\ Forall (fun fl => same_slot (same n) (fst fl) (snd fl) (slot_at m (snd fl)) (slot_at m' (snd fl))) (w_fields (wty W ty))
    end.

  (** ** Messages that can be written *)
  (** The values of scalars that JSON represents: floating point numbers that are read
      back, strings that are valid, numbers of enums that have a name or are not negative.
      google.protobuf.NullValue outside google.protobuf.Value is left out. *)
  Definition scalar_printable (jf : jfield) (e : elem) (v : val) : Prop :=
    match e, v with
    | EFix b true, VInt z => fparse b (fshow b z) = Some z
    | EEnum _, VInt z => j_null jf = false /\ ((exists n, In (n, z) (j_values jf)) \/ 0 <= z)
    | EBytes _ _, VBytes b => j_string jf = true -> utf8_ok b = true
    | _, _ => True
    end.
  Definition slot_printable (rec : nat -> list slot -> Prop) (jf : jfield) (f : wfield) (l : layout) (s : slot) : Prop :=
    match value (dyn_of f) l s with
    | FInt z => scalar_printable jf (w_elem f) (VInt z)
    | FBytes b => scalar_printable jf (w_elem f) (VBytes b)
    | FInts x => Forall (fun z => scalar_printable jf (w_elem f) (VInt z)) x
    | FStrs x => Forall (fun b => scalar_printable jf (w_elem f) (VBytes b)) x
    | FMsg m => forall ty d, w_elem f = EMsg ty d -> rec ty m
    | FMsgs x => forall ty d, w_elem f = EMsg ty d -> Forall (rec ty) x
    | _ => True
    end.
  Definition has (fl : wfield * layout) (m : list slot) : bool := has_value (dyn_of (fst fl)) (snd fl) (slot_at m (snd fl)).
  (** The field is absent and holds nothing of an earlier value (C61_clear_value_refuted). *)
  Definition unset (fl : wfield * layout) (m : list slot) : Prop := has fl m = false /\ value (dyn_of (fst fl)) (snd fl) (slot_at m (snd fl)) = FInt 0.

  (** [rec]: the same for the messages within. *)
  Definition printable_body (rec : nat -> list slot -> Prop) (ty : nat) (m : list slot) : Prop :=
    let slots := forall jf f l, In (jf, (f, l)) (jfields ty) -> has (f, l) m = true -> slot_printable rec jf f l (slot_at m l) in
    if w_entry (wty W ty) then slots /\ Forall (fun fl => has fl m = true) (w_fields (wty W ty))
    else
      match known_of ty with
      | KAny => False
      | KTimestamp | KDuration => Forall (fun fl => has fl m = true \/ unset fl m) (w_fields (wty W ty))
      | KFieldMask =>
          forall f l x, In (f, l) (w_fields (wty W ty)) -> value (dyn_of f) l (slot_at m l) = FStrs x -> Forall comma_free x /\ x <> [[]]
      | KValue =>
          exists i jf f l, nth_error (jfields ty) i = Some (jf, (f, l)) /\ has (f, l) m = true /\
            (i = O -> value (dyn_of f) l (slot_at m l) = FInt 0) /\ (i <> O -> slot_printable rec jf f l (slot_at m l))
      | KWrapper => slots /\ Forall (fun fl => has fl m = true) (w_fields (wty W ty))
      | KStruct | KListValue => slots /\ Forall (fun fl => 0 <= fst (slot_at m (snd fl))) (w_fields (wty W ty))
      | KNone => slots
      end.
  Fixpoint printable (fuel : nat) (ty : nat) (m : list slot) : Prop :=
    match fuel with O => False | S n => printable_body (printable n) ty m end.

  (** ** Schemas *)
  (** The files of the well known types are checked against those of the library
      (factory.cpp:394-421), so that the types have the fields of their definition. *)
  Definition shape (f : wfield) : elem * bool * option nat * bool := (w_elem f, is_rep f, w_oneof f, w_explicit f).
  Definition shapes (ty : nat) := map (fun fl => shape (fst fl)) (w_fields (wty W ty)).
  Definition known_ok (ty : nat) : Prop :=
    match known_of ty with
    | KNone | KAny => True
    | KTimestamp | KDuration => shapes ty = [(EVar VI64, false, None, false); (EVar VI32, false, None, false)]
    | KFieldMask => exists v, shapes ty = [(EBytes true v, true, None, false)]
    | KValue =>
        exists fs jn jd js jb jt jl c v st sl d1 d2,
          wtype_of 1 false fs = Some (wty W ty) /\ jt_fields (jty J ty) = [jn; jd; js; jb; jt; jl] /\
          map shape fs = map (fun e => (e, false, Some O, true)) [EEnum c; EFix true true; EBytes true v; EBool; EMsg st d1; EMsg sl d2] /\
          j_null jn = true /\ j_string js = true /\ known_of st = KStruct /\ known_of sl = KListValue /\
          w_entry (wty W st) = false /\ w_entry (wty W sl) = false
    | KStruct | KListValue =>
        exists te d, shapes ty = [(EMsg te d, true, None, false)] /\ w_entry (wty W te) = match known_of ty with KStruct => true | _ => false end
    | KWrapper => exists e, shapes ty = [(e, false, None, false)] /\ match e with EVar _ | EBool | EFix _ _ | EBytes _ _ => True | _ => False end
    end.
  (** protoc refuses schemas in which two fields have the same JSON name or two values
      of an enum the same name; the descriptor pool does not check the former. *)
  Definition jfield_ok (f : wfield) (jf : jfield) : Prop :=
    NoDup (map fst (j_values jf)) /\ ~ In [] (map fst (j_values jf)) /\
    (forall ty d, w_elem f = EMsg ty d -> w_rep f = None -> w_entry (wty W ty) = false).
  Definition jtype_ok (ty : nat) : Prop :=
    length (jt_fields (jty J ty)) = length (w_fields (wty W ty)) /\
    NoDup (map j_json (jt_fields (jty J ty))) /\
    Forall (fun x => jfield_ok (fst (snd x)) (fst x)) (jfields ty) /\
    known_ok ty /\
    (w_entry (wty W ty) = true -> exists kj kf kl vj vf vl, jfields ty = [(kj, (kf, kl)); (vj, (vf, vl))] /\
       key_elem kj kf = true /\ w_rep vf = None /\ w_oneof kf = None /\ w_oneof vf = None).
  Definition jtypes_ok : Prop := forall ty, jtype_ok ty.
End Spec.
