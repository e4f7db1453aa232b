(** What is expected of google.protobuf.Any in the JSON of dynamic messages. *)
Require Import Verif.Bits Verif.Varint.
Require Import Verif.DynSlots Verif.Dyn Verif.Schema Verif.Archive Verif.Decode Verif.Encode Verif.DynWire Verif.DynDecode Verif.DynView.
Require Import Verif.DynJson Verif.DynJsonSpec Verif.DynJsonTree Verif.DynAny.

Definition called (key : bytes) (p : bytes * json) : bool := eqb_bytes (fst p) key.
(** The value of the last member of a name. *)
Definition last_called (key : bytes) (ps : list (bytes * json)) : option json := option_map snd (find (called key) (rev ps)).
Definition is_string (j : json) : bool := match j with JStr _ => true | _ => false end.

Section Spec.
  Context (W : list wtype) (J : list jtype) (utf8_ok : bytes -> bool) (maxd : Z) (fparse : bool -> bytes -> option Z) (find_type : bytes -> option nat) (strict : bool).
  Notation known_of := (known_of J).

  (** ** What an object does to an Any *)
  (** "@type" names the type, wherever it stands, the last one if there are several.  The
      other members are those of the payload, or, for a well known type, "value" is the
      payload.  The Any holds the URL and the payload in binary.
      [sub]: a value for a message; [payload]: members for a message. *)
  Definition parts_of (sub : nat -> list slot -> json -> res (list slot)) (payload : nat -> list slot -> list (bytes * json) -> res (list slot))
    (encode : nat -> list slot -> res bytes) (j : json) : res (bytes * bytes) :=
    match j with
    | JObj ps =>
        if forallb (fun p => negb (called type_key p) || is_string (snd p)) ps then
          match last_called type_key ps with
          | Some (JStr (c :: u)) =>
              t <- type_of find_type (c :: u) ;;
              p <- (match known_of t with
                    | KNone => payload t (new_slots W t) (filter (fun p => negb (called type_key p)) ps)
                    | _ =>
                        if forallb (fun p => called type_key p || called value_key p) ps then
                          match last_called value_key ps with Some v => sub t (new_slots W t) v | None => Ok (new_slots W t) end
                        else Err BadMessage
                    end) ;;
              data <- or_syntax (encode t p) ;;
              Ok (c :: u, data)
          | _ => Err BadMessage
          end
        else Err BadMessage
    | _ => Err BadMessage
    end.
  Definition set_any (sub : nat -> list slot -> json -> res (list slot)) (payload : nat -> list slot -> list (bytes * json) -> res (list slot))
    (encode : nat -> list slot -> res bytes) (ty : nat) (m : list slot) (j : json) : res (list slot) :=
    '(url, data) <- parts_of sub payload encode j ;;
    match w_fields (wty W ty) with
    | [(_, l0); (_, l1)] => Ok (put (put m (l_slot l0) (l_ordinal l0, CBytes url)) (l_slot l1) (l_ordinal l1, CBytes data))
    | _ => Err BadMessage
    end.
  Fixpoint aset_json (fuel : nat) (depth : Z) (ty : nat) (m : list slot) (j : json) : res (list slot) :=
    match fuel with
    | O => NoFuel
    | S n =>
        if scope_ok maxd depth then
          match known_of ty with
          | KAny => set_any (aset_json n (depth + 1)) (aset_payload n (depth + 1)) (dyn_encode W utf8_ok maxd n) ty m j
          | _ => set_body W J utf8_ok fparse strict (aset_json n (depth + 1)) (aset_pair n (depth + 1)) ty m j
          end
        else Err TooLarge
    end
  with aset_pair (fuel : nat) (depth : Z) (ty : nat) (m : list slot) (p : bytes * json) : res (list slot) :=
    match fuel with
    | O => NoFuel
    | S n => if scope_ok maxd depth then set_entry W J utf8_ok fparse (aset_json n (depth + 1)) (aset_pair n (depth + 1)) ty m p else Err TooLarge
    end
  with aset_payload (fuel : nat) (depth : Z) (ty : nat) (m : list slot) (ps : list (bytes * json)) : res (list slot) :=
    match fuel with
    | O => NoFuel
    | S n => if scope_ok maxd depth then in_turn (set_member W J utf8_ok fparse strict (aset_json n (depth + 1)) (aset_pair n (depth + 1)) ty) m ps else Err TooLarge
    end.
End Spec.

(** ** Messages that can be written *)
Section Printable.
  Context (W : list wtype) (J : list jtype) (utf8_ok : bytes -> bool) (maxd : Z) (fshow : bool -> Z -> bytes) (fparse : bool -> bytes -> option Z) (find_type : bytes -> option nat).
  Notation known_of := (known_of J).

  (** Messages of such types keep their braces within an Any
      (C96_nested_message_refuted): no field of theirs is a message other than one of a
      well known type or a map. *)
  Definition shallow (ty : nat) : Prop :=
    w_entry (wty W ty) = false /\ ~ In type_key (map j_json (jt_fields (jty J ty))) /\
    forall f l t d, In (f, l) (w_fields (wty W ty)) -> w_elem f = EMsg t d -> w_entry (wty W t) = true \/ known_of t <> KNone.
  (** A URL that names a type of the pool, and a value that is what the serializer writes
      for a message that can be written itself.  [rec]: the same for that message. *)
  Definition held (n : nat) (rec : nat -> list slot -> Prop) (url data : bytes) : Prop :=
    exists t p,
      utf8_ok url = true /\ type_of find_type url = Ok t /\
      dyn_read W utf8_ok maxd t data = Ok p /\ dyn_encode W utf8_ok maxd n t p = Ok data /\
      typed W n t p /\ rec t p /\ (known_of t = KNone -> shallow t).
  Definition any_printable (n : nat) (rec : nat -> list slot -> Prop) (ty : nat) (m : list slot) : Prop :=
    exists f0 l0 f1 l1 url data,
      w_fields (wty W ty) = [(f0, l0); (f1, l1)] /\
      has (f0, l0) m = true /\ (has (f1, l1) m = true \/ data = []) /\
      value (dyn_of f0) l0 (slot_at m l0) = FBytes url /\ value (dyn_of f1) l1 (slot_at m l1) = FBytes data /\ held n rec url data.
  Fixpoint aprintable (fuel : nat) (ty : nat) (m : list slot) : Prop :=
    match fuel with
    | O => False
    | S n => match known_of ty with KAny => any_printable n (aprintable n) ty m | _ => printable_body W J utf8_ok fshow fparse (aprintable n) ty m end
    end.

  (** The files of the well known types are checked against those of the library
      (factory.cpp:394-421). *)
  Definition atypes_ok : Prop :=
    forall ty,
      (known_of ty <> KNone -> w_entry (wty W ty) = false) /\
      (known_of ty = KAny -> exists v w, shapes W ty = [(EBytes true v, false, None, false); (EBytes false w, false, None, false)]) /\
      (known_of ty = KListValue -> forall f l t d, In (f, l) (w_fields (wty W ty)) -> w_elem f = EMsg t d -> known_of t = KValue).
End Printable.
