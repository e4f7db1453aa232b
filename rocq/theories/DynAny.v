(** ProtoJSON of dynamic messages with google.protobuf.Any: model of
    include/hpp_proto/dynamic_message/json.hpp:67-73, 169-267, 358-535, 805-935 and 1069-1225,
    on top of Verif.DynJson, whose restrictions it shares except for that on Any.

    The payload of an Any is binary: it is read and written by the functions of
    Verif.DynDecode and Verif.DynWire.  [find_type] is the pool's get_message_descriptor.
    That glaze hands its options on when it writes what an optional message field refers
    to is taken for granted; for lists of messages the code here does it. *)
From Coq Require Import Ascii String.
Require Import Verif.Bits Verif.Varint Verif.CppText.
Require Import Verif.DynSlots Verif.Dyn Verif.Schema Verif.Archive Verif.Decode Verif.Encode Verif.DynWire Verif.DynDecode Verif.DynJson.
Local Open Scope string_scope.
Local Open Scope list_scope.
Local Open Scope Z_scope.

Definition type_key : bytes := txt "@type".
Definition value_key : bytes := txt "value".

(** message_name_from_type_url, 67-73: what follows the last slash, if there is one and
    something follows it. *)
Fixpoint after_slash (u : bytes) : option bytes :=
  match u with
  | [] => None
  | c :: t => match after_slash t with Some n => Some n | None => if (c =? 47) && negb (contains [47] t) then match t with [] => None | _ => Some t end else None end
  end.

Section DynAny.
  Context (W : list wtype) (J : list jtype) (utf8_ok : bytes -> bool) (le : bool) (maxd : Z).
  Context (fshow : bool -> Z -> bytes) (fparse : bool -> bytes -> option Z).
  Context (find_type : bytes -> option nat).
  Notation known_of := (known_of J).
  Notation jfields := (jfields W J).

  (** The message of the type a URL names, 400-410. *)
  Definition type_of (url : bytes) : res nat :=
    match after_slash url with
    | None => Err BadMessage
    | Some name => match find_type name with Some t => Ok t | None => Err BadMessage end
    end.
  (** read_binpb and write_binpb report errors of their own, which become syntax errors. *)
  Definition or_syntax {T} (r : res T) : res T := match r with Err _ => Err BadMessage | r => r end.
  Definition bytes_at (f : wfield) (l : layout) (s : slot) : bytes := match value (dyn_of f) l s with FBytes b => b | _ => [] end.
  (** is_empty, 418-420 *)
  Definition nothing_at (f : wfield) (l : layout) (s : slot) : bool := negb (has_value (dyn_of f) l s) || match bytes_at f l s with [] => true | _ => false end.

  (** ** Writing *)
  (** to_json_impl, 1128-1179, with message_to_json, 1069-1087.  [plain] writes a message,
      [within] one whose braces are written by the Any.  Of a well known type that is
      written as nothing the member "value" is left without a value. *)
  Definition any_object (plain within : nat -> list slot -> res (list tok)) (url data : bytes) : res (list tok) :=
    t <- type_of url ;;
    p <- or_syntax (dyn_read W utf8_ok maxd t data) ;;
    let head := LBrace :: Str type_key :: Colon :: Str url :: [] in
    match known_of t with
    | KNone => x <- within t p ;; Ok (head ++ (match x with [] => [] | _ => Comma :: x end) ++ [RBrace])
    | _ => x <- plain t p ;; Ok (head ++ Comma :: Str value_key :: Colon :: x ++ [RBrace])
    end.
  (** any_message_json_serializer::to_json, 412-433. *)
  Definition write_any (plain within : nat -> list slot -> res (list tok)) (ty : nat) (m : list slot) : res (list tok) :=
    match w_fields (wty W ty) with
    | [(f0, l0); (f1, l1)] =>
        let url := bytes_at f0 l0 (slot_at m l0) in
        let data := bytes_at f1 l1 (slot_at m l1) in
        if nothing_at f0 l0 (slot_at m l0) && nothing_at f1 l1 (slot_at m l1) then Ok [LBrace; RBrace] else any_object plain within url data
    | _ => Ok []
    end.
  (** dynamic_protojson_traversal::write_impl, 818-862.  [o]: the option opening_handled,
      with which the object of a message is written without its braces (201-225).  It is
      handed on to the values of the members (192), of lists, and of a google.protobuf.Value;
      the entries of a map take it back (272-287).  [inside]: inside_any_envelope. *)
  Fixpoint awrite_msg (fuel : nat) (depth : Z) (inside o q : bool) (ty : nat) (m : list slot) : res (list tok) :=
    match fuel with
    | O => NoFuel
    | S n =>
        if scope_ok maxd depth then
          let rec := awrite_msg n (depth + 1) false in
          if w_entry (wty W ty) && negb inside then write_entry W J le fshow (rec false) q ty m
          else
            match known_of ty with
            | KAny => write_any (rec o q) (awrite_msg n (depth + 1) true true q) ty m
            | KNone => x <- write_members W le fshow (rec o) q true (jfields ty) m ;; Ok (if o then x else LBrace :: x ++ [RBrace])
            | _ => write_body W J le fshow (rec o) q ty m
            end
        else Err TooLarge
    end.
  Definition awrite_json (fuel : nat) (ty : nat) (m : list slot) : res (list tok) := awrite_msg fuel 0 false false false ty m.

  (** ** Reading *)
  (** get_type_url, 443-478, in the loop of scan_object_fields, util.hpp:313-345: the last
      "@type" of the object after its brace, and where the payload is read from.  [lead]:
      is_type_key_first. *)
  Fixpoint type_scan (k : nat) (first lead : bool) (url : bytes) (pos ts : list tok) : res (bytes * list tok) :=
    match k with
    | O => NoFuel
    | S k' =>
        match ts with
        | RBrace :: _ => Ok (url, pos)
        | _ =>
            ts1 <- (if first then Ok ts else match ts with Comma :: r => Ok r | _ => Err BadMessage end) ;;
            let pos1 := if first || lead then ts1 else pos in
            match ts1 with
            | Str key :: Colon :: r =>
                if eqb_bytes key type_key then
                  match r with Str u :: r1 => type_scan k' false lead u (if lead then r1 else pos1) r1 | _ => Err BadMessage end
                else r1 <- skip_value r ;; type_scan k' false false url pos1 r1
            | _ => Err BadMessage
            end
        end
    end.
  (** parse_wellknown_any_value, 1090-1126, after the brace: the tokens of the last
      "value", and what follows the object. *)
  Fixpoint value_scan (k : nat) (first : bool) (found : option (list tok)) (ts : list tok) : res (option (list tok) * list tok) :=
    match k with
    | O => NoFuel
    | S k' =>
        match ts with
        | RBrace :: r => Ok (found, r)
        | _ =>
            ts1 <- (if first then Ok ts else match ts with Comma :: r => Ok r | _ => Err BadMessage end) ;;
            match ts1 with
            | Str key :: Colon :: r =>
                if eqb_bytes key value_key then r1 <- skip_value r ;; value_scan k' false (Some (firstn (length r - length r1) r)) r1
                else if eqb_bytes key type_key then r1 <- skip_value r ;; value_scan k' false found r1
                else Err BadMessage
            | _ => Err BadMessage
            end
        end
    end.
  Section Read.
    Variable strict : bool.
    Variable rec : nat -> list slot -> list tok -> res (list slot * list tok).
    (** generic_message_json_serializer::from_json with inside_any_envelope, 230-266. *)
    Fixpoint payload_members (k : nat) (first : bool) (ty : nat) (m : list slot) (ts : list tok) : res (list slot * list tok) :=
      match k with
      | O => NoFuel
      | S k' =>
          match ts with
          | RBrace :: r => Ok (m, r)
          | _ =>
              ts1 <- (if first then Ok ts else match ts with Comma :: r => Ok r | _ => Err BadMessage end) ;;
              match ts1 with
              | Str key :: Colon :: r =>
                  '(m1, r1) <- (if eqb_bytes key type_key then r1 <- skip_value r ;; Ok (m, r1)
                                else match find_field W J ty key with
                                     | Some x => read_at W J utf8_ok fparse rec x m r
                                     | None => if strict then Err BadMessage else r1 <- skip_value r ;; Ok (m, r1)
                                     end) ;;
                  payload_members k' false ty m1 r1
              | _ => Err BadMessage
              end
          end
      end.
    (** from_json_impl, 1181-1225: the URL and the value.  [plain] reads a message, [within]
        the members of one after the brace, [encode] writes it in binary; what [plain]
        leaves unread is not looked at. *)
    Definition any_parts (plain within : nat -> list slot -> list tok -> res (list slot * list tok)) (encode : nat -> list slot -> res bytes)
      (ts : list tok) : res ((bytes * bytes) * list tok) :=
      match ts with
      | LBrace :: ts0 =>
          '(url, pos) <- type_scan (S (length ts0)) true true [] ts0 ts0 ;;
          match url with
          | [] => Err BadMessage
          | _ =>
              t <- type_of url ;;
              '(p, r) <- (match known_of t with
                          | KNone => within t (new_slots W t) pos
                          | _ =>
                              '(v, r) <- value_scan (S (length pos)) true None pos ;;
                              match v with
                              | None => Ok (new_slots W t, r)
                              | Some ts1 => '(p, _) <- plain t (new_slots W t) ts1 ;; Ok (p, r)
                              end
                          end) ;;
              data <- or_syntax (encode t p) ;;
              Ok ((url, data), r)
          end
      | _ => Err BadMessage
      end.
    (** from_json of a google.protobuf.Any, 480-503. *)
    Definition read_any (plain within : nat -> list slot -> list tok -> res (list slot * list tok)) (encode : nat -> list slot -> res bytes)
      (ty : nat) (m : list slot) (ts : list tok) : res (list slot * list tok) :=
      '(ud, r) <- any_parts plain within encode ts ;;
      match w_fields (wty W ty) with
      | [(_, l0); (_, l1)] => Ok (put (put m (l_slot l0) (l_ordinal l0, CBytes (fst ud))) (l_slot l1) (l_ordinal l1, CBytes (snd ud)), r)
      | _ => Err BadMessage
      end.
  End Read.
  (** dynamic_protojson_traversal::read_impl, 882-935; [inside]: inside_any_envelope, with
      which the object is read from after its brace. *)
  Fixpoint aread_msg (strict : bool) (fuel : nat) (depth : Z) (inside : bool) (ty : nat) (m : list slot) (ts : list tok) : res (list slot * list tok) :=
    match fuel with
    | O => NoFuel
    | S n =>
        if scope_ok maxd depth then
          let rec := aread_msg strict n (depth + 1) false in
          if inside then payload_members strict rec (S (length ts)) true ty m ts
          else if w_entry (wty W ty) then read_entry W J utf8_ok fparse rec ty m ts
          else match known_of ty with
               | KAny => read_any rec (aread_msg strict n (depth + 1) true) (dyn_encode W utf8_ok maxd n) ty m ts
               | _ => read_body W J utf8_ok fparse strict rec ty m ts
               end
        else Err TooLarge
    end.
  Definition aread_json (strict : bool) (fuel : nat) (ty : nat) (m : list slot) (ts : list tok) : res (list slot) :=
    '(m1, r) <- aread_msg strict fuel 0 false ty m ts ;; match r with [] => Ok m1 | _ => Err BadMessage end.
End DynAny.
