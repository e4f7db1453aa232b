(** ProtoJSON of dynamic messages: model of
    include/hpp_proto/dynamic_message/json.hpp and of the parts of
    include/hpp_proto/json/util.hpp it calls, on the storage of Dyn.v.

    Texts are lists of tokens: glaze, which is not part of the repository, turns
    characters into numbers and strings and skips white space.  The brackets, commas and
    colons are read and written by the code modelled here.  Options are those of
    json_read_opts and json_write_opts with a terminated buffer, without prettify and
    always_print_fields_with_no_presence.  google.protobuf.Any (358-535, 1070-1225) is
    refused here and modelled in Verif.DynAny. *)
Require Import Verif.Bits Verif.Varint Verif.TextNum Verif.Base64 Verif.Timestamp Verif.Duration Verif.FieldMask Verif.FieldMaskProofs Verif.Defaults.
Require Import Verif.DynSlots Verif.Dyn Verif.Schema Verif.Archive Verif.Decode Verif.Encode Verif.DynWire Verif.DynDecode.

(** [Str]: a string, by the bytes it denotes; [Num]: a number, by its text. *)
Inductive tok := LBrace | RBrace | LBrack | RBrack | Comma | Colon | Str (b : bytes) | Num (b : bytes) | TTrue | TFalse | TNull.

(** ** Descriptors *)
(** wellknown_types_t, types.hpp:229-240, set by factory.cpp:394-421 for messages of the
    files whose descriptor is the one the library was built with. *)
Inductive known := KNone | KAny | KTimestamp | KDuration | KFieldMask | KValue | KStruct | KListValue | KWrapper.

(** What JSON asks of a field_descriptor_t besides Verif.DynWire.wfield: its names,
    whether a fixed size integer is signed, whether it is a string and not bytes, the names and
    numbers of its enum and whether that is google.protobuf.NullValue. *)
Record jfield := JField { j_name : bytes; j_json : bytes; j_signed : bool; j_string : bool; j_values : list (bytes * Z); j_null : bool }.
Record jtype := JType { jt_known : known; jt_fields : list jfield }.

Fixpoint eqb_bytes (a b : bytes) : bool :=
  match a, b with [], [] => true | x :: a', y :: b' => (x =? y) && eqb_bytes a' b' | _, _ => false end.

(** enum_descriptor::name_of and value_of, factory_addons.hpp:230-252. *)
Definition name_of (vs : list (bytes * Z)) (z : Z) : bytes :=
  match find (fun p => snd p =? z) vs with Some p => fst p | None => [] end.
Definition value_of (vs : list (bytes * Z)) (name : bytes) : option Z :=
  match find (fun p => eqb_bytes (fst p) name) vs with Some p => Some (snd p) | None => None end.

(** ** Numbers *)
(** glaze writes an integer in decimal. *)
Definition show_int (z : Z) : bytes := if z <? 0 then 45 :: u64_to_chars (- z) else u64_to_chars z.
(** Signedness and width of the integer types; fixed size values are stored by their bits. *)
Definition int_kind (signed : bool) (e : elem) : option (bool * Z) :=
  match e with
  | EVar VI32 | EVar VS32 => Some (true, 32)
  | EVar VI64 | EVar VS64 => Some (true, 64)
  | EVar VU32 => Some (false, 32)
  | EVar VU64 => Some (false, 64)
  | EFix is64 false => Some (signed, if is64 then 64 else 32)
  | _ => None
  end.
Definition is64_of (e : elem) : bool := match e with EFix b _ => b | _ => false end.
Definition shown (sg : bool) (w : Z) (e : elem) (z : Z) : Z := match e with EFix _ _ => if sg then wrapS w z else z | _ => z end.
Definition stored (w : Z) (e : elem) (z : Z) : Z := match e with EFix _ _ => wrapU w z | _ => z end.
(** concepts::integral_64_bits, field_wrappers.hpp:68-69. *)
Definition wide (jf : jfield) (e : elem) : bool := match int_kind (j_signed jf) e with Some (_, w) => w =? 64 | None => false end.

Definition true_text : bytes := [116; 114; 117; 101].
Definition false_text : bytes := [102; 97; 108; 115; 101].

(** ** Reading lists and objects, json/util.hpp *)
(** number_of_elements, 347-411: the commas up to [stop], '}' if [brace] and otherwise
    ']'.  Nested objects and arrays are skipped by glaze's skip_until_closed, which looks
    at brackets of one kind only: [skip] is that kind and how many are open. *)
Definition opens (brace : bool) (t : tok) : bool := match t, brace with LBrace, true | LBrack, false => true | _, _ => false end.
Definition closes (brace : bool) (t : tok) : bool := match t, brace with RBrace, true | RBrack, false => true | _, _ => false end.
Fixpoint count_elems (brace : bool) (c : nat) (skip : option (bool * nat)) (ts : list tok) : res nat :=
  match ts with
  | [] => Err BadMessage
  | t :: r =>
      match skip with
      | Some (b, d) =>
          if opens b t then count_elems brace c (Some (b, S d)) r
          else if closes b t then count_elems brace c (match d with O => None | S d' => Some (b, d') end) r
          else count_elems brace c (Some (b, d)) r
      | None =>
          match t with
          | Comma => count_elems brace (S c) None r
          | LBrace => count_elems brace c (Some (true, O)) r
          | LBrack => count_elems brace c (Some (false, O)) r
          | _ => if closes brace t then Ok c else count_elems brace c None r
          end
      end
  end.
Definition number_of_elements (brace : bool) (ts : list tok) : res nat :=
  match ts with
  | [] => Err BadMessage
  | t :: _ => if closes brace t then Ok O else count_elems brace 1 None ts
  end.

(** The loop of parse_repeated, 496-511; [one] reads an element. *)
Fixpoint read_elems {X : Type} (one : list tok -> res (X * list tok)) (n : nat) (ts : list tok) : res (list X * list tok) :=
  match n with
  | O => Ok ([], ts)
  | S k =>
      '(x, r) <- one ts ;;
      match k with
      | O => Ok ([x], r)
      | _ => match r with Comma :: r1 => '(xs, r2) <- read_elems one k r1 ;; Ok (x :: xs, r2) | _ => Err BadMessage end
      end
  end.
(** parse_repeated, 471-514: the result of match_ending is not looked at. *)
Definition read_repeated {X : Type} (brace : bool) (one : list tok -> res (X * list tok)) (ts : list tok) : res (list X * list tok) :=
  match ts with
  | t :: r =>
      if opens brace t then
        n <- number_of_elements brace r ;;
        '(xs, r1) <- read_elems one n r ;;
        Ok (xs, match r1 with t1 :: r2 => if closes brace t1 then r2 else r1 | [] => r1 end)
      else Err BadMessage
  | [] => Err BadMessage
  end.

(** glaze's skip_value without validation: objects and arrays by skip_until_closed.
    A separator where a value is expected is taken to be an error. *)
Fixpoint skip_closed (brace : bool) (d : nat) (ts : list tok) : res (list tok) :=
  match ts with
  | [] => Err BadMessage
  | t :: r =>
      if opens brace t then skip_closed brace (S d) r
      else if closes brace t then match d with O => Ok r | S d' => skip_closed brace d' r end
      else skip_closed brace d r
  end.
Definition skip_value (ts : list tok) : res (list tok) :=
  match ts with
  | LBrace :: r => skip_closed true 0 r
  | LBrack :: r => skip_closed false 0 r
  | (Str _ | Num _ | TTrue | TFalse | TNull) :: r => Ok r
  | _ => Err BadMessage
  end.

Fixpoint commas (xs : list (list tok)) : list tok :=
  match xs with [] => [] | [x] => x | x :: r => x ++ Comma :: commas r end.

Section DynJson.
  (** [fshow], [fparse]: the text glaze writes for a floating point number (64 bits wide
      or not, by its bits) and what it reads from a text. *)
  Context (W : list wtype) (J : list jtype) (utf8_ok : bytes -> bool) (le : bool) (maxd : Z).
  Context (fshow : bool -> Z -> bytes) (fparse : bool -> bytes -> option Z).
  Definition jty (ty : nat) : jtype := nth ty J (JType KNone []).
  Definition known_of (ty : nat) : known := jt_known (jty ty).
  Definition jfields (ty : nat) : list (jfield * (wfield * layout)) := combine (jt_fields (jty ty)) (w_fields (wty W ty)).

  (** ** Scalars *)
  Definition number_text (jf : jfield) (e : elem) (z : Z) : bytes :=
    match int_kind (j_signed jf) e with Some (sg, w) => show_int (shown sg w e z) | None => fshow (is64_of e) z end.
  (** Of the texts glaze reads as integers, those in decimal that fit the type. *)
  Definition number_value (jf : jfield) (e : elem) (t : bytes) : option Z :=
    match int_kind (j_signed jf) e with
    | Some (sg, w) => match t with [] => None | _ => match parse_default sg w t with Some z => Some (stored w e z) | None => None end end
    | None => fparse (is64_of e) t
    end.

  (** to<JSON, T> of the value of a scalar: json.hpp:701-712 for numbers, 730-747 for enums
      (an unknown number is written as uint32_t), json.hpp (include/hpp_proto) 83-129 for
      bytes.  [q]: the option quoted_num. *)
  Definition write_scalar (q : bool) (jf : jfield) (e : elem) (v : val) : res (list tok) :=
    match e, v with
    | EVar _, VInt z | EFix _ _, VInt z => Ok [if q || wide jf e then Str (number_text jf e z) else Num (number_text jf e z)]
    | EBool, VInt z => Ok [if z =? 0 then TFalse else TTrue]
    | EEnum _, VInt z =>
        if j_null jf then Ok [TNull]
        else match name_of (j_values jf) z with
             | [] => Ok [if q then Str (show_int (wrapU 32 z)) else Num (show_int (wrapU 32 z))]
             | n => Ok [Str n]
             end
    | EBytes _ _, VBytes b =>
        if j_string jf then Ok [Str b] else match b64_encode le b with Some t => Ok [Str t] | None => UB end
    | _, _ => UB
    end.
  Fixpoint write_scalars (q : bool) (jf : jfield) (e : elem) (vs : list val) : res (list (list tok)) :=
    match vs with [] => Ok [] | v :: t => x <- write_scalar q jf e v ;; xs <- write_scalars q jf e t ;; Ok (x :: xs) end.

  (** from<JSON, T>: 944-957 for numbers, 963-985 for strings, 986-1004 for bytes,
      1006-1047 for enums, whose names are compared as they
      are written (escapes in them are not modelled).  With quoted_num the text is in quotes; that glaze may accept
      a number without them is not modelled. *)
  Definition read_scalar (q : bool) (jf : jfield) (e : elem) (ts : list tok) : res (val * list tok) :=
    match e with
    | EVar _ | EFix _ _ =>
        match ts, q || wide jf e with
        | Str t :: r, true | Num t :: r, false => match number_value jf e t with Some z => Ok (VInt z, r) | None => Err BadMessage end
        | _, _ => Err BadMessage
        end
    | EBool =>
        match ts, q with
        | TTrue :: r, false => Ok (VInt 1, r)
        | TFalse :: r, false => Ok (VInt 0, r)
        | Str t :: r, true => if eqb_bytes t true_text then Ok (VInt 1, r) else if eqb_bytes t false_text then Ok (VInt 0, r) else Err BadMessage
        | _, _ => Err BadMessage
        end
    | EEnum _ =>
        match ts with
        | Str t :: r => match value_of (j_values jf) t with Some z => Ok (VInt z, r) | None => Err BadMessage end
        | Num t :: r => match number_value jf (EVar VI32) t with Some z => Ok (VInt z, r) | None => Err BadMessage end
        | _ => Err BadMessage
        end
    | EBytes _ _ =>
        match ts with
        | Str t :: r =>
            if j_string jf then if utf8_ok t then Ok (VBytes t, r) else Err BadMessage
            else match b64_decode t with Some b => Ok (VBytes b, r) | None => Err BadMessage end
        | _ => Err BadMessage
        end
    | EMsg _ _ => UB
    end.

  (** ** Writing *)
  Section Write.
    Variable rec : bool -> nat -> list slot -> res (list tok).
    Fixpoint write_all (q : bool) (ty : nat) (x : list (list slot)) : res (list (list tok)) :=
      match x with [] => Ok [] | m :: t => a <- rec q ty m ;; b <- write_all q ty t ;; Ok (a :: b) end.
    Definition nonempty (x : list tok) : bool := match x with [] => false | _ => true end.
    (** repeated_message_json_adapter::to_json, 749-796: elements that write nothing are left out. *)
    Definition write_messages (q : bool) (ty : nat) (x : list (list slot)) : res (list tok) :=
      xs <- write_all q ty x ;;
      let brace := w_entry (wty W ty) in
      Ok ((if brace then LBrace else LBrack) :: commas (filter nonempty xs) ++ [if brace then RBrace else RBrack]).

    (** to<JSON, T> of the reference to a field that has a value.  glaze writes a reference
        that can be absent by what it refers to, and ranges as arrays; 714-727 for
        repeated numbers, of which only 64 bit integers are quoted. *)
    Definition write_field (q : bool) (jf : jfield) (f : wfield) (l : layout) (s : slot) : res (list tok) :=
      match w_elem f, w_rep f with
      | EMsg ty _, None => match value (dyn_of f) l s with FMsg m => rec q ty m | _ => UB end
      | EMsg ty _, Some _ => match value (dyn_of f) l s with FMsgs x => write_messages q ty x | _ => UB end
      | e, None => v <- single f l s ;; write_scalar q jf e v
      | e, Some _ =>
          vs <- several f l s ;;
          xs <- write_scalars (match e with EEnum _ => q | _ => false end) jf e vs ;;
          Ok (LBrack :: commas xs ++ [RBrack])
      end.
    (** to<JSON, field_cref>, 143-153: nothing if the field has no value. *)
    Definition write_cref (q : bool) (jf : jfield) (f : wfield) (l : layout) (s : slot) : res (list tok) :=
      if has_value (dyn_of f) l s then write_field q jf f l s else Ok [].

    (** generic_message_json_serializer::to_json, 169-228 *)
    Fixpoint write_members (q first : bool) (fs : list (jfield * (wfield * layout))) (m : list slot) : res (list tok) :=
      match fs with
      | [] => Ok []
      | (jf, (f, l)) :: t =>
          if has_value (dyn_of f) l (slot_at m l) then
            x <- write_field q jf f l (slot_at m l) ;;
            y <- write_members q false t m ;;
            Ok ((if first then [] else [Comma]) ++ Str (j_json jf) :: Colon :: x ++ y)
          else write_members q first t m
      end.

    (** map_entry_message_json_adapter, 269-313: the first field that has a value is
        written as the key.  A bool is put in quotes. *)
    Definition quote (f : wfield) (ts : list tok) : list tok :=
      match w_elem f, w_rep f, ts with
      | EBool, None, [TTrue] => [Str true_text]
      | EBool, None, [TFalse] => [Str false_text]
      | _, _, _ => ts
      end.
    Fixpoint write_entry_fields (q first : bool) (fs : list (jfield * (wfield * layout))) (m : list slot) : res (list tok) :=
      match fs with
      | [] => Ok []
      | (jf, (f, l)) :: t =>
          if has_value (dyn_of f) l (slot_at m l) then
            x <- write_field (q || first) jf f l (slot_at m l) ;;
            y <- write_entry_fields q false t m ;;
            Ok ((if first then quote f x else Colon :: x) ++ y)
          else write_entry_fields q first t m
      end.
    (** 291-299: whether the value is a google.protobuf.Value without kind.  [UB]: the
        value of the entry is a message that is absent, whose storage is looked at. *)
    Definition unset_value (ty : nat) (m : list slot) : res bool :=
      match nth_error (w_fields (wty W ty)) 1 with
      | None => UB
      | Some (f, l) =>
          match w_elem f, w_rep f with
          | EMsg tv _, None =>
              match snd (slot_at m l) with
              | CMsg x =>
                  match known_of tv, nth_error (w_fields (wty W tv)) 0 with
                  | KValue, Some (_, l0) => Ok (active_oneof_index l0 (fst (slot_at x l0)) <? 0)
                  | KValue, None => UB
                  | _, _ => Ok false
                  end
              | _ => UB
              end
          | _, _ => Ok false
          end
      end.
    Definition write_entry (q : bool) (ty : nat) (m : list slot) : res (list tok) :=
      b <- unset_value ty m ;; if b then Ok [] else write_entry_fields q true (jfields ty) m.

    (** 537-616: the fields are read with get(), which returns the value of the storage. *)
    Definition number_of (fl : wfield * layout) (m : list slot) : res Z :=
      match value (dyn_of (fst fl)) (snd fl) (slot_at m (snd fl)) with FInt z => Ok z | _ => Err BadMessage end.
    Definition write_time (encode : Z -> Z -> option (list Z)) (ty : nat) (m : list slot) : res (list tok) :=
      match w_fields (wty W ty) with
      | [a; b] => s <- number_of a m ;; n <- number_of b m ;; match encode s n with Some t => Ok [Str t] | None => Err BadMessage end
      | _ => Err BadMessage
      end.
    Definition write_mask (ty : nat) (m : list slot) : res (list tok) :=
      match w_fields (wty W ty) with
      | [(f, l)] =>
          match value (dyn_of f) l (slot_at m l) with
          | FStrs x => match json_unescape (mask_encode x) with Some t => Ok [Str t] | None => Err BadMessage end
          | _ => Err BadMessage
          end
      | _ => Err BadMessage
      end.
    (** value_message_json_serializer::to_json, 651-663 *)
    Definition write_value (q : bool) (ty : nat) (m : list slot) : res (list tok) :=
      match w_fields (wty W ty) with
      | [] => Ok []
      | (_, l0) :: _ =>
          let i := active_oneof_index l0 (fst (slot_at m l0)) in
          if i <? 0 then Ok []
          else match nth_error (jfields ty) (Z.to_nat i) with Some (jf, (f, l)) => write_cref q jf f l (slot_at m l) | None => Ok [] end
      end.

    (** dynamic_protojson_traversal::write_impl after the recursion check, 826-862 *)
    Definition write_body (q : bool) (ty : nat) (m : list slot) : res (list tok) :=
      if w_entry (wty W ty) then write_entry q ty m
      else
        match known_of ty with
        | KAny => Err BadMessage
        | KTimestamp => write_time timestamp_encode ty m
        | KDuration => write_time duration_encode ty m
        | KFieldMask => write_mask ty m
        | KValue => write_value q ty m
        | KStruct | KListValue =>
            match jfields ty with
            | (_, (f, l)) :: _ =>
                match w_elem f, w_rep f, value (dyn_of f) l (slot_at m l) with EMsg te _, Some _, FMsgs x => write_messages q te x | _, _, _ => UB end
            | [] => UB
            end
        | KWrapper => match jfields ty with (jf, (f, l)) :: _ => write_cref q jf f l (slot_at m l) | [] => UB end
        | KNone => x <- write_members q true (jfields ty) m ;; Ok (LBrace :: x ++ [RBrace])
        end.
  End Write.
  (** 817-824: dynamic_json_recursion_scope is recursion_scope (recursion.hpp:60-67). *)
  Fixpoint write_msg (fuel : nat) (depth : Z) (q : bool) (ty : nat) (m : list slot) : res (list tok) :=
    match fuel with
    | O => NoFuel
    | S n => if scope_ok maxd depth then write_body (write_msg n (depth + 1)) q ty m else Err TooLarge
    end.
  (** write_json of a message_value_cref, json.hpp:590-600. *)
  Definition write_json (fuel : nat) (ty : nat) (m : list slot) : res (list tok) := write_msg fuel 0 false ty m.

  (** ** Reading *)
  Section Read.
    (** [strict]: the option error_on_unknown_keys. *)
    Variable strict : bool.
    Variable rec : nat -> list slot -> list tok -> res (list slot * list tok).

    (** field_mref::set_null, field_visit.hpp:138-146.  For a repeated field of
        google.protobuf.Value the storage is taken for that of a message: its word, 0 if
        there are no elements, is compared with the ordinal 0 of the field, and a message
        without storage is reset. *)
    Definition set_null (f : wfield) (l : layout) (s : slot) : res slot :=
      match w_elem f with
      | EMsg ty _ =>
          match known_of ty with
          | KValue =>
              if is_rep f then if fst s =? l_ordinal l then UB else Ok (l_ordinal l, CBad)
              else match w_fields (wty W ty) with
                   | (_, l0) :: _ => Ok (l_ordinal l, CMsg (put (new_slots W ty) (l_slot l0) (l_ordinal l0, CInt 0)))
                   | [] => UB
                   end
          | _ => Ok (clear_slot s)
          end
      | _ => Ok (clear_slot s)
      end.

    (** from<JSON, T> of the reference to a field.  glaze gives a value to a reference that
        can be absent, and reads what it refers to; repeated fields keep the elements they have. *)
    Definition read_into (q : bool) (jf : jfield) (f : wfield) (l : layout) (s : slot) (ts : list tok) : res (slot * list tok) :=
      match w_elem f, w_rep f with
      | EMsg ty _, None =>
          m <- (if has_value (dyn_of f) l s then match value (dyn_of f) l s with FMsg m => Ok m | _ => UB end else Ok (new_slots W ty)) ;;
          '(m1, r) <- rec ty m ts ;; Ok ((l_ordinal l, CMsg m1), r)
      | EMsg ty _, Some _ =>
          match value (dyn_of f) l s with
          | FMsgs x => '(y, r) <- read_repeated (w_entry (wty W ty)) (rec ty (new_slots W ty)) ts ;; Ok ((zlen (x ++ y), CMsgs (x ++ y)), r)
          | _ => UB
          end
      | e, None => '(v, r) <- read_scalar q jf e ts ;; Ok ((l_ordinal l, content_of v), r)
      | e, Some _ =>
          vs <- several f l s ;;
          '(ws, r) <- read_repeated false (read_scalar false jf e) ts ;; Ok (elems_slot e (vs ++ ws), r)
      end.
    (** from<JSON, field_mref>, 156-167, with parse_null, util.hpp:75-105 *)
    Definition read_field (jf : jfield) (f : wfield) (l : layout) (s : slot) (ts : list tok) : res (slot * list tok) :=
      match ts with
      | TNull :: r => s1 <- set_null f l s ;; Ok (s1, r)
      | _ => read_into false jf f l s ts
      end.
    Definition read_at (jfl : jfield * (wfield * layout)) (m : list slot) (ts : list tok) : res (list slot * list tok) :=
      let '(jf, (f, l)) := jfl in '(s, r) <- read_field jf f l (slot_at m l) ts ;; Ok (put m (l_slot l) s, r).

    (** field_descriptor_by_json_name and field_descriptor_by_name, message_fields.hpp:80-104 *)
    Definition find_field (ty : nat) (key : bytes) : option (jfield * (wfield * layout)) :=
      match find (fun x => eqb_bytes (j_json (fst x)) key) (jfields ty) with
      | Some x => Some x
      | None => find (fun x => eqb_bytes (j_name (fst x)) key) (jfields ty)
      end.
    (** generic_message_json_serializer::from_json, 230-266, in the loop of
        scan_object_fields, util.hpp:313-345 *)
    Fixpoint read_members (k : nat) (first : bool) (ty : nat) (m : list slot) (ts : list tok) : res (list slot * list tok) :=
      match k with
      | O => NoFuel
      | S k' =>
          match ts with
          | RBrace :: r => Ok (m, r)
          | _ =>
              ts1 <- (if first then Ok ts else match ts with Comma :: r => Ok r | _ => Err BadMessage end) ;;
              match ts1 with
              | Str key :: Colon :: r =>
                  '(m1, r1) <- (match find_field ty key with
                                | Some x => read_at x m r
                                | None => if strict then Err BadMessage else r1 <- skip_value r ;; Ok (m, r1)
                                end) ;;
                  read_members k' false ty m1 r1
              | _ => Err BadMessage
              end
          end
      end.

    (** parse_mapped, 317-330, and from_json, 333-355, of a map entry: keys of
        floating point types, enums, bytes and messages are refused. *)
    Definition read_mapped (jf : jfield) (f : wfield) (l : layout) (s : slot) (ts : list tok) : res (slot * list tok) :=
      match ts with
      | TNull :: r =>
          s1 <- set_null f l s ;;
          match w_elem f with
          | EMsg ty _ => match known_of ty with KValue => Ok (s1, r) | _ => Err BadMessage end
          | _ => Err BadMessage
          end
      | _ => read_into false jf f l s ts
      end.
    Definition key_elem (jf : jfield) (f : wfield) : bool :=
      match w_elem f, w_rep f with
      | EBool, None => true
      | EBytes _ _, None => j_string jf
      | e, None => match int_kind (j_signed jf) e with Some _ => true | None => false end
      | _, _ => false
      end.
    Definition read_entry (ty : nat) (m : list slot) (ts : list tok) : res (list slot * list tok) :=
      match jfields ty with
      | (kj, (kf, kl)) :: (vj, (vf, vl)) :: _ =>
          if key_elem kj kf then
            '(k, r) <- read_scalar true kj (w_elem kf) ts ;;
            let m1 := put m (l_slot kl) (l_ordinal kl, content_of k) in
            match r with
            | Colon :: r1 => '(s, r2) <- read_mapped vj vf vl (slot_at m1 vl) r1 ;; Ok (put m1 (l_slot vl) s, r2)
            | _ => Err BadMessage
            end
          else Err BadMessage
      | _ => UB
      end.

    Definition read_time (decode : list Z -> option (Z * Z)) (ty : nat) (m : list slot) (ts : list tok) : res (list slot * list tok) :=
      match ts with
      | Str t :: r =>
          match decode t, w_fields (wty W ty) with
          | Some (s, n), [(_, l0); (_, l1)] => Ok (put (put m (l_slot l0) (l_ordinal l0, CInt s)) (l_slot l1) (l_ordinal l1, CInt n), r)
          | _, _ => Err BadMessage
          end
      | _ => Err BadMessage
      end.
    (** 618-648: the parts between commas, std::views::split. *)
    Fixpoint split_commas (cur t : bytes) : list bytes :=
      match t with [] => [cur] | c :: r => if c =? 44 then cur :: split_commas [] r else split_commas (cur ++ [c]) r end.
    Definition read_mask (ty : nat) (m : list slot) (ts : list tok) : res (list slot * list tok) :=
      match ts with
      | Str [] :: r => Ok (m, r)
      | Str t :: r =>
          match w_fields (wty W ty) with
          | [(_, l0)] => let ps := split_commas [] t in Ok (put m (l_slot l0) (zlen ps, CStrs ps), r)
          | _ => Err BadMessage
          end
      | _ => Err BadMessage
      end.
    (** value_message_json_serializer::from_json, 664-697.  [UB]: fields()[i] out of bounds. *)
    Definition read_nth (i : nat) (ty : nat) (m : list slot) (ts : list tok) : res (list slot * list tok) :=
      match nth_error (jfields ty) i with Some x => read_at x m ts | None => UB end.
    Definition read_value (ty : nat) (m : list slot) (ts : list tok) : res (list slot * list tok) :=
      match ts with
      | [] => Err BadMessage
      | TNull :: r => match nth_error (w_fields (wty W ty)) 0 with Some (_, l0) => Ok (put m (l_slot l0) (l_ordinal l0, CInt 0), r) | None => UB end
      | (TTrue | TFalse) :: _ => read_nth 3 ty m ts
      | Str _ :: _ => read_nth 2 ty m ts
      | LBrack :: _ => read_nth 5 ty m ts
      | LBrace :: _ => read_nth 4 ty m ts
      | _ => read_nth 1 ty m ts
      end.

    (** dynamic_protojson_traversal::read_impl after the recursion check, 882-914 *)
    Definition read_body (ty : nat) (m : list slot) (ts : list tok) : res (list slot * list tok) :=
      if w_entry (wty W ty) then read_entry ty m ts
      else
        match known_of ty with
        | KAny => Err BadMessage
        | KTimestamp => read_time timestamp_decode ty m ts
        | KDuration => read_time duration_decode ty m ts
        | KFieldMask => read_mask ty m ts
        | KValue => read_value ty m ts
        | KStruct | KListValue | KWrapper => read_nth 0 ty m ts
        | KNone => match ts with LBrace :: r => read_members (S (length r)) true ty m r | _ => Err BadMessage end
        end.
  End Read.
  Fixpoint read_msg (strict : bool) (fuel : nat) (depth : Z) (ty : nat) (m : list slot) (ts : list tok) : res (list slot * list tok) :=
    match fuel with
    | O => NoFuel
    | S n => if scope_ok maxd depth then read_body strict (read_msg strict n (depth + 1)) ty m ts else Err TooLarge
    end.
  (** read_json_buffer, json.hpp:464-487: what follows the value must be white space.
      A message_value_mref is not an aggregate and keeps what it holds. *)
  Definition read_json (strict : bool) (fuel : nat) (ty : nat) (m : list slot) (ts : list tok) : res (list slot) :=
    '(m1, r) <- read_msg strict fuel 0 ty m ts ;; match r with [] => Ok m1 | _ => Err BadMessage end.
End DynJson.
