(** ProtoJSON of generated messages: model of include/hpp_proto/json.hpp,
    include/hpp_proto/json/field_wrappers.hpp, the parts of
    include/hpp_proto/json/util.hpp they call, and the code that
    src/protoc-plugin/hpp_generator.cpp:1872-2290 writes into .glz.hpp files.

    Texts are lists of tokens, as in DynJson.v: glaze, which is not part of the
    repository, turns characters into numbers and strings, skips white space, and reads
    and writes objects, arrays and maps by the functions given here for their members.
    Options are those of json_read_opts and json_write_opts with a terminated buffer; white
    space written by prettify is not a token.  Message types are those with default_traits:
    owning containers.  google.protobuf.Any is modelled in Verif.GenAny. *)
Require Import Verif.Bits Verif.Varint Verif.TextNum Verif.Base64 Verif.Timestamp Verif.Duration Verif.FieldMask Verif.FieldMaskProofs Verif.Defaults.
Require Import Verif.Schema Verif.Archive Verif.Decode Verif.Encode Verif.DynJson.

(** ** glz::meta *)
(** The entries of the object of a message, hpp_generator.cpp:2103-2225, by member:
    [GField]: process(field_descriptor_t), 2147-2191.  [std]: a member of type std::optional that is
    not a message, which is what the only field of a oneof has (1377-1379), among them
    [optional] fields of proto3; glaze reads and writes what it holds.  [GOneof]: process(oneof_descriptor_t), 2193-2225. *)
Inductive gmember := GField (jf : jfield) (std : bool) | GOneof (jfs : list jfield).
Record gtype := GType { g_known : known; g_members : list gmember }.

(** Where a key leads: a member, or an alternative of one. *)
Inductive target := TField (i : nat) | TAlt (i k : nat).

Section GenJson.
  (** [lenient]: whether glaze reads a number without quotes under the option quoted_num.
      [preserve]: the option preserve_proto_field_names of the plugin. *)
  Context (E : env) (G : list gtype) (utf8_ok : bytes -> bool) (le : bool).
  Context (fshow : bool -> Z -> bytes) (fparse : bool -> bytes -> option Z) (lenient preserve : bool).
  Definition gty (ty : nat) : gtype := nth ty G (GType KNone []).
  Definition gknown (ty : nat) : known := g_known (gty ty).
  (** 2178-2190: the name that is written; the other one is an alias. *)
  Definition primary (jf : jfield) : bytes := if preserve then j_name jf else j_json jf.

  (** ** Scalars *)
  (** to<JSON, T> of glaze, json.hpp:117-139 for bytes; an enum without name for its number is
      written as its underlying type, and google.protobuf.NullValue as null (2257-2267).  [q]:
      the option quoted_num, or that a key of a map is written. *)
  Definition gwrite_scalar (q : bool) (jf : jfield) (e : elem) (v : val) : res (list tok) :=
    match e, v with
    | EVar _, VInt z | EFix _ _, VInt z => Ok [if q then Str (number_text fshow jf e z) else Num (number_text fshow jf e z)]
    | EBool, VInt z => Ok [if q then Str (if z =? 0 then false_text else true_text) else if z =? 0 then TFalse else TTrue]
    | EEnum _, VInt z =>
        if j_null jf then Ok [TNull]
        else match name_of (j_values jf) z with [] => Ok [Num (show_int z)] | n => Ok [Str n] end
    | EBytes _ _, VBytes b =>
        if j_string jf then Ok [Str b] else match b64_encode le b with Some t => Ok [Str t] | None => UB end
    | _, _ => UB
    end.

  (** from<JSON, T> of glaze and json.hpp:167-190, if [checked] as called by from_json,
      util.hpp:414-468, which reads enums also by number, integers of 64 bits in quotes ([q])
      and validates strings.  glaze reads an enum by its name; google.protobuf.NullValue,
      2268-2277, reads null. *)
  Definition gread_scalar (checked q : bool) (jf : jfield) (e : elem) (ts : list tok) : res (val * list tok) :=
    match e with
    | EVar _ | EFix _ _ =>
        match ts with
        | Str t :: r => if q then match number_value fparse jf e t with Some z => Ok (VInt z, r) | None => Err BadMessage end else Err BadMessage
        | Num t :: r => if negb q || lenient then match number_value fparse jf e t with Some z => Ok (VInt z, r) | None => Err BadMessage end else Err BadMessage
        | _ => Err BadMessage
        end
    | EBool =>
        match ts, q with
        | TTrue :: r, false => Ok (VInt 1, r)
        | TFalse :: r, false => Ok (VInt 0, r)
        | Str t :: r, true => if eqb_bytes t true_text then Ok (VInt 1, r) else if eqb_bytes t false_text then Ok (VInt 0, r) else Err BadMessage
        | _, _ => Err BadMessage
        end
    | EEnum _ =>
        match ts with
        | Num t :: r => if checked then match number_value fparse jf (EVar VI32) t with Some z => Ok (VInt z, r) | None => Err BadMessage end else Err BadMessage
        | Str t :: r => if j_null jf then Err BadMessage else match value_of (j_values jf) t with Some z => Ok (VInt z, r) | None => Err BadMessage end
        | TNull :: r => if j_null jf && negb checked then Ok (VInt 0, r) else Err BadMessage
        | _ => Err BadMessage
        end
    | EBytes _ _ =>
        match ts with
        | Str t :: r =>
            if j_string jf then if negb checked || utf8_ok t then Ok (VBytes t, r) else Err BadMessage
            else match b64_decode t with Some b => Ok (VBytes b, r) | None => Err BadMessage end
        | _ => Err BadMessage
        end
    | EMsg _ _ => UB
    end.

  (** The key and the value of a map entry: std::pair<K, V>. *)
  Definition entry_of (te : nat) : option (jfield * elem * (jfield * elem)) :=
    match m_fields (desc_of E te), g_members (gty te) with
    | [Field _ ek _; Field _ ev _], [GField kj _; GField vj _] => Some (kj, ek, (vj, ev))
    | _, _ => None
    end.

  (** ** Writing *)
  Section Write.
    (** The option always_print_fields_with_no_presence. *)
    Variable always : bool.
    Variable rec : nat -> val -> res (list tok).
    Definition gwrite_elem (q : bool) (jf : jfield) (e : elem) (v : val) : res (list tok) :=
      match e with EMsg ty _ => rec ty v | _ => gwrite_scalar q jf e v end.
    Fixpoint gwrite_elems (q : bool) (jf : jfield) (e : elem) (vs : list val) : res (list (list tok)) :=
      match vs with [] => Ok [] | v :: t => x <- gwrite_elem q jf e v ;; xs <- gwrite_elems q jf e t ;; Ok (x :: xs) end.
    (** Ranges are written as arrays, maps as objects whose keys are in quotes; the
        values are quoted by jsonfy_need_quote, field_wrappers.hpp:79-86. *)
    Definition gwrite_array (jf : jfield) (e : elem) (vs : list val) : res (list tok) :=
      xs <- gwrite_elems (wide jf e) jf e vs ;; Ok (LBrack :: commas xs ++ [RBrack]).
    Definition gwrite_entry (te : nat) (v : val) : res (list tok) :=
      match entry_of te, v with
      | Some (kj, ek, (vj, ev)), VMsg [[k]; [x]] _ =>
          a <- gwrite_scalar true kj ek k ;; b <- gwrite_elem (wide vj ev) vj ev x ;; Ok (a ++ Colon :: b)
      | _, _ => UB
      end.
    Fixpoint gwrite_entries (te : nat) (vs : list val) : res (list (list tok)) :=
      match vs with [] => Ok [] | v :: t => x <- gwrite_entry te v ;; xs <- gwrite_entries te t ;; Ok (x :: xs) end.
    Definition gwrite_map (te : nat) (vs : list val) : res (list tok) :=
      xs <- gwrite_entries te vs ;; Ok (LBrace :: commas xs ++ [RBrace]).

    (** The entries of the object that are not null: hpp_proto::optional, json.hpp:192-204,
        std::optional and optional_indirect (206-225), members of required fields (2158-2165),
        optional_ref (field_wrappers.hpp:98-109, json.hpp:243-254) and oneof_wrapper
        (field_wrappers.hpp:46-54, json.hpp:274-281). *)
    Definition gwrite_member (b : gmember) (f : field) (vs : list val) : res (list (bytes * list tok)) :=
      match b, f with
      | GField jf std, Field _ e COpt =>
          match vs with
          | [] => Ok []
          | [v] => x <- gwrite_elem (negb std && wide jf e) jf e v ;; Ok [(primary jf, x)]
          | _ => UB
          end
      | GField jf _, Field _ e (CPlain ex d) =>
          match vs with
          | [v] => if ex || always || negb (is_default e d v) then x <- gwrite_elem (wide jf e) jf e v ;; Ok [(primary jf, x)] else Ok []
          | _ => UB
          end
      | GField jf _, Field _ e (CRep _) =>
          match vs, always with [], false => Ok [] | _, _ => x <- gwrite_array jf e vs ;; Ok [(primary jf, x)] end
      | GField jf _, Field _ e (CMap _) =>
          match e with
          | EMsg te _ => match vs, always with [], false => Ok [] | _, _ => x <- gwrite_map te vs ;; Ok [(primary jf, x)] end
          | _ => UB
          end
      | GOneof jfs, Oneof alts =>
          match vs with
          | [] => Ok []
          | [VAlt i v] =>
              match nth_error jfs i, nth_error alts i with
              | Some jf, Some (_, e) => x <- gwrite_elem false jf e v ;; Ok [(primary jf, x)]
              | _, _ => UB
              end
          | _ => UB
          end
      | _, _ => UB
      end.
    Fixpoint gwrite_members (bs : list gmember) (fds : list field) (fs : list (list val)) : res (list (bytes * list tok)) :=
      match bs, fds, fs with
      | [], [], [] => Ok []
      | b :: bs', f :: fds', vs :: fs' => x <- gwrite_member b f vs ;; y <- gwrite_members bs' fds' fs' ;; Ok (x ++ y)
      | _, _, _ => UB
      end.
    Definition gobject (ms : list (bytes * list tok)) : list tok :=
      LBrace :: commas (map (fun p => Str (fst p) :: Colon :: snd p) ms) ++ [RBrace].

    (** hpp_generator.cpp:1927-1962: of a struct or a list its fields or values are written. *)
    Definition gwrite_value (ty : nat) (fs : list (list val)) : res (list tok) :=
      match m_fields (desc_of E ty), g_members (gty ty), fs with
      | [Oneof alts], [GOneof jfs], [[]] => Ok []
      | [Oneof alts], [GOneof jfs], [[VAlt i v]] =>
          match nth_error jfs i, nth_error alts i with
          | Some jf, Some (_, EMsg st _) =>
              match m_fields (desc_of E st), g_members (gty st), v with
              | [Field _ (EMsg te _) (CMap _)], _, VMsg [es] _ => gwrite_map te es
              | [Field _ e (CRep _)], [GField lj _], VMsg [vs] _ => gwrite_array lj e vs
              | _, _, _ => UB
              end
          | Some jf, Some (_, e) => gwrite_scalar false jf e v
          | _, _ => UB
          end
      | _, _, _ => UB
      end.
    (** 2040-2069: values without kind are left out. *)
    Definition has_kind (v : val) : bool := match v with VMsg [_; [VMsg [[]] _]] _ => false | _ => true end.

    (** to<JSON, T> of a message *)
    Definition gwrite_body (ty : nat) (v : val) : res (list tok) :=
      match v with
      | VMsg fs _ =>
          match gknown ty with
          | KAny => Err BadMessage
          | KTimestamp => match fs with [[VInt s]; [VInt n]] => match timestamp_encode s n with Some t => Ok [Str t] | None => Err BadMessage end | _ => UB end
          | KDuration => match fs with [[VInt s]; [VInt n]] => match duration_encode s n with Some t => Ok [Str t] | None => Err BadMessage end | _ => UB end
          | KFieldMask =>
              match fs with
              | [ps] => match json_unescape (mask_encode (map (fun p => match p with VBytes b => b | _ => [] end) ps)) with Some t => Ok [Str t] | None => Err BadMessage end
              | _ => UB
              end
          | KValue => gwrite_value ty fs
          | KStruct => match m_fields (desc_of E ty), fs with [Field _ (EMsg te _) (CMap _)], [es] => gwrite_map te (filter has_kind es) | _, _ => UB end
          | KListValue => match m_fields (desc_of E ty), g_members (gty ty), fs with [Field _ e (CRep _)], [GField jf _], [vs] => gwrite_array jf e vs | _, _, _ => UB end
          | KWrapper => match m_fields (desc_of E ty), g_members (gty ty), fs with [Field _ e (CPlain _ _)], [GField jf _], [[x]] => gwrite_scalar (wide jf e) jf e x | _, _, _ => UB end
          | KNone => ms <- gwrite_members (g_members (gty ty)) (m_fields (desc_of E ty)) fs ;; Ok (gobject ms)
          end
      | _ => UB
      end.
  End Write.
  (** write_json, json.hpp:590-600.  [fuel] bounds the nesting; the code has no bound. *)
  Fixpoint gwrite (always : bool) (fuel : nat) (ty : nat) (v : val) : res (list tok) :=
    match fuel with O => NoFuel | S n => gwrite_body always (gwrite always n) ty v end.

  (** ** Reading *)
  Section Read.
    Variable strict : bool.
    Variable rec : nat -> val -> list tok -> res (val * list tok).
    Definition gread_elem (checked q : bool) (jf : jfield) (e : elem) (cur : val) (ts : list tok) : res (val * list tok) :=
      match e with EMsg ty _ => rec ty cur ts | _ => gread_scalar checked q jf e ts end.
    (** parse_repeated of a sequence, util.hpp:472-514: elements are appended. *)
    Definition gread_array (jf : jfield) (e : elem) (ts : list tok) : res (list val * list tok) :=
      read_repeated false (gread_elem true (wide jf e) jf e (elem_default E e)) ts.
    (** from_json of a pair, util.hpp:457-463, with parse_key_and_colon, 237-262 *)
    Definition gread_pair (te : nat) (ts : list tok) : res (val * list tok) :=
      match entry_of te with
      | Some (kj, ek, (vj, ev)) =>
          '(k, r) <- gread_scalar true true kj ek ts ;;
          match r with
          | Colon :: r1 => '(x, r2) <- gread_elem true (wide vj ev) vj ev (elem_default E ev) r1 ;; Ok (VMsg [[k]; [x]] [], r2)
          | _ => Err BadMessage
          end
      | None => UB
      end.
    (** parse_repeated of a map, util.hpp:516-542, in the loop of scan_object_fields,
        313-345: the value of a key that is there is replaced. *)
    Fixpoint gread_entries (k : nat) (first : bool) (te : nat) (cur : list val) (ts : list tok) : res (list val * list tok) :=
      match k with
      | O => NoFuel
      | S k' =>
          match ts with
          | RBrace :: r => Ok (cur, r)
          | _ =>
              ts1 <- (if first then Ok ts else match ts with Comma :: r => Ok r | _ => Err BadMessage end) ;;
              '(e, r) <- gread_pair te ts1 ;;
              gread_entries k' false te (map_put e cur) r
          end
      end.
    (** Non-associative maps, which are not of default_traits, are read by util.hpp:472-514. *)
    Definition gread_map (assoc : bool) (te : nat) (cur : list val) (ts : list tok) : res (list val * list tok) :=
      if assoc then match ts with LBrace :: r => gread_entries (S (length r)) true te cur r | _ => Err BadMessage end
      else '(es, r) <- read_repeated true (gread_pair te) ts ;; Ok (cur ++ es, r).

    (** from<JSON, T> of an entry of the object: parse_null, util.hpp:76-105, resets what can
        be null.  hpp_proto::optional gets a new value, json.hpp:227-241; glaze reads into the message
        of a std::optional or optional_indirect if it has one; optional_ref, json.hpp:256-272. *)
    Definition gread_field (jf : jfield) (std : bool) (e : elem) (c : card) (cur : list val) (ts : list tok) : res (list val * list tok) :=
      match c with
      | COpt =>
          match ts with
          | TNull :: r => Ok ([], r)
          | _ =>
              '(v, r) <- gread_elem (negb std) (negb std && wide jf e) jf e (match cur with [v] => v | _ => elem_default E e end) ts ;; Ok ([v], r)
          end
      | CPlain ex d =>
          match ts, ex with
          | TNull :: r, false => Ok ([d], r)
          | _, _ => '(v, r) <- gread_elem (negb ex) (wide jf e) jf e (match cur with [v] => v | _ => elem_default E e end) ts ;; Ok ([v], r)
          end
      | CRep _ =>
          match ts with
          | TNull :: r => Ok ([], r)
          | _ => '(vs, r) <- gread_array jf e ts ;; Ok (cur ++ vs, r)
          end
      | CMap assoc =>
          match ts, e with
          | TNull :: r, _ => Ok ([], r)
          | _, EMsg te _ => gread_map assoc te cur ts
          | _, _ => UB
          end
      end.
    (** oneof_wrapper, json.hpp:283-297 *)
    Definition gread_alt (jf : jfield) (k : nat) (e : elem) (ts : list tok) : res (list val * list tok) :=
      match ts with
      | TNull :: r => Ok ([], r)
      | _ => '(v, r) <- gread_elem true (wide jf e) jf e (elem_default E e) ts ;; Ok ([VAlt k v], r)
      end.

    (** glaze finds the entry with a key by a hash of the keys, which have to be distinct.  An
        alias is read like the entry it is an alias of, json.hpp:383-389. *)
    Definition named (key : bytes) (jf : jfield) : bool := eqb_bytes (j_json jf) key || eqb_bytes (j_name jf) key.
    Fixpoint alt_named (key : bytes) (jfs : list jfield) (k : nat) : option nat :=
      match jfs with [] => None | jf :: t => if named key jf then Some k else alt_named key t (S k) end.
    Fixpoint locate (key : bytes) (bs : list gmember) (i : nat) : option target :=
      match bs with
      | [] => None
      | GField jf _ :: t => if named key jf then Some (TField i) else locate key t (S i)
      | GOneof jfs :: t => match alt_named key jfs 0 with Some k => Some (TAlt i k) | None => locate key t (S i) end
      end.
    Definition gread_target (t : target) (ty : nat) (fs : list (list val)) (ts : list tok) : res (list (list val) * list tok) :=
      match t with
      | TField i =>
          match nth_error (g_members (gty ty)) i, nth_error (m_fields (desc_of E ty)) i, nth_error fs i with
          | Some (GField jf std), Some (Field _ e c), Some cur => '(vs, r) <- gread_field jf std e c cur ts ;; Ok (set_nth i vs fs, r)
          | _, _, _ => UB
          end
      | TAlt i k =>
          match nth_error (g_members (gty ty)) i, nth_error (m_fields (desc_of E ty)) i with
          | Some (GOneof jfs), Some (Oneof alts) =>
              match nth_error jfs k, nth_error alts k with
              | Some jf, Some (_, e) => '(vs, r) <- gread_alt jf k e ts ;; Ok (set_nth i vs fs, r)
              | _, _ => UB
              end
          | _, _ => UB
          end
      end.
    (** glaze's reader of objects *)
    Fixpoint gread_members (k : nat) (first : bool) (ty : nat) (fs : list (list val)) (ts : list tok) : res (list (list val) * list tok) :=
      match k with
      | O => NoFuel
      | S k' =>
          match ts with
          | RBrace :: r => Ok (fs, r)
          | _ =>
              ts1 <- (if first then Ok ts else match ts with Comma :: r => Ok r | _ => Err BadMessage end) ;;
              match ts1 with
              | Str key :: Colon :: r =>
                  '(fs1, r1) <- (match locate key (g_members (gty ty)) 0 with
                                 | Some t => gread_target t ty fs r
                                 | None => if strict then Err BadMessage else r1 <- skip_value r ;; Ok (fs, r1)
                                 end) ;;
                  gread_members k' false ty fs1 r1
              | _ => Err BadMessage
              end
          end
      end.

    (** hpp_generator.cpp:1963-2008 *)
    Definition gread_kind (ty : nat) (i : nat) (ts : list tok) : res (list (list val) * list tok) :=
      match m_fields (desc_of E ty), g_members (gty ty) with
      | [Oneof alts], [GOneof jfs] =>
          match nth_error jfs i, nth_error alts i with
          | Some jf, Some (_, EMsg st _) =>
              match m_fields (desc_of E st), g_members (gty st) with
              | [Field _ (EMsg te _) (CMap assoc)], _ => '(es, r) <- gread_map assoc te [] ts ;; Ok ([[VAlt i (VMsg [es] [])]], r)
              | [Field _ e (CRep _)], [GField lj _] => '(vs, r) <- gread_array lj e ts ;; Ok ([[VAlt i (VMsg [vs] [])]], r)
              | _, _ => UB
              end
          | Some jf, Some (_, e) => '(v, r) <- gread_scalar true false jf e ts ;; Ok ([[VAlt i v]], r)
          | _, _ => UB
          end
      | _, _ => UB
      end.
    Definition gread_value (ty : nat) (ts : list tok) : res (list (list val) * list tok) :=
      match ts with
      | TNull :: r => Ok ([[VAlt 0 (VInt 0)]], r)
      | Num _ :: _ => gread_kind ty 1 ts
      | Str _ :: _ => gread_kind ty 2 ts
      | (TTrue | TFalse) :: _ => gread_kind ty 3 ts
      | LBrace :: _ => gread_kind ty 4 ts
      | LBrack :: _ => gread_kind ty 5 ts
      | _ => Err BadMessage
      end.

    (** from<JSON, T> of a message *)
    Definition gread_body (ty : nat) (cur : val) (ts : list tok) : res (val * list tok) :=
      match cur with
      | VMsg fs u =>
          '(fs', r) <-
            (match gknown ty with
             | KAny => Err BadMessage
             | KTimestamp => match ts with Str t :: r => match timestamp_decode t with Some (s, n) => Ok ([[VInt s]; [VInt n]], r) | None => Err BadMessage end | _ => Err BadMessage end
             | KDuration => match ts with Str t :: r => match duration_decode t with Some (s, n) => Ok ([[VInt s]; [VInt n]], r) | None => Err BadMessage end | _ => Err BadMessage end
             | KFieldMask => match ts with Str t :: r => Ok ([map VBytes (mask_decode t)], r) | _ => Err BadMessage end
             | KValue => gread_value ty ts
             | KStruct =>
                 match m_fields (desc_of E ty), fs with
                 | [Field _ (EMsg te _) (CMap assoc)], [es] => '(es', r) <- gread_map assoc te es ts ;; Ok ([es'], r)
                 | _, _ => UB
                 end
             | KListValue =>
                 match m_fields (desc_of E ty), g_members (gty ty), fs with
                 | [Field _ e (CRep _)], [GField jf _], [vs] => '(vs', r) <- gread_array jf e ts ;; Ok ([vs ++ vs'], r)
                 | _, _, _ => UB
                 end
             | KWrapper =>
                 match m_fields (desc_of E ty), g_members (gty ty) with
                 | [Field _ e (CPlain _ _)], [GField jf _] => '(v, r) <- gread_scalar true (wide jf e) jf e ts ;; Ok ([[v]], r)
                 | _, _ => UB
                 end
             | KNone => match ts with LBrace :: r => gread_members (S (length r)) true ty fs r | _ => Err BadMessage end
             end) ;;
          Ok (VMsg fs' u, r)
      | _ => UB
      end.
  End Read.
  Fixpoint gread (strict : bool) (fuel : nat) (ty : nat) (cur : val) (ts : list tok) : res (val * list tok) :=
    match fuel with O => NoFuel | S n => gread_body strict (gread strict n) ty cur ts end.
  (** read_json_buffer, json.hpp:464-487: the message is a new one, and what follows must be white space. *)
  Definition gread_json (strict : bool) (fuel : nat) (ty : nat) (ts : list tok) : res val :=
    '(v, r) <- gread strict fuel ty (default_msg E ty) ts ;; match r with [] => Ok v | _ => Err BadMessage end.
End GenJson.
