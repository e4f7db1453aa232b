(** Text that the code generator emits into C++ source
    (src/protoc-plugin/cpp_lexical_emitter.cpp).

    Strings are lists of byte values.  An error ([std::unexpected]) is [None]; its
    message is not modelled. *)
From Coq Require Import Ascii String.
Require Import Verif.Bits.
Local Open Scope list_scope.

Definition txt (s : string) : bytes := map (fun c => Z.of_N (N_of_ascii c)) (list_ascii_of_string s).
Definition same (a b : bytes) : bool := if list_eq_dec Z.eq_dec a b then true else false.
Fixpoint starts (p l : bytes) : bool :=
  match p, l with [], _ => true | x :: p, y :: l => (x =? y) && starts p l | _, _ => false end.
(** [l.contains(p)] *)
Fixpoint contains (p l : bytes) : bool := starts p l || match l with [] => false | _ :: t => contains p t end.
Definition last_is (c : Z) (l : bytes) : bool := match rev l with x :: _ => x =? c | [] => false end.

(** ** Identifiers *)
(** cpp_lexical_emitter.cpp:40-60 *)
Definition cpp_keywords : list bytes := map txt
  ["NULL"; "alignas"; "alignof"; "and"; "and_eq"; "asm"; "auto"; "bitand"; "bitor"; "bool"; "break"; "case"; "catch"; "char"; "class"; "compl"; "const";
   "constexpr"; "const_cast"; "continue"; "decltype"; "default"; "delete"; "do"; "double"; "dynamic_cast"; "else"; "enum"; "explicit"; "export"; "extern";
   "false"; "float"; "for"; "friend"; "goto"; "if"; "inline"; "int"; "long"; "mutable"; "namespace"; "new"; "noexcept"; "not"; "not_eq"; "nullptr";
   "operator"; "or"; "or_eq"; "private"; "protected"; "public"; "register"; "reinterpret_cast"; "return"; "short"; "signed"; "sizeof"; "static";
   "static_assert"; "static_cast"; "struct"; "switch"; "template"; "this"; "thread_local"; "throw"; "true"; "try"; "typedef"; "typeid"; "typename";
   "union"; "unsigned"; "using"; "virtual"; "void"; "volatile"; "wchar_t"; "while"; "xor"; "xor_eq"; "char8_t"; "char16_t"; "char32_t"; "concept";
   "consteval"; "constinit"; "co_await"; "co_return"; "co_yield"; "requires"]%string.
Definition is_keyword (n : bytes) : bool := existsb (same n) cpp_keywords.

(** 71-81 *)
Definition is_digit (b : Z) : bool := (48 <=? b) && (b <=? 57).
Definition is_alpha (b : Z) : bool := ((65 <=? b) && (b <=? 90)) || ((97 <=? b) && (b <=? 122)).
Definition id_start (b : Z) : bool := (b =? 95) || is_alpha b.
Definition id_continue (b : Z) : bool := (b =? 95) || is_alpha b || is_digit b.
(** 83-85 *)
Definition safe_identifier (n : bytes) : bytes := if is_keyword n then n ++ [95] else n.
(** 91-93 *)
Definition is_reserved (n : bytes) : bool :=
  contains [95; 95] n || match n with c :: d :: _ => (c =? 95) && (65 <=? d) && (d <=? 90) | _ => false end.
Definition well_formed (n : bytes) : bool := match n with c :: t => id_start c && forallb id_continue t | [] => false end.
(** 289-300 identifier::from_proto *)
Definition from_proto (n : bytes) : option bytes := if well_formed n && negb (is_reserved n) then Some (safe_identifier n) else None.
(** 302-308 identifier::from_protobuf_namespace *)
Definition from_namespace (n : bytes) : option bytes := if well_formed n then Some (safe_identifier n) else None.
(** 310-326 *)
Definition append_word (n word : bytes) : bytes := (if last_is 95 n then n else n ++ [95]) ++ word.
Definition disambiguated_with (n word : bytes) : bytes := if last_is 95 n then append_word n word else n ++ [95].

(** ** Qualified names *)
(** The segments between separators, as the [find] loops of 335-350 and 408-427 visit them. *)
Fixpoint split (sep : Z) (l : bytes) : list bytes :=
  match l with
  | [] => [[]]
  | c :: t => if c =? sep then [] :: split sep t else match split sep t with w :: ws => (c :: w) :: ws | [] => [[c]] end
  end.
Fixpoint all_some {A} (l : list (option A)) : option (list A) :=
  match l with
  | [] => Some []
  | Some x :: t => match all_some t with Some r => Some (x :: r) | None => None end
  | None :: _ => None
  end.
Definition colons : bytes := [58; 58].
Fixpoint join (l : list bytes) : bytes := match l with [] => [] | [a] => a | a :: t => a ++ colons ++ join t end.
(** 328-352 from_dotted *)
Definition from_dotted (n : bytes) : option bytes :=
  match n with [] => Some [] | _ => match all_some (map from_proto (split 46 n)) with Some l => Some (join l) | None => None end end.
(** 354-372 *)
Definition qualified_from_proto (prefix n : bytes) : option bytes :=
  if same n [46] then Some prefix
  else
    let absolute := starts [46] n in
    match from_dotted (if absolute then tl n else n) with
    | None => None
    | Some q => if negb absolute || match prefix with [] => true | _ => false end then Some q else Some (prefix ++ colons ++ q)
    end.
(** 374-379 append *)
Definition append_segment (q seg : bytes) : bytes := match q with [] => seg | _ => q ++ colons ++ seg end.

(** 95-119 file_namespace_component *)
Definition file_component (c : bytes) : option bytes :=
  let s := map (fun b => if id_continue b then b else 95) c in
  match s with
  | [] => None
  | b :: _ =>
      let s := if is_digit b then 95 :: s else s in
      match from_namespace s with Some i => if is_reserved i then None else Some i | None => None end
  end.
(** 121-130 file_namespace_override *)
Definition file_override (n : bytes) : option bytes :=
  match from_namespace n with Some i => if is_reserved i then None else Some i | None => None end.
Fixpoint components (l : list bytes) (over : option bytes) : option (list bytes) :=
  match l with
  | [] => Some []
  | [c] => match (match over with Some o => file_override o | None => file_component c end) with Some i => Some [i] | None => None end
  | c :: t => match file_component c, components t over with Some i, Some r => Some (i :: r) | _, _ => None end
  end.
(** 389-432 from_proto_file: the namespace of the file descriptor *)
Definition dot_proto : bytes := txt ".proto".
Definition file_namespace (file : bytes) (over : option bytes) : option bytes :=
  if match file with [] => true | _ => false end || starts [47] file || last_is 47 file || negb (starts (rev dot_proto) (rev file)) then None
  else match components (split 47 file) over with
       | Some l => Some (fold_left append_segment l (join [txt "hpp_proto"; txt "file_descriptors"]))
       | None => None
       end.

(** ** Include paths (132-152, 455-477) *)
Definition unsafe_header_byte (b : Z) : bool := (b =? 34) || (b =? 13) || (b =? 10) || (b <? 32).
(** find_last_of('.') and the part before it. *)
Fixpoint before_last (c : Z) (l : bytes) : option bytes :=
  match l with
  | [] => None
  | x :: t => match before_last c t with Some p => Some (x :: p) | None => if x =? c then Some [] else None end
  end.
Definition include_path (file dir suffix : bytes) : option bytes :=
  match before_last 46 file with
  | None => None
  | Some stem =>
      let path := (match dir with [] => [] | _ => dir ++ [47] end) ++ stem ++ suffix in
      match path with
      | [] => None
      | _ => if existsb unsafe_header_byte path then None else Some (34 :: map (fun b => if b =? 92 then 47 else b) path ++ [34])
      end
  end.

(** ** String literals and comments *)
(** 211-270 make_escape_entry *)
Definition escape (b : Z) : bytes :=
  if b =? 7 then [92; 97] else if b =? 8 then [92; 98] else if b =? 9 then [92; 116] else if b =? 10 then [92; 110]
  else if b =? 11 then [92; 118] else if b =? 12 then [92; 102] else if b =? 13 then [92; 114] else if b =? 34 then [92; 34]
  else if b =? 39 then [92; 39] else if b =? 92 then [92; 92] else if b =? 63 then [92; 63]
  else if (b <? 32) || (127 <=? b) then [92; 48 + b / 64; 48 + (b / 8) mod 8; 48 + b mod 8]
  else [b].
(** 439-453 string_literal_bytes *)
Definition string_literal (bs : bytes) : bytes := 34 :: concat (map escape bs) ++ [34].
(** 536-557 comment_text *)
Definition comment_char (b : Z) : bytes :=
  if b =? 13 then [92; 114] else if b =? 10 then [92; 110] else if b =? 92 then [92; 49; 51; 52] else if b =? 63 then [92; 48; 55; 55]
  else if (b <? 32) || (127 <=? b) then escape b
  else [b].
Definition comment_text (bs : bytes) : bytes := concat (map comment_char bs).

(** ** Integer literals *)
(** std::from_chars for uint64_t: the digits of the given base up to the first other
    character; [None] if there is none or the value does not fit. *)
Definition digit (base c : Z) : option Z :=
  let d := if is_digit c then c - 48 else if (97 <=? c) && (c <=? 122) then c - 87 else if (65 <=? c) && (c <=? 90) then c - 55 else 99 in
  if d <? base then Some d else None.
Fixpoint scan_digits (base acc : Z) (l : bytes) : Z * bytes :=
  match l with
  | c :: t => match digit base c with Some d => scan_digits base (acc * base + d) t | None => (acc, l) end
  | [] => (acc, [])
  end.
Definition from_chars (base : Z) (l : bytes) : option (Z * bytes) :=
  match l with
  | c :: _ => match digit base c with
              | Some _ => let '(v, rest) := scan_digits base 0 l in if v <? 2 ^ 64 then Some (v, rest) else None
              | None => None
              end
  | [] => None
  end.
(** 160-196 parse_integer: negative, magnitude *)
Definition parse_integer (value : bytes) (allow_sign : bool) : option (bool * Z) :=
  match value with
  | [] => None
  | c :: t =>
      let signed := (c =? 45) || (c =? 43) in
      if signed && negb allow_sign then None
      else
        let value := if signed then t else value in
        let hex := starts [48; 120] value || starts [48; 88] value in
        let oct := (2 <=? zlen value) && starts [48] value in
        let base := if hex then 16 else if oct then 8 else 10 in
        let value := if hex then skipn 2 value else if oct then tl value else value in
        match from_chars base value with Some (m, []) => Some (signed && (c =? 45), m) | _ => None end
  end.
(** 479-495 signed_integer; [w] is 32 or 64. *)
Definition signed_integer (value : bytes) (w : Z) : option bytes :=
  match parse_integer value true with
  | None => None
  | Some (neg, m) =>
      let sign_bit := 2 ^ (w - 1) in
      if (negb neg && (sign_bit - 1 <? m)) || (neg && (sign_bit <? m)) then None
      else if neg && (m =? sign_bit) then Some (if w =? 64 then txt "-9223372036854775807LL-1" else txt "-2147483647-1")
      else Some (value ++ (if w =? 64 then txt "LL" else []))
  end.
(** 497-505 unsigned_integer *)
Definition unsigned_integer (value : bytes) (w : Z) : option bytes :=
  match parse_integer value false with
  | None => None
  | Some (_, m) => if (w =? 32) && (2 ^ 32 - 1 <? m) then None else Some (value ++ (if w =? 64 then txt "ULL" else txt "U"))
  end.

(** ** Floating-point literals (198-209, 507-527) *)
Fixpoint span_digits (l : bytes) : bytes * bytes :=
  match l with c :: t => if is_digit c then let '(a, b) := span_digits t in (c :: a, b) else ([], l) | [] => ([], []) end.
Definition drop_minus (v : bytes) : bytes := match v with c :: t => if c =? 45 then t else v | [] => [] end.
Definition take_fraction (r : bytes) : bytes * bytes := match r with c :: t => if c =? 46 then span_digits t else ([], r) | [] => ([], []) end.
(** The pattern std::from_chars matches in the general format (no leading plus, no
    hexadecimal): digits, an optional fraction, an optional exponent; here applied to the
    whole text as the [ptr == last] test requires.  "inf" and "nan", which from_chars also
    matches, are excluded by the finiteness test. *)
Definition float_shape (value : bytes) : bool :=
  let '(i, r) := span_digits (drop_minus value) in
  let '(f, r) := take_fraction r in
  match i ++ f with
  | [] => false
  | _ => match r with
         | [] => true
         | c :: t => ((c =? 101) || (c =? 69)) &&
             let t := match t with s :: t' => if (s =? 43) || (s =? 45) then t' else t | [] => t end in
             match span_digits t with (_ :: _, []) => true | _ => false end
         end
  end.
(** [finite v is_float]: from_chars reports no range error and the value is finite. *)
Definition floating (finite : bytes -> bool -> bool) (value : bytes) (is_float : bool) : option bytes :=
  let ty := if is_float then txt "float" else txt "double" in
  if same value (txt "nan") then Some (txt "std::numeric_limits<" ++ ty ++ txt ">::quiet_NaN()")
  else if same value (txt "inf") || same value (txt "-inf")
  then Some ((if starts [45] value then [45] else []) ++ txt "std::numeric_limits<" ++ ty ++ txt ">::infinity()")
  else if negb (float_shape value && finite value is_float) then None
  else if negb (contains [46] value) && negb (contains [101] value) && negb (contains [69] value)
  then Some (value ++ txt ".0" ++ (if is_float then [70] else []))
  else if negb is_float then Some (txt "static_cast<double>(" ++ value ++ [41])
  else Some (value ++ [70]).
(** 529-534 boolean *)
Definition boolean (value : bytes) : option bytes := if same value (txt "true") || same value (txt "false") then Some value else None.
