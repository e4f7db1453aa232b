(** The C++ lexical rules the emitted text is read back with, written from the C++
    standard (not from the generator): translation phases 1 and 2, identifiers, string
    literals, integer and floating literals.  The last part gives the meaning of the
    number texts a .proto file may contain. *)
From Coq Require Import Ascii String.
Require Import Verif.Bits Verif.CppText.
Local Open Scope list_scope.

(** ** Translation phases 1 and 2: trigraphs (before C++17) and line splicing *)
Definition trigraph (c : Z) : option Z :=
  if c =? 61 then Some 35 else if c =? 47 then Some 92 else if c =? 39 then Some 94 else if c =? 40 then Some 91
  else if c =? 41 then Some 93 else if c =? 33 then Some 124 else if c =? 60 then Some 123 else if c =? 62 then Some 125
  else if c =? 45 then Some 126 else None.
Fixpoint phase1 (l : bytes) : bytes :=
  match l with
  | c :: (d :: e :: t) as u =>
      if (c =? 63) && (d =? 63) then match trigraph e with Some r => r :: phase1 t | None => c :: phase1 u end else c :: phase1 u
  | c :: t => c :: phase1 t
  | [] => []
  end.
(** A backslash at the end of a line; some compilers allow blanks in between. *)
Fixpoint blank_line_end (l : bytes) : bool :=
  match l with c :: t => if (c =? 10) || (c =? 13) then true else if (c =? 32) || (c =? 9) then blank_line_end t else false | [] => false end.

(** ** Identifiers *)
Definition letter (b : Z) : Prop := 65 <= b <= 90 \/ 97 <= b <= 122.
Definition decimal_digit (b : Z) : Prop := 48 <= b <= 57.
Definition identifier (n : bytes) : Prop :=
  match n with
  | c :: t => (letter c \/ c = 95) /\ Forall (fun b => letter b \/ decimal_digit b \/ b = 95) t
  | [] => False
  end.
Fixpoint words (l : bytes) (w : bytes) : list bytes :=
  match l with c :: t => if c =? 32 then w :: words t [] else words t (w ++ [c]) | [] => [w] end.
(** [lex.key] and [lex.digraph] of C++23, and the macro NULL. *)
Definition keywords : list bytes := words (txt
  "alignas alignof asm auto bool break case catch char char8_t char16_t char32_t class concept const consteval constexpr constinit const_cast continue co_await co_return co_yield decltype default delete do double dynamic_cast else enum explicit export extern false float for friend goto if inline int long mutable namespace new noexcept nullptr operator private protected public register reinterpret_cast requires return short signed sizeof static static_assert static_cast struct switch template this thread_local throw true try typedef typeid typename union unsigned using virtual void volatile wchar_t while and and_eq bitand bitor compl not not_eq or or_eq xor xor_eq NULL")%string [].
(** [lex.name]: reserved in every context. *)
Definition reserved (n : bytes) : Prop :=
  (exists a b, n = a ++ [95; 95] ++ b) \/ (exists c t, n = 95 :: c :: t /\ 65 <= c <= 90).
Definition usable (n : bytes) : Prop := identifier n /\ ~ In n keywords /\ ~ reserved n.

(** A qualified name with the given segments. *)
Inductive qualified : list bytes -> bytes -> Prop :=
| QOne s : qualified [s] s
| QMore s l q : qualified l q -> qualified (s :: l) (s ++ [58; 58] ++ q).

(** Segments put together with a separator between them. *)
Fixpoint unsplit (sep : Z) (l : list bytes) : bytes := match l with [] => [] | [a] => a | a :: t => a ++ sep :: unsplit sep t end.

(** ** String literals: the bytes denoted by the source text after the opening quote, and
    the source text after the closing one.  [None] for escapes not used here. *)
Definition octal (c : Z) : bool := (48 <=? c) && (c <=? 55).
Definition simple_escape (c : Z) : option Z :=
  if c =? 97 then Some 7 else if c =? 98 then Some 8 else if c =? 116 then Some 9 else if c =? 110 then Some 10
  else if c =? 118 then Some 11 else if c =? 102 then Some 12 else if c =? 114 then Some 13 else if c =? 34 then Some 34
  else if c =? 39 then Some 39 else if c =? 92 then Some 92 else if c =? 63 then Some 63 else None.
Definition put (v : Z) (r : option (bytes * bytes)) : option (bytes * bytes) :=
  if v <? 256 then match r with Some (bs, rest) => Some (v :: bs, rest) | None => None end else None.
Fixpoint read_body (l : bytes) : option (bytes * bytes) :=
  match l with
  | [] => None
  | c :: t =>
      if c =? 34 then Some ([], t)
      else if (c =? 10) || (c =? 13) then None
      else if c =? 92 then
        match t with
        | [] => None
        | a :: t1 =>
            if octal a then
              match t1 with
              | b :: t2 =>
                  if octal b then
                    match t2 with
                    | d :: t3 => if octal d then put ((a - 48) * 64 + (b - 48) * 8 + (d - 48)) (read_body t3)
                                 else put ((a - 48) * 8 + (b - 48)) (read_body t2)
                    | [] => put ((a - 48) * 8 + (b - 48)) (read_body t2)
                    end
                  else put (a - 48) (read_body t1)
              | [] => put (a - 48) (read_body t1)
              end
            else match simple_escape a with Some v => put v (read_body t1) | None => None end
        end
      else put c (read_body t)
  end.
Definition read_literal (l : bytes) : option (bytes * bytes) := match l with 34 :: t => read_body t | _ => None end.

(** ** Integer expressions: an optional sign, an integer literal, and optionally the
    subtraction of another one.  int has 32 bits, long long 64. *)
Inductive ctype := I32 | U32 | I64 | U64.
Definition fits (t : ctype) (v : Z) : bool :=
  match t with
  | I32 => (- 2 ^ 31 <=? v) && (v <? 2 ^ 31)
  | U32 => (0 <=? v) && (v <? 2 ^ 32)
  | I64 => (- 2 ^ 63 <=? v) && (v <? 2 ^ 63)
  | U64 => (0 <=? v) && (v <? 2 ^ 64)
  end.
Definition hex_value (c : Z) : Z :=
  if (48 <=? c) && (c <=? 57) then c - 48 else if (97 <=? c) && (c <=? 102) then c - 97 + 10
  else if (65 <=? c) && (c <=? 70) then c - 65 + 10 else 16.
(** Preprocessing numbers: an e takes a following sign along. *)
Definition sign (c : Z) : bool := (c =? 43) || (c =? 45).
Definition pp_char (c : Z) : bool :=
  ((48 <=? c) && (c <=? 57)) || ((65 <=? c) && (c <=? 90)) || ((97 <=? c) && (c <=? 122)) || (c =? 95) || (c =? 46).
Fixpoint pp_number (l : bytes) : bytes * bytes :=
  match l with
  | [] => ([], [])
  | c :: t =>
      if pp_char c then
        match t with
        | s :: t' => if ((c =? 101) || (c =? 69)) && sign s then let '(a, b) := pp_number t' in (c :: s :: a, b)
                     else let '(a, b) := pp_number t in (c :: a, b)
        | [] => ([c], [])
        end
      else ([], l)
  end.
Fixpoint digits_then (base : Z) (l : bytes) : list Z * bytes :=
  match l with
  | c :: t => if hex_value c <? base then let '(a, b) := digits_then base t in (hex_value c :: a, b) else ([], l)
  | [] => ([], [])
  end.
Definition number (base : Z) (ds : list Z) : Z := fold_left (fun v d => v * base + d) ds 0.
(** [lex.icon]: the types tried in turn. *)
Definition literal_types (decimal : bool) (suffix : bytes) : list ctype :=
  if same suffix [] then if decimal then [I32; I64] else [I32; U32; I64; U64]
  else if same suffix (txt "U") then [U32; U64]
  else if same suffix (txt "LL") then if decimal then [I64] else [I64; U64]
  else if same suffix (txt "ULL") then [U64]
  else [].
Definition integer_literal (tok : bytes) : option (ctype * Z) :=
  let '(base, body) := match tok with
                       | c :: u =>
                           if c =? 48 then match u with
                                           | x :: t => if (x =? 120) || (x =? 88) then (16, t) else (8, tok)
                                           | [] => (8, tok)
                                           end
                           else (10, tok)
                       | [] => (10, tok)
                       end in
  match digits_then base body with
  | ([], _) => None
  | (ds, suffix) =>
      let v := number base ds in
      match find (fun t => fits t v) (literal_types (base =? 10) suffix) with Some t => Some (t, v) | None => None end
  end.
(** Signed overflow is an error; unsigned arithmetic wraps. *)
Definition arith (t : ctype) (v : Z) : option (ctype * Z) :=
  match t with
  | U32 => Some (U32, v mod 2 ^ 32)
  | U64 => Some (U64, v mod 2 ^ 64)
  | _ => if fits t v then Some (t, v) else None
  end.
Definition join_types (a b : ctype) : ctype :=
  match a, b with U64, _ | _, U64 => U64 | I64, _ | _, I64 => I64 | U32, _ | _, U32 => U32 | I32, I32 => I32 end.
Definition integer_expression (l : bytes) : option (ctype * Z) :=
  let '(neg, body) := match l with c :: t => if sign c then (c =? 45, t) else (false, l) | [] => (false, []) end in
  let '(tok, rest) := pp_number body in
  match integer_literal tok with
  | None => None
  | Some (t, v) =>
      match arith t (if neg then - v else v), rest with
      | Some r, [] => Some r
      | Some (t, v), 45 :: body =>
          let '(tok, rest) := pp_number body in
          match integer_literal tok, rest with
          | Some (t', v'), [] => arith (join_types t t') (v - v')
          | _, _ => None
          end
      | _, _ => None
      end
  end.

(** ** Number texts in a .proto file: decimal, octal after a leading 0, hexadecimal after 0x *)
Definition digits_of (base : Z) (l : bytes) (ds : list Z) : Prop := l <> [] /\ Forall2 (fun c d => hex_value c = d /\ d < base) l ds.
Inductive magnitude : bytes -> Z -> Prop :=
| MZero : magnitude [48] 0
| MDec c l ds : c <> 48 -> digits_of 10 (c :: l) ds -> magnitude (c :: l) (number 10 ds)
| MOct l ds : digits_of 8 l ds -> magnitude (48 :: l) (number 8 ds)
| MHex x l ds : x = 120 \/ x = 88 -> digits_of 16 l ds -> magnitude (48 :: x :: l) (number 16 ds).
Inductive integer_text : bytes -> Z -> Prop :=
| TPlain l m : magnitude l m -> integer_text l m
| TPlus l m : magnitude l m -> integer_text (43 :: l) m
| TMinus l m : magnitude l m -> integer_text (45 :: l) (- m).

(** ** Decimal floating numbers: integer part, fraction, exponent.  C++ ([lex.fcon])
    additionally demands a point or an exponent. *)
Record decimal := Decimal { d_int : bytes; d_frac : option bytes; d_exp : option (Z * bytes * bytes) }.
Definition spelling (d : decimal) : bytes :=
  d_int d ++ match d_frac d with Some f => 46 :: f | None => [] end
          ++ match d_exp d with Some (e, sg, x) => e :: sg ++ x | None => [] end.
Definition legal_decimal (d : decimal) : Prop :=
  Forall decimal_digit (d_int d) /\ Forall decimal_digit (match d_frac d with Some f => f | None => [] end) /\
  (d_int d <> [] \/ exists f, d_frac d = Some f /\ f <> []) /\
  match d_exp d with
  | Some (e, sg, x) => (e = 101 \/ e = 69) /\ (sg = [] \/ sg = [43] \/ sg = [45]) /\ x <> [] /\ Forall decimal_digit x
  | None => True
  end.
Definition has_point (d : decimal) : Prop := d_frac d <> None \/ d_exp d <> None.
Definition digit_values (l : bytes) : list Z := map (fun c => c - 48) l.
Definition mantissa (d : decimal) : Z := number 10 (digit_values (d_int d ++ match d_frac d with Some f => f | None => [] end)).
Definition exponent (d : decimal) : Z :=
  match d_exp d with
  | Some (_, [45], x) => - number 10 (digit_values x)
  | Some (_, _, x) => number 10 (digit_values x)
  | None => 0
  end - match d_frac d with Some f => zlen f | None => 0 end.
(** m1 * 10^e1 = m2 * 10^e2 *)
Definition same_value (a b : decimal) : Prop :=
  let e := Z.min (exponent a) (exponent b) in mantissa a * 10 ^ (exponent a - e) = mantissa b * 10 ^ (exponent b - e).
(** The C++ expressions of type float or double with a given decimal value: a literal with
    or without the suffix F, or a literal converted to double; optionally negated. *)
Inductive float_expression (is_float neg : bool) : decimal -> bytes -> Prop :=
| FLiteral d : legal_decimal d -> has_point d ->
    float_expression is_float neg d ((if neg then [45] else []) ++ spelling d ++ (if is_float then [70] else []))
| FCast d : is_float = false -> legal_decimal d -> has_point d ->
    float_expression is_float neg d (txt "static_cast<double>(" ++ (if neg then [45] else []) ++ spelling d ++ [41]).
