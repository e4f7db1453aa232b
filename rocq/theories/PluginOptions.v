(** The options of the code generator (src/protoc-plugin/hpp_generator.cpp:2482-2537,
    hpp_generator.hpp:41-57): the parameter text that protoc hands over
    ([--hpp_out=a,b=c:dir]) becomes a record of options.

    Not modelled: [plugin_name] and [raw_parameters], which are copied, and the text of the
    error ([None] here). *)
From Coq Require Import Ascii String.
Require Import Verif.Bits Verif.CppText.
Local Open Scope Z_scope.
Local Open Scope list_scope.

(** [str.find(d)]: what is before the first [d], and what is after it if there is one. *)
Fixpoint cut (d : Z) (s : bytes) : bytes * option bytes :=
  match s with
  | [] => ([], None)
  | c :: t => if c =? d then ([], Some t) else let '(a, r) := cut d t in (c :: a, r)
  end.

(** 2482-2493 split; [pos] is replaced by the rest of the text, and every round drops at
    least one character, so that the length of the text bounds the rounds. *)
Fixpoint split_loop (n : nat) (d : Z) (s : bytes) : list bytes :=
  match n, s with
  | O, _ | _, [] => []
  | S n, _ => match cut d s with (a, None) => [a] | (a, Some r) => a :: split_loop n d r end
  end.
Definition split_parameters (s : bytes) : list bytes := split_loop (length s) 44 s.

(** hpp_generator.hpp:43-57 *)
Record options := Options {
  directory_prefix : bytes;
  namespace_prefix : option bytes;
  explicit_presences : list bytes;
  preserve_names : bool;
  export_request : option bytes }.

(** 2500-2503 *)
Definition no_options : options := Options [] None [] false None.

(** 2507-2528 the callback; the boolean tells whether [error] has been set. *)
Definition one_option (st : options * bool) (s : bytes) : options * bool :=
  let '(o, e) := st in
  let '(key, rest) := cut 61 s in
  let value := match rest with None => [] | Some v => v end in
  if same key (txt "directory_prefix") then
    (Options value (namespace_prefix o) (explicit_presences o) (preserve_names o) (export_request o), e)
  else if same key (txt "namespace_prefix") then
    match from_dotted value with
    | None => (o, true)
    | Some q => (Options (directory_prefix o) (Some q) (explicit_presences o) (preserve_names o) (export_request o), e)
    end
  else if same key (txt "proto2_explicit_presence") then
    (Options (directory_prefix o) (namespace_prefix o) (explicit_presences o ++ [value]) (preserve_names o) (export_request o), e)
  else if same key (txt "preserve_proto_field_names") then
    (Options (directory_prefix o) (namespace_prefix o) (explicit_presences o)
       (same value (txt "true") || match value with [] => true | _ => false end) (export_request o), e)
  else if same key (txt "export_request") then
    (Options (directory_prefix o) (namespace_prefix o) (explicit_presences o) (preserve_names o) (Some value), e)
  else (o, e).

(** 2498-2537 parse_plugin_options *)
Definition parse_plugin_options (parameters : bytes) : option options :=
  let '(o, e) := fold_left one_option (split_parameters parameters) (no_options, false) in
  if e : bool then None
  else Some (match explicit_presences o with
             | [] => Options (directory_prefix o) (namespace_prefix o) [[46]] (preserve_names o) (export_request o)
             | _ => o
             end).
