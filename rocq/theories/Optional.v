(** Model of the optional member types, include/hpp_proto/field_types.hpp:84-327.

    Not modelled: noexcept specifications, the converting constructors and
    assignments from optional<U> (they name private members of another class and
    are never instantiated), moved-from values (a moved-from operand keeps its
    presence flag and holds the value that the move of [T] leaves behind, given
    here as a parameter of the operation). *)
Require Import Verif.Bits.
Open Scope Z_scope.

(** ** optional<T, Default>, field_types.hpp:85-259 *)

(** Members _value and _present, field_types.hpp:102-104. *)
Record opt (T : Type) := Opt { o_value : T; o_present : bool }.
Arguments Opt {T}. Arguments o_value {T}. Arguments o_present {T}.

Section Optional.
  (** [dflt] is default_value() (89-99), [zero] is T{}. *)
  Context {T : Type} (dflt zero : T).

  (** optional(), optional(nullopt), 109-111. *)
  Definition o_empty : opt T := Opt dflt false.
  (** optional(U&&), optional(in_place, ...), 146-164. *)
  Definition o_of (v : T) : opt T := Opt v true.
  (** optional(std::optional), operator=(std::optional), 126-144,201-217. *)
  Definition o_of_std (o : option T) : opt T :=
    Opt (match o with Some v => v | None => dflt end) (match o with Some _ => true | None => false end).

  (** has_value, operator bool, 219-220. *)
  Definition o_has (o : opt T) : bool := o_present o.
  (** value, operator*, operator->: no check, 222-240. *)
  Definition o_get (o : opt T) : T := o_value o.
  (** value_or, 227-234. *)
  Definition o_value_or (o : opt T) (d : T) : T := if o_present o then o_value o else d.
  (** operator==, 258: defaulted, so both members are compared. *)
  Definition o_eqb (eqb : T -> T -> bool) (a b : opt T) : bool :=
    eqb (o_value a) (o_value b) && Bool.eqb (o_present a) (o_present b).

  (** Operations on a set of optional objects, addressed by position. *)
  Inductive oop :=
  | OReset (i : nat)                    (* reset(), = nullopt: 166-170,253-256 *)
  | OAssign (i : nat) (v : T)           (* operator=(U&&), emplace(args...): 172-181,242-249 *)
  | OEmplace (i : nat)                  (* emplace(): 242-249 with no arguments, T{} *)
  | OStd (i : nat) (o : option T)       (* operator=(std::optional): 201-217 *)
  | OCopy (i j : nat)                   (* operator=(const optional&): 183 *)
  | OMove (i j : nat) (left_behind : T) (* operator=(optional&&): 185 *)
  | OSwap (i j : nat)                   (* swap: 251-255 *)
  | OWrite (i : nat) (v : T).           (* *o = v, o.value() = v through the reference: 222,236-239 *)

  Definition reg {S} (d : S) (m : list S) (i : nat) : S := nth i m d.
  Fixpoint put {S} (i : nat) (x : S) (m : list S) : list S :=
    match m, i with
    | [], _ => []
    | _ :: t, O => x :: t
    | h :: t, S j => h :: put j x t
    end.

  Definition o_step (m : list (opt T)) (p : oop) : list (opt T) :=
    let r := reg o_empty m in
    match p with
    | OReset i => put i o_empty m
    | OAssign i v => put i (o_of v) m
    | OEmplace i => put i (o_of zero) m
    | OStd i o => put i (o_of_std o) m
    | OCopy i j => put i (r j) m
    | OMove i j v => put i (r j) (put j (Opt v (o_present (r j))) m)
    | OSwap i j => put i (r j) (put j (r i) m)
    | OWrite i v => put i (Opt v (o_present (r i))) m
    end.
  Definition o_run (m : list (opt T)) (ps : list oop) : list (opt T) := fold_left o_step ps m.
End Optional.

(** ** optional<bool, Default>, field_types.hpp:261-327 *)

Section OptionalBool.
  (** [d] is default_value(). *)
  Context (d : bool).

  (** default_state, 288-290; the member impl, 292. *)
  Definition b_empty : Z := Z.lor 128 (Z.b2z d).
  (** optional(bool), operator=(bool), emplace(bool), 298,311-314,318-321. *)
  Definition b_of (v : bool) : Z := Z.b2z v.
  (** has_value, 304. *)
  Definition b_has (impl : Z) : bool := Z.land impl 128 =? 0.
  (** value, operator*, 305,316. *)
  Definition b_get (impl : Z) : bool := negb (Z.land impl 1 =? 0).
  (** operator==, 322: defaulted. *)
  Definition b_eqb (a b : Z) : bool := a =? b.
  (** bool_proxy::operator bool, 268. *)
  Definition b_proxy (impl : Z) : bool := negb (impl =? 0).

  Inductive bop :=
  | BReset (i : nat)
  | BAssign (i : nat) (v : bool)  (* also through a bool_proxy, 271-274 *)
  | BEmplace (i : nat)            (* emplace(), 307-310: the default value *)
  | BCopy (i j : nat)
  | BSwap (i j : nat).

  Definition b_step (m : list Z) (p : bop) : list Z :=
    let r := reg b_empty m in
    match p with
    | BReset i => put i b_empty m
    | BAssign i v => put i (b_of v) m
    | BEmplace i => put i (b_of d) m
    | BCopy i j => put i (r j) m
    | BSwap i j => put i (r j) (put j (r i) m)
    end.
  Definition b_run (m : list Z) (ps : list bop) : list Z := fold_left b_step ps m.
End OptionalBool.
