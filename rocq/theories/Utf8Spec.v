(** Strings held by a message in validated fields, at any nesting level. *)
Require Import Verif.Bits Verif.Schema.

(** The value [y] of type [e] stored by an element [x] of member [f]: the
    element itself, or the value inside the active alternative of a oneof. *)
Definition occupant (f : field) (x : val) (e : elem) (y : val) : Prop :=
  match f with
  | Field _ e' _ => e' = e /\ x = y
  | Oneof alts => exists j num, x = VAlt j y /\ nth_error alts j = Some (num, e)
  end.

(** The value of type [e] holds the string [b] in a field that requires UTF-8. *)
Inductive holds (E : env) : elem -> val -> bytes -> Prop :=
| HString view b : holds E (EBytes true view) (VBytes b) b
| HMember ty d fs u k f c x e y b :
    nth_error (m_fields (desc_of E ty)) k = Some f -> nth_error fs k = Some c -> In x c ->
    occupant f x e y -> holds E e y b -> holds E (EMsg ty d) (VMsg fs u) b.

Definition holds_string (E : env) (ty : nat) (v : val) (b : bytes) : Prop := holds E (EMsg ty false) v b.

(** Every string in a validated field is accepted by the validator. *)
Definition valid_strings (E : env) (utf8_ok : bytes -> bool) (ty : nat) (v : val) : Prop :=
  forall b, holds_string E ty v b -> utf8_ok b = true.

(** The default values of the schema are valid. *)
Definition valid_defaults (E : env) (utf8_ok : bytes -> bool) : Prop :=
  forall ty, valid_strings E utf8_ok ty (default_msg E ty).
