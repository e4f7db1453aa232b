(** What is expected of the declarations of a generated header, and the descriptor pools
    the theorems are about. *)
Require Import List Arith Bool Lia Relations.
Require Import Verif.Archive Verif.Gen.
Import ListNotations.
Local Open Scope nat_scope.

(** [sub P m t]: [t] is [m] or nested in [m], at any depth. *)
Definition prefix (a b : path) := exists c, b = a ++ c.
Definition sub P m t := fileof P m = fileof P t /\ prefix (pathof P m) (pathof P t).
(** [inside P m t]: [t] is nested in [m]. *)
Definition inside P m t := sub P m t /\ m <> t.
(** messages of the same scope *)
Definition siblings P m t :=
  fileof P m = fileof P t /\ pathof P m <> [] /\ pathof P t <> [] /\ removelast (pathof P m) = removelast (pathof P t).

(** Pools as descriptor_pool builds them: names are unique, the enclosing message of a
    nested one exists and is not a map entry, types are resolved, and the values of maps
    are not maps. *)
Record wf P : Prop := {
  wf_unique : forall i j, i < nmsgs P -> j < nmsgs P -> fileof P i = fileof P j -> pathof P i = pathof P j -> i = j;
  wf_named : forall i, i < nmsgs P -> pathof P i <> [];
  wf_parent : forall i, i < nmsgs P -> removelast (pathof P i) <> [] ->
    exists p, p < nmsgs P /\ fileof P p = fileof P i /\ pathof P p = removelast (pathof P i) /\ entry P p = false;
  wf_field : forall f m, f < nflds P -> f_msg (fget P f) = Some m -> m < nmsgs P;
  wf_type : forall f t, f < nflds P -> f_type (fget P f) = TMsg t -> t < nmsgs P;
  wf_enum : forall f o, f < nflds P -> f_type (fget P f) = TEnum (Some o) -> o < nmsgs P /\ entry P o = false;
  wf_value : forall t v x, entry P t = true -> value_field P t = Some v -> f_type (fget P v) = TMsg x -> entry P x = false
}.

(** No extension declared in a file has a message type: see [C68_file_extension_refuted]. *)
Definition no_file_extensions P :=
  forall f t, f < nflds P -> f_type (fget P f) = TMsg t -> f_msg (fget P f) <> None.

(** ** What the schema says *)

(** The field has the message type [x] or is a map whose values are [x]s; or, with
    [en], it has an enum type declared in [x] or is a map whose values have such a type. *)
Definition names_type P (f : nat) (en : bool) (x : nat) : Prop :=
  match f_type (fget P f) with
  | TMsg t => if entry P t
              then exists v, value_field P t = Some v /\ f_type (fget P v) = if en then TEnum (Some x) else TMsg x
              else x = t /\ en = false
  | TEnum o => o = Some x /\ en = true
  | TScalar => False
  end.
(** Something in the message [p] names [x]; the values of a map are named by the message
    of the map. *)
Definition mentions P p x := exists f en, f < nflds P /\ f_msg (fget P f) = Some p /\ names_type P f en x /\
  (entry P p = true -> f_type (fget P f) = TEnum (Some x)).

(** [D] needs its sibling [E]: something in [D] mentions something in [E]. *)
Definition needs P D E :=
  siblings P D E /\ D <> E /\ D < nmsgs P /\ E < nmsgs P /\
  exists p x, p < nmsgs P /\ x < nmsgs P /\ sub P D p /\ sub P E x /\ mentions P p x.

(** ** What the compiler requires of the header *)

(** Every type named in a definition is declared before it; a struct may name itself,
    and the types of other files are included. *)
Definition declared P (pre : list event) (m : nat) (u : use) : Prop :=
  match u with
  | UMsg t _ => t = m \/ fileof P t <> fileof P m \/ In (EFwd t) pre \/ exists us, In (EDef t us) pre
  | UEnum o => fileof P o <> fileof P m \/ In (EScope o) pre
  end.
Definition declared_before_use P (es : list event) :=
  forall pre m us post u, es = pre ++ EDef m us :: post -> In u us -> declared P pre m u.

(** No struct contains itself by value, directly or through others. *)
Definition contains (es : list event) (m t : nat) := exists us, In (EDef m us) es /\ In (UMsg t true) us.
Definition finite_layout (es : list event) := forall m, ~ clos_trans nat (contains es) m m.

(** the messages defined, in order *)
Definition defs (es : list event) : list nat := flat_map (fun e => match e with EDef m _ => [m] | _ => [] end) es.
Definition fwds (es : list event) : list nat := flat_map (fun e => match e with EFwd m => [m] | _ => [] end) es.

(** ** Conditions on schemas *)

(** The messages of every scope of a file can be ordered by their needs. *)
Definition ordered_needs P file :=
  exists rank : nat -> nat, forall D E, fileof P D = file -> needs P D E -> rank E < rank D.

(** A message has a repeated field or a map of its sibling, or of itself. *)
Definition holds_many P m d :=
  (exists f, f < nflds P /\ f_msg (fget P f) = Some m /\ f_type (fget P f) = TMsg d /\ f_rep (fget P f) = true) \/
  (exists e f, f < nflds P /\ e < nmsgs P /\ entry P e = true /\ parent P e = Some m /\ f_msg (fget P f) = Some e /\ f_type (fget P f) = TMsg d).

(** A message that has a repeated field or a map of a sibling, or a repeated field or a
    map of itself, needs no other sibling. *)
Definition lone_containers P file :=
  forall m d e, fileof P m = file -> siblings P m d -> holds_many P m d -> needs P m e -> e = d.

(** No member of a message names a message around it. *)
Definition no_outward P file :=
  forall p f x, fileof P p = file -> f < nflds P -> f_msg (fget P f) = Some p -> f_ext (fget P f) = false ->
    names_type P f false x -> ~ inside P x p.

(** Types declared in a message are named only in it: a message type named elsewhere is
    declared in a scope around the name, and so is an enum type. *)
Definition own_types P file :=
  forall p f en x, fileof P p = file -> f < nflds P -> f_msg (fget P f) = Some p -> f_ext (fget P f) = false ->
    names_type P f en x -> fileof P x = file ->
    if en then sub P p x \/ sub P x p
    else prefix (removelast (pathof P x)) (pathof P p) \/ sub P p x.

(** A message has a singular field of a message type. *)
Definition holds_one P m t := exists f, f < nflds P /\ f_ext (fget P f) = false /\ f_msg (fget P f) = Some m /\
  f_type (fget P f) = TMsg t /\ f_rep (fget P f) = false.

(** The singular fields through which a message can contain itself are not in oneofs, and
    their types are siblings of the message, the message itself, or in it or around it. *)
Definition plain_cycles P file :=
  forall m t f, fileof P m = file -> entry P m = false -> f < nflds P -> f_ext (fget P f) = false -> f_msg (fget P f) = Some m ->
    f_type (fget P f) = TMsg t -> f_rep (fget P f) = false -> clos_refl_trans nat (holds_one P) t m ->
    f_oneof (fget P f) = None /\ (siblings P m t \/ sub P t m \/ sub P m t).

(** What a field is written as when nothing is in the way: message types by value, but for
    the elements of repeated fields and maps, and for a plain field that has the type of
    its own message or of a message around it. *)
Definition plain_use P (m f : nat) : list use :=
  match f_type (fget P f) with
  | TScalar | TEnum None => []
  | TEnum (Some o) => [UEnum o]
  | TMsg t =>
      if entry P t then
        match value_field P t with
        | Some v => match f_type (fget P v) with
                    | TMsg x => [UMsg x false]
                    | TEnum (Some o) => [UEnum o]
                    | _ => []
                    end
        | None => []
        end
      else
        let around := (fileof P t =? fileof P m) && prefixb (pathof P t) (pathof P m) in
        [UMsg t (negb (f_rep (fget P f)) && (negb around || match f_oneof (fget P f) with Some _ => true | None => false end))]
  end.
