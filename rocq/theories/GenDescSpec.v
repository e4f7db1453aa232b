(** What generated headers with file descriptors stand for. *)
From Coq Require Import Sorting.Sorted.
From Coq Require Export Relations.
Require Import Verif.Bits Verif.Varint Verif.Schema Verif.Pool Verif.PoolSpec Verif.GenDesc.

(** [g] is [f], or [f] imports it, possibly through other files. *)
Definition needs (fs : list fileproto) (f g : fileproto) : Prop := In g fs /\ clos_refl_trans bytes (depends fs) (fl_name f) (fl_name g).

(** ** C++: including headers, and looking up the names they define *)
Definition includes (hs : list header) (a b : header) : Prop := In b hs /\ In (h_file b) (h_includes a).
Definition sees (hs : list header) (a b : header) : Prop := clos_refl_trans header (includes hs) a b.
(** Every header that is included from [h], directly or not, is there. *)
Definition complete (hs : list header) (h : header) : Prop :=
  forall a n, sees hs h a -> In n (h_includes a) -> exists b, In b hs /\ h_file b = n.
(** In a program that includes [h], the name [n] is defined once, with the value [v]. *)
Definition denotes (hs : list header) (h : header) (n v : bytes) : Prop :=
  exists b, sees hs h b /\ h_name b = n /\ h_value b = v /\ forall b', sees hs h b' -> h_name b' = n -> b' = b.
(** The elements of the array that the function of [h] returns. *)
Definition set_value (hs : list header) (h : header) (vs : list bytes) : Prop := Forall2 (denotes hs h) (h_set h) vs.

(** ** Schemas as protoc makes them: types are used only in files that import them *)
Definition declares (f : fileproto) (n : bytes) : Prop := In n (map fst (file_messages f)) \/ In n (map fst (file_enums f)).
Definition uses (f : fileproto) (n : bytes) : Prop :=
  exists p, In p (message_fields [f] ++ extensions [f]) /\ (fp_type_name p = 46 :: n \/ fp_extendee p = 46 :: n).
Definition types_imported (fs : list fileproto) : Prop :=
  forall f g n, In f fs -> In g fs -> uses f n -> declares g n -> clos_refl_trans bytes (depends fs) (fl_name f) (fl_name g).
