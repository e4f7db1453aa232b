(** What merging two messages means. *)
From Coq Require Import Sorted.
Require Import Verif.Bits Verif.Varint.
Require Import Verif.Schema Verif.Decode Verif.WellTyped Verif.Encode Verif.EncodeSpec Verif.RoundTrip Verif.Presence.

(** No member of [v] or of a message inside it equals its default without being
    it: no floating point member without presence holds -0.0. *)
Inductive settled (E : env) : nat -> val -> Prop :=
| Settled ty v : omitted_default E ty v ->
    (forall f c ty' v', holds E ty v f c -> sub_msg f c ty' v' -> settled E ty' v') -> settled E ty v.

(** Value [c] of member [f] counts as set. *)
Definition is_set (f : field) (c : list val) : Prop :=
  match f with
  | Field _ e (CPlain false d) => exists v, c = [v] /\ ~ equals_default e d v
  | Field _ _ (CPlain true _) => True
  | _ => c <> []
  end.

(** Looking up a key in a map member. *)
Definition entry_of (k : val) (l : list val) (x : val) : Prop := In x l /\ entry_key x = k.
Definition no_entry (k : val) (l : list val) : Prop := forall x, In x l -> entry_key x <> k.

(** All bytes kept for extension [n]. *)
Definition ext_bytes (n : Z) (u : list (Z * bytes)) : bytes :=
  concat (map snd (filter (fun p => fst p =? n) u)).

(** Unknown fields: appended; extensions: appended per number. *)
Inductive merges_kept : ukind -> list (Z * bytes) -> list (Z * bytes) -> list (Z * bytes) -> Prop :=
| MKNone : merges_kept UNone [] [] []
| MKBytes w u x : (length x <= 1)%nat -> concat (map snd x) = concat (map snd w) ++ concat (map snd u) -> merges_kept UBytes w u x
| MKMap w u x : StronglySorted Z.lt (map fst x) -> (forall n, In n (map fst x) <-> In n (map fst w) \/ In n (map fst u)) ->
    (forall n, ext_bytes n x = ext_bytes n w ++ ext_bytes n u) -> merges_kept UMap w u x
| MKPairs w u : merges_kept UPairs w u (w ++ u).

(** [merges E ty a b r]: merging [b] into [a] gives [r]. *)
Inductive merges (E : env) : nat -> val -> val -> val -> Prop :=
| Merges ty gs w fs u rs x : merges_members E (m_fields (desc_of E ty)) gs fs rs -> merges_kept (m_unk (desc_of E ty)) w u x ->
    merges E ty (VMsg gs w) (VMsg fs u) (VMsg rs x)
with merges_members (E : env) : list field -> list (list val) -> list (list val) -> list (list val) -> Prop :=
| MMnil : merges_members E [] [] [] []
| MMcons f fds g gs c cs r rs : merges_member E f g c r -> merges_members E fds gs cs rs ->
    merges_members E (f :: fds) (g :: gs) (c :: cs) (r :: rs)
with merges_member (E : env) : field -> list val -> list val -> list val -> Prop :=
(* not set in the source: kept *)
| MAbsent f g c : ~ is_set f c -> merges_member E f g c g
(* singular scalars: overwritten *)
| MPlain num e ex d g c : scalar e = true -> is_set (Field num e (CPlain ex d)) c -> merges_member E (Field num e (CPlain ex d)) g c c
| MOpt num e g s : scalar e = true -> merges_member E (Field num e COpt) g [s] [s]
(* singular messages: merged *)
| MPlainMsg num ty delim ex d t s r : merges E ty t s r -> merges_member E (Field num (EMsg ty delim) (CPlain ex d)) [t] [s] [r]
| MOptNew num ty delim s : merges_member E (Field num (EMsg ty delim) COpt) [] [s] [s]
| MOptMsg num ty delim t s r : merges E ty t s r -> merges_member E (Field num (EMsg ty delim) COpt) [t] [s] [r]
(* repeated: appended *)
| MRep num e pk g c : merges_member E (Field num e (CRep pk)) g c (g ++ c)
| MPairs num e g c : merges_member E (Field num e (CMap false)) g c (g ++ c)
(* maps: the entries of the source replace those of the destination with the same key *)
| MMap num e g c r : StronglySorted key_lt (map entry_key r) ->
    (forall x, In x r <-> In x c \/ (In x g /\ no_entry (entry_key x) c)) -> merges_member E (Field num e (CMap true)) g c r
(* oneofs: overwritten, unless both hold the same message alternative *)
| MOneMsg alts j num ty delim t s r : nth_error alts j = Some (num, EMsg ty delim) -> merges E ty t s r ->
    merges_member E (Oneof alts) [VAlt j t] [VAlt j s] [VAlt j r]
| MOne alts g j s : ~ (exists num ty delim t, nth_error alts j = Some (num, EMsg ty delim) /\ g = [VAlt j t]) ->
    merges_member E (Oneof alts) g [VAlt j s] [VAlt j s].

(** No oneof of the schema has a message alternative. *)
Definition scalar_oneofs (E : env) : Prop :=
  forall ty alts num ty' delim, In (Oneof alts) (m_fields (desc_of E ty)) -> ~ In (num, EMsg ty' delim) alts.
(** No message type keeps unknown fields as one byte string. *)
Definition no_flat_store (E : env) : Prop := forall ty, m_unk (desc_of E ty) <> UBytes.
(** No message type (other than map entries) has required scalar members, and
    the default of a member without presence equals itself (is not a NaN). *)
Definition no_required (E : env) : Prop :=
  forall ty num e ex d, m_entry (desc_of E ty) = false -> In (Field num e (CPlain ex d)) (m_fields (desc_of E ty)) -> scalar e = true ->
  ex = false /\ equals_default e d d.
