(** Vocabulary of the decoding properties. *)
From Coq Require Import Sorted.
Require Import Verif.Bits Verif.Varint Verif.VarintSpec.
Require Import Verif.Schema Verif.Archive Verif.Decode Verif.DecodeSafe Verif.WireGrammar Verif.Wire Verif.DecodeSpec4 Verif.DecodeLaws2 Verif.FieldSpec Verif.WellTyped.

(** Two readings agree: same message, or both fail. *)
Definition same_result (r1 r2 : res val) : Prop := forall v, r1 = Ok v <-> r2 = Ok v.

Definition rejected (r : res val) : Prop := exists e, r = Err e.

(** Member [i] of message type [ty], described by [f], is the one for field number [num]. *)
Definition member (E : env) (ty : nat) (num : Z) (i : nat) (f : field) : Prop :=
  find_field num (m_fields (desc_of E ty)) 0 = Some (i, f).

(** [ty] has no member for [num]. *)
Definition unknown_to (E : env) (ty : nat) (num : Z) : Prop :=
  num <> 0 /\ Forall (fun f => has_num num f = false) (m_fields (desc_of E ty)).

(** A tag written in its shortest form.  (A five byte tag always counts: the
    library reads it as a number that needs five bytes.) *)
Definition shortest (tb : bytes) : Prop := length tb = 1%nat \/ length tb = 5%nat \/ last tb 0 <> 0.

Definition short_field (limit d num : Z) (f : bytes) : Prop :=
  exists tb tag p, f = tb ++ p /\ tag_reads tb tag /\ tag_number tag = num /\ payload limit d tag p /\ shortest tb.

(** No message type of the schema keeps unknown fields. *)
Definition keeps_nothing (E : env) : Prop := forall ty, m_unk (desc_of E ty) = UNone.

(** Reading [bs] stores no unknown field whose tag is not in shortest form.  (For
    such a field the library stores the wrong bytes, see
    C24_overlong_tag_refuted.)  Always true when nothing is kept. *)
Definition exact_unknown (E : env) (utf8_ok : bytes -> bool) (limit : Z) (ty : nat) (cur : val) (bs : bytes) : Prop :=
  spec_decode E utf8_ok limit ty cur bs <> TDev.

(** ** The tags of the fields that get stored *)
(** [bs] is a sequence of fields, one of them with tag bytes [tb], tag [tag] and payload [p]. *)
Definition fields_at (limit d : Z) (l : list (Z * bytes)) : Prop := Forall (fun x => one_field limit d (fst x) (snd x)) l.
Definition has_field (bs tb : bytes) (tag : Z) (p : bytes) : Prop :=
  exists limit d pre post, fields_at limit d pre /\ fields_at limit d post /\ tag_reads tb tag /\ payload limit d tag p /\
    bs = bytes_of pre ++ (tb ++ p) ++ bytes_of post.

(** Type [ty] reads field [num] as element type [e]. *)
Definition reads_as (E : env) (ty : nat) (num : Z) (e : elem) : Prop :=
  exists i f, member E ty num i f /\
  match f with Field _ e' _ => e' = e | Oneof alts => exists j, find_alt num alts 0 = Some (j, e) end.

(** [tb] is the tag of a field that a message of type [ty], or a message nested
    in it, does not know but stores when [bs] is read. *)
Inductive stored_tag (E : env) : nat -> bytes -> bytes -> Prop :=
| STHere ty bs tb tag p : has_field bs tb tag p -> unknown_to E ty (tag_number tag) -> m_unk (desc_of E ty) <> UNone ->
    stored_tag E ty bs tb
| STMsg ty bs tb tag lb c ty' tb' : has_field bs tb tag (lb ++ c) -> tag_type tag = WT_LEN -> is_varint lb ->
    reads_as E ty (tag_number tag) (EMsg ty' false) -> stored_tag E ty' c tb' -> stored_tag E ty bs tb'
| STGroup ty bs tb tag c eb ty' tb' : has_field bs tb tag (c ++ eb) -> tag_type tag = WT_SGROUP -> is_varint eb ->
    reads_as E ty (tag_number tag) (EMsg ty' true) -> stored_tag E ty' c tb' -> stored_tag E ty bs tb'.

(** Every unknown field that reading [bs] stores has its tag in shortest form.
    Trivially true when no type keeps unknown fields. *)
Definition short_stored (E : env) (ty : nat) (bs : bytes) : Prop := forall tb, stored_tag E ty bs tb -> shortest tb.

(** All bytes kept as unknown fields, and those kept for one number. *)
Definition kept_bytes (unk : list (Z * bytes)) : bytes := concat (map snd unk).
Definition kept_for (num : Z) (unk : list (Z * bytes)) : bytes :=
  concat (map snd (filter (fun p => fst p =? num) unk)).

(** No member of [ty] is a closed enum. *)
Definition no_closed_enum (E : env) (ty : nat) : Prop :=
  Forall (fun f => closed_field f = false) (m_fields (desc_of E ty)).

(** The fields of [l] that concern one member ([Some i]) or the unknown field
    store ([None]), in their order. *)
Definition concerning (E : env) (ty : nat) (k : option nat) (l : list (Z * bytes)) : list (Z * bytes) :=
  with_key (fun x => member_key E ty (fst x)) k l.

(** The fields of [l] that [ty] does not know. *)
Definition unknowns (E : env) (ty : nat) (l : list (Z * bytes)) : list (Z * bytes) :=
  filter (fun x => forallb (fun f => negb (has_num (fst x) f)) (m_fields (desc_of E ty))) l.

(** A member of [ty] holds one message of type [ty'] for field [num], as a
    singular member or as an alternative of a oneof. *)
Definition holds_message (E : env) (ty : nat) (num : Z) (ty' : nat) (delim : bool) : Prop :=
  0 < num /\ exists i f, member E ty num i f /\
  match f with
  | Field _ e (CPlain _ _) | Field _ e COpt => e = EMsg ty' delim
  | Oneof alts => exists j, find_alt num alts 0 = Some (j, EMsg ty' delim)
  | _ => False
  end.

(** Member [i], described by [f], holds one length-delimited message of type
    [ty'] for field [num]. *)
Definition message_member (E : env) (ty : nat) (num : Z) (i : nat) (f : field) (ty' : nat) : Prop :=
  member E ty num i f /\
  match f with
  | Field _ e (CPlain _ _) | Field _ e COpt => e = EMsg ty' false
  | Oneof alts => exists j, find_alt num alts 0 = Some (j, EMsg ty' false)
  | _ => False
  end.

(** The message of field [num] in such a member holding [cur]; an empty message
    when it is absent or another alternative of the oneof is active. *)
Definition held (E : env) (num : Z) (f : field) (ty' : nat) (cur : list val) : val :=
  match f with
  | Oneof alts =>
      match find_alt num alts 0, cur with
      | Some (j, _), VAlt j' v :: _ => if Nat.eqb j j' then v else default_msg E ty'
      | _, _ => default_msg E ty'
      end
  | _ => match cur with v :: _ => v | [] => default_msg E ty' end
  end.

(** The member once it holds [w]. *)
Definition holding (num : Z) (f : field) (w : val) : list val :=
  match f with
  | Oneof alts => match find_alt num alts 0 with Some (j, _) => [VAlt j w] | None => [] end
  | _ => [w]
  end.

(** [group_levels k b]: [b] is [k] groups nested in one another. *)
Inductive group_levels : nat -> bytes -> Prop :=
| GL0 : group_levels 0 []
| GLS k num tb eb b : 0 < num -> tag_bytes num WT_SGROUP tb -> tag_bytes num WT_EGROUP eb -> group_levels k b ->
    group_levels (S k) (tb ++ b ++ eb).

(** [levels E k ty b]: [b] is a message of type [ty] containing [k] messages or
    groups nested in one another, the innermost one empty.  Each level is a
    message field, a group field, or from some level on a group unknown to the type. *)
Inductive levels (E : env) : nat -> nat -> bytes -> Prop :=
| L0 ty : levels E 0 ty []
| LMsg k ty num ty' tb lb b : holds_message E ty num ty' false -> m_entry (desc_of E ty') = false ->
    tag_bytes num WT_LEN tb -> len_bytes (zlen b) lb -> levels E k ty' b -> levels E (S k) ty (tb ++ lb ++ b)
| LGroup k ty num ty' tb eb b : holds_message E ty num ty' true -> m_entry (desc_of E ty') = false ->
    tag_bytes num WT_SGROUP tb -> tag_bytes num WT_EGROUP eb -> levels E k ty' b -> levels E (S k) ty (tb ++ b ++ eb)
| LUnknown k ty num tb eb b : unknown_to E ty num -> 0 < num -> shortest tb ->
    tag_bytes num WT_SGROUP tb -> tag_bytes num WT_EGROUP eb -> group_levels k b -> levels E (S k) ty (tb ++ b ++ eb).
