(** The wire format as an inductive grammar: what one complete field is.  Used
    in the statements of the decoding properties; nothing here refers to the
    decoder.  [limit] is the recursion limit, [d] the nesting depth. *)
Require Import Verif.Bits Verif.Varint Verif.VarintSpec Verif.VarintProofs.
Require Import Verif.Schema Verif.Archive.

(** [tb] is a tag, read as [tag]: up to four bytes its base-128 value.  Of five
    byte tags the library ignores the fifth byte and sets bits 28..31
    ([tag_value]); see C10 for the field numbers this misreads. *)
Definition tag_reads (tb : bytes) (tag : Z) : Prop :=
  is_varint tb /\ (length tb <= 5)%nat /\ tag = tag_value tb.

(** Whether one more level may be entered at depth [d]. *)
Definition may_nest (limit d : Z) : Prop := d <= limit /\ d <> 2 ^ 32 - 1.

Inductive payload (limit : Z) : Z -> Z -> bytes -> Prop :=
| PVarint d tag p : tag <> 0 -> tag_type tag = WT_VARINT -> is_varint p -> (length p <= 10)%nat -> payload limit d tag p
| PI64 d tag p : tag_type tag = WT_I64 -> length p = 8%nat -> payload limit d tag p
| PLen d tag lb p : tag_type tag = WT_LEN -> is_varint lb -> (length lb <= 6)%nat ->
    b128 lb mod 2 ^ 32 = zlen p -> payload limit d tag (lb ++ p)
| PGroup d tag p : tag_type tag = WT_SGROUP -> may_nest limit d ->
    group limit (d + 1) (tag_number tag) p -> payload limit d tag p
| PI32 d tag p : tag_type tag = WT_I32 -> length p = 4%nat -> payload limit d tag p
(** The content of a group up to and including its end tag. *)
with group (limit : Z) : Z -> Z -> bytes -> Prop :=
| GEnd d num tb tag : tag_reads tb tag -> tag_type tag = WT_EGROUP -> tag_number tag = num -> group limit d num tb
| GField d num tb tag p rest : tag_reads tb tag -> payload limit d tag p -> group limit d num rest ->
    group limit d num (tb ++ p ++ rest).

(** [f] is one complete field of number [num]. *)
Definition one_field (limit d num : Z) (f : bytes) : Prop :=
  exists tb tag p, f = tb ++ p /\ tag_reads tb tag /\ tag_number tag = num /\ payload limit d tag p.

(** A sequence of complete top-level fields, with their numbers. *)
Definition fields (limit : Z) (l : list (Z * bytes)) : Prop :=
  Forall (fun x => one_field limit 1 (fst x) (snd x)) l.
Definition bytes_of (l : list (Z * bytes)) : bytes := concat (map snd l).

Scheme payload_ind2 := Minimality for payload Sort Prop
  with group_ind2 := Minimality for group Sort Prop.
Combined Scheme payload_group_ind from payload_ind2, group_ind2.
