(** Encoded fields, described from the wire format alone; used in the statements
    of the decoding properties. *)
Require Import Verif.Bits Verif.Varint Verif.VarintSpec Verif.VarintFacts Verif.VarintMain.
Require Import Verif.Schema Verif.Decode Verif.Wire.

(** [tb] is a tag of field [num] and wire type [wt], in any form of at most four bytes. *)
Definition tag_bytes (num wt : Z) (tb : bytes) : Prop :=
  is_varint tb /\ (length tb <= 4)%nat /\ b128 tb = 8 * num + wt.

(** [lb] is a length prefix of value [n]. *)
Definition len_bytes (n : Z) (lb : bytes) : Prop :=
  is_varint lb /\ (length lb <= 6)%nat /\ b128 lb = n /\ n < 2 ^ 32.

(** [p] encodes the value [x] of the scalar type [e]. *)
Inductive scalar_payload (utf8_ok : bytes -> bool) : elem -> bytes -> val -> Prop :=
| SPvar t p : is_varint p -> (length p <= max_len t)%nat -> scalar_payload utf8_ok (EVar t) p (VInt (meaning t (b128 p)))
| SPbool p : is_varint p -> (length p <= 10)%nat -> scalar_payload utf8_ok EBool p (VInt (bool_of p))
| SPfix is64 fl p : all_bytes p -> length p = fix_size is64 -> scalar_payload utf8_ok (EFix is64 fl) p (VInt (le_val p))
| SPenum c p : is_varint p -> (length p <= 10)%nat ->
    scalar_payload utf8_ok (EEnum c) p (VInt (wrapS 32 (b128 p)))
| SPbytes utf8 view lb p : all_bytes p -> len_bytes (zlen p) lb -> (utf8 = true -> utf8_ok p = true) ->
    scalar_payload utf8_ok (EBytes utf8 view) (lb ++ p) (VBytes p).

(** [bs] encodes the elements [l] of a repeated field as any mixture of single
    elements and packed runs. *)
Inductive rep_enc (utf8_ok : bytes -> bool) (num : Z) (e : elem) : bytes -> list val -> Prop :=
| RNil : rep_enc utf8_ok num e [] []
| ROne tb pb x rest l : tag_bytes num (elem_wt e) tb -> scalar_payload utf8_ok e pb x ->
    rep_enc utf8_ok num e rest l -> rep_enc utf8_ok num e ((tb ++ pb) ++ rest) (x :: l)
| RPacked tb lb ps xs rest l : packable e = true -> tag_bytes num WT_LEN tb -> len_bytes (zlen (concat ps)) lb ->
    Forall2 (scalar_payload utf8_ok e) ps xs ->
    rep_enc utf8_ok num e rest l -> rep_enc utf8_ok num e ((tb ++ lb ++ concat ps) ++ rest) (xs ++ l).

(** [bs] is a sequence of complete fields; [nums] their numbers in order. *)
Definition whole_fields (maxd : Z) (bs : bytes) (rs : list rec) : Prop := tokB maxd None 1 bs = TOk (rs, []).
Definition num_of (r : rec) : Z := tag_number (r_tag r).
