(** What the types of dynamic messages should be, stated on the descriptor messages. *)
From Coq Require Import Ascii String.
Require Import Verif.Bits Verif.Varint Verif.CppText Verif.CppSpec Verif.Pool Verif.PoolSpec Verif.DynSlots Verif.Dyn Verif.Schema Verif.DynWire.
Local Open Scope list_scope.
Local Open Scope Z_scope.

(** ** Default values *)
(** The integer a default text denotes: decimal digits, after a minus for signed types,
    within the range of the type; no text is zero. *)
Definition denotes_integer (signed : bool) (w : Z) (t : bytes) (z : Z) : Prop :=
  (t = [] /\ z = 0) \/
  exists l ds, digits_of 10 l ds /\ (if signed then - 2 ^ (w - 1) <= z < 2 ^ (w - 1) else z < 2 ^ w) /\
    ((t = l /\ z = number 10 ds) \/ (signed = true /\ t = 45 :: l /\ z = - number 10 ds)).

Section Spec.
  (** The bits of the floating point number a text denotes, if it denotes one. *)
  Variable float_bits : bool -> bytes -> option Z.
  Variable fs : list fileproto.

  (** The field is of the enum [e]; the scopes decide whether it is closed. *)
  Definition of_enum (p : fproto) (e : eproto) (scopes : list features) : Prop := exists n, fp_type_name p = 46 :: n /\ In (n, e, scopes) (scoped_enums fs).
  (** The number of the first value of a name. *)
  Definition first_named (n : bytes) (vs : list (bytes * Z)) (z : Z) : Prop :=
    exists a b, vs = a ++ (n, z) :: b /\ ~ In n (map fst a).

  (** The default of a numeric field, as it is kept: an integer, the bits of a fixed or floating point number;
      0 for other fields.  [present]: the field has presence. *)
  Inductive default_number (present : Prop) (p : fproto) : Z -> Prop :=
  | DnSigned z : In (fp_type p) [5; 17] -> denotes_integer true 32 (fp_default p) z -> default_number present p z
  | DnSigned64 z : In (fp_type p) [3; 18] -> denotes_integer true 64 (fp_default p) z -> default_number present p z
  | DnUnsigned z : fp_type p = 13 -> denotes_integer false 32 (fp_default p) z -> default_number present p z
  | DnUnsigned64 z : fp_type p = 4 -> denotes_integer false 64 (fp_default p) z -> default_number present p z
  | DnFixed z : fp_type p = 7 -> denotes_integer false 32 (fp_default p) z -> default_number present p z
  | DnFixed64 z : fp_type p = 6 -> denotes_integer false 64 (fp_default p) z -> default_number present p z
  | DnSFixed z : fp_type p = 15 -> denotes_integer true 32 (fp_default p) z -> default_number present p (z mod 2 ^ 32)
  | DnSFixed64 z : fp_type p = 16 -> denotes_integer true 64 (fp_default p) z -> default_number present p (z mod 2 ^ 64)
  | DnFloat z : fp_type p = 2 -> (fp_default p = [] /\ z = 0 \/ fp_default p <> [] /\ float_bits false (fp_default p) = Some z) -> default_number present p z
  | DnDouble z : fp_type p = 1 -> (fp_default p = [] /\ z = 0 \/ fp_default p <> [] /\ float_bits true (fp_default p) = Some z) -> default_number present p z
  | DnTrue : fp_type p = 8 -> fp_default p = txt "true" -> default_number present p 1
  | DnFalse : fp_type p = 8 -> fp_default p <> txt "true" -> default_number present p 0
  | DnOther : In (fp_type p) [TYPE_STRING; TYPE_GROUP; TYPE_MESSAGE; TYPE_BYTES] -> default_number present p 0
  | DnNamed e sc z : fp_type p = TYPE_ENUM -> of_enum p e sc -> fp_default p <> [] -> first_named (fp_default p) (ep_values e) z -> default_number present p z
  | DnFirst e sc n z vs : fp_type p = TYPE_ENUM -> of_enum p e sc -> fp_default p = [] -> ep_values e = (n, z) :: vs -> present -> default_number present p z
  | DnZero e sc : fp_type p = TYPE_ENUM -> of_enum p e sc -> fp_default p = [] -> ep_values e <> [] -> ~ present -> default_number present p 0.

  (** ** Fields *)
  Definition has_presence (p : fproto) (entry : bool) (scopes : list features) : Prop :=
    fp_label p <> LABEL_REPEATED /\
    (entry = true \/ fp_oneof p <> None \/ fp_type p = TYPE_GROUP \/ fp_type p = TYPE_MESSAGE \/ fp_opt3 p = true \/ fp_label p = LABEL_REQUIRED \/
     In (feature ft_presence scopes) [EXPLICIT; LEGACY_REQUIRED]).

  (** The type of a field.  String types are never views. *)
  Inductive has_type (p : fproto) (scopes : list features) : elem -> Prop :=
  | HtVar t : In (fp_type p, t) [(3, VI64); (4, VU64); (5, VI32); (13, VU32); (17, VS32); (18, VS64)] -> has_type p scopes (EVar t)
  | HtBool : fp_type p = 8 -> has_type p scopes EBool
  | HtFix is64 : In (fp_type p, is64) [(6, true); (7, false); (15, false); (16, true)] -> has_type p scopes (EFix is64 false)
  | HtFloat is64 : In (fp_type p, is64) [(1, true); (2, false)] -> has_type p scopes (EFix is64 true)
  | HtString utf8 : fp_type p = TYPE_STRING -> (utf8 = true <-> feature ft_utf8 scopes = UTF8_VERIFY) -> has_type p scopes (EBytes utf8 false)
  | HtBytes : fp_type p = TYPE_BYTES -> has_type p scopes (EBytes false false)
  | HtMessage n ty delim : In (fp_type p) [TYPE_GROUP; TYPE_MESSAGE] -> fp_type_name p = 46 :: n -> nth_error (map fst (all_messages fs)) ty = Some n ->
      (delim = true <-> fp_type p = TYPE_GROUP \/ feature ft_encoding scopes = DELIMITED) -> has_type p scopes (EMsg ty delim)
  | HtClosed e sc : fp_type p = TYPE_ENUM -> of_enum p e sc -> feature ft_enum sc = ENUM_CLOSED -> has_type p scopes (EEnum (Some (map snd (ep_values e))))
  | HtOpen e sc : fp_type p = TYPE_ENUM -> of_enum p e sc -> feature ft_enum sc <> ENUM_CLOSED -> has_type p scopes (EEnum None).

  Record field_means (p : fproto) (entry : bool) (scopes : list features) (f : wfield) : Prop := {
    fm_number : w_num f = fp_number p;
    fm_type : has_type p scopes (w_elem f);
    fm_repeated : is_rep f = true <-> fp_label p = LABEL_REPEATED;
    fm_packed : packed f = true <-> fp_label p = LABEL_REPEATED /\ PoolSpec.packable (fp_type p) /\ (fp_packed p = Some true \/ feature ft_repeated scopes = PACKED);
    fm_oneof : forall i, fp_oneof p = Some i <-> exists o, w_oneof f = Some o /\ Z.of_nat o = i;
    fm_presence : w_explicit f = true <-> has_presence p entry scopes;
    fm_default : fp_label p <> LABEL_REPEATED ->
      default_number (has_presence p entry scopes) p (w_dint f) /\ w_dbytes f = (if (fp_type p =? TYPE_STRING) || (fp_type p =? TYPE_BYTES) then fp_default p else []) }.

  (** ** Types *)
  Definition type_means (x : bytes * mproto * list features) (t : wtype) : Prop :=
    let '(_, m, scopes) := x in
    w_entry t = mp_entry m /\ Forall2 (fun p f => field_means p (mp_entry m) (scopes ++ [fp_feat p]) (fst f)) (mp_fields m) (w_fields t).

  (** The members of a oneof stand together, and there are at most 65534. *)
  Definition oneofs_together (m : mproto) : Prop :=
    (forall i j k p q r o, (i < j < k)%nat -> nth_error (mp_fields m) i = Some p -> nth_error (mp_fields m) j = Some q -> nth_error (mp_fields m) k = Some r ->
      fp_oneof p = Some o -> fp_oneof r = Some o -> fp_oneof q = Some o) /\
    (forall o, Z.of_nat (length (filter (fun p => match fp_oneof p with Some i => i =? o | None => false end) (mp_fields m))) <= 65534).
  (** The default text of a field is good, whatever its presence. *)
  Definition default_known (p : fproto) : Prop := exists z, default_number True p z.

  (** Fields without presence have no default (protoc refuses others). *)
  Definition no_implicit_defaults : Prop :=
    Forall (fun x => let '(p, entry, scopes) := x in fp_label p <> LABEL_REPEATED -> has_presence p entry scopes \/ fp_default p = []) (scoped_fields fs).

  (** Descriptors from which dynamic messages can be made. *)
  Definition usable : Prop := valid_files fs /\ Forall (fun d => oneofs_together (snd d)) (all_messages fs) /\ Forall default_known (message_fields fs ++ extensions fs).

  (** ** New messages *)
  (** What a field of a new message reads as. *)
  Inductive new_value (P : Prop) (p : fproto) : fval -> Prop :=
  | NvNumber z : fp_label p <> LABEL_REPEATED -> ~ In (fp_type p) [TYPE_STRING; TYPE_BYTES; TYPE_MESSAGE; TYPE_GROUP] -> default_number P p z -> new_value P p (FInt z)
  | NvText : fp_label p <> LABEL_REPEATED -> In (fp_type p) [TYPE_STRING; TYPE_BYTES] -> new_value P p (FBytes (fp_default p))
  | NvMessage : fp_label p <> LABEL_REPEATED -> In (fp_type p) [TYPE_MESSAGE; TYPE_GROUP] -> new_value P p FNone
  | NvNumbers : fp_label p = LABEL_REPEATED -> ~ In (fp_type p) [TYPE_STRING; TYPE_BYTES; TYPE_MESSAGE; TYPE_GROUP] -> new_value P p (FInts [])
  | NvTexts : fp_label p = LABEL_REPEATED -> In (fp_type p) [TYPE_STRING; TYPE_BYTES] -> new_value P p (FStrs [])
  | NvMessages : fp_label p = LABEL_REPEATED -> In (fp_type p) [TYPE_MESSAGE; TYPE_GROUP] -> new_value P p (FMsgs []).
  (** Every field of a new message is absent and reads as its default. *)
  Definition new_reads (x : bytes * mproto * list features) (t : wtype) : Prop :=
    let '(_, m, s) := x in forall j p f l, nth_error (mp_fields m) j = Some p -> nth_error (w_fields t) j = Some (f, l) ->
      let slot := nth (l_slot l) (repeat zero_slot (w_slots t)) zero_slot in
      has_value (dyn_of f) l slot = false /\ new_value (has_presence p (mp_entry m) (s ++ [fp_feat p])) p (value (dyn_of f) l slot).

  (** ** Maps and closed enums *)
  (** Map entries have a second field that is not repeated, and are used by repeated fields that are not groups
      (protoc makes no others). *)
  Definition maps_plain : Prop :=
    Forall (fun x => let '(p, _, scopes) := x in forall n m, In (fp_type p) [TYPE_GROUP; TYPE_MESSAGE] -> fp_type_name p = 46 :: n -> In (n, m) (all_messages fs) -> mp_entry m = true ->
      fp_label p = LABEL_REPEATED /\ fp_type p <> TYPE_GROUP /\ feature ft_encoding scopes <> DELIMITED) (scoped_fields fs) /\
    Forall (fun d => mp_entry (snd d) = true -> exists p, nth_error (mp_fields (snd d)) 1 = Some p /\ fp_label p <> LABEL_REPEATED) (all_messages fs).
  (** Fields of closed enums are in no oneof, and have presence unless repeated. *)
  Definition closed_plain : Prop :=
    Forall (fun x => let '(p, entry, scopes) := x in forall e sc, fp_type p = TYPE_ENUM -> of_enum p e sc -> feature ft_enum sc = ENUM_CLOSED ->
      fp_oneof p = None /\ (fp_label p <> LABEL_REPEATED -> has_presence p entry scopes)) (scoped_fields fs).
End Spec.
