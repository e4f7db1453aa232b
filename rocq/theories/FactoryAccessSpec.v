(** What access by name and number should be, stated on the descriptor messages. *)
Require Import Verif.Bits Verif.Pool Verif.PoolSpec Verif.DynAccess Verif.FactorySpec.
Local Open Scope list_scope.
Local Open Scope Z_scope.

(** The numbers of FieldDescriptorProto.Type. *)
Definition plain_types : list (Z * ptype) :=
  [(1, PDouble); (2, PFloat); (3, PInt64); (4, PUInt64); (5, PInt32); (6, PFixed64); (7, PFixed32); (8, PBool); (9, PString); (12, PBytes); (13, PUInt32);
   (15, PSFixed32); (16, PSFixed64); (17, PSInt32); (18, PSInt64)].
(** The type of a field; a message is known by its position among the messages, an enum by its values. *)
Inductive field_type (fs : list fileproto) (p : fproto) : ptype -> Prop :=
| FtPlain t : In (fp_type p, t) plain_types -> field_type fs p t
| FtEnum e sc : fp_type p = TYPE_ENUM -> of_enum fs p e sc -> field_type fs p (PEnum (ep_values e))
| FtMessage n ty : In (fp_type p) [TYPE_GROUP; TYPE_MESSAGE] -> fp_type_name p = 46 :: n -> nth_error (map fst (all_messages fs)) ty = Some n -> field_type fs p (PMsg ty).
Record shown (fs : list fileproto) (p : fproto) (f : tfield) : Prop := {
  sh_name : tf_name f = fp_name p;
  sh_number : tf_number f = fp_number p;
  sh_type : field_type fs p (tf_type f);
  sh_repeated : tf_repeated f = true <-> fp_label p = LABEL_REPEATED;
  sh_oneof : forall i, fp_oneof p = Some i <-> exists o, tf_oneof f = Some o /\ Z.of_nat o = i }.
(** The name or the number of a field. *)
Definition key_of (k : key) (p : fproto) : Prop := match k with ByName n => fp_name p = n | ByNumber z => fp_number p = z end.
Definition same_oneof (p q : fproto) : Prop := exists o, fp_oneof p = Some o /\ fp_oneof q = Some o.
