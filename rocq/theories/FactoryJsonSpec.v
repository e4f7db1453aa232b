(** What JSON should know of the types of dynamic messages, stated on the descriptors. *)
From Coq Require Import Ascii String.
Require Import Verif.Bits Verif.Varint Verif.CppText Verif.Pool Verif.PoolSpec Verif.DynSlots Verif.Dyn Verif.Schema Verif.DynWire Verif.DynJson.
Require Import Verif.FactorySpec Verif.FactoryJson.
Local Open Scope list_scope.
Local Open Scope Z_scope.

(** A file of protobuf, a message in it, and the form of its own this has in JSON. *)
Inductive own_form : fileproto -> string -> known -> Prop :=
| OfAny : own_form any_proto "google.protobuf.Any" KAny
| OfTimestamp : own_form timestamp_proto "google.protobuf.Timestamp" KTimestamp
| OfDuration : own_form duration_proto "google.protobuf.Duration" KDuration
| OfFieldMask : own_form field_mask_proto "google.protobuf.FieldMask" KFieldMask
| OfValue : own_form struct_proto "google.protobuf.Value" KValue
| OfStruct : own_form struct_proto "google.protobuf.Struct" KStruct
| OfListValue : own_form struct_proto "google.protobuf.ListValue" KListValue
| OfWrapper n : In n ["DoubleValue"; "FloatValue"; "Int64Value"; "UInt64Value"; "Int32Value"; "UInt32Value"; "BoolValue"; "StringValue"; "BytesValue"]%string ->
    own_form wrappers_proto ("google.protobuf." ++ n)%string KWrapper.

Section Spec.
  Variable fs : list fileproto.

  Record names_of (p : fproto) (j : jfield) : Prop := {
    no_name : j_name j = fp_name p;
    no_json : j_json j = fp_json p;
    no_signed : j_signed j = true <-> In (fp_type p) [15; 16];
    no_string : j_string j = true <-> fp_type p = TYPE_STRING;
    no_values : forall e sc, fp_type p = TYPE_ENUM -> of_enum fs p e sc -> j_values j = ep_values e;
    no_values_else : fp_type p <> TYPE_ENUM -> j_values j = [];
    no_null : j_null j = true <-> fp_type p = TYPE_ENUM /\ fp_type_name p = txt ".google.protobuf.NullValue" }.
  (** A message has a form of its own only if its file is protobuf's, word by word. *)
  Definition json_means (x : bytes * mproto * list features) (t : jtype) : Prop :=
    let '(full, m, _) := x in
    Forall2 names_of (mp_fields m) (jt_fields t) /\
    forall k, k <> KNone -> (jt_known t = k <-> exists f n, In f fs /\ own_form f n k /\ full = txt n).

  (** ** What protoc makes sure of *)
  Definition json_names_distinct : Prop := Forall (fun d => NoDup (map fp_json (mp_fields (snd d)))) (all_messages fs).
  Definition enum_names_good : Prop := Forall (fun e => NoDup (map fst (ep_values (snd e))) /\ ~ In [] (map fst (ep_values (snd e)))) (all_enums fs).
  (** Map entries have a key of a type for keys and a value, both singular and in no oneof,
      and only repeated fields refer to them. *)
  Definition map_entry (m : mproto) : Prop :=
    exists k v, mp_fields m = [k; v] /\ In (fp_type k) [3; 4; 5; 6; 7; 8; 9; 13; 15; 16; 17; 18] /\ fp_label k <> LABEL_REPEATED /\ fp_label v <> LABEL_REPEATED /\ fp_oneof k = None /\ fp_oneof v = None.
  Definition entries_good : Prop :=
    Forall (fun d => mp_entry (snd d) = true -> map_entry (snd d)) (all_messages fs) /\
    Forall (fun p => forall n m, In (fp_type p) [TYPE_GROUP; TYPE_MESSAGE] -> fp_type_name p = 46 :: n -> In (n, m) (all_messages fs) -> mp_entry m = true -> fp_label p = LABEL_REPEATED) (message_fields fs).
End Spec.
