(** The well known types and the JSON names of the factory of dynamic messages.
    Model of src/dynamic_message/factory.cpp:393-421 and
    include/hpp_proto/dynamic_message/factory_addons.hpp:228-236, 265-307. *)
From Coq Require Import Ascii String.
Require Import Verif.Bits Verif.Varint Verif.CppText Verif.Pool Verif.DynSlots Verif.Dyn Verif.Schema Verif.DynWire Verif.DynJson Verif.Factory.
Local Open Scope list_scope.
Local Open Scope Z_scope.

(** ** The files the library was built with *)
(** any.desc.hpp and the others (included by factory_addons.hpp:41-47) are generated from
    the files of protobuf when the library is built and are not in the repository; this is
    what they say, without options.  All of them are proto3. *)
Definition no_features : features := Features 0 0 0 0 0.
Definition wk_field (name json : string) (number label type : Z) (type_name : string) (oneof : option Z) : fproto :=
  FProto (txt name) number label type (txt type_name) [] (txt json) oneof false None [] no_features.
Definition wk_message (name : string) (fields : list fproto) (nested : list mproto) (oneofs : nat) (entry : bool) : mproto := MProto (txt name) fields [] nested [] oneofs entry no_features.
Definition wk_file (name : string) (messages : list mproto) (enums : list eproto) : fileproto :=
  FileProto (txt name) (txt "google.protobuf") [] messages enums [] (txt "proto3") 0 no_features.
Definition any_proto := wk_file "google/protobuf/any.proto"
  [wk_message "Any" [wk_field "type_url" "typeUrl" 1 1 9 "" None; wk_field "value" "value" 2 1 12 "" None] [] 0 false] [].
Definition duration_proto := wk_file "google/protobuf/duration.proto"
  [wk_message "Duration" [wk_field "seconds" "seconds" 1 1 3 "" None; wk_field "nanos" "nanos" 2 1 5 "" None] [] 0 false] [].
Definition field_mask_proto := wk_file "google/protobuf/field_mask.proto" [wk_message "FieldMask" [wk_field "paths" "paths" 1 3 9 "" None] [] 0 false] [].
Definition struct_proto := wk_file "google/protobuf/struct.proto"
  [ wk_message "Struct" [wk_field "fields" "fields" 1 3 11 ".google.protobuf.Struct.FieldsEntry" None]
      [wk_message "FieldsEntry" [wk_field "key" "key" 1 1 9 "" None; wk_field "value" "value" 2 1 11 ".google.protobuf.Value" None] [] 0 true] 0 false;
    wk_message "Value"
      [ wk_field "null_value" "nullValue" 1 1 14 ".google.protobuf.NullValue" (Some 0); wk_field "number_value" "numberValue" 2 1 1 "" (Some 0);
        wk_field "string_value" "stringValue" 3 1 9 "" (Some 0); wk_field "bool_value" "boolValue" 4 1 8 "" (Some 0);
        wk_field "struct_value" "structValue" 5 1 11 ".google.protobuf.Struct" (Some 0); wk_field "list_value" "listValue" 6 1 11 ".google.protobuf.ListValue" (Some 0) ] [] 1 false;
    wk_message "ListValue" [wk_field "values" "values" 1 3 11 ".google.protobuf.Value" None] [] 0 false ]
  [EProto (txt "NullValue") [(txt "NULL_VALUE", 0)] no_features].
Definition timestamp_proto := wk_file "google/protobuf/timestamp.proto"
  [wk_message "Timestamp" [wk_field "seconds" "seconds" 1 1 3 "" None; wk_field "nanos" "nanos" 2 1 5 "" None] [] 0 false] [].
Definition wk_wrapper (name : string) (type : Z) : mproto := wk_message name [wk_field "value" "value" 1 1 type "" None] [] 0 false.
Definition wrappers_proto := wk_file "google/protobuf/wrappers.proto"
  [ wk_wrapper "DoubleValue" 1; wk_wrapper "FloatValue" 2; wk_wrapper "Int64Value" 3; wk_wrapper "UInt64Value" 4; wk_wrapper "Int32Value" 5; wk_wrapper "UInt32Value" 13;
    wk_wrapper "BoolValue" 8; wk_wrapper "StringValue" 9; wk_wrapper "BytesValue" 12 ] [].
(** wellknown_type_pbs, factory_addons.hpp:283-289 *)
Definition wellknown_type_pbs : list fileproto := [any_proto; duration_proto; field_mask_proto; struct_proto; timestamp_proto; wrappers_proto].

(** Equal descriptors: the code compares their binary forms, with the source information
    taken out (291-304). *)
Lemma bytes_dec (a b : bytes) : {a = b} + {a <> b}. Proof. exact (list_eq_dec Z.eq_dec a b). Defined.
Lemma features_dec (a b : features) : {a = b} + {a <> b}. Proof. decide equality; apply Z.eq_dec. Defined.
Lemma fproto_dec (a b : fproto) : {a = b} + {a <> b}. Proof. repeat (decide equality; try apply features_dec; try apply Z.eq_dec). Defined.
Lemma eproto_dec (a b : eproto) : {a = b} + {a <> b}. Proof. repeat (decide equality; try apply features_dec; try apply Z.eq_dec). Defined.
Fixpoint mproto_dec (a b : mproto) {struct a} : {a = b} + {a <> b}.
Proof.
  destruct a as [n1 f1 x1 m1 e1 o1 b1 t1], b as [n2 f2 x2 m2 e2 o2 b2 t2].
  destruct (bytes_dec n1 n2); [|right; congruence]. destruct (list_eq_dec fproto_dec f1 f2); [|right; congruence]. destruct (list_eq_dec fproto_dec x1 x2); [|right; congruence].
  destruct (list_eq_dec mproto_dec m1 m2); [|right; congruence]. destruct (list_eq_dec eproto_dec e1 e2); [|right; congruence]. destruct (Nat.eq_dec o1 o2); [|right; congruence].
  destruct (Bool.bool_dec b1 b2); [|right; congruence]. destruct (features_dec t1 t2); [left; congruence|right; congruence].
Defined.
Lemma fileproto_dec (a b : fileproto) : {a = b} + {a <> b}.
Proof.
  destruct a as [n1 p1 d1 m1 e1 x1 s1 ed1 t1], b as [n2 p2 d2 m2 e2 x2 s2 ed2 t2].
  destruct (bytes_dec n1 n2); [|right; congruence]. destruct (bytes_dec p1 p2); [|right; congruence]. destruct (list_eq_dec bytes_dec d1 d2); [|right; congruence].
  destruct (list_eq_dec mproto_dec m1 m2); [|right; congruence]. destruct (list_eq_dec eproto_dec e1 e2); [|right; congruence]. destruct (list_eq_dec fproto_dec x1 x2); [|right; congruence].
  destruct (bytes_dec s1 s2); [|right; congruence]. destruct (Z.eq_dec ed1 ed2); [|right; congruence]. destruct (features_dec t1 t2); [left; congruence|right; congruence].
Defined.

(** wellknown_validated_, 291-304 *)
Definition wellknown_validated (f : fileproto) : bool :=
  match find (fun c => name_eqb (fl_name c) (fl_name f)) wellknown_type_pbs with Some c => if fileproto_dec f c then true else false | None => false end.

(** ** The kinds of messages *)
(** wellknown_mappings, factory.cpp:396-413 *)
Definition wellknown_mappings : list (bytes * known) :=
  [ (txt "google.protobuf.Any", KAny); (txt "google.protobuf.Timestamp", KTimestamp); (txt "google.protobuf.Duration", KDuration); (txt "google.protobuf.FieldMask", KFieldMask);
    (txt "google.protobuf.Value", KValue); (txt "google.protobuf.ListValue", KListValue); (txt "google.protobuf.Struct", KStruct); (txt "google.protobuf.DoubleValue", KWrapper);
    (txt "google.protobuf.FloatValue", KWrapper); (txt "google.protobuf.Int64Value", KWrapper); (txt "google.protobuf.UInt64Value", KWrapper); (txt "google.protobuf.Int32Value", KWrapper);
    (txt "google.protobuf.UInt32Value", KWrapper); (txt "google.protobuf.BoolValue", KWrapper); (txt "google.protobuf.StringValue", KWrapper); (txt "google.protobuf.BytesValue", KWrapper) ].
(** The full names of the messages of a file (descriptor_pool.hpp:1059-1130). *)
Fixpoint nested_names (full : bytes) (m : mproto) {struct m} : list bytes := full :: concat (map (fun k => nested_names (join_by_dot full (mp_name k)) k) (mp_nested m)).
Definition file_message_names (f : fileproto) : list bytes := concat (map (fun m => nested_names (in_scope (fl_package f) (mp_name m)) m) (fl_messages f)).
(** parent_file(), set when the message is built: the file that has the message. *)
Definition parent_file (pl : pool) (n : bytes) : option fileproto := find (fun f => existsb (name_eqb n) (file_message_names f)) (map fst (p_files pl)).
(** setup_wellknown_types_impl, 394-421 *)
Definition known_kind (pl : pool) (n : bytes) : known :=
  match find (fun x => name_eqb (fst x) n) wellknown_mappings with
  | Some x => match parent_file pl n with Some f => if wellknown_validated f then snd x else KNone | None => KNone end
  | None => KNone
  end.

(** ** Names *)
(** What json.hpp reads of a field: proto().name, proto().json_name, kind() and the enum
    with its is_null_value (factory_addons.hpp:231-236). *)
Definition json_field (pl : pool) (f : fdsc) : jfield :=
  let p := fd_proto f in
  let e := match shape_of p with SEnum => enum_of pl p | _ => None end in
  JField (fp_name p) (fp_json p) (match shape_of p with SFix _ sg => sg | _ => false end) (match shape_of p with SString => true | _ => false end)
    (match e with Some e => ep_values (ed_proto e) | None => [] end) (match e with Some e => name_eqb (ed_full e) (txt "google.protobuf.NullValue") | None => false end).
Definition json_type (pl : pool) (d : mdsc) : jtype := JType (known_kind pl (md_full d)) (map (json_field pl) (fields_of d)).
Definition json_types (pl : pool) : list jtype := map (json_type pl) (s_mmap (p_state pl)).
