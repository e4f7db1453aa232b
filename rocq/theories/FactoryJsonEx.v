(** Descriptors for the examples of the well known types. *)
From Coq Require Import Ascii String.
Require Import Verif.Bits Verif.Varint Verif.CppText Verif.Pool Verif.PoolSpec Verif.PoolAttrs Verif.DynSlots Verif.Dyn Verif.Schema Verif.Archive Verif.DynWire Verif.DynJson Verif.DynJsonSpec.
Require Verif.Factory5.
Require Import Verif.Factory Verif.FactorySpec Verif.FactoryEx Verif.FactoryJson Verif.FactoryJsonSpec.
Local Open Scope list_scope.
Local Open Scope Z_scope.

(** proto3, package [p]:
[[
    enum E { A = 0; B = 7; }
    message M {
      google.protobuf.Value v = 1;
      google.protobuf.Timestamp t = 2;
      google.protobuf.Int32Value w = 3;
      map<int32, string> x = 4;
      E my_enum = 5;
    }
]] *)
Definition jx_E := EProto (txt "E") [(txt "A", 0); (txt "B", 7)] fx_none.
Definition jx_X := MProto (txt "XEntry") [wk_field "key" "key" 1 1 5 "" None; wk_field "value" "value" 2 1 9 "" None] [] [] [] 0 true fx_none.
Definition jx_M := MProto (txt "M")
  [ wk_field "v" "v" 1 1 11 ".google.protobuf.Value" None; wk_field "t" "t" 2 1 11 ".google.protobuf.Timestamp" None; wk_field "w" "w" 3 1 11 ".google.protobuf.Int32Value" None;
    wk_field "x" "x" 4 3 11 ".p.M.XEntry" None; wk_field "my_enum" "myEnum" 5 1 14 ".p.E" None ] [] [jx_X] [] 0 false fx_none.
Definition jx_file (deps : list bytes) := FileProto (txt "a") (txt "p") deps [jx_M] [jx_E] [] proto3_text 0 fx_none.
Definition jx_deps := [fl_name struct_proto; fl_name timestamp_proto; fl_name wrappers_proto].
Definition jx_files := [jx_file jx_deps; struct_proto; timestamp_proto; wrappers_proto].
Definition jx_none : pool * list wtype := (Pool [] (State [] [] [] [] 0) [], []).
Definition jx_made := match initialize fx_no_floats jx_files with Done r => r | _ => jx_none end.
Example jx_representable : representable jx_files. Proof. apply representable_check. reflexivity. Qed.
Example jx_accepted : initialize fx_no_floats jx_files = Done (fst jx_made, snd jx_made). Proof. vm_compute. reflexivity. Qed.
Example jx_known : map jt_known (json_types (fst jx_made)) = [KNone; KNone; KStruct; KNone; KValue; KListValue; KTimestamp] ++ repeat KWrapper 9. Proof. vm_compute. reflexivity. Qed.
Example jx_names : json_names_distinct jx_files.
Proof. unfold json_names_distinct. repeat (apply Forall_cons; [apply Factory5.nodup_b_spec; vm_compute; reflexivity|]). apply Forall_nil. Qed.
Example jx_enums : enum_names_good jx_files.
Proof. unfold enum_names_good. repeat (apply Forall_cons; [split; [apply Factory5.nodup_b_spec; vm_compute; reflexivity|vm_compute; intuition discriminate]|]). apply Forall_nil. Qed.
Example jx_entries : entries_good jx_files.
Proof.
  split.
  - repeat (apply Forall_cons; [intros He; first [discriminate He|do 2 eexists; split; [reflexivity|]; split; [vm_compute; auto 12|]; split; [discriminate|]; split; [discriminate|]; split; reflexivity]|]). apply Forall_nil.
  - repeat (apply Forall_cons; [intros n m Ht Hn Hi He; first [reflexivity|exfalso; vm_compute in Ht; intuition discriminate|exfalso]|]); try apply Forall_nil.
    all: vm_compute in Hn; injection Hn as <-; vm_compute in Hi; repeat (destruct Hi as [Hi|Hi]; [try discriminate Hi; injection Hi as <-; discriminate He|]); destruct Hi.
Qed.
Example jx_defaults : no_implicit_defaults jx_files.
Proof. unfold no_implicit_defaults. repeat (apply Forall_cons; [right; reflexivity|]). apply Forall_nil. Qed.

(** A struct.proto with a field more: its messages have no form of their own. *)
Definition jx_more := match struct_proto with FileProto n p d m e x s ed f => FileProto n p d (m ++ [MProto (txt "More") [] [] [] [] 0 false fx_none]) e x s ed f end.
Definition jx_changed := match initialize fx_no_floats [jx_file jx_deps; jx_more; timestamp_proto; wrappers_proto] with Done r => r | _ => jx_none end.
Example jx_unknown : map jt_known (json_types (fst jx_changed)) = [KNone; KNone; KNone; KNone; KNone; KNone; KNone; KTimestamp] ++ repeat KWrapper 9. Proof. vm_compute. reflexivity. Qed.

(** proto3: [message M { int32 foo_bar = 1; int32 fooBar = 2; }], which protoc refuses. *)
Definition jx_same := [FileProto (txt "a") [] [] [MProto (txt "M") [wk_field "foo_bar" "fooBar" 1 1 5 "" None; wk_field "fooBar" "fooBar" 2 1 5 "" None] [] [] [] 0 false fx_none] [] [] proto3_text 0 fx_none].
Definition jx_same_made := match initialize fx_no_floats jx_same with Done r => r | _ => jx_none end.
(** A descriptor without JSON names. *)
Definition jx_bare := [FileProto (txt "a") [] [] [MProto (txt "M") [fx_field "foo_bar" 1 1 5 "" None None ""] [] [] [] 0 false fx_none] [] [] proto3_text 0 fx_none].
Definition jx_bare_made := match initialize fx_no_floats jx_bare with Done r => r | _ => jx_none end.
