(** Schemas whose names are accepted or refused *)
From Coq Require Import Ascii String.
From Coq Require Import ZArith List Bool Lia.
Import ListNotations.
Require Import Verif.Bits Verif.CppText Verif.CppSpec Verif.CppNames Verif.GenNameCheck Verif.GenNameProofs Verif.GenNamePaths.
Local Open Scope string_scope.
Local Open Scope list_scope.
Local Open Scope Z_scope.

(** message Outer { message Inner { enum Kind { A = 0; } } map<..> table = 5; oneof pick { int32 a = 1; string class = 2; }
    optional int32 c = 3; extensions 100 to 200; extend Outer { int32 extra = 100; } } *)
Definition ex_inner : nmsg := NMsg (txt "foo.Outer.Inner") (txt "Inner") false false [] [] [] [NEnum (txt "Kind") [txt "A"]] [].
Definition ex_entry : nmsg := NMsg (txt "foo.Outer.TableEntry") (txt "TableEntry") true false [NField (txt "key") 1 None; NField (txt "value") 2 None] [] [] [] [].
Definition ex_outer : nmsg := NMsg (txt "foo.Outer") (txt "Outer") false true
  [NField (txt "table") 5 None; NField (txt "a") 1 (Some 0%nat); NField (txt "c") 3 (Some 1%nat); NField (txt "class") 2 (Some 0%nat)]
  [txt "pick"; txt "_c"] [ex_inner; ex_entry] [NEnum (txt "Color") [txt "RED"; txt "delete"]] [txt "extra"].
Definition ex_file : nfile := NFile [txt "foo"] (txt "foo") [ex_outer; NMsg (txt "foo.Other") (txt "Other") false false [] [] [] [] []]
  [NEnum (txt "Kind") [txt "A"]] [txt "tag"] [NService (txt "Greeter") [txt "Hello"]; NService (txt "Empty") []].
Lemma ex_names : struct_names ex_outer = map txt ["Traits"; "Outer"; "hpp_proto_traits_type"; "Color"; "Inner"; "table"; "pick_oneof_case"; "a"; "class_"; "pick_oneof_numbers"; "pick"; "c"; "extra";
  "unknown_fields_"; "get_extension"; "set_extension"; "has_extension"].
Proof. vm_compute. reflexivity. Qed.
Lemma ex_ok : pool_ok [ex_file] = true. Proof. vm_compute. reflexivity. Qed.
Lemma ex_numbers : NoDup (map nf_number (n_fields ex_outer)).
Proof. cbn [ex_outer n_fields map nf_number]. repeat (constructor; [cbn [In]; intros K; repeat (destruct K as [K|K]; [discriminate K|]); exact K|]). constructor. Qed.
Lemma ex_no_twins : ~ twins ex_outer.
Proof.
  intros (i & j & a & b & Ha & Hb & _ & _ & E). cbn [ex_outer n_oneofs] in Ha, Hb.
  destruct i as [|[|[|i]]]; cbn in Ha; try discriminate Ha; injection Ha as <-; destruct j as [|[|[|j]]]; cbn in Hb; try discriminate Hb; injection Hb as <-; vm_compute in E; discriminate E.
Qed.
Lemma ex_separated : separated [ex_file].
Proof. intros f g h t [<-|[]] [<-|[]] E. exfalso. apply (f_equal (@length _)) in E. rewrite app_length in E. cbn [length] in E. lia. Qed.

(** oneof a { int32 x = 1; int32 y = 2; } oneof a_ { int32 z = 3; int32 w = 4; } *)
Definition twin_msg : nmsg := NMsg (txt "foo.M") (txt "M") false false
  [NField (txt "x") 1 (Some 0%nat); NField (txt "y") 2 (Some 0%nat); NField (txt "z") 3 (Some 1%nat); NField (txt "w") 4 (Some 1%nat)] [txt "a"; txt "a_"] [] [] [].
Definition twin_file : nfile := NFile [txt "foo"] (txt "foo") [twin_msg] [] [] [].
Lemma twin_refuted : pool_ok [twin_file] = true /\ NoDup (map nf_number (n_fields twin_msg)) /\ ~ NoDup (struct_names twin_msg).
Proof.
  split; [vm_compute; reflexivity|]. split.
  - cbn [twin_msg n_fields map nf_number]. repeat (constructor; [cbn [In]; intros K; repeat (destruct K as [K|K]; [discriminate K|]); exact K|]). constructor.
  - assert (E : struct_names twin_msg = map txt ["Traits"; "M"; "hpp_proto_traits_type"; "a_oneof_case"; "x"; "y"; "a_oneof_numbers"; "a"; "a_oneof_case"; "z"; "w"; "a_oneof_numbers"; "a_"; "unknown_fields_"]) by (vm_compute; reflexivity).
    rewrite E. cbn [map]. intros N. do 3 (apply NoDup_cons_iff in N; destruct N as (_ & N)). apply NoDup_cons_iff in N. destruct N as (N & _). apply N. cbn [In]. tauto.
Qed.
(** service S { rpc _methods(..) returns (..); } *)
Definition methods_file : nfile := NFile [txt "foo"] (txt "foo") [] [] [] [NService (txt "S") [txt "_methods"]].
Lemma methods_refuted : pool_ok [methods_file] = true /\ ~ NoDup (service_names (NService (txt "S") [txt "_methods"])).
Proof.
  split; [vm_compute; reflexivity|]. assert (E : service_names (NService (txt "S") [txt "_methods"]) = [txt "_methods"; txt "_methods"]) by (vm_compute; reflexivity).
  rewrite E. intros N. apply NoDup_cons_iff in N. destruct N as (N & _). apply N. left. reflexivity.
Qed.
(** message M { optional int32 Foo = 1; }: protoc adds a oneof _Foo. *)
Definition optional_msg : nmsg := NMsg (txt "foo.M") (txt "M") false false [NField (txt "Foo") 1 (Some 0%nat)] [txt "_Foo"] [] [] [].
Definition optional_file : nfile := NFile [txt "foo"] (txt "foo") [optional_msg] [] [] [].
Lemma check_usable n : forall r, from_proto n = Some r -> usable r. Proof. exact (from_proto_usable n). Qed.
Lemma optional_refuted : pool_ok [optional_file] = false /\ struct_names optional_msg = map txt ["Traits"; "M"; "hpp_proto_traits_type"; "Foo"; "unknown_fields_"] /\ Forall usable (struct_names optional_msg) /\ NoDup (struct_names optional_msg).
Proof.
  split; [vm_compute; reflexivity|].
  assert (E : struct_names optional_msg = map txt ["Traits"; "M"; "hpp_proto_traits_type"; "Foo"; "unknown_fields_"]) by (vm_compute; reflexivity).
  split; [exact E|]. rewrite E. cbn [map]. split.
  - repeat (constructor; [match goal with |- usable ?x => apply (check_usable x); vm_compute; reflexivity end|]). constructor.
  - repeat (constructor; [cbn [In]; intros K; repeat (destruct K as [K|K]; [discriminate K|]); exact K|]). constructor.
Qed.
(** package foo; message A { message B {} }   and   package foo.A_; message B {} *)
Definition nested_file : nfile := NFile [txt "foo"] (txt "foo") [NMsg (txt "foo.A") (txt "A") false false [] [] [NMsg (txt "foo.A.B") (txt "B") false false [] [] [] [] []] [] []] [] [] [].
Definition package_file : nfile := NFile [txt "foo"; txt "A_"] (txt "foo.A_") [NMsg (txt "foo.A_.B") (txt "B") false false [] [] [] [] []] [] [] [].
Lemma packages_refuted : pool_ok [nested_file; package_file] = true /\ In [txt "foo"; txt "A_"; txt "B"] (file_paths nested_file) /\ In [txt "foo"; txt "A_"; txt "B"] (file_paths package_file) /\ ~ NoDup (flat_map file_paths [nested_file; package_file]).
Proof.
  split; [vm_compute; reflexivity|].
  assert (A : In [txt "foo"; txt "A_"; txt "B"] (file_paths nested_file)) by (vm_compute; tauto). assert (B : In [txt "foo"; txt "A_"; txt "B"] (file_paths package_file)) by (vm_compute; tauto).
  split; [exact A|]. split; [exact B|]. cbn [flat_map]. intros N. apply nodup_app in N. destruct N as (_ & _ & D). apply (D _ A). rewrite app_nil_r. exact B.
Qed.
(** package foo; message class {}   and   package foo.class_; *)
Definition keyword_file : nfile := NFile [txt "foo"] (txt "foo") [NMsg (txt "foo.class") (txt "class") false false [] [] [] [] []] [] [] [].
Definition class_file : nfile := NFile [txt "foo"; txt "class_"] (txt "foo.class_") [NMsg (txt "foo.class_.B") (txt "B") false false [] [] [] [] []] [] [] [].
Lemma class_refuted : pool_ok [keyword_file; class_file] = true /\ In (nl_ns class_file) (file_paths keyword_file).
Proof. split; [vm_compute; reflexivity|]. vm_compute. tauto. Qed.
(** Files a/b.proto and a-b.proto are told apart, a-b.proto and a_b.proto are not. *)
Lemma descriptor_cases : exists x y z, file_namespace (txt "a/b.proto") None = Some x /\ file_namespace (txt "a-b.proto") None = Some y /\ file_namespace (txt "a_b.proto") None = Some z /\
  descriptors_ok [x; y] = true /\ descriptors_ok [y; z] = false.
Proof. do 3 eexists. split; [vm_compute; reflexivity|]. split; [vm_compute; reflexivity|]. split; [vm_compute; reflexivity|]. split; vm_compute; reflexivity. Qed.
