(** Files for the examples of the headers with file descriptors. *)
From Coq Require Import Ascii String.
Require Import Verif.Bits Verif.Varint Verif.CppText Verif.Pool Verif.PoolSpec Verif.PoolAttrs Verif.GenNameCheck Verif.DynSlots Verif.Dyn Verif.DynWire Verif.Factory Verif.FactorySpec Verif.Factory4 Verif.FactoryEx.
Require Import Verif.GenDesc Verif.GenDescSpec.
Local Open Scope list_scope.
Local Open Scope Z_scope.

Definition gd_file (name : string) deps msgs enums := FileProto (txt name) (txt "p") (map txt deps) msgs enums [] (txt "proto3") 0 fx_none.
Definition gd_message (name : string) fields := MProto (txt name) fields [] [] [] 0 false fx_none.
(** [[
    a.proto:   message A {}
    x/b.proto: import "a.proto";                       message B { A a = 1; }
    c.proto:   import "x/b.proto"; import "a.proto";   message C { B b = 1; A a = 2; }
]] *)
Definition gd_a := gd_file "a.proto" [] [gd_message "A" []] [].
Definition gd_b := gd_file "x/b.proto" ["a.proto"%string] [gd_message "B" [fx_field "a" 1 1 11 ".p.A" None None ""]] [].
Definition gd_c := gd_file "c.proto" ["x/b.proto"%string; "a.proto"%string] [gd_message "C" [fx_field "b" 1 1 11 ".p.B" None None ""; fx_field "a" 2 1 11 ".p.A" None None ""]] [].
Definition gd_files := [gd_c; gd_a; gd_b].
Definition space_of (f : fileproto) : bytes := match file_namespace (fl_name f) None with Some ns => ns | None => [] end.
Definition gd_spaces := map space_of gd_files.
Definition gd_requested := map fl_name gd_files.

Lemma gd_generates encode : generate_desc encode gd_files gd_spaces gd_requested = Some
  [ Header (txt "c.proto") [txt "x/b.proto"; txt "a.proto"] (txt "hpp_proto::file_descriptors::c_proto::file_descriptor_") (encode gd_c)
      [txt "hpp_proto::file_descriptors::a_proto::file_descriptor_"; txt "hpp_proto::file_descriptors::x::b_proto::file_descriptor_"; txt "hpp_proto::file_descriptors::c_proto::file_descriptor_"];
    Header (txt "a.proto") [] (txt "hpp_proto::file_descriptors::a_proto::file_descriptor_") (encode gd_a) [txt "hpp_proto::file_descriptors::a_proto::file_descriptor_"];
    Header (txt "x/b.proto") [txt "a.proto"] (txt "hpp_proto::file_descriptors::x::b_proto::file_descriptor_") (encode gd_b)
      [txt "hpp_proto::file_descriptors::a_proto::file_descriptor_"; txt "hpp_proto::file_descriptors::x::b_proto::file_descriptor_"] ].
Proof. vm_compute. reflexivity. Qed.
Lemma gd_representable : representable gd_files. Proof. apply representable_check. reflexivity. Qed.
Lemma gd_usable fc : usable fc gd_files.
Proof. apply (factory_accepts fc gd_files gd_representable). eexists. vm_compute. reflexivity. Qed.
Lemma gd_distinct : NoDup gd_requested. Proof. exact (vf_distinct gd_files (proj1 (gd_usable fx_no_floats))). Qed.
Lemma gd_needs f g : needs gd_files f g -> fl_messages g <> [] /\ In (fl_name g) gd_requested.
Proof. intros [H _]. split; [|apply in_map; exact H]. destruct H as [<-|[<-|[<-|[]]]]; discriminate. Qed.
Lemma gd_imported : types_imported gd_files.
Proof.
  assert (S : forall f g, In f gd_files -> In (fl_name g) (fl_deps f) -> clos_refl_trans bytes (depends gd_files) (fl_name f) (fl_name g)) by (intros f g A B; apply rt_step; exists f; auto).
  intros f g n Hf Hg (p & Hp & Hn) Hd.
  destruct Hf as [<-|[<-|[<-|[]]]]; cbn in Hp.
  - destruct Hp as [<-|[<-|[]]]; destruct Hg as [<-|[<-|[<-|[]]]]; first [apply rt_refl | apply S; [left; reflexivity|cbn; auto]].
  - destruct Hp.
  - destruct Hp as [<-|[]]. destruct Hn as [Hn|Hn]; [|discriminate]. injection Hn as <-. destruct Hg as [<-|[<-|[<-|[]]]].
    + exfalso. destruct Hd as [Hd|Hd]; vm_compute in Hd; [|destruct Hd]. destruct Hd as [Hd|[]]. discriminate.
    + apply S; [right; right; left; reflexivity|cbn; auto].
    + apply rt_refl.
Qed.

(** [[
    e.proto: enum E { Z = 0; }
    d.proto: import "e.proto";   message D { E e = 1; }
]] *)
Definition gd_e := gd_file "e.proto" [] [] [EProto (txt "E") [(txt "Z", 0)] fx_none].
Definition gd_d := gd_file "d.proto" ["e.proto"%string] [gd_message "D" [fx_field "e" 1 1 14 ".p.E" None None ""]] [].
Definition gd_enums := [gd_e; gd_d].
Lemma gd_missing encode : exists hs h, generate_desc encode gd_enums (map space_of gd_enums) (map fl_name gd_enums) = Some hs /\ In h hs /\ h_file h = fl_name gd_d /\
  (exists n, In n (h_includes h) /\ forall b, In b hs -> h_file b <> n) /\ (exists n, In n (h_set h) /\ forall b, In b hs -> h_name b <> n).
Proof.
  eexists _, _. split; [vm_compute; reflexivity|]. split; [left; reflexivity|]. split; [reflexivity|]. split.
  - exists (txt "e.proto"). split; [left; reflexivity|]. intros b [<-|[]]. vm_compute. discriminate.
  - exists (txt "hpp_proto::file_descriptors::e_proto::file_descriptor_"). split; [left; reflexivity|]. intros b [<-|[]]. vm_compute. discriminate.
Qed.
Lemma gd_enums_usable fc : representable gd_enums /\ usable fc gd_enums.
Proof.
  assert (R : representable gd_enums) by (apply representable_check; reflexivity). split; [exact R|]. apply (factory_accepts fc gd_enums R). eexists. vm_compute. reflexivity.
Qed.
Lemma gd_enums_imported : types_imported gd_enums.
Proof.
  intros f g n Hf Hg (p & Hp & Hn) Hd. destruct Hf as [<-|[<-|[]]]; cbn in Hp; [destruct Hp|]. destruct Hg as [<-|[<-|[]]]; [|apply rt_refl]. apply rt_step. exists gd_d. split; [right; left; reflexivity|]. split; [reflexivity|left; reflexivity].
Qed.
