(** Descriptors for the examples of the factory. *)
From Coq Require Import Ascii String.
Require Import Verif.Bits Verif.Varint Verif.CppText Verif.Pool Verif.PoolSpec Verif.PoolAttrs Verif.DynSlots Verif.Dyn Verif.Schema Verif.Archive Verif.DynWire Verif.Factory Verif.FactorySpec.
Local Open Scope list_scope.
Local Open Scope Z_scope.

Definition fx_none := Features 0 0 0 0 0.
Definition fx_field (name : string) num label type (tname : string) one packed (default : string) :=
  FProto (txt name) num label type (txt tname) [] [] one false packed (txt default) fx_none.
Definition fx_no_floats : bool -> bytes -> option Z := fun _ _ => None.

(** proto2, package [p]:
[[
    enum E { A = 3; B = 7; }
    message M {
      optional int32 i = 1 [default = -5];
      optional E e = 2;
      optional E f = 3 [default = B];
      oneof o { string s = 4 [default = "hi"]; M m = 5; }
      repeated fixed32 r = 6 [packed = true];
      map<int32, string> x = 7;
      required bool b = 8 [default = true];
      optional sfixed32 z = 9 [default = -1];
    }
]] *)
Definition fx_E := EProto (txt "E") [(txt "A", 3); (txt "B", 7)] fx_none.
Definition fx_X := MProto (txt "XEntry") [fx_field "key" 1 1 5 "" None None ""; fx_field "value" 2 1 9 "" None None ""] [] [] [] 0 true fx_none.
Definition fx_M := MProto (txt "M")
  [ fx_field "i" 1 1 5 "" None None "-5"; fx_field "e" 2 1 14 ".p.E" None None ""; fx_field "f" 3 1 14 ".p.E" None None "B";
    fx_field "s" 4 1 9 "" (Some 0) None "hi"; fx_field "m" 5 1 11 ".p.M" (Some 0) None ""; fx_field "r" 6 3 7 "" None (Some true) "";
    fx_field "x" 7 3 11 ".p.M.XEntry" None None ""; fx_field "b" 8 2 8 "" None None "true"; fx_field "z" 9 1 15 "" None None "-1" ]
  [] [fx_X] [] 1 false fx_none.
Definition fx_files := [FileProto (txt "a") (txt "p") [] [fx_M] [fx_E] [] [] 0 fx_none].
Definition fx_made := match initialize fx_no_floats fx_files with Done r => r | _ => (Pool [] (State [] [] [] [] 0) [], []) end.
Example fx_representable : representable fx_files. Proof. apply representable_check. reflexivity. Qed.
Example fx_accepted : initialize fx_no_floats fx_files = Done (fst fx_made, snd fx_made). Proof. vm_compute. reflexivity. Qed.
Example fx_types : map (fun t => (w_entry t, w_slots t, map fst (w_fields t))) (snd fx_made) =
  [ (false, 8%nat,
     [ WField 1 (EVar VI32) None None true (-5) []; WField 2 (EEnum (Some [3; 7])) None None true 3 []; WField 3 (EEnum (Some [3; 7])) None None true 7 [];
       WField 4 (EBytes false false) None (Some 0%nat) true 0 (txt "hi"); WField 5 (EMsg 0 false) None (Some 0%nat) true 0 []; WField 6 (EFix false false) (Some true) None false 0 [];
       WField 7 (EMsg 1 false) (Some false) None false 0 []; WField 8 EBool None None true 1 []; WField 9 (EFix false false) None None true 4294967295 [] ]);
    (true, 2%nat, [WField 1 (EVar VI32) None None true 0 []; WField 2 (EBytes false false) None None true 0 []]) ].
Proof. vm_compute. reflexivity. Qed.
Example fx_defaults : no_implicit_defaults fx_files.
Proof. unfold no_implicit_defaults. repeat (apply Forall_cons; [|]); try apply Forall_nil; intros Hr; left; (split; [exact Hr|]); do 6 right; vm_compute; auto. Qed.
Example fx_maps : maps_plain fx_files.
Proof.
  split.
  - repeat (apply Forall_cons; [|]); try apply Forall_nil; intros n m Ht Hn Hi He; cbn in Ht; try (destruct Ht as [Ht|[Ht|[]]]; discriminate Ht); cbn in Hi; destruct Hi as [Hi|[Hi|[]]]; injection Hi as <- <-;
      try discriminate He; try discriminate Hn. split; [reflexivity|]. split; [discriminate|]. vm_compute. discriminate.
  - repeat (apply Forall_cons; [|]); try apply Forall_nil; intros He; try discriminate He. eexists. split; [reflexivity|]. discriminate.
Qed.
Example fx_closed : closed_plain fx_files.
Proof.
  unfold closed_plain. repeat (apply Forall_cons; [|]); try apply Forall_nil; intros e sc Ht He Hc; try discriminate Ht; (split; [reflexivity|]); intros Hr; (split; [exact Hr|]); do 6 right; vm_compute; auto.
Qed.

(** Refused: the two members of a oneof with a field between them, a default that is out of
    range, a default that is no value of the enum, an enum without values. *)
Definition fx_file (fields : list fproto) (oneofs : nat) (values : list (bytes * Z)) :=
  [FileProto (txt "a") (txt "p") [] [MProto (txt "M") fields [] [] [] oneofs false fx_none] [EProto (txt "E") values fx_none] [] [] 0 fx_none].
Example fx_bad_oneof : initialize fx_no_floats (fx_file [fx_field "a" 1 1 5 "" (Some 0) None ""; fx_field "b" 2 1 5 "" None None ""; fx_field "c" 3 1 5 "" (Some 0) None ""] 1 []) = Invalid. Proof. reflexivity. Qed.
Example fx_bad_number : initialize fx_no_floats (fx_file [fx_field "a" 1 1 5 "" None None "2147483648"] 0 []) = Invalid. Proof. vm_compute. reflexivity. Qed.
Example fx_bad_name : initialize fx_no_floats (fx_file [fx_field "a" 1 1 14 ".p.E" None None "C"] 0 [(txt "A", 0)]) = Invalid. Proof. reflexivity. Qed.
Example fx_bad_enum : initialize fx_no_floats (fx_file [fx_field "a" 1 1 14 ".p.E" None None ""] 0 []) = Invalid. Proof. reflexivity. Qed.

(** proto3: [message M { int32 i = 1 [default = 5]; }], which protoc refuses. *)
Definition fx_implicit := [FileProto (txt "a") [] [] [MProto (txt "M") [fx_field "i" 1 1 5 "" None None "5"] [] [] [] 0 false fx_none] [] [] proto3_text 0 fx_none].
Definition fx_implicit_made := match initialize fx_no_floats fx_implicit with Done r => r | _ => (Pool [] (State [] [] [] [] 0) [], []) end.
(** A map entry of one field, used by a map. *)
Definition fx_short := [FileProto (txt "a") [] [] [MProto (txt "M") [fx_field "x" 1 3 11 ".M.E" None None ""] [] [MProto (txt "E") [fx_field "k" 1 1 5 "" None None ""] [] [] [] 0 true fx_none] [] 0 false fx_none] [] [] [] 0 fx_none].
Definition fx_short_made := match initialize fx_no_floats fx_short with Done r => r | _ => (Pool [] (State [] [] [] [] 0) [], []) end.
