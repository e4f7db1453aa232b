(** The examples of PropertiesDynAny.v. *)
From Coq Require Import Ascii String.
Require Import Verif.Bits Verif.Varint Verif.CppText.
Require Import Verif.DynSlots Verif.DynSlotsProofs Verif.Dyn Verif.Schema Verif.Archive Verif.Decode Verif.Encode Verif.DynWire Verif.DynDecode Verif.DynView Verif.DynWireEx.
Require Import Verif.DynJson Verif.DynJsonSpec Verif.DynJson1 Verif.DynJsonTree Verif.DynJsonSafe Verif.DynJson7 Verif.DynJsonEx Verif.DynJsonBad Verif.DynAny Verif.DynAnySpec.
Local Open Scope string_scope.
Local Open Scope list_scope.
Local Open Scope Z_scope.

(** 0: a message with an Any; 1: Any; 2: p.Flat; 3: Int32Value; 4: p.Nest; 5: p.Leaf. *)
Definition da_fields0 : list wfield := [ dj_sub 1 1; dj_field 2 (EVar VI32) ].
Definition da_fields1 : list wfield := [ dj_field 1 (EBytes true false); dj_field 2 (EBytes false false) ].
Definition da_fields2 : list wfield := [ dj_field 1 (EVar VI32); dj_sub 2 3; dj_sub 3 1 ].
Definition da_fields3 : list wfield := [ dj_field 1 (EVar VI32) ].
Definition da_fields4 : list wfield := [ dk_many 1 5 ].
Definition da_types : list wtype := Eval vm_compute in
  [ dj_type 0 false da_fields0; dj_type 0 false da_fields1; dj_type 0 false da_fields2; dj_type 0 false da_fields3; dj_type 0 false da_fields4; dj_type 0 false da_fields3 ].
Definition da_json : list jtype := Eval vm_compute in
  [ JType KNone [ dj_name "any"; dj_name "n" ]; JType KAny [ dj_name "type_url"; JField (txt "value") (txt "value") false false [] false ]; JType KNone [ dj_name "a"; dj_name "w"; dj_name "x" ];
    JType KWrapper [ dj_name "value" ]; JType KNone [ dj_name "l" ]; JType KNone [ dj_name "b" ] ].
Definition da_find (name : bytes) : option nat :=
  if eqb_bytes name (txt "p.Flat") then Some 2%nat else if eqb_bytes name (txt "google.protobuf.Int32Value") then Some 3%nat else if eqb_bytes name (txt "p.Nest") then Some 4%nat
  else if eqb_bytes name (txt "google.protobuf.Any") then Some 1%nat else None.
Lemma da_ok : wtypes_ok da_types.
Proof.
  unfold wtypes_ok, da_types. apply Forall_cons; [type_ok 0%nat da_fields0|]. apply Forall_cons; [type_ok 0%nat da_fields1|]. apply Forall_cons; [type_ok 0%nat da_fields2|]. apply Forall_cons; [type_ok 0%nat da_fields3|].
  apply Forall_cons; [type_ok 0%nat da_fields4|]. apply Forall_cons; [type_ok 0%nat da_fields3|]. apply Forall_nil.
Qed.
Lemma da_json_ok : jtypes_ok da_types da_json.
Proof.
  intros ty. do 6 (try (destruct ty as [|ty]; [unfold jtype_ok; split; [reflexivity|]; split; [cbn; no_dup|]; split; [unfold jfields; cbn [combine jt_fields w_fields jty wty nth da_types da_json]; fields_named|]; split|])).
  13: { unfold jtype_ok, jfields, known_ok, known_of, jty, wty. rewrite !nth_overflow by (cbn; lia). split; [reflexivity|]. split; [apply NoDup_nil|]. split; [apply Forall_nil|]. split; [exact I|discriminate]. }
  all: try discriminate; try exact I; try reflexivity.
  eexists. split; [reflexivity|exact I].
Qed.
Lemma da_any_ok : atypes_ok da_types da_json.
Proof.
  intros ty. do 6 (try (destruct ty as [|ty]; [split; [try reflexivity; intros K; destruct (K eq_refl)|split; [try discriminate|discriminate]]|])).
  - do 2 eexists. reflexivity.
  - unfold known_of, jty. rewrite !nth_overflow by (cbn; lia). split; [intros K; destruct (K eq_refl)|split; discriminate].
Qed.

Definition da_any (url data : bytes) : list slot := [(1, CBytes url); (1, CBytes data)].
Definition url_flat : bytes := txt "x.y/p.Flat".
Definition url_wrap : bytes := txt "/google.protobuf.Int32Value".
Definition url_nest : bytes := txt "x.y/p.Nest".
(** { any: Flat { a: 5, w: 7, x: Any with an Int32Value 9 }, n: 3 } *)
Definition da_inner : list slot := da_any url_wrap [8; 9].
Definition da_bytes (ty : nat) (m : list slot) : bytes := match dyn_encode da_types any_text 8 10 ty m with Ok b => b | _ => [] end.
Definition da_flat : list slot := [(1, CInt 5); (1, CMsg [(1, CInt 7)]); (1, CMsg da_inner)].
Definition da_data : bytes := Eval vm_compute in da_bytes 2 da_flat.
Definition da_message : list slot := [(1, CMsg (da_any url_flat da_data)); (1, CInt 3)].
Definition da_tree : json :=
  JObj [(txt "any", JObj [(txt "@type", JStr url_flat); (txt "a", JNum (txt "5")); (txt "w", JNum (txt "7")); (txt "x", JObj [(txt "@type", JStr url_wrap); (txt "value", JNum (txt "9"))])]); (txt "n", JNum (txt "3"))].
Lemma da_written : awrite_json da_types da_json any_text true 8 dj_show da_find 10 0 da_message = Ok (render da_tree).
Proof. vm_compute. reflexivity. Qed.
(** The members of the Any in another order, the payload of an Any within before its type. *)
Definition da_shuffled : json :=
  JObj [(txt "n", JNum (txt "3")); (txt "any", JObj [(txt "w", JNum (txt "7")); (txt "@type", JStr (txt "no type")); (txt "x", JObj [(txt "value", JNum (txt "9")); (txt "@type", JStr url_wrap)]); (txt "@type", JStr url_flat); (txt "a", JNum (txt "5"))])].
Lemma da_read : aread_json da_types da_json any_text 8 dj_parse da_find true 10 0 (new_slots da_types 0) (render da_tree) = Ok da_message /\
  aread_json da_types da_json any_text 8 dj_parse da_find true 10 0 (new_slots da_types 0) (render da_shuffled) = Ok da_message.
Proof. split; vm_compute; reflexivity. Qed.
Lemma bytes_in l : forallb (fun b => (0 <=? b) && (b <? 256)) l = true -> all_bytes l.
Proof. intros H. apply Forall_forall. intros b Hb. rewrite forallb_forall in H. specialize (H b Hb). unfold is_byte. lia. Qed.
Lemma da_any_typed n url data : all_bytes url -> all_bytes data -> typed da_types (S n) 1 (da_any url data).
Proof. intros H1 H2. split; [reflexivity|]. apply Forall_cons; [intros _; exact H1|]. apply Forall_cons; [intros _; exact H2|]. apply Forall_nil. Qed.
Lemma da_flat_typed n : typed da_types (S (S n)) 2 da_flat.
Proof.
  split; [reflexivity|]. apply Forall_cons; [intros _; cbn; nums|]. apply Forall_cons; [intros _|].
  - split; [reflexivity|]. apply Forall_cons; [intros _; cbn; nums|]. apply Forall_nil.
  - apply Forall_cons; [intros _|apply Forall_nil]. apply da_any_typed; apply bytes_in; reflexivity.
Qed.
Lemma da_typed : typed da_types 10 0 da_message.
Proof.
  split; [reflexivity|]. apply Forall_cons; [intros _|]. { apply da_any_typed; apply bytes_in; reflexivity. } apply Forall_cons; [intros _; cbn; nums|]. apply Forall_nil.
Qed.
Notation da_print := (aprintable da_types da_json any_text 8 dj_show dj_parse da_find).
Lemma print_any n ty m : known_of da_json ty = KAny -> any_printable da_types da_json any_text 8 da_find n (da_print n) ty m -> da_print (S n) ty m.
Proof. intros K H. cbn [aprintable]. rewrite K. exact H. Qed.
Lemma print_message n ty m : known_of da_json ty = KNone -> w_entry (wty da_types ty) = false ->
  (forall jf f l, In (jf, (f, l)) (jfields da_types da_json ty) -> has (f, l) m = true -> slot_printable any_text dj_show dj_parse (da_print n) jf f l (slot_at m l)) -> da_print (S n) ty m.
Proof. intros K E H. cbn [aprintable]. rewrite K. unfold printable_body. rewrite K, E. exact H. Qed.
Lemma print_wrapper n ty m : known_of da_json ty = KWrapper -> w_entry (wty da_types ty) = false ->
  (forall jf f l, In (jf, (f, l)) (jfields da_types da_json ty) -> has (f, l) m = true -> slot_printable any_text dj_show dj_parse (da_print n) jf f l (slot_at m l)) -> Forall (fun fl => has fl m = true) (w_fields (wty da_types ty)) -> da_print (S n) ty m.
Proof. intros K E H F. cbn [aprintable]. rewrite K. unfold printable_body. rewrite K, E. split; assumption. Qed.
Lemma da_inner_held n : held da_types da_json any_text 8 da_find (S n) (da_print (S n)) url_wrap [8; 9].
Proof.
  exists 3%nat, [(1, CInt 9)]. split; [reflexivity|]. split; [vm_compute; reflexivity|]. split; [vm_compute; reflexivity|]. split; [destruct n; reflexivity|].
  split; [split; [reflexivity|]; apply Forall_cons; [intros _; cbn; nums|apply Forall_nil]|]. split; [|discriminate].
  apply print_wrapper; [reflexivity|reflexivity| |apply Forall_cons; [reflexivity|apply Forall_nil]]. intros jf f l [H|[]] _. injection H as <- <- <-. exact I.
Qed.
Lemma da_inner_printable n : aprintable da_types da_json any_text 8 dj_show dj_parse da_find (S (S n)) 1 da_inner.
Proof.
  apply print_any; [reflexivity|]. do 4 eexists. exists url_wrap, [8; 9]. split; [reflexivity|]. split; [reflexivity|]. split; [left; reflexivity|]. split; [reflexivity|]. split; [reflexivity|]. apply da_inner_held.
Qed.
Lemma da_held : held da_types da_json any_text 8 da_find 8 (da_print 8) url_flat da_data.
Proof.
  exists 2%nat, da_flat. split; [reflexivity|]. split; [vm_compute; reflexivity|]. split; [vm_compute; reflexivity|]. split; [vm_compute; reflexivity|].
  split; [apply da_flat_typed|]. split.
  - apply print_message; [reflexivity|reflexivity|]. intros jf f l H _. cbn in H. destruct H as [H|[H|[H|[]]]]; injection H as <- <- <-; [exact I| |].
    + intros ty d E. injection E as <- <-. apply print_wrapper; [reflexivity|reflexivity| |apply Forall_cons; [reflexivity|apply Forall_nil]]. intros jf f l [H|[]] _. injection H as <- <- <-. exact I.
    + intros ty d E. injection E as <- <-. apply da_inner_printable.
  - intros _. split; [reflexivity|]. split; [cbn; intros K; repeat (destruct K as [K|K]; [discriminate K|]); exact K|]. intros f l t d H E. cbn in H. destruct H as [H|[H|[H|[]]]]; injection H as <- <-; cbn in E; try discriminate E; injection E as <- <-; right; discriminate.
Qed.
Lemma da_printable : aprintable da_types da_json any_text 8 dj_show dj_parse da_find 10 0 da_message.
Proof.
  apply print_message; [reflexivity|reflexivity|]. intros jf f l H Hh. cbn in H.
  destruct H as [H|[H|[]]]; injection H as <- <- <-; [|exact I]. intros ty d E. injection E as <- <-. apply print_any; [reflexivity|]. do 4 eexists. exists url_flat, da_data.
  split; [reflexivity|]. split; [reflexivity|]. split; [left; reflexivity|]. split; [reflexivity|]. split; [reflexivity|]. exact da_held.
Qed.

(** ** What is not so *)
(** An Any with a message that holds messages: {"@type":"x.y/p.Nest","l":["b":1]}. *)
Definition da_nest : list slot := da_any url_nest [10; 2; 8; 1].
Definition nest_payload : list slot := [(1, CMsgs [[(1, CInt 1)]])].
Lemma nest_text j : [LBrace; Str type_key; Colon; Str url_nest; Comma; Str (txt "l"); Colon; LBrack; Str (txt "b"); Colon; Num (txt "1"); RBrack; RBrace] <> render j.
Proof.
  destruct j as [x|x|[]| |l|l]; try discriminate. destruct l as [|[k v] t]; [discriminate|]. cbn [render map fst snd separated]. destruct v as [x|x|[]| |l|l]; destruct t as [|[k2 v2] t]; try discriminate.
  cbn [render map fst snd separated app]. intros H. injection H as _ _ H. revert H. destruct v2 as [y|y|[]| |l|l]; destruct t as [|q t]; try discriminate; (destruct l as [|v3 t3]; [discriminate|]); cbn [render map separated app]; destruct v3 as [z|z|[]| |l5|l5]; destruct t3 as [|v4 t3]; cbn [render map separated app]; discriminate.
Qed.
Lemma nested_braces : typed da_types 10 1 da_nest /\ dyn_read da_types any_text 8 4%nat [10; 2; 8; 1] = Ok nest_payload /\
  exists ts, awrite_json da_types da_json any_text true 8 dj_show da_find 10 1 da_nest = Ok ts /\ forall j, ts <> render j.
Proof. split; [apply da_any_typed; apply bytes_in; reflexivity|]. split; [vm_compute; reflexivity|]. eexists. split; [vm_compute; reflexivity|]. exact nest_text. Qed.
(** An Any that holds nothing. *)
Lemma empty_any : typed da_types 10 1 (new_slots da_types 1) /\ (awrite_json da_types da_json any_text true 8 dj_show da_find 10 1 (new_slots da_types 1) = Ok (render (JObj []))) /\
  forall strict, aread_json da_types da_json any_text 8 dj_parse da_find strict 10 1 (new_slots da_types 1) (render (JObj [])) = Err BadMessage.
Proof. split; [split; [reflexivity|]; repeat (apply Forall_cons; [intros K; discriminate K|]); apply Forall_nil|]. split; [vm_compute; reflexivity|]. intros []; vm_compute; reflexivity. Qed.
(** An Any with the Int32Value 0, whose value is empty: {"@type":"/google.protobuf.Int32Value","value":}. *)
Lemma wrap_text j : [LBrace; Str type_key; Colon; Str url_wrap; Comma; Str value_key; Colon; RBrace] <> render j.
Proof.
  destruct j as [x|x|[]| |l|l]; try discriminate. destruct l as [|[k v] t]; [discriminate|]. cbn [render map fst snd separated]. destruct v as [x|x|[]| |l|l]; destruct t as [|[k2 v2] t]; try discriminate.
  cbn [render map fst snd separated app]. intros H. injection H as _ _ H. revert H. destruct v2 as [y|y|[]| |l|l]; destruct t as [|q t]; discriminate.
Qed.
Lemma zero_wrapper : typed da_types 10 1 (da_any url_wrap []) /\ exists ts, awrite_json da_types da_json any_text true 8 dj_show da_find 10 1 (da_any url_wrap []) = Ok ts /\ forall j, ts <> render j.
Proof. split; [apply da_any_typed; apply bytes_in; reflexivity|]. eexists. split; [vm_compute; reflexivity|]. exact wrap_text. Qed.
