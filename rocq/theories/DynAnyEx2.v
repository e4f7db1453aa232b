(** More examples of PropertiesDynAny.v: a null for a list in an Any. *)
From Coq Require Import Ascii String.
Require Import Verif.Bits Verif.Varint Verif.CppText.
Require Import Verif.DynSlots Verif.DynSlotsProofs Verif.Dyn Verif.Schema Verif.Archive Verif.Decode Verif.Encode Verif.DynWire Verif.DynDecode Verif.DynView Verif.DynWireEx.
Require Import Verif.DynJson Verif.DynJsonSpec Verif.DynJson1 Verif.DynJsonTree Verif.DynJsonSafe Verif.DynJson7 Verif.DynJsonEx Verif.DynJsonBad Verif.DynAny Verif.DynAnySpec Verif.DynAnySafe Verif.DynAny3 Verif.DynAnyEx.
Local Open Scope string_scope.
Local Open Scope list_scope.
Local Open Scope Z_scope.

(** 0: Any; 1, 5: a message; 2: Value; 3: Struct; 4: ListValue; 6: the entries of Struct. *)
Definition dl_types : list wtype := Eval vm_compute in
  [ dj_type 0 false da_fields1; dj_type 0 false da_fields3; dj_type 1 false dj_fields2; dj_type 0 false [dk_many 1 6]; dj_type 0 false dj_fields4; dj_type 0 false da_fields3; dj_type 0 true dj_fields1 ].
Definition dl_json : list jtype := Eval vm_compute in
  [ JType KAny [ dj_name "type_url"; JField (txt "value") (txt "value") false false [] false ]; JType KNone [ dj_name "a" ];
    JType KValue [ dk_null "null_value"; dj_name "number_value"; dj_name "string_value"; dj_name "bool_value"; dj_name "struct_value"; dj_name "list_value" ];
    JType KStruct [ dj_name "fields" ]; JType KListValue [ dj_name "values" ]; JType KNone [ dj_name "a" ]; JType KNone [ dj_name "key"; dj_name "value" ] ].
Definition dl_find (name : bytes) : option nat := if eqb_bytes name (txt "google.protobuf.ListValue") then Some 4%nat else None.
Lemma dl_ok : wtypes_ok dl_types.
Proof.
  unfold wtypes_ok, dl_types. apply Forall_cons; [type_ok 0%nat da_fields1|]. apply Forall_cons; [type_ok 0%nat da_fields3|]. apply Forall_cons; [type_ok 1%nat dj_fields2|]. apply Forall_cons; [type_ok 0%nat dk_fields3|].
  apply Forall_cons; [type_ok 0%nat dj_fields4|]. apply Forall_cons; [type_ok 0%nat da_fields3|]. apply Forall_cons; [type_ok 0%nat dj_fields1|]. apply Forall_nil.
Qed.
Lemma dl_json_ok : jtypes_ok dl_types dl_json.
Proof.
  intros ty. do 7 (try (destruct ty as [|ty]; [unfold jtype_ok; split; [reflexivity|]; split; [cbn; no_dup|]; split; [unfold jfields; cbn [combine jt_fields w_fields jty wty nth dl_types dl_json]; fields_named|]; split|])).
  15: { unfold jtype_ok, jfields, known_ok, known_of, jty, wty. rewrite !nth_overflow by (cbn; lia). split; [reflexivity|]. split; [apply NoDup_nil|]. split; [apply Forall_nil|]. split; [exact I|discriminate]. }
  all: try discriminate; try exact I; try reflexivity.
  - exists dj_fields2. do 12 eexists. split; [reflexivity|]. split; [reflexivity|]. split; [reflexivity|]. repeat split.
  - do 2 eexists. split; reflexivity.
  - do 2 eexists. split; reflexivity.
  - intros _. do 6 eexists. split; [reflexivity|]. repeat split.
Qed.
Lemma dl_any_ok : atypes_ok dl_types dl_json.
Proof.
  intros ty. do 7 (try (destruct ty as [|ty]; [split; [try reflexivity; intros K; destruct (K eq_refl)|split; [try discriminate|try discriminate]]|])).
  - do 2 eexists. reflexivity.
  - intros _ f l t d H E. destruct H as [H|[]]. injection H as <- <-. cbn in E. injection E as <- <-. reflexivity.
  - assert (E : known_of dl_json (S (S (S (S (S (S (S ty))))))) = KNone) by (unfold known_of, jty; rewrite nth_overflow by (cbn; lia); reflexivity). rewrite E. split; [intros K; destruct (K eq_refl)|split; discriminate].
Qed.
Lemma dl_nulls : nulls_ok dl_types dl_json.
Proof.
  intros ty. do 7 (destruct ty as [|ty]; [cbn; intros f l te d H; repeat (destruct H as [H|H]; [injection H as <- <-; intros N E; first [destruct (N eq_refl)|discriminate E|injection E as <- <-; split; [first [discriminate|reflexivity]|discriminate]]|]); destruct H|]).
  unfold wty. rewrite nth_overflow by (cbn; lia). intros f l te d [].
Qed.
(** {"@type":"/google.protobuf.ListValue","value":null} *)
Definition url_list : bytes := txt "/google.protobuf.ListValue".
Definition dl_tree : json := JObj [(txt "@type", JStr url_list); (txt "value", JNull)].
Lemma null_in_any strict : aread_json dl_types dl_json any_text 8 dj_parse dl_find strict 10 0 (new_slots dl_types 0) (render dl_tree) = UB.
Proof. destruct strict; vm_compute; reflexivity. Qed.

(** The texts of da_tree are those whose reading is defined. *)
Lemma da_quiet : aquiet da_types da_json da_find (render da_tree) /\ calm da_json 0 (render da_tree).
Proof.
  split; [|discriminate]. split.
  - intros b H. apply Forall_forall. intros c Hc.
    assert (K : forallb (fun t => match t with Str b => forallb (fun c => (0 <=? c) && (c <? 256)) b | _ => true end) (render da_tree) = true) by (vm_compute; reflexivity).
    rewrite forallb_forall in K. specialize (K _ H). cbn in K. rewrite forallb_forall in K. specialize (K _ Hc). unfold is_byte. lia.
  - right. intros H. cbn in H. repeat (destruct H as [H|H]; [discriminate H|]). exact H.
Qed.
Lemma da_enums : enums_fit da_json.
Proof.
  intros ty jf H. do 6 (try (destruct ty as [|ty]; [cbn in H; repeat (destruct H as [H|H]; [subst jf; cbn; try (apply Forall_nil); repeat (apply Forall_cons; [unfold fits_s; cbn; lia|]); apply Forall_nil|]); contradiction|])).
  unfold jty in H. rewrite nth_overflow in H by (cbn; lia). destruct H.
Qed.
Lemma da_unread : aread_json da_types da_json any_text 8 dj_parse da_find true 10 0 (new_slots da_types 0) (LBrace :: render da_tree) = Err BadMessage.
Proof. vm_compute. reflexivity. Qed.
(** Of Int32Value no Any can be reached. *)
Lemma da_free : any_free da_types da_json (fun ty => ty = 3%nat).
Proof. intros ty ->. split; [discriminate|]. intros f l t d H E. destruct H as [H|[]]. injection H as <- <-. discriminate E. Qed.
