(** The examples of PropertiesDynOpt.v. *)
From Coq Require Import Ascii String.
Require Import Verif.Bits Verif.Varint Verif.TextNum Verif.FieldMaskProofs Verif.CppText.
Require Import Verif.DynSlots Verif.DynSlotsProofs Verif.Dyn Verif.Schema Verif.Archive Verif.Decode Verif.Encode Verif.DynWire Verif.DynDecode Verif.DynView Verif.DynWireEx.
Require Import Verif.DynJson Verif.DynJsonSpec Verif.DynJsonTree Verif.DynJsonSafe Verif.DynJson7 Verif.DynJsonEx Verif.DynJsonBad.
Require Import Verif.DynOpt Verif.DynOptSpec Verif.DynOpt4.

Local Open Scope string_scope.
Local Open Scope list_scope.
Local Open Scope Z_scope.
(** 0: message M { int32 an_int = 1; int64 b = 2; string c = 3; Color e = 4; repeated int32 f = 5;
    map<string, int32> g = 6; bool h = 7; optional int32 i = 8; M j = 9; StringValue k = 10;
    double d = 11; }; 1: the entries of its map; 2: StringValue *)
Definition do_fields0 : list wfield :=
  [ dj_field 1 (EVar VI32); dj_field 2 (EVar VI64); dj_field 3 (EBytes true false); dj_field 4 (EEnum None); dj_list 5 (EVar VI32); WField 6 (EMsg 1 false) (Some false) None false 0 [];
    dj_field 7 EBool; WField 8 (EVar VI32) None None true 0 []; dj_sub 9 0; dj_sub 10 2; dj_field 11 (EFix true true) ].
Definition do_fields1 : list wfield := [ dj_field 1 (EBytes true false); dj_field 2 (EVar VI32) ].
Definition do_fields2 : list wfield := [ dj_field 1 (EBytes true false) ].
Definition do_types : list wtype := Eval vm_compute in [ dj_type 0 false do_fields0; dj_type 0 true do_fields1; dj_type 0 false do_fields2 ].
Definition do_json : list jtype := Eval vm_compute in
  [ JType KNone [ JField (txt "an_int") (txt "anInt") false false [] false; dj_name "b"; dj_name "c"; JField (txt "e") (txt "e") false false dj_color false; dj_name "f"; dj_name "g"; dj_name "h"; dj_name "i"; dj_name "j"; dj_name "k"; dj_name "d" ];
    JType KNone [ dj_name "key"; dj_name "value" ]; JType KWrapper [ dj_name "value" ] ].
Lemma do_ok : wtypes_ok do_types.
Proof.
  unfold wtypes_ok, do_types. apply Forall_cons; [type_ok 0%nat do_fields0|]. apply Forall_cons; [type_ok 0%nat do_fields1|]. apply Forall_cons; [type_ok 0%nat do_fields2|]. apply Forall_nil.
Qed.
Lemma do_json_ok : jtypes_ok do_types do_json.
Proof.
  intros ty. do 3 (try (destruct ty as [|ty]; [unfold jtype_ok; split; [reflexivity|]; split; [cbn; no_dup|]; split; [unfold jfields; cbn [combine jt_fields w_fields jty wty nth do_types do_json]; fields_named|]; split|])).
  7: { unfold jtype_ok, jfields, known_ok, known_of, jty, wty. rewrite !nth_overflow by (cbn; lia). split; [reflexivity|]. split; [apply NoDup_nil|]. split; [apply Forall_nil|]. split; [exact I|discriminate]. }
  all: try discriminate; try exact I; try reflexivity.
  - intros _. do 6 eexists. split; [reflexivity|]. repeat split.
  - eexists. split; [reflexivity|exact I].
Qed.
(** {"j":{"b":"3","g":{"p":1}},"k":"x"} *)
Definition do_plain : json := JObj [ (txt "j", JObj [ (txt "b", JStr (txt "3")); (txt "g", JObj [(txt "p", JNum (txt "1"))]) ]); (txt "k", JStr (txt "x")) ].
Definition do_message : list slot := Eval vm_compute in match read_json do_types do_json (fun _ => true) 8 dj_parse true 10 0 (new_slots do_types 0) (render do_plain) with Ok m => m | _ => [] end.
(** {"an_int":0,"b":"0","c":null,"e":null,"f":[],"g":{},"h":false,"j":{"an_int":0,"b":"3",...,"g":{"p":1},...},"k":"x","d":0} *)
Definition do_inner (an_int : Coq.Strings.String.string) : json :=
  JObj [ (txt an_int, JNum (txt "0")); (txt "b", JStr (txt "3")); (txt "c", JNull); (txt "e", JNull); (txt "f", JArr []); (txt "g", JObj [(txt "p", JNum (txt "1"))]); (txt "h", JBool false); (txt "d", JNum (txt "0")) ].
Definition do_full (an_int : Coq.Strings.String.string) : json :=
  JObj [ (txt an_int, JNum (txt "0")); (txt "b", JStr (txt "0")); (txt "c", JNull); (txt "e", JNull); (txt "f", JArr []); (txt "g", JObj []); (txt "h", JBool false); (txt "j", do_inner an_int); (txt "k", JStr (txt "x")); (txt "d", JNum (txt "0")) ].
Lemma do_written : show_json do_types do_json true 8 dj_show true true 10 0 do_message = Ok (render (do_full "an_int")) /\ show_json do_types do_json true 8 dj_show true false 10 0 do_message = Ok (render (do_full "anInt")) /\
  show_json do_types do_json true 8 dj_show false true 10 0 do_message = Ok (render do_plain).
Proof. split; [vm_compute; reflexivity|]. split; [vm_compute; reflexivity|]. vm_compute. reflexivity. Qed.
Lemma do_enums : enums_fit do_json.
Proof. intros ty. do 3 (destruct ty as [|ty]; [cbn; intros jf H; repeat (destruct H as [<-|H]; [cbn; repeat constructor; unfold fits_s; cbn; lia|]); destruct H|]). unfold jty. rewrite nth_overflow by (cbn; lia). intros jf []. Qed.
Lemma do_nulls : nulls_ok do_types do_json.
Proof.
  intros ty. do 3 (destruct ty as [|ty]; [cbn; intros f l te d H; repeat (destruct H as [H|H]; [injection H as <- <-; intros N E; first [destruct (N eq_refl)|discriminate E|injection E as <- <-; split; [first [discriminate|reflexivity]|discriminate]]|]); destruct H|]).
  unfold wty. rewrite nth_overflow by (cbn; lia). intros f l te d [].
Qed.
Lemma do_text : quiet do_types do_json (render do_plain) /\ calm do_json 0 (render do_plain).
Proof.
  split; [|discriminate]. split; [|left; exact do_nulls]. intros b H. apply Forall_forall. intros c Hc.
  assert (K : forallb (fun t => match t with Str b => forallb (fun c => (0 <=? c) && (c <? 256)) b | _ => true end) (render do_plain) = true) by (vm_compute; reflexivity).
  rewrite forallb_forall in K. specialize (K _ H). cbn in K. rewrite forallb_forall in K. specialize (K _ Hc). unfold is_byte. lia.
Qed.
Lemma do_read : read_json do_types do_json (fun _ => true) 8 dj_parse true 10 0 (new_slots do_types 0) (render do_plain) = Ok do_message.
Proof. vm_compute. reflexivity. Qed.
Lemma do_typed : typed do_types 10 0 do_message.
Proof.
  apply sound_typed. pose proof (read_defined do_types do_json (fun _ => true) 8 dj_parse do_ok do_json_ok true 10 0 (new_slots do_types 0) (render do_plain) do_enums dj_floats ltac:(lia) ltac:(lia) (sound_new do_types do_ok 9 0) (proj1 do_text) (proj2 do_text)) as K.
  rewrite do_read in K. exact K.
Qed.
Lemma do_names : names_found do_types do_json true.
Proof.
  apply (names_apart do_types do_json true do_json_ok).
  - intros ty. do 3 (destruct ty as [|ty]; [cbn; no_dup|]). unfold jty. rewrite nth_overflow by (cbn; lia). apply NoDup_nil.
  - intros ty. do 3 (destruct ty as [|ty]; [cbn; intros a b Ha Hb; repeat (destruct Ha as [<-|Ha]; [repeat (destruct Hb as [<-|Hb]; [cbn; first [reflexivity|discriminate]|]); destruct Hb|]); destruct Ha|]). unfold jty. rewrite nth_overflow by (cbn; lia). intros a b [].
Qed.
Notation do_showable := (showable do_types do_json (fun _ => true) dj_show dj_parse true).
Lemma showable_step n ty m e k : w_entry (wty do_types ty) = e -> known_of do_json ty = k ->
  (let slots := forall jf f l, In (jf, (f, l)) (jfields do_types do_json ty) -> has (f, l) m = true -> slot_printable (fun _ => true) dj_show dj_parse (do_showable n) jf f l (slot_at m l) in
   if e then slots /\ Forall (fun fl => has fl m = true) (w_fields (wty do_types ty))
   else match k with
        | KWrapper => slots /\ Forall (fun fl => has fl m = true) (w_fields (wty do_types ty))
        | KNone => slots /\ forall jf f l, In (jf, (f, l)) (jfields do_types do_json ty) -> has (f, l) m = false -> w_explicit f = false -> fresh (fun _ => true) dj_show dj_parse jf f l (slot_at m l)
        | _ => False
        end) -> do_showable (S n) ty m.
Proof.
  intros He Hk H. cbn [showable]. unfold printable_body. rewrite He, Hk. destruct e; [split; [exact H|intros; discriminate]|]. destruct k; try contradiction.
  - destruct H as [A B]. split; [exact A|]. intros _ _ _. exact B.
  - split; [exact H|intros; discriminate].
Qed.
Ltac shown_slots := intros jf f l Hi; unfold jfields in Hi; cbn [combine jt_fields w_fields jty wty nth do_types do_json] in Hi; repeat (destruct Hi as [Hi|Hi]; [injection Hi as <- <- <-; printed_slot|]); try (destruct Hi).
Ltac fresh_slots := intros jf f l Hi; unfold jfields in Hi; cbn [combine jt_fields w_fields jty wty nth do_types do_json] in Hi;
  repeat (destruct Hi as [Hi|Hi]; [injection Hi as <- <- <-; intros Hh Hx; vm_compute in Hh; cbn in Hx; first [discriminate Hh|discriminate Hx|clear Hh Hx; unfold fresh; cbn [w_elem w_rep]; first [exact I|vm_compute; discriminate|split; [vm_compute; reflexivity|first [exact I|vm_compute; reflexivity]]]]|]); try (destruct Hi).
Ltac shown :=
  lazymatch goal with
  | |- True => exact I
  | |- _ -> true = true => reflexivity
  | |- forall ty d, EMsg _ _ = EMsg ty d -> _ => let H := fresh in intros ? ? H; injection H as <- <-; shown
  | |- Forall _ [] => apply Forall_nil
  | |- Forall _ (_ :: _) => apply Forall_cons; [shown|shown]
  | |- has _ _ = true => vm_compute; reflexivity
  | |- showable _ _ _ _ _ _ _ _ _ => apply (showable_step _ _ _ _ _ eq_refl eq_refl); cbn [w_entry w_fields wty nth do_types known_of jty jt_known do_json]; cbv beta iota zeta; shown
  | |- _ /\ Forall _ _ => split; [shown_slots; shown|cbn [w_fields]; shown]
  | |- _ /\ (forall jf f l, _) => split; [shown_slots; shown|fresh_slots]
  | |- ?g => idtac g
  end.
Lemma do_shown : do_showable 10 0 do_message.
Proof. shown. Qed.

(** ** Where a message is not given back *)
(** A number that was set and cleared is written. *)
Definition do_cleared : list slot := Eval vm_compute in put (new_slots do_types 0) 0 (clear_slot (1, CInt 5)).
Lemma do_cleared_typed : typed do_types 10 0 do_cleared.
Proof. split; [reflexivity|]. apply Forall_forall. intros [f l] H. cbn in H. repeat (destruct H as [H|H]; [injection H as <- <-; intros K; vm_compute in K; discriminate K|]). destruct H. Qed.
Lemma cleared_written : exists ts m', dyn_encode do_types any_text 8 10 0 do_cleared = Ok [] /\ show_json do_types do_json true 8 dj_show true false 10 0 do_cleared = Ok ts /\
  read_json do_types do_json (fun _ => true) 8 dj_parse true 10 0 (new_slots do_types 0) ts = Ok m' /\ dyn_encode do_types any_text 8 10 0 m' = Ok [8; 5].
Proof. do 2 eexists. split; [vm_compute; reflexivity|]. split; [vm_compute; reflexivity|]. split; [vm_compute; reflexivity|]. vm_compute. reflexivity. Qed.
(** A wrapper of an empty string is lost. *)
Lemma wrapper_lost : exists m ts m', dyn_read do_types any_text 8 0 [82; 0] = Ok m /\ dyn_encode do_types any_text 8 10 0 m = Ok [82; 0] /\ show_json do_types do_json true 8 dj_show true false 10 0 m = Ok ts /\
  read_json do_types do_json (fun _ => true) 8 dj_parse true 10 0 (new_slots do_types 0) ts = Ok m' /\ dyn_encode do_types any_text 8 10 0 m' = Ok [].
Proof. do 3 eexists. split; [vm_compute; reflexivity|]. split; [vm_compute; reflexivity|]. split; [vm_compute; reflexivity|]. split; [vm_compute; reflexivity|]. vm_compute. reflexivity. Qed.
(** The string of a new message is written as null. *)
Lemma null_string : exists ms, show_json do_types do_json true 8 dj_show true false 10 0 (new_slots do_types 0) = Ok (render (JObj ms)) /\ In (txt "c", JNull) ms /\ In (txt "e", JNull) ms.
Proof.
  exists [ (txt "anInt", JNum (txt "0")); (txt "b", JStr (txt "0")); (txt "c", JNull); (txt "e", JNull); (txt "f", JArr []); (txt "g", JObj []); (txt "h", JBool false); (txt "d", JNum (txt "0")) ].
  split; [vm_compute; reflexivity|]. split; cbn [In]; auto 8.
Qed.
(** message N { int32 a = 1 [json_name = "b"]; int32 b = 2 [json_name = "c"]; } *)
Definition dn_fields : list wfield := [ dj_field 1 (EVar VI32); dj_field 2 (EVar VI32) ].
Definition dn_types : list wtype := Eval vm_compute in [ dj_type 0 false dn_fields ].
Definition dn_json : list jtype := Eval vm_compute in [ JType KNone [ JField (txt "a") (txt "b") false false [] false; JField (txt "b") (txt "c") false false [] false ] ].
Lemma dn_ok : wtypes_ok dn_types.
Proof. unfold wtypes_ok, dn_types. apply Forall_cons; [type_ok 0%nat dn_fields|]. apply Forall_nil. Qed.
Lemma dn_json_ok : jtypes_ok dn_types dn_json.
Proof.
  intros ty. destruct ty as [|ty]; [unfold jtype_ok; split; [reflexivity|]; split; [cbn; no_dup|]; split; [unfold jfields; cbn [combine jt_fields w_fields jty wty nth dn_types dn_json]; fields_named|]; split; [exact I|discriminate]|].
  unfold jtype_ok, jfields, known_ok, known_of, jty, wty. rewrite !nth_overflow by (cbn; lia). split; [reflexivity|]. split; [apply NoDup_nil|]. split; [apply Forall_nil|]. split; [exact I|discriminate].
Qed.
(** The field that has the name of the other in JSON gets its value. *)
Lemma names_swapped : exists m ts m', dyn_read dn_types any_text 8 0 [8; 1; 16; 2] = Ok m /\ show_json dn_types dn_json true 8 dj_show false true 10 0 m = Ok ts /\
  read_json dn_types dn_json (fun _ => true) 8 dj_parse true 10 0 (new_slots dn_types 0) ts = Ok m' /\ dyn_encode dn_types any_text 8 10 0 m' = Ok [8; 2].
Proof. do 3 eexists. split; [vm_compute; reflexivity|]. split; [vm_compute; reflexivity|]. split; [vm_compute; reflexivity|]. vm_compute. reflexivity. Qed.
