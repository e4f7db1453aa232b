(** The examples of PropertiesDynJson.v. *)
From Coq Require Import Ascii String.
Require Import Verif.Bits Verif.Varint Verif.TextNum Verif.FieldMaskProofs Verif.CppText Verif.CppSpec Verif.CppNumbers Verif.Defaults.
Require Import Verif.DynSlots Verif.DynSlotsProofs Verif.Dyn Verif.Schema Verif.Archive Verif.Decode Verif.Encode Verif.DynWire Verif.DynDecode Verif.DynView Verif.DynWireEx.
Require Import Verif.DynJson Verif.DynJsonSpec Verif.DynJsonTree Verif.DynJsonSafe Verif.DynJson7.

Local Open Scope string_scope.
Local Open Scope list_scope.
Local Open Scope Z_scope.
Definition dj_field (num : Z) (e : elem) : wfield := WField num e None None false 0 [].
Definition dj_sub (num : Z) (ty : nat) : wfield := WField num (EMsg ty false) None None true 0 [].
Definition dj_list (num : Z) (e : elem) : wfield := WField num e (Some true) None false 0 [].
Definition dj_alt (num : Z) (e : elem) : wfield := WField num e None (Some 0%nat) true 0 [].
Definition dj_name (s : Coq.Strings.String.string) : jfield := JField (txt s) (txt s) false true [] false.

(** 0: the message; 1: the entries of its map and of Struct; 2: Value; 3: Struct;
    4: ListValue; 5: Timestamp; 6: Int32Value; 7: FieldMask; 8: Duration. *)
Definition dj_fields0 : list wfield :=
  [ dj_field 1 (EVar VI32); dj_field 2 (EVar VI64); dj_field 3 (EBytes true false); dj_field 4 (EBytes false false); dj_field 5 (EEnum None); dj_list 6 (EVar VS32);
    WField 7 (EMsg 1 false) (Some false) None false 0 []; dj_sub 8 5; dj_sub 9 6; dj_sub 10 2; dj_alt 11 EBool; dj_alt 12 (EBytes true false); dj_sub 13 7; dj_sub 14 8; dj_field 15 (EFix true false) ].
Definition dj_fields1 : list wfield := [ WField 1 (EBytes true false) None None true 0 []; dj_sub 2 2 ].
Definition dj_fields2 : list wfield := [ dj_alt 1 (EEnum None); dj_alt 2 (EFix true true); dj_alt 3 (EBytes true false); dj_alt 4 EBool; dj_alt 5 (EMsg 3 false); dj_alt 6 (EMsg 4 false) ].
Definition dj_fields3 : list wfield := [ WField 1 (EMsg 1 false) (Some false) None false 0 [] ].
Definition dj_fields4 : list wfield := [ WField 1 (EMsg 2 false) (Some false) None false 0 [] ].
Definition dj_fields5 : list wfield := [ dj_field 1 (EVar VI64); dj_field 2 (EVar VI32) ].
Definition dj_fields6 : list wfield := [ dj_field 1 (EVar VI32) ].
Definition dj_fields7 : list wfield := [ WField 1 (EBytes true false) (Some false) None false 0 [] ].
Definition dj_type (n : nat) (entry : bool) (fs : list wfield) : wtype := match wtype_of n entry fs with Some t => t | None => WType [] 0 false end.
Definition dj_types : list wtype := Eval vm_compute in
  [ dj_type 1 false dj_fields0; dj_type 0 true dj_fields1; dj_type 1 false dj_fields2; dj_type 0 false dj_fields3; dj_type 0 false dj_fields4;
    dj_type 0 false dj_fields5; dj_type 0 false dj_fields6; dj_type 0 false dj_fields7; dj_type 0 false dj_fields5 ].
Definition dj_color : list (bytes * Z) := [(txt "RED", 0); (txt "BLUE", 7)].
Definition dj_json : list jtype := Eval vm_compute in
  [ JType KNone [ JField (txt "an_int") (txt "anInt") false false [] false; dj_name "b"; dj_name "c"; JField (txt "d") (txt "d") false false [] false;
      JField (txt "e") (txt "e") false false dj_color false; dj_name "f"; dj_name "g"; dj_name "h"; dj_name "i"; dj_name "j"; dj_name "k"; dj_name "l"; dj_name "m"; dj_name "n"; JField (txt "o") (txt "o") true false [] false ];
    JType KNone [ dj_name "key"; dj_name "value" ];
    JType KValue [ JField (txt "null_value") (txt "nullValue") false false [(txt "NULL_VALUE", 0)] true; dj_name "number_value"; dj_name "string_value"; dj_name "bool_value"; dj_name "struct_value"; dj_name "list_value" ];
    JType KStruct [ dj_name "fields" ]; JType KListValue [ dj_name "values" ]; JType KTimestamp [ dj_name "seconds"; dj_name "nanos" ];
    JType KWrapper [ dj_name "value" ]; JType KFieldMask [ dj_name "paths" ]; JType KDuration [ dj_name "seconds"; dj_name "nanos" ] ].
(** In place of glaze's: the number of the bits. *)
Definition dj_show (b : bool) (z : Z) : bytes := show_int z.
Definition dj_parse (b : bool) (t : bytes) : option Z := match t with [] => None | _ => parse_default false (if b then 64 else 32) t end.

Lemma dj_field_ok f : match w_oneof f, w_explicit f with Some _, false => False | _, _ => True end -> match w_elem f, w_rep f, w_explicit f with EMsg _ _, None, false => False | _, _, _ => True end ->
  (w_explicit f = false -> w_dint f = 0 /\ w_dbytes f = []) -> 1 <= w_num f < 2 ^ 29 -> wfield_ok f.
Proof.
  intros H1 H2 H3 H4. split; [exact H4|]. split; [|split; [|exact H3]].
  - intros o Ho. rewrite Ho in H1. destruct (w_explicit f); [reflexivity|contradiction].
  - intros ty d He Hr. rewrite He, Hr in H2. destruct (w_explicit f); [reflexivity|contradiction].
Qed.
Ltac type_ok c fs := exists c, fs; split; [|split; [|reflexivity]];
  [unfold oneofs_valid; cbn [map fs]; repeat (apply Forall_cons; [intros o Ho; cbn in *; first [discriminate Ho | injection Ho as <-; split; [lia|reflexivity]]|]); apply Forall_nil
  |unfold fs; repeat (apply Forall_cons; [apply dj_field_ok; cbn; auto; try lia; discriminate|]); apply Forall_nil].
Lemma dj_ok : wtypes_ok dj_types.
Proof.
  unfold wtypes_ok, dj_types. apply Forall_cons; [type_ok 1%nat dj_fields0|]. apply Forall_cons; [type_ok 0%nat dj_fields1|]. apply Forall_cons; [type_ok 1%nat dj_fields2|]. apply Forall_cons; [type_ok 0%nat dj_fields3|].
  apply Forall_cons; [type_ok 0%nat dj_fields4|]. apply Forall_cons; [type_ok 0%nat dj_fields5|]. apply Forall_cons; [type_ok 0%nat dj_fields6|]. apply Forall_cons; [type_ok 0%nat dj_fields7|]. apply Forall_cons; [type_ok 0%nat dj_fields5|]. apply Forall_nil.
Qed.
Ltac no_dup := repeat (apply NoDup_cons; [cbn [In map]; intros K; repeat (destruct K as [K|K]; [discriminate K|]); exact K|]); apply NoDup_nil.
Ltac fields_named := repeat (apply Forall_cons; [unfold jfield_ok; cbn [fst snd j_values map]; split; [no_dup|]; split; [cbn [In]; intros K; repeat (destruct K as [K|K]; [discriminate K|]); exact K|]; intros ty d He Hr; first [discriminate He|discriminate Hr|injection He as <- <-; reflexivity]|]); apply Forall_nil.
Lemma dj_json_ok : jtypes_ok dj_types dj_json.
Proof.
  intros ty. do 9 (try (destruct ty as [|ty]; [unfold jtype_ok; split; [reflexivity|]; split; [cbn; no_dup|]; split; [unfold jfields; cbn [combine jt_fields w_fields jty wty nth dj_types dj_json]; fields_named|]; split|])).
  19: { unfold jtype_ok, jfields, known_ok, known_of, jty, wty. rewrite !nth_overflow by (cbn; lia). split; [reflexivity|]. split; [apply NoDup_nil|]. split; [apply Forall_nil|]. split; [exact I|discriminate]. }
  all: try discriminate; try exact I; try reflexivity.
  - intros _. do 6 eexists. split; [reflexivity|]. repeat split.
  - exists dj_fields2. do 12 eexists. split; [reflexivity|]. split; [reflexivity|]. split; [reflexivity|]. repeat split.
  - do 2 eexists. split; reflexivity.
  - do 2 eexists. split; reflexivity.
  - eexists. split; [reflexivity|exact I].
  - eexists. reflexivity.
Qed.
Lemma dj_enums : enums_fit dj_json.
Proof. intros ty. do 9 (destruct ty as [|ty]; [cbn; intros jf H; repeat (destruct H as [<-|H]; [cbn; repeat constructor; unfold fits_s; cbn; lia|]); destruct H|]). unfold jty. rewrite nth_overflow by (cbn; lia). intros jf []. Qed.
Lemma dj_floats : floats_fit dj_parse.
Proof.
  intros b t z H. unfold dj_parse in H. destruct t as [|c t]; [discriminate|]. apply parse_exact in H; [|discriminate]. destruct H as (l & ds & D & R & [(_ & ->)|(K & _)]); [|discriminate K]. split; [apply number_nonneg; [lia|exact (digits_nonneg _ _ _ D)]|exact R].
Qed.
Lemma dj_nulls : nulls_ok dj_types dj_json.
Proof.
  intros ty. do 9 (destruct ty as [|ty]; [cbn; intros f l te d H; repeat (destruct H as [H|H]; [injection H as <- <-; intros N E; first [destruct (N eq_refl)|discriminate E|injection E as <- <-; split; [first [discriminate|reflexivity]|discriminate]]|]); destruct H|]).
  unfold wty. rewrite nth_overflow by (cbn; lia). intros f l te d [].
Qed.
(** {"anInt":-5,"b":"9007199254740993","c":"x","d":"AQI=","e":"BLUE","f":[1,-2],
     "g":{"p":null,"q":[true,{"r":"s"}]},"h":"1970-01-01T00:00:01Z","i":7,"j":null,"l":"y","m":"foo_bar,baz","n":"1.500s","o":"-1"} *)
Definition dj_tree : json := JObj
  [ (txt "anInt", JNum (txt "-5")); (txt "b", JStr (txt "9007199254740993")); (txt "c", JStr (txt "x")); (txt "d", JStr (txt "AQI=")); (txt "e", JStr (txt "BLUE"));
    (txt "f", JArr [JNum (txt "1"); JNum (txt "-2")]); (txt "g", JObj [(txt "p", JNull); (txt "q", JArr [JBool true; JObj [(txt "r", JStr (txt "s"))]])]);
    (txt "h", JStr (txt "1970-01-01T00:00:01Z")); (txt "i", JNum (txt "7")); (txt "j", JNull); (txt "l", JStr (txt "y")); (txt "m", JStr (txt "foo_bar,baz")); (txt "n", JStr (txt "1.500s")); (txt "o", JStr (txt "-1")) ].
Definition dj_message : list slot := Eval vm_compute in match read_json dj_types dj_json (fun _ => true) 8 dj_parse true 10 0 (new_slots dj_types 0) (render dj_tree) with Ok m => m | _ => [] end.
Lemma dj_read : read_json dj_types dj_json (fun _ => true) 8 dj_parse true 10 0 (new_slots dj_types 0) (render dj_tree) = Ok dj_message.
Proof. vm_compute. reflexivity. Qed.
Lemma dj_written : write_json dj_types dj_json true 8 dj_show 10 0 dj_message = Ok (render dj_tree).
Proof. vm_compute. reflexivity. Qed.
Lemma dj_text : quiet dj_types dj_json (render dj_tree) /\ calm dj_json 0 (render dj_tree).
Proof.
  split; [|discriminate]. split; [|left; exact dj_nulls]. intros b H. apply Forall_forall. intros c Hc.
  assert (K : forallb (fun t => match t with Str b => forallb (fun c => (0 <=? c) && (c <? 256)) b | _ => true end) (render dj_tree) = true) by (vm_compute; reflexivity).
  rewrite forallb_forall in K. specialize (K _ H). cbn in K. rewrite forallb_forall in K. specialize (K _ Hc). unfold is_byte. lia.
Qed.
Lemma dj_sound : sound dj_types 10 0 dj_message.
Proof.
  pose proof (read_defined dj_types dj_json (fun _ => true) 8 dj_parse dj_ok dj_json_ok true 10 0 (new_slots dj_types 0) (render dj_tree) dj_enums dj_floats ltac:(lia) ltac:(lia) (sound_new dj_types dj_ok 9 0) (proj1 dj_text) (proj2 dj_text)) as K.
  rewrite dj_read in K. exact K.
Qed.
Ltac printed_slot := intros Hh; vm_compute in Hh; first [discriminate Hh|clear Hh]; unfold slot_printable; match goal with |- match ?v with _ => _ end => let v' := eval vm_compute in v in change v with v' end; cbv beta iota; cbn [scalar_printable w_elem j_null j_values j_string].
Ltac printed_slots := intros jf f l Hi; unfold jfields in Hi; cbn [combine jt_fields w_fields jty wty nth dj_types dj_json] in Hi; repeat (destruct Hi as [Hi|Hi]; [injection Hi as <- <- <-; printed_slot|]); try (destruct Hi).
Lemma printable_step n ty m e k : w_entry (wty dj_types ty) = e -> known_of dj_json ty = k ->
  (let slots := forall jf f l, In (jf, (f, l)) (jfields dj_types dj_json ty) -> has (f, l) m = true -> slot_printable (fun _ => true) dj_show dj_parse (printable dj_types dj_json (fun _ => true) dj_show dj_parse n) jf f l (slot_at m l) in
   if e then slots /\ Forall (fun fl => has fl m = true) (w_fields (wty dj_types ty))
   else match k with
        | KTimestamp | KDuration => Forall (fun fl => has fl m = true \/ unset fl m) (w_fields (wty dj_types ty))
        | KFieldMask => forall f l x, In (f, l) (w_fields (wty dj_types ty)) -> value (dyn_of f) l (slot_at m l) = FStrs x -> Forall comma_free x /\ x <> [[]]
        | KValue => exists i jf f l, nth_error (jfields dj_types dj_json ty) i = Some (jf, (f, l)) /\ has (f, l) m = true /\
            (i = O -> value (dyn_of f) l (slot_at m l) = FInt 0) /\ (i <> O -> slot_printable (fun _ => true) dj_show dj_parse (printable dj_types dj_json (fun _ => true) dj_show dj_parse n) jf f l (slot_at m l))
        | KWrapper => slots /\ Forall (fun fl => has fl m = true) (w_fields (wty dj_types ty))
        | KStruct | KListValue => slots /\ Forall (fun fl => 0 <= fst (slot_at m (snd fl))) (w_fields (wty dj_types ty))
        | KNone => slots
        | KAny => False
        end) -> printable dj_types dj_json (fun _ => true) dj_show dj_parse (S n) ty m.
Proof. intros <- <- H. exact H. Qed.
Ltac printed_value :=
  match goal with |- ?v = _ => let v' := eval vm_compute in v in change v with v' end.
Ltac alternative i := exists i; do 3 eexists; split; [reflexivity|]; split; [vm_compute; reflexivity|]; split; intros Hi; [first [discriminate Hi|vm_compute; reflexivity]|first [destruct (Hi eq_refl)|clear Hi; unfold slot_printable; match goal with |- match ?v with _ => _ end => let v' := eval vm_compute in v in change v with v' end; cbv beta iota; cbn [scalar_printable w_elem j_null j_values j_string]]].
Ltac printed :=
  lazymatch goal with
  | |- True => exact I
  | |- _ -> true = true => reflexivity
  | |- false = false /\ _ => split; [reflexivity|]; left; eexists; cbn [In]; auto
  | |- forall ty d, EMsg _ _ = EMsg ty d -> _ => let H := fresh in intros ? ? H; injection H as <- <-; printed
  | |- Forall _ [] => apply Forall_nil
  | |- Forall _ (_ :: _) => apply Forall_cons; [printed|printed]
  | |- has _ _ = true => vm_compute; reflexivity
  | |- has _ _ = true \/ _ => first [left; vm_compute; reflexivity|right; split; vm_compute; reflexivity]
  | |- 0 <= _ => vm_compute; discriminate
  | |- printable _ _ _ _ _ _ _ _ => apply (printable_step _ _ _ _ _ eq_refl eq_refl); cbn [w_entry w_fields wty nth dj_types known_of jty jt_known dj_json]; cbv beta iota zeta; printed
  | |- _ /\ Forall _ _ => split; [printed_slots; printed|cbn [w_fields]; printed]
  | |- exists i jf f l, _ => first [alternative O|alternative 1%nat|alternative 2%nat|alternative 3%nat|alternative 4%nat|alternative 5%nat]; printed
  | |- forall f l x, In (f, l) _ -> _ => let H := fresh in intros ? ? ? [H|[]] Hx; injection H as <- <-; vm_compute in Hx; injection Hx as <-; split; [repeat constructor; intros K; repeat (destruct K as [K|K]; [discriminate K|]); exact K|discriminate]
  | |- forall jf f l, _ => printed_slots; printed
  | |- ?g => idtac g
  end.
Lemma dj_printable : printable dj_types dj_json (fun _ => true) dj_show dj_parse 10 0 dj_message.
Proof. printed. Qed.
