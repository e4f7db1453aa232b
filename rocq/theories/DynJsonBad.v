(** Where the JSON of dynamic messages departs from what is expected: the witnesses of the
    refuted claims of PropertiesDynJson.v. *)
From Coq Require Import Ascii String.
Require Import Verif.Bits Verif.Varint Verif.TextNum Verif.CppText Verif.Defaults.
Require Import Verif.DynSlots Verif.DynSlotsProofs Verif.Dyn Verif.Schema Verif.Archive Verif.Decode Verif.Encode Verif.DynWire Verif.DynDecode Verif.DynView Verif.DynWireEx.
Require Import Verif.DynJson Verif.DynJsonSpec Verif.DynJson1 Verif.DynJsonTree Verif.DynJsonSafe Verif.DynJson7 Verif.DynJsonEx.
Local Open Scope string_scope.
Local Open Scope list_scope.
Local Open Scope Z_scope.

(** 0: the message; 1: a message with a list; 2: Value; 3: Struct; 4: ListValue; 5: the
    entries of a map to int32; 6: those of Struct. *)
Definition dk_many (num : Z) (ty : nat) : wfield := WField num (EMsg ty false) (Some false) None false 0 [].
Definition dk_fields0 : list wfield := [ dk_many 1 1; dk_many 2 2; dk_many 3 5; WField 4 (EEnum None) None None true 0 []; dj_list 5 (EEnum None); dk_many 6 4; dk_many 7 6 ].
Definition dk_fields1 : list wfield := [ dj_list 1 (EVar VI32) ].
Definition dk_fields5 : list wfield := [ WField 1 (EBytes true false) None None true 0 []; WField 2 (EVar VI32) None None true 0 [] ].
Definition dk_types : list wtype := Eval vm_compute in
  [ dj_type 0 false dk_fields0; dj_type 0 false dk_fields1; dj_type 1 false dj_fields2; dj_type 0 false [dk_many 1 6]; dj_type 0 false dj_fields4; dj_type 0 true dk_fields5; dj_type 0 true dj_fields1 ].
Definition dk_null (s : string) : jfield := JField (txt s) (txt s) false false [(txt "NULL_VALUE", 0)] true.
Definition dk_json : list jtype := Eval vm_compute in
  [ JType KNone [ dj_name "l"; dj_name "v"; dj_name "g"; dk_null "z"; dk_null "zs"; dj_name "w"; dj_name "s" ]; JType KNone [ dj_name "a" ];
    JType KValue [ dk_null "null_value"; dj_name "number_value"; dj_name "string_value"; dj_name "bool_value"; dj_name "struct_value"; dj_name "list_value" ];
    JType KStruct [ dj_name "fields" ]; JType KListValue [ dj_name "values" ]; JType KNone [ dj_name "key"; dj_name "value" ]; JType KNone [ dj_name "key"; dj_name "value" ] ].
Definition dk_fields3 : list wfield := [dk_many 1 6].
Lemma dk_ok : wtypes_ok dk_types.
Proof.
  unfold wtypes_ok, dk_types. apply Forall_cons; [type_ok 0%nat dk_fields0|]. apply Forall_cons; [type_ok 0%nat dk_fields1|]. apply Forall_cons; [type_ok 1%nat dj_fields2|]. apply Forall_cons; [type_ok 0%nat dk_fields3|].
  apply Forall_cons; [type_ok 0%nat dj_fields4|]. apply Forall_cons; [type_ok 0%nat dk_fields5|]. apply Forall_cons; [type_ok 0%nat dj_fields1|]. apply Forall_nil.
Qed.
Lemma dk_json_ok : jtypes_ok dk_types dk_json.
Proof.
  intros ty. do 7 (try (destruct ty as [|ty]; [unfold jtype_ok; split; [reflexivity|]; split; [cbn; no_dup|]; split; [unfold jfields; cbn [combine jt_fields w_fields jty wty nth dk_types dk_json]; fields_named|]; split|])).
  15: { unfold jtype_ok, jfields, known_ok, known_of, jty, wty. rewrite !nth_overflow by (cbn; lia). split; [reflexivity|]. split; [apply NoDup_nil|]. split; [apply Forall_nil|]. split; [exact I|discriminate]. }
  all: try discriminate; try exact I; try reflexivity.
  - exists dj_fields2. do 12 eexists. split; [reflexivity|]. split; [reflexivity|]. split; [reflexivity|]. repeat split.
  - do 2 eexists. split; reflexivity.
  - do 2 eexists. split; reflexivity.
  - intros _. do 6 eexists. split; [reflexivity|]. repeat split.
  - intros _. do 6 eexists. split; [reflexivity|]. repeat split.
Qed.
Definition any_text (_ : bytes) : bool := true.
Definition dj_of (bs : bytes) : list slot := match dyn_read dj_types any_text 8 0 bs with Ok m => m | _ => [] end.
Definition obj (k : string) (ts : list tok) : list tok := LBrace :: Str (txt k) :: Colon :: ts ++ [RBrace].
Definition is_open (t : tok) : bool := match t with LBrack => true | _ => false end.
Definition is_close (t : tok) : bool := match t with RBrack => true | _ => false end.
Definition count (p : tok -> bool) (ts : list tok) : nat := length (filter p ts).
Lemma count_app p a b : count p (a ++ b) = (count p a + count p b)%nat.
Proof. unfold count. rewrite filter_app, app_length. reflexivity. Qed.
Lemma count_separated xs : Forall (fun x => count is_open x = count is_close x) xs -> count is_open (separated xs) = count is_close (separated xs).
Proof. induction 1 as [|x xs Hx H IH]; [reflexivity|]. cbn [separated]. destruct xs as [|y ys]; [exact Hx|]. change (Comma :: ?a) with ([Comma] ++ a). rewrite !count_app, Hx. rewrite IH. reflexivity. Qed.
(** The brackets of a JSON text match. *)
Lemma brackets j : count is_open (render j) = count is_close (render j).
Proof.
  induction j as [x|x|[]| |l IH|l IH] using json_rect'; try reflexivity; cbn [render].
  - change (LBrack :: ?a) with ([LBrack] ++ a). rewrite !count_app. rewrite (count_separated (map render l)); [cbn; lia|]. apply Forall_map. exact IH.
  - change (LBrace :: ?a) with ([LBrace] ++ a). rewrite !count_app. rewrite count_separated; [reflexivity|]. apply Forall_map. eapply Forall_impl; [|exact IH]. intros [k v] H. exact H.
Qed.
Lemma render_some j : render j <> [].
Proof. destruct j as [x|x|[]| |l|l]; discriminate. Qed.
Lemma no_value_after_colon k j : [LBrace; Str k; Colon; RBrace] <> render j.
Proof.
  destruct j as [x|x|[]| |l|l]; try discriminate. destruct l as [|[k' v] [|q l]]; try discriminate; cbn [render map fst snd separated app].
  - intros H. injection H as _ H. apply (f_equal (@List.length tok)) in H. rewrite app_length in H. cbn [List.length] in H. pose proof (render_some v) as K. destruct (render v); [congruence|cbn [List.length] in H; lia].
  - intros H. injection H as _ H. apply (f_equal (@List.length tok)) in H. rewrite !app_length in H. cbn [List.length] in H. lia.
Qed.
Lemma entry_without_key k j : [LBrace; Str k; Colon; LBrace; TTrue; RBrace; RBrace] <> render j.
Proof.
  destruct j as [x|x|[]| |l|l]; try discriminate. destruct l as [|[k' v] t]; try discriminate. cbn [render map fst snd separated].
  destruct v as [x|x|[]| |l|l]; destruct t as [|q t]; try discriminate; cbn [render app]; destruct l as [|[k2 v2] [|q2 l]]; discriminate.
Qed.

Lemma empty_wrapper : exists m ts, dyn_read dj_types any_text 8 0 [74; 0] = Ok m /\ write_json dj_types dj_json true 8 dj_show 10 0 m = Ok ts /\ forall j, ts <> render j.
Proof. exists (dj_of [74; 0]). eexists. split; [vm_compute; reflexivity|]. split; [vm_compute; reflexivity|]. intros j. apply no_value_after_colon. Qed.
Lemma empty_value : exists m ts, dyn_read dj_types any_text 8 0 [82; 0] = Ok m /\ write_json dj_types dj_json true 8 dj_show 10 0 m = Ok ts /\ forall j, ts <> render j.
Proof. exists (dj_of [82; 0]). eexists. split; [vm_compute; reflexivity|]. split; [vm_compute; reflexivity|]. intros j. apply no_value_after_colon. Qed.
Lemma keyless_entry : exists m ts, dyn_read dj_types any_text 8 0 [58; 4; 18; 2; 32; 1] = Ok m /\ write_json dj_types dj_json true 8 dj_show 10 0 m = Ok ts /\ forall j, ts <> render j.
Proof. exists (dj_of [58; 4; 18; 2; 32; 1]). eexists. split; [vm_compute; reflexivity|]. split; [vm_compute; reflexivity|]. intros j. apply entry_without_key. Qed.
(** The entry of a map whose message was not set. *)
Lemma absent_mapped : exists m, typed dj_types 3 0 m /\ write_json dj_types dj_json true 8 dj_show 10 0 m = UB.
Proof.
  exists (put (new_slots dj_types 0) 6 (1, CMsgs [[(1, CBytes [112]); (0, CZero)]])). split; [|vm_compute; reflexivity].
  slots. split; [reflexivity|]. apply Forall_cons; [|apply Forall_nil]. slots. nums. unfold is_byte. lia.
Qed.
Lemma negative_enum : exists m ts, typed dj_types 10 0 m /\ write_json dj_types dj_json true 8 dj_show 10 0 m = Ok ts /\ forall strict, read_json dj_types dj_json any_text 8 dj_parse strict 10 0 (new_slots dj_types 0) ts = Err BadMessage.
Proof. exists (put (new_slots dj_types 0) 4 (1, CInt (-1))). eexists. split; [slots; nums|]. split; [vm_compute; reflexivity|]. intros []; vm_compute; reflexivity. Qed.
(** A field of type google.protobuf.NullValue with presence, and a list of them. *)
Lemma null_enum : exists m ts m', typed dk_types 10 0 m /\ write_json dk_types dk_json true 8 dj_show 10 0 m = Ok ts /\
  read_json dk_types dk_json any_text 8 dj_parse true 10 0 (new_slots dk_types 0) ts = Ok m' /\ dyn_encode dk_types any_text 8 10 0 m = Ok [32; 0] /\ dyn_encode dk_types any_text 8 10 0 m' = Ok [].
Proof. exists (put (new_slots dk_types 0) 3 (1, CInt 0)). do 2 eexists. split; [slots; nums|]. split; [vm_compute; reflexivity|]. split; [vm_compute; reflexivity|]. split; vm_compute; reflexivity. Qed.
Lemma null_enums : exists m ts, typed dk_types 10 0 m /\ write_json dk_types dk_json true 8 dj_show 10 0 m = Ok ts /\ forall strict, read_json dk_types dk_json any_text 8 dj_parse strict 10 0 (new_slots dk_types 0) ts = Err BadMessage.
Proof. exists (put (new_slots dk_types 0) 4 (1, CInts [0])). eexists. split; [slots; nums|]. split; [vm_compute; reflexivity|]. intros []; vm_compute; reflexivity. Qed.
(** {"l":[{"a":[1}]} *)
Definition unbalanced : list tok := Eval vm_compute in obj "l" [LBrack; LBrace; Str (txt "a"); Colon; LBrack; Num (txt "1"); RBrace; RBrack].
Lemma malformed : (exists m, read_json dk_types dk_json any_text 8 dj_parse true 10 0 (new_slots dk_types 0) unbalanced = Ok m) /\ forall j, unbalanced <> render j.
Proof. split; [eexists; vm_compute; reflexivity|]. intros j H. pose proof (brackets j) as K. rewrite <- H in K. discriminate K. Qed.
(** The null of one alternative of a oneof, after another was given a value. *)
Definition other_alternative : list slot := put (new_slots dj_types 0) 10 (3, CBytes [121]).
Lemma null_alternative : exists k l m', nth_error (w_fields (wty dj_types 0)) 10 = Some k /\ nth_error (w_fields (wty dj_types 0)) 11 = Some l /\ typed dj_types 10 0 other_alternative /\
  has k other_alternative = false /\ has l other_alternative = true /\
  read_json dj_types dj_json any_text 8 dj_parse true 10 0 other_alternative (render (JObj [(txt "k", JNull)])) = Ok m' /\ has l m' = false.
Proof. do 3 eexists. split; [reflexivity|]. split; [reflexivity|]. split; [slots; nums; unfold is_byte; lia|]. split; [vm_compute; reflexivity|]. split; [vm_compute; reflexivity|]. split; vm_compute; reflexivity. Qed.
Lemma null_lists strict : read_json dk_types dk_json any_text 8 dj_parse strict 10 0 (new_slots dk_types 0) (render (JObj [(txt "v", JNull)])) = UB /\
  read_json dk_types dk_json any_text 8 dj_parse strict 10 4 (new_slots dk_types 4) (render JNull) = UB /\
  read_json dk_types dk_json any_text 8 dj_parse strict 10 0 (new_slots dk_types 0) (render (JObj [(txt "w", JArr [JNull])])) = UB.
Proof. destruct strict; (split; [vm_compute; reflexivity|]); split; vm_compute; reflexivity. Qed.
