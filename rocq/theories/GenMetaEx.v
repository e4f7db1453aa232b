(** Concrete fields that are [regular]; used in PropertiesMeta.v. *)
Require Import Verif.Bits Verif.Varint Verif.Schema Verif.Pool Verif.PoolSpec Verif.PoolProofs2 Verif.PoolAttrs Verif.GenMeta Verif.GenMetaSpec Verif.GenMetaProofs Verif.GenLink Verif.RoundTrip.
Local Open Scope Z_scope.

Definition none := Features 0 0 0 0 0.
Definition edition := Features EXPLICIT ENUM_OPEN PACKED UTF8_VERIFY LENGTH_PREFIXED.
Definition proto2 := Features EXPLICIT ENUM_CLOSED EXPANDED UTF8_NONE LENGTH_PREFIXED.
(** Field [name] of the message [p.M]. *)
Definition proto name number label type one feat := FProto [name] number label type [] [] [] one false None [] feat.
Definition made base name number label type one feat closed enum map ty text :=
  let p := proto name number label type one feat in
  GField (FDsc p (field_attrs (eff [base]) false p)) [112; 46; 77] false false closed enum map false ty text.
Definition scopes_of base (g : gfield) : list features := [base; fp_feat (g_proto g)].

(** Without protobuf's options: every scope. *)
Definition everywhere (two : bool) := GOptions [[46]] two.

Lemma attrs_made base p : based [base] -> attributes p false [base; fp_feat p] (field_attrs (eff [base]) false p).
Proof. exact (attrs_spec p false [base]). Qed.
Lemma everywhere_covers two g s : In s (o_presences (everywhere two)) -> (exists r, full_name g = tl s ++ r) -> covers s (full_name g).
Proof. intros [<- | []] _. exists []. split; [reflexivity|]. left. reflexivity. Qed.

(** An edition file: an int32, a closed enum, a repeated int32, a string without
    presence, a map, a oneof of a string and a message and a oneof of an enum. *)
Definition implicit := Features IMPLICIT 0 0 0 0.
Definition ex_fields : list gfield :=
  [ made edition 97 1 LABEL_OPTIONAL TYPE_INT32 None none false [] false 0 (Some (VInt 7))
  ; made edition 98 2 LABEL_OPTIONAL TYPE_ENUM None none true [3; 5] false 0 None
  ; made edition 99 3 LABEL_REPEATED TYPE_INT32 None none false [] false 0 None
  ; made edition 100 4 LABEL_OPTIONAL TYPE_STRING None implicit false [] false 0 None
  ; made edition 101 5 LABEL_REPEATED TYPE_MESSAGE None none false [] true 1 None
  ; made edition 102 6 LABEL_OPTIONAL TYPE_STRING (Some 0) none false [] false 0 None
  ; made edition 103 7 LABEL_OPTIONAL TYPE_ENUM (Some 1) none true [3; 5] false 0 None
  ; made edition 104 8 LABEL_OPTIONAL TYPE_MESSAGE (Some 0) none false [] false 2 None
  ; made edition 105 9 LABEL_OPTIONAL TYPE_UINT32 None (Features LEGACY_REQUIRED 0 0 0 0) false [] false 0 (Some (VInt 4)) ].
Definition ex_sc := scopes_of edition.
Definition ex_esc (g : gfield) := if g_closed g then [edition; Features 0 ENUM_CLOSED 0 0 0] else [edition].

(** A proto2 file with the option for the field [p.M.a]. *)
Definition only_a := GOptions [[46; 112; 46; 77; 46; 97]] true.
Definition ex2_fields : list gfield :=
  [ made proto2 97 1 LABEL_OPTIONAL TYPE_INT32 None none false [] false 0 (Some (VInt 7))
  ; made proto2 98 2 LABEL_OPTIONAL TYPE_ENUM None none true [3; 5] false 0 None
  ; made proto2 99 3 LABEL_REQUIRED TYPE_SINT64 None none false [] false 0 (Some (VInt (-1)))
  ; made proto2 100 4 LABEL_REQUIRED TYPE_MESSAGE None none false [] false 0 None
  ; made proto2 101 5 LABEL_OPTIONAL TYPE_GROUP None none false [] false 0 None
  ; made proto2 102 6 LABEL_REPEATED TYPE_ENUM None none true [3; 5] false 0 None ].
Definition ex2_sc := scopes_of proto2.
Definition ex2_esc (g : gfield) := [proto2].

Lemma edition_based : based [edition].
Proof. exists (FileProto [] [] [] [] [] [] editions_text EDITION_2023 none), []. reflexivity. Qed.
Lemma proto2_based : based [proto2].
Proof. exists (FileProto [] [] [] [] [] [] [] 0 none), []. reflexivity. Qed.

Ltac hyps := repeat match goal with
  | H : _ /\ _ |- _ => destruct H
  | H : _ \/ _ |- _ => destruct H
  | H : exists _, _ |- _ => destruct H
  end.
Ltac holds := first [reflexivity | discriminate | left; holds | right; holds | split; holds | intros ?; holds ].
Ltac decided := intros; hyps; first
  [ holds | exfalso; match goal with H : _ |- _ => first [discriminate H | exact (H eq_refl) | vm_compute in H; congruence] end | cbn; lia ].
Ltac regular_field B C :=
  split; [split; [apply attrs_made; exact B| |split; [|split; [|split]]]|split| | | |split; [discriminate|first [exact (C _) | apply C]]| | | | |]; try solve [decided | split; decided | left; intros [K | K]; discriminate K].
Lemma ex_regular : Forall (fun x => regular (everywhere false) (ex_sc x) (ex_esc x) x) ex_fields.
Proof.
  unfold ex_fields. repeat (apply Forall_cons; [regular_field edition_based (everywhere_covers false)|]); try apply Forall_nil.
Qed.
Lemma only_a_covers base name number label type one feat closed enum map ty text s :
  In s (o_presences only_a) -> (exists r, full_name (made base name number label type one feat closed enum map ty text) = tl s ++ r) ->
  covers s (full_name (made base name number label type one feat closed enum map ty text)).
Proof.
  intros [<- | []] (r & K). cbn in K. injection K as -> <-. eexists. split; [reflexivity|]. right. left. reflexivity.
Qed.
Lemma ex2_regular : Forall (fun x => regular only_a (ex2_sc x) (ex2_esc x) x) ex2_fields.
Proof.
  unfold ex2_fields. repeat (apply Forall_cons; [regular_field proto2_based only_a_covers|]); try apply Forall_nil.
Qed.

(** The members written for the first message. *)
Definition ex_members : list field :=
  [ Field 1 (EVar VI32) COpt
  ; Field 2 (EEnum (Some [3; 5])) COpt
  ; Field 3 (EVar VI32) (CRep true)
  ; Field 4 (EBytes true false) (CPlain false (VBytes []))
  ; Field 5 (EMsg 1 false) (CMap true)
  ; Oneof [(6, EBytes true false); (8, EMsg 2 false)]
  ; Field 7 (EEnum (Some [3; 5])) COpt
  ; Field 9 (EVar VU32) (CPlain true (VInt 4)) ].
Definition ex2_members (msg0 : nat -> val) : list field :=
  [ Field 1 (EVar VI32) COpt
  ; Field 2 (EEnum None) (CPlain false (VInt 3))
  ; Field 3 (EVar VS64) (CPlain true (VInt (-1)))
  ; Field 4 (EMsg 0 false) (CPlain true (msg0 0%nat))
  ; Field 5 (EMsg 0 true) COpt
  ; Field 6 (EEnum (Some [3; 5])) (CRep false) ].
Ltac one_member := match goal with |- behaves ?v ?m (SOne ?s) (Field ?n ?e ?c) => change n with (s_number s) end; apply BOne; [reflexivity|].
Lemma ex_behaves msg0 : Forall2 (behaves false msg0) (emit_message (everywhere false) ex_fields) ex_members.
Proof.
  change (emit_message (everywhere false) ex_fields) with
    [ SOne (emit (everywhere false) (nth 0 ex_fields (hd (made none 0 0 0 0 None none false [] false 0 None) [])))
    ; SOne (emit (everywhere false) (nth 1 ex_fields (made none 0 0 0 0 None none false [] false 0 None)))
    ; SOne (emit (everywhere false) (nth 2 ex_fields (made none 0 0 0 0 None none false [] false 0 None)))
    ; SOne (emit (everywhere false) (nth 3 ex_fields (made none 0 0 0 0 None none false [] false 0 None)))
    ; SOne (emit (everywhere false) (nth 4 ex_fields (made none 0 0 0 0 None none false [] false 0 None)))
    ; SVariant [emit (everywhere false) (nth 5 ex_fields (made none 0 0 0 0 None none false [] false 0 None)); emit (everywhere false) (nth 7 ex_fields (made none 0 0 0 0 None none false [] false 0 None))]
    ; SOne (emit (everywhere false) (nth 6 ex_fields (made none 0 0 0 0 None none false [] false 0 None)))
    ; SOne (emit (everywhere false) (nth 8 ex_fields (made none 0 0 0 0 None none false [] false 0 None))) ].
  unfold ex_members. constructor; [one_member; apply AsOptional; [left; reflexivity|reflexivity]|]. constructor; [one_member; apply AsOptional; [left; reflexivity|reflexivity]|].
  constructor; [one_member; apply (AsRepeated false msg0); reflexivity|]. constructor; [one_member; apply (AsImplicit false msg0); reflexivity|]. constructor; [one_member; apply (AsMap false msg0); reflexivity|].
  constructor; [|constructor; [one_member; apply AsOptional; [left; reflexivity|reflexivity]|constructor; [one_member; apply (AsPlain false msg0); reflexivity|constructor]]].
  match goal with |- behaves _ _ (SVariant ?ss) _ => apply (BVariant false msg0 ss [EBytes true false; EMsg 2 false]) end. repeat constructor.
Qed.
Lemma ex2_behaves msg0 : Forall2 (behaves false msg0) (emit_message only_a ex2_fields) (ex2_members msg0).
Proof.
  change (emit_message only_a ex2_fields) with (map (fun g => SOne (emit only_a g)) ex2_fields). unfold ex2_members. cbn [map ex2_fields].
  constructor; [one_member; apply AsOptional; [left; reflexivity|reflexivity]|]. constructor; [one_member; apply (AsImplicit false msg0); reflexivity|].
  constructor; [one_member; apply (AsPlain false msg0); reflexivity|]. constructor; [one_member; apply (AsPlain false msg0); reflexivity|]. constructor; [one_member; apply AsOptional; [left; reflexivity|reflexivity]|].
  constructor; [one_member; apply (AsRepeated false msg0); reflexivity|]. constructor.
Qed.

(** The message, the entry of its map -- strings to numbers -- and an empty message. *)
Definition entry_made number type :=
  let p := proto 107 number LABEL_OPTIONAL type None none in
  GField (FDsc p (field_attrs (eff [edition]) true p)) [112; 46; 77] true false false [] false false 0 None.
Definition ex_types : list gtype := [GStruct ex_fields; GEntry (entry_made 1 TYPE_STRING) (entry_made 2 TYPE_SINT32); GStruct []].
Definition ex_env : env :=
  [ MDesc ex_members UBytes false
  ; MDesc [Field 1 (EBytes true false) (CPlain true (VBytes [])); Field 2 (EVar VS32) (CPlain true (VInt 0))] UNone true
  ; MDesc [] UBytes false ].
Lemma ex_compiled : Forall2 (compiled (everywhere false) false UBytes (default_msg ex_env)) ex_types ex_env.
Proof.
  constructor; [constructor; apply ex_behaves|]. constructor; [constructor; reflexivity|]. constructor; [constructor; constructor|constructor].
Qed.
Lemma ex_well_formed : well_formed (everywhere false) ex_sc ex_esc UBytes ex_types.
Proof.
  assert (S : forall fs, In (GStruct fs) ex_types -> fs = ex_fields \/ fs = []) by (intros fs [K | [K | [K | []]]]; [injection K as <-; left; reflexivity|discriminate K|injection K as <-; right; reflexivity]).
  assert (N : forall k v, In (GEntry k v) ex_types -> k = entry_made 1 TYPE_STRING /\ v = entry_made 2 TYPE_SINT32) by (intros k v [K | [K | [K | []]]]; try discriminate K; injection K as <- <-; split; reflexivity).
  assert (G : forall fs g, In (GStruct fs) ex_types -> In g fs -> fs = ex_fields /\ In g ex_fields) by (intros fs g H K; destruct (S fs H) as [-> | ->]; [split; [reflexivity|exact K]|destruct K]).
  split.
  - intros fs H. destruct (S fs H) as [-> | ->]; [exact ex_regular|constructor].
  - intros fs H. destruct (S fs H) as [-> | ->]; [|constructor]. cbn. repeat constructor; cbn; lia.
  - intros fs g H K. destruct (G fs g H K) as (_ & K'). unfold ex_fields in K'. cbn [In] in K'. repeat (destruct K' as [<- | K']; [cbn; lia|]). destruct K'.
  - intros k v H. destruct (N k v H) as (-> & _). split; [unfold legal_field; cbn; unfold TYPE_STRING, LABEL_OPTIONAL; lia|]. intros [K | K]; discriminate K.
  - intros k v H. destruct (N k v H) as (_ & ->). split; [unfold legal_field; cbn; unfold TYPE_SINT32, LABEL_OPTIONAL; lia|]. intros [K | K]; discriminate K.
  - intros fs g H K M Mp. destruct (G fs g H K) as (_ & K'). unfold ex_fields in K'. cbn [In] in K'.
    repeat (destruct K' as [<- | K']; [try solve [destruct M as [M | M]; discriminate M | discriminate Mp | eexists; reflexivity]|]). destruct K'.
  - intros fs g H K Mp. destruct (G fs g H K) as (_ & K'). unfold ex_fields in K'. cbn [In] in K'.
    repeat (destruct K' as [<- | K']; [try solve [discriminate Mp | split; [eexists _, _; reflexivity|discriminate]]|]). destruct K'.
  - intros fs g i H K (C1 & C2) I. destruct (G fs g H K) as (-> & K'). unfold ex_fields in K'. cbn [In] in K'.
    repeat (destruct K' as [<- | K']; [try solve [discriminate C1 | discriminate I | injection I as <-; reflexivity]|]). destruct K'.
  - discriminate.
Qed.
