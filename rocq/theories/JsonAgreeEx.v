(** The examples of PropertiesJsonAgree.v. *)
From Coq Require Import Ascii String Sorted.
Require Import Verif.Bits Verif.Varint Verif.TextNum Verif.FieldMaskProofs Verif.CppText.
Require Import Verif.DynSlots Verif.DynSlotsProofs Verif.Dyn Verif.Schema Verif.Archive Verif.Decode Verif.Encode Verif.WellTyped Verif.DynWire Verif.DynDecode Verif.DynView.
Require Import Verif.DynJson Verif.DynJsonSpec Verif.DynJsonTree Verif.DynJsonSafe Verif.DynJson7 Verif.DynJsonEx Verif.DynJsonBad Verif.GenJson Verif.GenJsonSpec Verif.GenJsonEx Verif.JsonAgreeSpec.
Local Open Scope string_scope.
Local Open Scope list_scope.
Local Open Scope Z_scope.

(** ** Deciding [common] *)
Section Decide.
  Context (W : list wtype) (J : list jtype).
  Definition scalar_commonb (jf : jfield) (e : elem) (v : val) : bool :=
    match e, v with EEnum _, VInt z => j_null jf || existsb (fun p => snd p =? z) (j_values jf) || (0 <=? z) | _, _ => true end.
  Definition slot_commonb (rec : nat -> list slot -> bool) (jf : jfield) (f : wfield) (l : layout) (s : slot) : bool :=
    match w_oneof f with Some _ => negb (wide jf (w_elem f)) | None => true end &&
    match value (dyn_of f) l s with
    | FInt z => scalar_commonb jf (w_elem f) (VInt z)
    | FInts x => forallb (fun z => scalar_commonb jf (w_elem f) (VInt z)) x
    | FMsg m => match w_elem f with EMsg ty _ => rec ty m | _ => true end
    | FMsgs x => match w_elem f with EMsg ty _ => forallb (rec ty) x | _ => true end
    | _ => true
    end.
  Fixpoint commonb (fuel : nat) (ty : nat) (m : list slot) : bool :=
    match fuel with
    | O => false
    | S n =>
        let slots := forallb (fun x => negb (has (snd x) m) || slot_commonb (commonb n) (fst x) (fst (snd x)) (snd (snd x)) (slot_at m (snd (snd x)))) (jfields W J ty) in
        if w_entry (wty W ty) then slots && forallb (fun fl => has fl m) (w_fields (wty W ty))
        else
          match known_of J ty with
          | KAny => false
          | KTimestamp | KDuration => forallb (fun fl => has fl m || match value (dyn_of (fst fl)) (snd fl) (slot_at m (snd fl)) with FInt 0 => true | _ => false end) (w_fields (wty W ty))
          | KFieldMask => forallb (fun fl => 0 <=? fst (slot_at m (snd fl))) (w_fields (wty W ty))
          | KValue => slots && existsb (fun fl => has fl m) (w_fields (wty W ty))
          | KWrapper => slots && forallb (fun fl => has fl m) (w_fields (wty W ty))
          | KStruct | KListValue => slots && forallb (fun fl => 0 <=? fst (slot_at m (snd fl))) (w_fields (wty W ty))
          | KNone =>
              slots && forallb (fun fl => negb (has fl m) || is_rep (fst fl) || w_explicit (fst fl) ||
                match single (fst fl) (snd fl) (slot_at m (snd fl)) with Ok v => negb (is_default (w_elem (fst fl)) (w_default (fst fl)) v) | _ => true end) (w_fields (wty W ty))
          end
    end.
  Lemma scalar_common_of jf e v : scalar_commonb jf e v = true -> scalar_common jf e v.
  Proof.
    unfold scalar_commonb, scalar_common. destruct e, v; try exact (fun _ => I). intros H. apply orb_prop in H. destruct H as [H|H]; [apply orb_prop in H; destruct H as [H|H]|].
    - left. exact H.
    - right. left. apply existsb_exists in H. destruct H as ([a b] & H & K). cbn in K. exists a. replace z with b by lia. exact H.
    - right. right. lia.
  Qed.
  Lemma slot_common_of recb (rec : nat -> list slot -> Prop) jf f l s : (forall ty m, recb ty m = true -> rec ty m) -> slot_commonb recb jf f l s = true -> slot_common rec jf f l s.
  Proof.
    intros R H. unfold slot_commonb in H. apply andb_prop in H. destruct H as (H1 & H2). split.
    - intros O. destruct (w_oneof f); [|contradiction]. destruct (wide jf (w_elem f)); [discriminate|reflexivity].
    - destruct (value (dyn_of f) l s); try exact I.
      + apply scalar_common_of. exact H2.
      + intros ty d Ef. rewrite Ef in H2. apply R. exact H2.
      + rewrite forallb_forall in H2. apply Forall_forall. intros. apply scalar_common_of. apply H2. assumption.
      + intros ty d Ef. rewrite Ef in H2. rewrite forallb_forall in H2. apply Forall_forall. intros. apply R. apply H2. assumption.
  Qed.
  Lemma common_of n : forall ty m, commonb n ty m = true -> common W J n ty m.
  Proof.
    induction n as [|n IH]; intros ty m H; [discriminate H|]. cbn [commonb] in H. cbn [common].
    assert (Sl : forallb (fun x => negb (has (snd x) m) || slot_commonb (commonb n) (fst x) (fst (snd x)) (snd (snd x)) (slot_at m (snd (snd x)))) (jfields W J ty) = true ->
      forall jf f l, In (jf, (f, l)) (jfields W J ty) -> has (f, l) m = true -> slot_common (common W J n) jf f l (slot_at m l)).
    { intros K jf f l Hin Hh. rewrite forallb_forall in K. specialize (K _ Hin). cbn [fst snd] in K. rewrite Hh in K. apply (slot_common_of (commonb n)); [exact IH|exact K]. }
    destruct (w_entry (wty W ty)).
    { apply andb_prop in H. destruct H as (H1 & H2). split; [apply Sl; exact H1|]. rewrite forallb_forall in H2. apply Forall_forall. exact H2. }
    destruct (known_of J ty); try discriminate H.
    - apply andb_prop in H. destruct H as (H1 & H2). split; [apply Sl; exact H1|]. rewrite forallb_forall in H2. intros f l v Hin Hh R X S0. specialize (H2 _ Hin). cbn [fst snd] in H2. unfold is_rep in H2. rewrite Hh, R, X, S0 in H2. cbn in H2. destruct (is_default _ _ v); [discriminate|reflexivity].
    - rewrite forallb_forall in H. apply Forall_forall. intros fl Hin. specialize (H _ Hin). destruct (has fl m) eqn:Hh; [left; reflexivity|right]. split; [exact Hh|]. cbn [orb] in H. destruct (value _ _ _) as [[]| | | | | | |]; try discriminate H. reflexivity.
    - rewrite forallb_forall in H. apply Forall_forall. intros fl Hin. specialize (H _ Hin). destruct (has fl m) eqn:Hh; [left; reflexivity|right]. split; [exact Hh|]. cbn [orb] in H. destruct (value _ _ _) as [[]| | | | | | |]; try discriminate H. reflexivity.
    - rewrite forallb_forall in H. apply Forall_forall. intros fl Hin. specialize (H _ Hin). cbv beta in H. lia.
    - apply andb_prop in H. destruct H as (H1 & H2). split; [apply Sl; exact H1|]. apply existsb_exists in H2. exact H2.
    - apply andb_prop in H. destruct H as (H1 & H2). split; [apply Sl; exact H1|]. rewrite forallb_forall in H2. apply Forall_forall. intros fl Hin. specialize (H2 _ Hin). cbv beta in H2. lia.
    - apply andb_prop in H. destruct H as (H1 & H2). split; [apply Sl; exact H1|]. rewrite forallb_forall in H2. apply Forall_forall. intros fl Hin. specialize (H2 _ Hin). cbv beta in H2. lia.
    - apply andb_prop in H. destruct H as (H1 & H2). split; [apply Sl; exact H1|]. rewrite forallb_forall in H2. apply Forall_forall. exact H2.
  Qed.
End Decide.

(** ** The structs that are generated for the messages of DynJsonEx.v *)
Definition ja_jf (ty k : nat) : jfield := nth k (jt_fields (jty dj_json ty)) (dj_name "").
Definition ja_one (ty k : nat) : gmember := GField (ja_jf ty k) false.
Definition ja_card (f : wfield) (entry : bool) : card :=
  if entry then CPlain true (match w_elem f with EMsg _ _ => VMsg [[]] [] | _ => w_default f end)
  else match w_rep f with
       | Some p => match w_elem f with EMsg 1 _ => CMap true | _ => CRep p end
       | None => if w_explicit f then COpt else CPlain false (w_default f)
       end.
Definition ja_field (entry : bool) (f : wfield) : field := Field (w_num f) (w_elem f) (ja_card f entry).
Definition ja_alt (f : wfield) : Z * elem := (w_num f, w_elem f).
Definition ja_env : env := Eval vm_compute in
  [ MDesc (map (ja_field false) (firstn 10 dj_fields0) ++ [Oneof (map ja_alt (firstn 2 (skipn 10 dj_fields0)))] ++ map (ja_field false) (skipn 12 dj_fields0)) UNone false;
    MDesc (map (ja_field true) dj_fields1) UNone true; MDesc [Oneof (map ja_alt dj_fields2)] UNone false; MDesc (map (ja_field false) dj_fields3) UNone false; MDesc (map (ja_field false) dj_fields4) UNone false;
    MDesc (map (ja_field false) dj_fields5) UNone false; MDesc (map (ja_field false) dj_fields6) UNone false; MDesc (map (ja_field false) dj_fields7) UNone false; MDesc (map (ja_field false) dj_fields5) UNone false ].
Definition ja_types : list gtype := Eval vm_compute in
  [ GType KNone (map (ja_one 0) (seq 0 10) ++ [GOneof [ja_jf 0 10; ja_jf 0 11]] ++ map (ja_one 0) (seq 12 3));
    GType KNone [ja_one 1 0; ja_one 1 1]; GType KValue [GOneof (map (ja_jf 2) (seq 0 6))]; GType KStruct [ja_one 3 0]; GType KListValue [ja_one 4 0];
    GType KTimestamp [ja_one 5 0; ja_one 5 1]; GType KWrapper [ja_one 6 0]; GType KFieldMask [ja_one 7 0]; GType KDuration [ja_one 8 0; ja_one 8 1] ].
Ltac card_ok := cbn; first [split; [discriminate|intros te d Q; first [discriminate Q|injection Q as <- <-; reflexivity]] | split; [discriminate|do 2 eexists; split; reflexivity] | split; [reflexivity|split; reflexivity] | split; reflexivity].
Ltac apart_ok := cbn; first [exact I|discriminate].
Ltac group k := match goal with |- matches ?W ?l (GOneof _ :: ?bs) (Oneof _ :: ?fds) => apply (M_oneof W (firstn k l) 0%nat (skipn k l) bs fds); [cbn; lia|cbn; repeat (apply Forall_cons; [reflexivity|]); apply Forall_nil|apart_ok|cbn [skipn]] end.
Ltac members := repeat first [apply M_nil | apply M_field; [discriminate|card_ok|apart_ok|] | group 2%nat | group 6%nat].
Lemma ja_match : types_match dj_types dj_json ja_env ja_types.
Proof.
  intros ty. do 9 (try (destruct ty as [|ty]; [split; [reflexivity|]; split; [cbn [w_entry wty nth dj_types]; unfold jfields; cbn [combine jt_fields w_fields jty wty nth dj_types dj_json g_members gty ja_types m_fields desc_of ja_env]|]|])).
  all: try (intros te d f l K; discriminate K).
  all: try (members; fail).
  - do 10 eexists. repeat (split; [reflexivity|]). reflexivity.
  - intros te d f l _ Hw Ef. cbn in Hw. injection Hw as <- <-. cbn in Ef. injection Ef as <- <-. do 4 eexists. repeat (split; [reflexivity|]). reflexivity.
  - unfold type_matches, jfields, gknown, gty, desc_of, known_of, jty, wty. rewrite !nth_overflow by (cbn; lia). split; [reflexivity|]. split; [apply M_nil|]. discriminate.
Qed.
(** The message of DynJsonEx.v with a list of a boolean in place of null *)
Definition ja_tree : json := Eval vm_compute in match dj_tree with JObj ps => JObj (map (fun p => if eqb_bytes (fst p) (txt "j") then (fst p, JArr [JBool true]) else p) ps) | j => j end.
Definition ja_dynamic : list slot := Eval vm_compute in match read_json dj_types dj_json (fun _ => true) 8 dj_parse true 10 0 (new_slots dj_types 0) (render ja_tree) with Ok m => m | _ => [] end.
Lemma ja_read : read_json dj_types dj_json (fun _ => true) 8 dj_parse true 10 0 (new_slots dj_types 0) (render ja_tree) = Ok ja_dynamic.
Proof. vm_compute. reflexivity. Qed.
Lemma ja_written : write_json dj_types dj_json true 9 dj_show 10 0 ja_dynamic = Ok (render ja_tree).
Proof. vm_compute. reflexivity. Qed.
Lemma ja_text : quiet dj_types dj_json (render ja_tree) /\ calm dj_json 0 (render ja_tree).
Proof.
  split; [|discriminate]. split; [|left; exact dj_nulls]. intros b H. apply Forall_forall. intros c Hc.
  assert (K : forallb (fun t => match t with Str b => forallb (fun c => (0 <=? c) && (c <? 256)) b | _ => true end) (render ja_tree) = true) by (vm_compute; reflexivity).
  rewrite forallb_forall in K. specialize (K _ H). cbn in K. rewrite forallb_forall in K. specialize (K _ Hc). unfold is_byte. lia.
Qed.
Lemma ja_typed : typed dj_types 10 0 ja_dynamic.
Proof.
  apply sound_typed. pose proof (read_defined dj_types dj_json (fun _ => true) 8 dj_parse dj_ok dj_json_ok true 10 0 (new_slots dj_types 0) (render ja_tree) dj_enums dj_floats ltac:(lia) ltac:(lia) (sound_new dj_types dj_ok 9 0) (proj1 ja_text) (proj2 ja_text)) as K.
  rewrite ja_read in K. exact K.
Qed.
Lemma ja_printable : printable dj_types dj_json any_text dj_show dj_parse 10 0 ja_dynamic.
Proof. printed. Qed.
Lemma ja_common : common dj_types dj_json 10 0 ja_dynamic.
Proof. apply common_of. vm_compute. reflexivity. Qed.

(** ** Where the texts are not the same *)
(** A field without presence that was set to its default. *)
Definition ja_zero : list slot := Eval vm_compute in match read_json dj_types dj_json (fun _ => true) 8 dj_parse true 10 0 (new_slots dj_types 0) (render (JObj [(txt "anInt", JNum (txt "0"))])) with Ok m => m | _ => [] end.
Ltac small := split; [reflexivity|]; repeat (apply Forall_cons; [intros Hh; vm_compute in Hh; first [discriminate Hh|vm_compute; repeat (first [exact I|split]); discriminate]|]); apply Forall_nil.
Lemma ja_zero_typed : typed dj_types 2 0 ja_zero.
Proof. small. Qed.
Lemma ja_zero_differs : write_json dj_types dj_json true 8 dj_show 2 0 ja_zero = Ok (render (JObj [(txt "anInt", JNum (txt "0"))])) /\
  gwrite ja_env ja_types true dj_show false false 2 0 (view dj_types dj_json ja_types 2 0 ja_zero) = Ok (render (JObj [])).
Proof. vm_compute. split; reflexivity. Qed.
(** A negative number of an enum that has no name. *)
Definition ja_enum : list slot := Eval vm_compute in put (new_slots dj_types 0) 4 (1, CInt (-1)).
Lemma ja_enum_typed : typed dj_types 2 0 ja_enum.
Proof. small. Qed.
Lemma ja_enum_differs : write_json dj_types dj_json true 8 dj_show 2 0 ja_enum = Ok (render (JObj [(txt "e", JNum (txt "4294967295"))])) /\
  gwrite ja_env ja_types true dj_show false false 2 0 (view dj_types dj_json ja_types 2 0 ja_enum) = Ok (render (JObj [(txt "e", JNum (txt "-1"))])).
Proof. vm_compute. split; reflexivity. Qed.

(** message { optional int64 a = 1; oneof o { int64 b = 2; bool c = 3; } } *)
Definition jb_fields : list wfield := [ WField 1 (EVar VI64) None (Some 1%nat) true 0 []; dj_alt 2 (EVar VI64); dj_alt 3 EBool ].
Definition jb_types : list wtype := Eval vm_compute in [ dj_type 2 false jb_fields ].
Definition jb_json : list jtype := Eval vm_compute in [ JType KNone [ JField (txt "a") (txt "a") true false [] false; JField (txt "b") (txt "b") true false [] false; dj_name "c" ] ].
Definition jb_env : env := [ MDesc [ Field 1 (EVar VI64) COpt; Oneof [(2, EVar VI64); (3, EBool)] ] UNone false ].
Definition jb_gen : list gtype := Eval vm_compute in [ GType KNone [ GField (JField (txt "a") (txt "a") true false [] false) true; GOneof [ JField (txt "b") (txt "b") true false [] false; dj_name "c" ] ] ].
Lemma jb_ok : wtypes_ok jb_types.
Proof. unfold wtypes_ok, jb_types. apply Forall_cons; [type_ok 2%nat jb_fields|]. apply Forall_nil. Qed.
Lemma jb_json_ok : jtypes_ok jb_types jb_json.
Proof.
  intros ty. destruct ty as [|ty].
  - unfold jtype_ok. split; [reflexivity|]. split; [cbn; no_dup|]. split; [unfold jfields; cbn [combine jt_fields w_fields jty wty nth jb_types jb_json]; fields_named|]. split; [exact I|discriminate].
  - unfold jtype_ok, jfields, known_ok, known_of, jty, wty. rewrite !nth_overflow by (cbn; lia). split; [reflexivity|]. split; [apply NoDup_nil|]. split; [apply Forall_nil|]. split; [exact I|discriminate].
Qed.
Lemma jb_match : types_match jb_types jb_json jb_env jb_gen.
Proof.
  intros ty. destruct ty as [|ty].
  - split; [reflexivity|]. split; [|intros te d f l K; discriminate K]. cbn [w_entry wty nth jb_types]. unfold jfields. cbn [combine jt_fields w_fields jty wty nth jb_types jb_json g_members gty jb_gen m_fields desc_of jb_env].
    apply M_field; [discriminate|card_ok|apart_ok|]. group 2%nat. apply M_nil.
  - unfold type_matches, jfields, gknown, gty, desc_of, known_of, jty, wty. rewrite !nth_overflow by (cbn; lia). split; [reflexivity|]. split; [apply M_nil|]. discriminate.
Qed.
(** Either field set to 5. *)
Definition jb_set (name : Coq.Strings.String.string) : list slot :=
  match read_json jb_types jb_json (fun _ => true) 8 dj_parse true 2 0 (new_slots jb_types 0) (render (JObj [(txt name, JStr (txt "5"))])) with Ok m => m | _ => [] end.
Lemma jb_typed : typed jb_types 2 0 (jb_set "a") /\ typed jb_types 2 0 (jb_set "b").
Proof. split; [let m := eval vm_compute in (jb_set "a") in change (jb_set "a") with m|let m := eval vm_compute in (jb_set "b") in change (jb_set "b") with m]; small. Qed.
Lemma jb_differs :
  write_json jb_types jb_json true 8 dj_show 2 0 (jb_set "a") = Ok (render (JObj [(txt "a", JStr (txt "5"))])) /\
  gwrite jb_env jb_gen true dj_show false false 2 0 (view jb_types jb_json jb_gen 2 0 (jb_set "a")) = Ok (render (JObj [(txt "a", JNum (txt "5"))])) /\
  write_json jb_types jb_json true 8 dj_show 2 0 (jb_set "b") = Ok (render (JObj [(txt "b", JStr (txt "5"))])) /\
  gwrite jb_env jb_gen true dj_show false false 2 0 (view jb_types jb_json jb_gen 2 0 (jb_set "b")) = Ok (render (JObj [(txt "b", JNum (txt "5"))])).
Proof. vm_compute. repeat (split; [reflexivity|]). reflexivity. Qed.

(** ** Reading what the other wrote *)
Lemma ja_gen_ok : gtypes_ok ja_env ja_types.
Proof.
  intros ty. destruct ty as [|[|[|[|[|[|[|[|[|ty]]]]]]]]]; [..|assert (Q : forall A (d : A) l, (length l <= 9)%nat -> nth (9 + ty) l d = d) by (intros; apply nth_overflow; lia);
    change (S (S (S (S (S (S (S (S (S ty))))))))) with (9 + ty)%nat; split; [|split]; unfold gknown_ok, gknown, gty, desc_of; rewrite ?Q by (cbn; lia); cbn; [constructor|constructor|exact I]].
  all: split; [unfold gty, desc_of, ja_types, ja_env; cbn [nth g_members m_fields]; members_any|split; [vm_compute; no_dup|]].
  all: unfold gknown_ok; cbn [gknown gty ja_types nth g_known]; try exact I.
  - do 14 eexists. repeat (split; [reflexivity|]). reflexivity.
  - do 8 eexists. repeat (split; [reflexivity|]). reflexivity.
  - do 4 eexists. split; reflexivity.
  - do 2 eexists. reflexivity.
  - do 3 eexists. split; [reflexivity|exact I].
  - do 4 eexists. reflexivity.
  - do 2 eexists. reflexivity.
Qed.
Definition ja_message : val := Eval vm_compute in view dj_types dj_json ja_types 10 0 ja_dynamic.
Lemma ja_message_view : view dj_types dj_json ja_types 10 0 ja_dynamic = ja_message.
Proof. vm_compute. reflexivity. Qed.
Lemma ja_message_wt : wt_msg ja_env any_text 0 ja_message.
Proof. unfold wt_msg, ja_message. wt_any. Qed.
Lemma ja_message_printable lenient : gprintable ja_env ja_types any_text dj_show dj_parse lenient 10 0 ja_message.
Proof.
  unfold ja_message. printable_any. intros ps K. injection K as K. apply (map_vbytes [[102; 111; 111; 95; 98; 97; 114]; [98; 97; 122]]) in K. subst ps. split; [|discriminate].
  repeat (apply Forall_cons; [unfold comma_free; cbn [In]; intros Q; repeat (destruct Q as [Q|Q]; [discriminate Q|]); exact Q|]). apply Forall_nil.
Qed.
Lemma ja_bare : bare ja_env ja_types false 10 0 ja_message = ja_message.
Proof. vm_compute. reflexivity. Qed.
