(** The examples of PropertiesGenJson.v. *)
From Coq Require Import Ascii String Sorted.
Require Import Verif.Bits Verif.Varint Verif.TextNum Verif.FieldMaskProofs Verif.CppText Verif.CppNumbers Verif.Defaults.
Require Import Verif.Schema Verif.Archive Verif.Decode Verif.Encode Verif.WellTyped Verif.DynJson Verif.DynJsonSpec Verif.DynJsonSafe Verif.DynJsonEx Verif.DynJsonBad.
Require Import Verif.GenJson Verif.GenJsonSpec Verif.GenJsonSafe Verif.GenJsonWrite.

Local Open Scope string_scope.
Local Open Scope list_scope.
Local Open Scope Z_scope.
(** 0: the message; 1: the entries of its map; 2: Value; 3: Struct; 4: ListValue; 5: the
    entries of Struct; 6: Timestamp; 7: Int64Value; 8: FieldMask; 9: a message with one field. *)
Definition gj_color : list (bytes * Z) := [(txt "RED", 0); (txt "BLUE", 7)].
Definition gj_closed : elem := EEnum (Some [0; 7]).
Definition gj_string : elem := EBytes true false.
Definition gj_env : env := Eval vm_compute in
  [ MDesc [ Field 1 (EVar VI32) (CPlain false (VInt 0)); Field 2 (EVar VI64) (CPlain false (VInt 0)); Field 3 (EVar VI64) COpt; Field 4 gj_string (CPlain true (VBytes [])); Field 5 gj_closed (CRep true);
            Field 6 (EMsg 1 false) (CMap true); Oneof [(7, EVar VI64); (8, EBytes true false)]; Field 9 (EMsg 9 false) COpt; Field 10 (EMsg 2 false) COpt; Field 11 (EMsg 2 false) (CRep false);
            Field 12 (EMsg 6 false) COpt; Field 13 gj_closed COpt; Field 14 (EMsg 9 false) (CRep false); Field 15 (EMsg 7 false) COpt; Field 16 (EMsg 8 false) COpt; Field 17 (EMsg 3 false) COpt;
            Field 18 (EFix true true) (CPlain false (VInt 0)); Field 19 (EBytes true false) COpt ] UNone false;
    MDesc [ Field 1 gj_string (CPlain true (VBytes [])); Field 2 (EVar VI64) (CPlain true (VInt 0)) ] UNone true;
    MDesc [ Oneof [(1, EEnum None); (2, EFix true true); (3, gj_string); (4, EBool); (5, EMsg 3 false); (6, EMsg 4 false)] ] UNone false;
    MDesc [ Field 1 (EMsg 5 false) (CMap true) ] UNone false;
    MDesc [ Field 1 (EMsg 2 false) (CRep false) ] UNone false;
    MDesc [ Field 1 gj_string (CPlain true (VBytes [])); Field 2 (EMsg 2 false) (CPlain true (VMsg [[]] [])) ] UNone true;
    MDesc [ Field 1 (EVar VI64) (CPlain false (VInt 0)); Field 2 (EVar VI32) (CPlain false (VInt 0)) ] UNone false;
    MDesc [ Field 1 (EVar VI64) (CPlain false (VInt 0)) ] UNone false;
    MDesc [ Field 1 gj_string (CRep false) ] UNone false;
    MDesc [ Field 1 gj_closed (CRep true) ] UNone false ].
Definition gj_f (s : Coq.Strings.String.string) : gmember := GField (dj_name s) false.
Definition gj_e (s : Coq.Strings.String.string) (std : bool) : gmember := GField (JField (txt s) (txt s) false false gj_color false) std.
Definition gj_types : list gtype := Eval vm_compute in
  [ GType KNone [ GField (JField (txt "an_int") (txt "anInt") false false [] false) false; gj_f "b"; GField (dj_name "o") true; gj_f "s"; gj_e "r" false; gj_f "m"; GOneof [dj_name "x"; dj_name "y"]; gj_f "c"; gj_f "v"; gj_f "vs";
                  gj_f "t"; gj_e "e" true; gj_f "rs"; gj_f "w"; gj_f "k"; gj_f "z"; gj_f "d"; GField (dj_name "q") true ];
    GType KNone [ gj_f "key"; gj_f "value" ];
    GType KValue [ GOneof [ JField (txt "null_value") (txt "nullValue") false false [(txt "NULL_VALUE", 0)] true; dj_name "number_value"; dj_name "string_value"; dj_name "bool_value"; dj_name "struct_value"; dj_name "list_value" ] ];
    GType KStruct [ gj_f "fields" ]; GType KListValue [ gj_f "values" ]; GType KNone [ gj_f "key"; gj_f "value" ]; GType KTimestamp [ gj_f "seconds"; gj_f "nanos" ];
    GType KWrapper [ gj_f "value" ]; GType KFieldMask [ gj_f "paths" ]; GType KNone [ gj_e "r" false ] ].

Ltac not_in := cbn [In]; intros K; repeat (destruct K as [K|K]; [discriminate K|]); exact K.
Ltac member_plain := split; [split; cbn [j_values map fst]; [no_dup|not_in]|].
Ltac member_any :=
  member_plain; first
  [ exact I | reflexivity
  | (let ty := fresh in let dl := fresh in let Q := fresh in intros ty dl Q; first [discriminate Q | injection Q as <- <-; reflexivity])
  | (do 11 eexists; split; [reflexivity|]; split; [reflexivity|]; split; [reflexivity|reflexivity]) ].
Ltac oneof_any := split; [reflexivity|]; repeat (apply Forall_cons; [split; cbn [j_values map fst]; [no_dup|not_in]|]); apply Forall_nil.
Ltac members_any := repeat (apply Forall2_cons; [first [oneof_any | member_any]|]); apply Forall2_nil.
Lemma gj_ok : gtypes_ok gj_env gj_types.
Proof.
  intros ty. destruct ty as [|[|[|[|[|[|[|[|[|[|ty]]]]]]]]]]; [..|assert (Q : forall A (d : A) l, (length l <= 10)%nat -> nth (10 + ty) l d = d) by (intros; apply nth_overflow; lia);
    change (S (S (S (S (S (S (S (S (S (S ty)))))))))) with (10 + ty)%nat; split; [|split]; unfold gknown_ok, gknown, gty, desc_of; rewrite ?Q by (cbn; lia); cbn; [constructor|constructor|exact I]].
  all: split; [unfold gty, desc_of, gj_types, gj_env; cbn [nth g_members m_fields]; members_any|split; [vm_compute; no_dup|]].
  - exact I.
  - exact I.
  - unfold gknown_ok. cbn [gknown gty gj_types nth g_known]. do 14 eexists. repeat (split; [reflexivity|]). reflexivity.
  - unfold gknown_ok. cbn [gknown gty gj_types nth g_known]. do 8 eexists. repeat (split; [reflexivity|]). reflexivity.
  - unfold gknown_ok. cbn [gknown gty gj_types nth g_known]. do 4 eexists. split; reflexivity.
  - exact I.
  - unfold gknown_ok. cbn [gknown gty gj_types nth g_known]. do 2 eexists. reflexivity.
  - unfold gknown_ok. cbn [gknown gty gj_types nth g_known]. do 3 eexists. split; [reflexivity|exact I].
  - unfold gknown_ok. cbn [gknown gty gj_types nth g_known]. do 4 eexists. reflexivity.
  - exact I.
Qed.

Definition gj_str (s : Coq.Strings.String.string) : val := VBytes (txt s).
Definition gj_message : val := Eval vm_compute in
  VMsg [ [VInt (-3)]; [VInt (2 ^ 40)]; [VInt 5]; [gj_str "hi"]; [VInt 7; VInt 0];
         [VMsg [[gj_str "a"]; [VInt 1]] []; VMsg [[gj_str "b"]; [VInt (-2)]] []]; [VAlt 1 (gj_str "yy")]; [VMsg [[VInt 7]] []];
         [VMsg [[VAlt 4 (VMsg [[VMsg [[gj_str "n"]; [VMsg [[VAlt 1 (VInt 5)]] []]] []]] [])]] []];
         [VMsg [[VAlt 0 (VInt 0)]] []; VMsg [[VAlt 5 (VMsg [[VMsg [[VAlt 3 (VInt 1)]] []]] [])]] []];
         [VMsg [[VInt 1]; [VInt 500000000]] []]; [VInt 7]; [VMsg [[]] []; VMsg [[VInt 0]] []]; [VMsg [[VInt 9]] []];
         [VMsg [[gj_str "a"; gj_str "b.c"]] []]; [VMsg [[VMsg [[gj_str "q"]; [VMsg [[VAlt 2 (gj_str "w")]] []]] []]] []]; [VInt 4]; [gj_str "u"] ] [].
Ltac bytes_any := repeat (apply Forall_cons; [unfold is_byte; lia|]); apply Forall_nil.
Ltac wt_any :=
  lazymatch goal with
  | |- wt _ _ (loosen _ _) _ => cbn [loosen]; wt_any
  | |- wt _ _ (EVar _) _ => apply WTvar; unfold in_vtype, fits_s, fits_u; lia
  | |- wt _ _ EBool _ => apply WTbool; lia
  | |- wt _ _ (EFix _ _) _ => apply WTfix; cbn; lia
  | |- wt _ _ (EEnum _) _ => apply WTenum; [unfold in_vtype, fits_s; lia|reflexivity]
  | |- wt _ _ (EBytes _ _) _ => apply WTbytes; [bytes_any|first [reflexivity|intros K; first [discriminate K|reflexivity]]]
  | |- wt ?E _ (EMsg _ _) _ => apply WTmsg; [cbn [desc_of nth m_fields]; try unfold E; unfold desc_of; cbn [nth m_fields]; wt_any|reflexivity|constructor]
  | |- cells _ _ (_ :: _) _ => apply CScons; [wt_any|wt_any]
  | |- cells _ _ [] _ => apply CSnil
  | |- cell _ _ (Field _ _ (CPlain _ _)) _ => apply CLplain; wt_any
  | |- cell _ _ (Field _ _ COpt) [] => apply CLopt0
  | |- cell _ _ (Field _ _ COpt) _ => apply CLopt1; wt_any
  | |- cell _ _ (Field _ _ (CRep _)) _ => apply CLrep; wt_any
  | |- cell _ _ (Field _ _ (CMap _)) _ => apply CLmap; [wt_any|intros _; repeat constructor]
  | |- cell _ _ (Oneof _) [] => apply CLone0
  | |- cell _ _ (Oneof _) _ => eapply CLone1; [reflexivity|wt_any]
  | |- elems _ _ _ [] => apply ELnil
  | |- elems _ _ _ _ => apply ELcons; [wt_any|wt_any]
  end.
Lemma gj_message_wt : wt_msg gj_env any_text 0 gj_message.
Proof. unfold wt_msg, gj_message. wt_any. Qed.

Section Printable.
  Context (E : env) (G : list gtype) (utf8_ok : bytes -> bool) (fshow : bool -> Z -> bytes) (fparse : bool -> bytes -> option Z) (lenient : bool).
  Notation pr := (gprintable E G utf8_ok fshow fparse lenient).
  Notation mp := (message_printable E G utf8_ok fshow fparse lenient).
  Lemma pr_message n ty fs u : match gknown G ty with KNone | KStruct | KListValue | KWrapper => True | _ => False end -> mp (pr n) ty fs -> pr (S n) ty (VMsg fs u).
  Proof. intros K H. cbn [gprintable]; unfold body_printable. destruct (gknown G ty); try contradiction; exact H. Qed.
  Lemma pr_value n ty fs u : gknown G ty = KValue -> kind_printable E G utf8_ok fshow fparse lenient (pr n) ty fs -> pr (S n) ty (VMsg fs u).
  Proof. intros K H. cbn [gprintable]; unfold body_printable. rewrite K. exact H. Qed.
  Lemma pr_time n ty fs u : gknown G ty = KTimestamp \/ gknown G ty = KDuration -> pr (S n) ty (VMsg fs u).
  Proof. intros [K|K]; cbn [gprintable]; unfold body_printable; rewrite K; exact I. Qed.
  Lemma pr_mask n ty fs u : gknown G ty = KFieldMask -> (forall ps, fs = [map VBytes ps] -> Forall comma_free ps /\ ps <> [[]]) -> pr (S n) ty (VMsg fs u).
  Proof. intros K H. cbn [gprintable]; unfold body_printable. rewrite K. exact H. Qed.
End Printable.
Lemma map_vbytes a : forall b, map VBytes a = map VBytes b -> a = b.
Proof. induction a as [|x a IH]; intros [|y b] H; try discriminate H; [reflexivity|]. cbn in H. injection H as H1 H2. rewrite H1, (IH b H2). reflexivity. Qed.
Ltac printable_any :=
  lazymatch goal with
  | |- gprintable _ _ _ _ _ _ (S _) ?ty _ => first [apply pr_message; [exact I|] | apply pr_value; [reflexivity|] | apply pr_time; first [left; reflexivity|right; reflexivity] | apply pr_mask; [reflexivity|]]; printable_any
  | |- message_printable ?E ?G _ _ _ _ _ ?ty _ => unfold message_printable; let a := eval vm_compute in (g_members (gty G ty)) in let b := eval vm_compute in (m_fields (desc_of E ty)) in change (g_members (gty G ty)) with a; change (m_fields (desc_of E ty)) with b; printable_any
  | |- members_printable _ _ _ _ _ _ _ (_ :: _) _ _ => split; [cbn [member_printable]|]; printable_any
  | |- members_printable _ _ _ _ _ _ _ [] _ _ => exact I
  | |- kind_printable ?E ?G _ _ _ _ _ ?ty _ => unfold kind_printable; let a := eval vm_compute in (g_members (gty G ty)) in let b := eval vm_compute in (m_fields (desc_of E ty)) in change (g_members (gty G ty)) with a; change (m_fields (desc_of E ty)) with b; cbn [nth_error]; printable_any
  | |- entry_printable ?E ?G _ _ _ _ ?te _ => unfold entry_printable; let a := eval vm_compute in (entry_of E G te) in change (entry_of E G te) with a; cbv iota beta; split; printable_any
  | |- elem_printable _ _ _ _ _ _ _ _ => cbn [elem_printable]; printable_any
  | |- alt_printable _ _ _ _ _ _ _ _ _ =>
      let jf := fresh in let num := fresh in let e := fresh in let K1 := fresh in let K2 := fresh in intros jf num e K1 K2; cbn [nth_error] in K1, K2; injection K1 as <-; injection K2 as <- <-; split; [|split]; [printable_any|printable_any|intros K1; first [discriminate K1|reflexivity]]
  | |- gscalar_printable _ _ _ _ _ (EEnum _) _ => cbn [gscalar_printable j_null j_values]; split; [reflexivity|first [left; eexists; vm_compute; tauto | right; reflexivity]]
  | |- gscalar_printable _ _ _ _ _ (EFix true true) _ => vm_compute; reflexivity
  | |- gscalar_printable _ _ _ _ _ (EBytes _ _) _ => let K1 := fresh in let K2 := fresh in intros K1 K2; reflexivity
  | |- gscalar_printable _ _ _ _ _ _ _ => exact I
  | |- not_null _ _ _ => let ty := fresh in let d := fresh in let K1 := fresh in let K2 := fresh in intros ty d K1 K2; first [discriminate K1 | injection K1 as <- <-; first [discriminate K2 | reflexivity]]
  | |- Forall _ [] => apply Forall_nil
  | |- Forall _ (_ :: _) => apply Forall_cons; printable_any
  | |- _ /\ _ => split; printable_any
  | |- True => exact I
  | |- VInt 0 = VInt 0 => reflexivity
  | |- _ => idtac
  end.
Lemma gj_message_printable lenient : gprintable gj_env gj_types any_text dj_show dj_parse lenient 8 0 gj_message.
Proof.
  unfold gj_message. printable_any. intros ps K. injection K as K. apply (map_vbytes [[97]; [98; 46; 99]]) in K. subst ps. split; [|discriminate]. repeat (apply Forall_cons; [unfold comma_free; cbn [In]; intros Q; repeat (destruct Q as [Q|Q]; [discriminate Q|]); exact Q|]). apply Forall_nil.
Qed.

Definition gj_written : list tok := Eval vm_compute in match gwrite gj_env gj_types true dj_show false false 8 0 gj_message with Ok ts => ts | _ => [] end.
Lemma gj_gwrite : gwrite gj_env gj_types true dj_show false false 8 0 gj_message = Ok gj_written.
Proof. vm_compute. reflexivity. Qed.
Lemma gj_enums : genums_fit gj_types.
Proof.
  intros ty b jf Hb Hj. destruct ty as [|[|[|[|[|[|[|[|[|[|ty]]]]]]]]]]; [..|unfold gty in Hb; rewrite nth_overflow in Hb by (cbn; lia); destruct Hb]; unfold gty, gj_types in Hb; cbn [nth g_members In] in Hb;
    repeat (destruct Hb as [<-|Hb]; [cbn [fields_of In] in Hj; repeat (destruct Hj as [<-|Hj]; [cbn [j_values]; repeat (apply Forall_cons; [unfold fits_s; cbn [snd]; lia|]); apply Forall_nil|]); destruct Hj|]); destruct Hb.
Qed.
Lemma gj_defaults : wt_defaults gj_env any_text.
Proof.
  intros ty. destruct ty as [|[|[|[|[|[|[|[|[|[|ty]]]]]]]]]]; [..|unfold wt_msg, default_msg; unfold desc_of; rewrite nth_overflow by (cbn; lia); apply WTmsg; [unfold desc_of; rewrite nth_overflow by (cbn; lia); apply CSnil|unfold desc_of; rewrite nth_overflow by (cbn; lia); reflexivity|apply Forall_nil]];
    unfold wt_msg, default_msg, gj_env; cbn [desc_of nth m_fields map field_default]; fold gj_env; wt_any.
Qed.
Lemma gj_text : text gj_written.
Proof.
  intros b Hb. unfold gj_written in Hb. cbn [In] in Hb. repeat (destruct Hb as [Hb|Hb]; [first [discriminate Hb | injection Hb as <-; bytes_any]|]). destruct Hb.
Qed.

(** Messages with some members set. *)
Definition gj_default : val := Eval vm_compute in default_msg gj_env 0.
Definition gj_with (i : nat) (vs : list val) : val := match gj_default with VMsg fs u => VMsg (set_nth i vs fs) u | v => v end.
Notation gj_write := (gwrite gj_env gj_types true dj_show false false 10 0).
Notation gj_read lenient strict ts := (gread_json gj_env gj_types any_text dj_parse lenient strict 10 0 ts).
Ltac gj_wt := unfold gj_with, gj_default; cbn [set_nth]; unfold wt_msg; wt_any.

(** google.protobuf.Value without kind *)
Definition gj_no_kind : val := Eval vm_compute in gj_with 8 [VMsg [[]] []].
Lemma gj_no_kind_wt : wt_msg gj_env any_text 0 gj_no_kind.
Proof. unfold gj_no_kind. gj_wt. Qed.
Lemma no_value_at_end a b c j : [LBrace; Str a; Colon; Str b; Comma; Str c; Colon; RBrace] <> render j.
Proof.
  destruct j as [x|x|[]| |l|l]; try discriminate. destruct l as [|[k v] [|[k2 v2] l]]; [discriminate| |].
  - cbn [render map fst snd separated app]. destruct v as [x|x|[]| |q|q]; discriminate.
  - cbn [render map fst snd separated app]. destruct v as [x|x|[]| |q|q]; try discriminate. intros H. cbn [render app] in H. destruct l as [|q l]; cbn [map separated app] in H.
    + injection H as _ _ _ H. apply (f_equal (@List.length tok)) in H. rewrite app_length in H. cbn [List.length] in H. pose proof (render_some v2) as K. destruct (render v2); [congruence|cbn [List.length] in H; lia].
    + injection H as _ _ _ H. apply (f_equal (@List.length tok)) in H. rewrite !app_length in H. cbn [List.length] in H. lia.
Qed.
Lemma gj_no_kind_text : exists ts, gj_write gj_no_kind = Ok ts /\ forall j, ts <> render j.
Proof. eexists. split; [vm_compute; reflexivity|]. intros j. apply no_value_at_end. Qed.

(** A 64-bit integer of a oneof. *)
Definition gj_wide : val := Eval vm_compute in gj_with 6 [VAlt 0 (VInt 5)].
Lemma gj_wide_wt : wt_msg gj_env any_text 0 gj_wide.
Proof. unfold gj_wide. gj_wt. Qed.
(** google.protobuf.Value that is null, in a field with presence. *)
Definition gj_null : val := Eval vm_compute in gj_with 8 [VMsg [[VAlt 0 (VInt 0)]] []].
Lemma gj_null_wt : wt_msg gj_env any_text 0 gj_null.
Proof. unfold gj_null. gj_wt. Qed.
(** An enum without name, in a std::optional. *)
Definition gj_open_env : env := Eval vm_compute in [ MDesc [ Field 1 (EEnum None) COpt ] UNone false ].
Definition gj_open_types : list gtype := Eval vm_compute in [ GType KNone [ gj_e "e" true ] ].
Definition gj_open : val := VMsg [[VInt 1]] [].
Lemma gj_open_ok : gtypes_ok gj_open_env gj_open_types.
Proof.
  intros [|ty].
  - split; [unfold gty, desc_of, gj_open_types, gj_open_env; cbn [nth g_members m_fields]; members_any|split; [vm_compute; no_dup|exact I]].
  - split; [|split]; unfold gknown_ok, gknown, gty, desc_of; cbn [gj_open_types gj_open_env nth]; destruct ty; cbn; try constructor.
Qed.
Lemma gj_open_wt : wt_msg gj_open_env any_text 0 gj_open.
Proof. apply WTmsg; [|reflexivity|constructor]. unfold desc_of, gj_open_env. cbn [nth m_fields]. wt_any. Qed.

(** Texts that are accepted. *)
Definition gj_unlisted : list tok := Eval vm_compute in obj "r" [LBrack; Num (txt "3"); RBrack].
Definition gj_unlisted_value : val := Eval vm_compute in gj_with 4 [VInt 3].
Lemma gj_unlisted_bad : ~ wt_msg gj_env any_text 0 gj_unlisted_value.
Proof.
  intros H. unfold wt_msg in H. inversion H as [| | | | |ty0 d0 fs0 u0 C N1 N2]; subst. clear H N1 N2. unfold desc_of, gj_env in C. cbn [nth m_fields] in C. do 4 (inversion C as [|? ? ? ? _ C1]; subst; clear C; rename C1 into C). inversion C as [|? ? ? ? C1 _]; subst. inversion C1 as [| | |? ? ? ? W| | |]; subst. inversion W as [|? ? ? W1 _]; subst. inversion W1 as [| | |? ? _ K| |]; subst. discriminate K.
Qed.
(** No string is valid: those of required fields and of std::optional are not validated. *)
Definition no_text (b : bytes) : bool := match b with [] => true | _ => false end.
Definition gj_string_value : val := Eval vm_compute in gj_with 3 [gj_str "hi"].
Lemma gj_string_bad : ~ wt_msg gj_env no_text 0 gj_string_value.
Proof.
  intros H. unfold wt_msg in H. inversion H as [| | | | |ty0 d0 fs0 u0 C N1 N2]; subst. clear H N1 N2. unfold desc_of, gj_env in C. cbn [nth m_fields] in C. do 3 (inversion C as [|? ? ? ? _ C1]; subst; clear C; rename C1 into C). inversion C as [|? ? ? ? C1 _]; subst. inversion C1 as [? ? ? ? ? W| | | | | |]; subst. cbn [loosen] in W. inversion W as [| | | |? ? ? _ K|]; subst. specialize (K eq_refl). discriminate K.
Qed.
Definition gj_unbalanced : list tok := Eval vm_compute in obj "rs" [LBrack; LBrace; Str (txt "r"); Colon; LBrack; Str (txt "RED"); RBrace; RBrack].
Lemma gj_malformed : (forall lenient strict, exists v, gj_read lenient strict gj_unbalanced = Ok v) /\ forall j, gj_unbalanced <> render j.
Proof. split; [intros [] []; eexists; vm_compute; reflexivity|]. intros j H. pose proof (brackets j) as K. rewrite <- H in K. discriminate K. Qed.
