(** The examples of PropertiesGenAny.v. *)
From Coq Require Import Ascii String.
Require Import Verif.Bits Verif.Varint Verif.CppText.
Require Import Verif.DynSlots Verif.Dyn Verif.Schema Verif.Archive Verif.Decode Verif.Encode Verif.WellTyped Verif.DynWire Verif.DynDecode Verif.DynView.
Require Import Verif.DynJson Verif.DynJsonSpec Verif.DynJsonTree Verif.DynJsonSafe Verif.DynJsonEx Verif.DynJsonBad Verif.DynAny Verif.DynAnySpec Verif.DynAnySafe Verif.DynAnyEx Verif.DynAnyEx2.
Require Import Verif.GenJson Verif.GenJsonSpec Verif.GenJsonSafe Verif.GenJsonEx Verif.GenAny Verif.GenAnySpec.
Local Open Scope string_scope.
Local Open Scope list_scope.
Local Open Scope Z_scope.

(** 0: a message with an Any; 1: Any.  The factory is that of DynAnyEx.v. *)
Definition ga_env : env :=
  [ MDesc [ Field 1 (EMsg 1 false) COpt; Field 2 (EVar VI32) (CPlain false (VInt 0)) ] UNone false;
    MDesc [ Field 1 (EBytes true false) (CPlain false (VBytes [])); Field 2 (EBytes false false) (CPlain false (VBytes [])) ] UNone false ].
Definition ga_types : list gtype := Eval vm_compute in
  [ GType KNone [ gj_f "any"; gj_f "n" ]; GType KAny [ gj_f "type_url"; GField (JField (txt "value") (txt "value") false false [] false) false ] ].
Lemma ga_ok : gtypes_ok ga_env ga_types.
Proof.
  intros ty. destruct ty as [|[|ty]]; [..|assert (Q : forall A (d : A) l, (length l <= 2)%nat -> nth (2 + ty) l d = d) by (intros; apply nth_overflow; lia);
    change (S (S ty)) with (2 + ty)%nat; split; [|split]; unfold gknown_ok, gknown, gty, desc_of; rewrite ?Q by (cbn; lia); cbn; [constructor|constructor|exact I]].
  all: split; [unfold gty, desc_of, ga_types, ga_env; cbn [nth g_members m_fields]; members_any|split; [vm_compute; no_dup|exact I]].
Qed.
Lemma ga_anys : ganys_ok ga_env ga_types.
Proof.
  intros ty. destruct ty as [|[|ty]]; [discriminate| |unfold gknown, gty; rewrite nth_overflow by (cbn; lia); discriminate]. intros _. do 4 eexists. reflexivity.
Qed.
Definition ga_any (url data : bytes) : val := VMsg [[VBytes url]; [VBytes data]] [].
Definition ga_message : val := Eval vm_compute in VMsg [[ga_any url_flat da_data]; [VInt 3]] [].
Lemma ga_wt : wt_msg ga_env any_text 0 ga_message.
Proof. unfold ga_message, ga_any, wt_msg. wt_any. Qed.
Notation ga_print := (gaprintable ga_env ga_types any_text dj_show dj_parse false da_types da_json 8 da_find 8).
Lemma gap_message n ty fs u : gknown ga_types ty = KNone -> message_printable ga_env ga_types any_text dj_show dj_parse false (ga_print n) ty fs -> ga_print (S n) ty (VMsg fs u).
Proof. intros K H. cbn [gaprintable]. unfold body_printable. rewrite K. exact H. Qed.
Lemma gap_any n ty url data u : gknown ga_types ty = KAny -> held da_types da_json any_text 8 da_find 8 (da_print 8) url data -> ga_print (S n) ty (VMsg [[VBytes url]; [VBytes data]] u).
Proof. intros K H. cbn [gaprintable]. rewrite K. exists url, data. split; [reflexivity|exact H]. Qed.
Lemma ga_printable : ga_print 10 0 ga_message.
Proof.
  apply gap_message; [reflexivity|]. split; [|split; [|exact I]]; (apply Forall_cons; [|apply Forall_nil]); [|exact I].
  split; [|intros ty d E; injection E as <- <-; discriminate]. apply gap_any; [reflexivity|exact da_held].
Qed.
Notation ga_write := (gawrite ga_env ga_types any_text true dj_show false da_types da_json 8 da_find 8 false 10).
Notation ga_read strict := (garead_json ga_env ga_types any_text dj_parse false da_types da_json 8 da_find 8 strict).
Lemma ga_written : ga_write 0%nat ga_message = Ok (render da_tree) /\ ga_read true 10%nat 0%nat (render da_shuffled) = Ok ga_message.
Proof. split; vm_compute; reflexivity. Qed.
Lemma ga_enums : genums_fit ga_types.
Proof.
  intros ty b jf Hb Hj. destruct ty as [|[|ty]]; [..|unfold gty in Hb; rewrite nth_overflow in Hb by (cbn; lia); destruct Hb]; unfold gty, ga_types in Hb; cbn [nth g_members In] in Hb;
    repeat (destruct Hb as [<-|Hb]; [cbn [fields_of In] in Hj; repeat (destruct Hj as [<-|Hj]; [cbn [j_values]; apply Forall_nil|]); destruct Hj|]); destruct Hb.
Qed.
Lemma ga_defaults : wt_defaults ga_env any_text.
Proof.
  intros ty. destruct ty as [|[|ty]]; [..|unfold wt_msg, default_msg; unfold desc_of; rewrite nth_overflow by (cbn; lia); apply WTmsg; [unfold desc_of; rewrite nth_overflow by (cbn; lia); apply CSnil|unfold desc_of; rewrite nth_overflow by (cbn; lia); reflexivity|apply Forall_nil]];
    unfold wt_msg, default_msg, ga_env; cbn [desc_of nth m_fields map field_default]; fold ga_env; wt_any.
Qed.
Lemma ga_nulls : nulls_ok da_types da_json /\ lists_ok da_json da_find.
Proof.
  split.
  - intros ty. do 6 (destruct ty as [|ty]; [cbn; intros f l te d H; repeat (destruct H as [H|H]; [injection H as <- <-; intros N E; first [destruct (N eq_refl)|discriminate E|injection E as <- <-; split; [first [discriminate|reflexivity]|discriminate]]|]); destruct H|]).
    unfold wty. rewrite nth_overflow by (cbn; lia). intros f l te d [].
  - intros name t H. unfold da_find in H. repeat (destruct (eqb_bytes name _); [injection H as <-; discriminate|]). discriminate H.
Qed.
(** {"any":{}}, and an Any with nothing set. *)
Definition ga_empty : val := VMsg [[ga_any [] []]; [VInt 0]] [].
Lemma ga_empty_wt : wt_msg ga_env any_text 0 ga_empty.
Proof. unfold ga_empty, ga_any, wt_msg. wt_any. Qed.
Lemma ga_empty_refused : ga_write 0%nat ga_empty = Err BadMessage /\ forall strict, ga_read strict 10%nat 0%nat (render (JObj [(txt "any", JObj [])])) = Err BadMessage.
Proof. split; [vm_compute; reflexivity|]. intros []; vm_compute; reflexivity. Qed.
Lemma ga_nest : wt_msg ga_env any_text 1 (ga_any url_nest [10; 2; 8; 1]) /\ exists ts, ga_write 1%nat (ga_any url_nest [10; 2; 8; 1]) = Ok ts /\ forall j, ts <> render j.
Proof. split; [let x := eval vm_compute in (ga_any url_nest [10; 2; 8; 1]) in change (wt_msg ga_env any_text 1 x); unfold wt_msg; wt_any|]. eexists. split; [vm_compute; reflexivity|]. apply nest_text. Qed.
