(** A message schema used to show that the hypotheses of the properties are met
    by non-trivial cases. *)
From Coq Require Import Sorted.
Require Import Verif.Bits Verif.Varint Verif.VarintSpec.
Require Import Verif.Schema Verif.Archive Verif.Decode Verif.DecodeSafe Verif.Wire Verif.WireFacts Verif.WireGrammar Verif.GrammarFacts Verif.WellTyped.

(** [ex_env UBytes] in proto notation:
<<
  message Root {
    optional int32 a = 1;  string s = 2 [implicit presence];  repeated sint32 r = 3 [packed];
    optional Root child = 4;  map<string, int32> m = 5;
    oneof x { bool b = 6; string t = 7; Root c = 8; }
    optional ClosedEnum e = 9;  repeated ClosedEnum es = 10;
    optional group g = 11;  double d = 12 [implicit presence];
  }
>> *)
Definition ex_root (k : ukind) : mdesc := MDesc
  [ Field 1 (EVar VI32) COpt; Field 2 (EBytes true false) (CPlain false (VBytes [])); Field 3 (EVar VS32) (CRep true);
    Field 4 (EMsg 0 false) COpt; Field 5 (EMsg 1 false) (CMap true);
    Oneof [(6, EBool); (7, EBytes true false); (8, EMsg 0 false)];
    Field 9 (EEnum (Some [0; 1; 2])) COpt; Field 10 (EEnum (Some [0; 1; 2])) (CRep true);
    Field 11 (EMsg 0 true) COpt; Field 12 (EFix true true) (CPlain false (VInt 0)) ] k false.
Definition ex_entry : mdesc := MDesc
  [ Field 1 (EBytes true false) (CPlain true (VBytes [])); Field 2 (EVar VI32) (CPlain true (VInt 0)) ] UNone true.
(** The same kind of message without closed enums. *)
Definition ex_open (k : ukind) : mdesc := MDesc
  [ Field 1 (EVar VI32) COpt; Field 4 (EMsg 0 false) COpt ] k false.
Definition ex_env (k : ukind) : env := [ex_root k; ex_entry; ex_open k].
Definition any_utf8 : bytes -> bool := fun _ => true.

Lemma ex_safe k : k <> UPairs -> safe_env (ex_env k).
Proof.
  intros Hk [|[|[|ty]]]; unfold desc_of; cbn [ex_env nth]; [| | |destruct ty; cbn; constructor];
    repeat (constructor; cbn; try discriminate; auto).
Qed.
Lemma ex_shape k : map_shape (ex_env k).
Proof.
  intros [|[|[|ty]]] num e assoc; unfold desc_of; cbn [ex_env nth ex_root ex_entry ex_open m_fields In]; try (intuition discriminate).
  - intros H. repeat (destruct H as [H|H]; [try discriminate|]); [|destruct H]. injection H as <- <- <-.
    exists 1%nat. do 4 eexists. split; [reflexivity|]. split; reflexivity.
  - destruct ty; cbn; intros [].
Qed.
Lemma ex_defaults k : wt_defaults (ex_env k) any_utf8.
Proof.
  intros [|[|[|ty]]]; unfold wt_msg, default_msg, desc_of; cbn [ex_env nth]; constructor; unfold desc_of; cbn;
    try (destruct k; cbn; repeat constructor; fail); try (destruct ty; cbn; repeat constructor; fail).
  all: repeat constructor; cbn; try discriminate; try reflexivity; unfold in_vtype, fits_s; try lia.
Qed.

(** ** Checking concrete inputs *)
Definition bytesb (bs : bytes) : bool := forallb (fun b => (0 <=? b) && (b <? 256)) bs.
Lemma bytesb_ok bs : bytesb bs = true -> all_bytes bs.
Proof.
  unfold bytesb. rewrite forallb_forall. intros H. apply Forall_forall. intros b Hb. specialize (H b Hb).
  apply andb_true_iff in H. unfold is_byte. lia.
Qed.

Lemma fields_ok limit l : bytesb (bytes_of l) = true ->
  match tokB limit None 1 (bytes_of l) with TOk (rs, []) => map rec_num_raw rs = l | _ => False end -> fields limit l.
Proof.
  intros Hb H. destruct (tokB limit None 1 (bytes_of l)) as [[rs [|]]| | |] eqn:K; try contradiction.
  destruct (tok_fields limit _ _ _ (Nat.lt_succ_diag_r _) (bytesb_ok _ Hb) K) as [F _]. rewrite H in F. exact F.
Qed.
