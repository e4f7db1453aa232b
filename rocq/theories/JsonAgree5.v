(** Writing is only refused for its depth where the messages are nested too deeply. *)
Require Import Verif.Bits Verif.Varint Verif.Timestamp Verif.Duration Verif.FieldMask Verif.FieldMaskProofs.
Require Import Verif.DynSlots Verif.Dyn Verif.Schema Verif.Archive Verif.Decode Verif.Encode Verif.DynWire Verif.DynView Verif.DynJson Verif.DynJsonSpec Verif.GenJson Verif.JsonAgreeSpec Verif.JsonAgree4.

Definition shallow {A} (r : res A) : Prop := r <> Err TooLarge.
Lemma shallow_bind {A B} (r : res A) (k : A -> res B) : shallow r -> (forall x, shallow (k x)) -> shallow (bind r k).
Proof. destruct r; cbn; intros H K; try apply K; try (intro Q; discriminate Q). intro Q. injection Q as ->. apply H. reflexivity. Qed.

Section Depth.
  Context (W : list wtype) (J : list jtype) (le : bool) (fshow : bool -> Z -> bytes) (maxd : Z).
  Section Body.
    Context (recd : bool -> nat -> list slot -> res (list tok)).
    Hypothesis R : forall q ty m, shallow (recd q ty m).
    Ltac plain := repeat match goal with |- shallow (match ?x with _ => _ end) => destruct x | |- shallow (Ok _) => unfold shallow; discriminate | |- shallow UB => unfold shallow; discriminate | |- shallow (Err BadMessage) => unfold shallow; discriminate end.
    Lemma scalar_shallow q jf e v : shallow (write_scalar le fshow q jf e v).
    Proof. unfold write_scalar. plain. Qed.
    Lemma scalars_shallow q jf e vs : shallow (write_scalars le fshow q jf e vs).
    Proof. induction vs as [|v vs IH]; cbn [write_scalars]; [plain|]. apply shallow_bind; [apply scalar_shallow|]. intros x. apply shallow_bind; [exact IH|]. intros. plain. Qed.
    Lemma all_shallow q ty x : shallow (write_all recd q ty x).
    Proof. induction x as [|m x IH]; cbn [write_all]; [plain|]. apply shallow_bind; [apply R|]. intros. apply shallow_bind; [exact IH|]. intros. plain. Qed.
    Lemma messages_shallow q ty x : shallow (write_messages W recd q ty x).
    Proof. unfold write_messages. apply shallow_bind; [apply all_shallow|]. intros. plain. Qed.
    Lemma single_shallow f l s : shallow (single f l s).
    Proof. unfold single. plain. Qed.
    Lemma several_shallow f l s : shallow (several f l s).
    Proof. unfold several. plain. Qed.
    Lemma field_shallow q jf f l s : shallow (write_field W le fshow recd q jf f l s).
    Proof.
      unfold write_field. destruct (w_elem f), (w_rep f).
      all: try (apply shallow_bind; [apply single_shallow|intros; apply scalar_shallow]).
      all: try (apply shallow_bind; [apply several_shallow|intros; apply shallow_bind; [apply scalars_shallow|intros; plain]]).
      all: destruct (value _ _ _); first [apply R|apply messages_shallow|plain].
    Qed.
    Lemma members_shallow q fs m : forall first, shallow (write_members W le fshow recd q first fs m).
    Proof.
      induction fs as [|[jf [f l]] fs IH]; intros first; cbn [write_members]; [plain|]. destruct (has_value _ _ _); [|apply IH].
      apply shallow_bind; [apply field_shallow|]. intros. apply shallow_bind; [apply IH|]. intros. plain.
    Qed.
    Lemma entry_shallow q fs m : forall first, shallow (write_entry_fields W le fshow recd q first fs m).
    Proof.
      induction fs as [|[jf [f l]] fs IH]; intros first; cbn [write_entry_fields]; [plain|]. destruct (has_value _ _ _); [|apply IH].
      apply shallow_bind; [apply field_shallow|]. intros. apply shallow_bind; [apply IH|]. intros. intro Q. discriminate Q.
    Qed.
    Lemma number_shallow fl m : shallow (number_of fl m).
    Proof. unfold number_of. plain. Qed.
    Lemma body_shallow q ty m : shallow (write_body W J le fshow recd q ty m).
    Proof.
      unfold write_body. destruct (w_entry (wty W ty)).
      { unfold write_entry. apply shallow_bind; [unfold unset_value; plain|]. intros []; [plain|apply entry_shallow]. }
      destruct (known_of J ty); try (plain; fail).
      - apply shallow_bind; [apply members_shallow|]. intros. plain.
      - unfold write_time. destruct (w_fields (wty W ty)) as [|a [|b [|? ?]]]; try (plain; fail). apply shallow_bind; [apply number_shallow|]. intros. apply shallow_bind; [apply number_shallow|]. intros. plain.
      - unfold write_time. destruct (w_fields (wty W ty)) as [|a [|b [|? ?]]]; try (plain; fail). apply shallow_bind; [apply number_shallow|]. intros. apply shallow_bind; [apply number_shallow|]. intros. plain.
      - unfold write_mask. plain.
      - unfold write_value, write_cref. cbv zeta. plain. apply field_shallow.
      - plain. apply messages_shallow.
      - plain. apply messages_shallow.
      - unfold write_cref. plain. apply field_shallow.
    Qed.
  End Body.
  Lemma msg_shallow n : forall depth q ty m, maxd < 2 ^ 32 - 1 -> depth + Z.of_nat n <= maxd + 1 -> shallow (write_msg W J le maxd fshow n depth q ty m).
  Proof.
    induction n as [|n IH]; intros depth q ty m Hm Hd; [intro Q; discriminate Q|]. cbn [write_msg]. unfold scope_ok. replace (depth <=? maxd) with true by lia. replace (depth =? 2 ^ 32 - 1) with false by lia. cbn [andb negb].
    apply body_shallow. intros. apply IH; lia.
  Qed.
End Depth.

Theorem json_equal W J E G le fshow maxd n ty m : wtypes_ok W -> jtypes_ok W J -> types_match W J E G -> w_entry (wty W ty) = false -> typed W n ty m -> common W J n ty m ->
  maxd < 2 ^ 32 - 1 -> Z.of_nat n <= maxd + 1 ->
  write_json W J le maxd fshow n ty m = gwrite E G le fshow false false n ty (view W J G n ty m).
Proof.
  intros HW HJ HM He T C Hm Hn. destruct (json_same W J E G le fshow maxd HW HJ HM n ty m He T C) as [K|K]; [exact K|].
  exfalso. apply (msg_shallow W J le fshow maxd n 0 false ty m Hm ltac:(lia)). exact K.
Qed.
