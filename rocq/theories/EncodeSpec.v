(** Specification of serialization: the bytes of a message, written without
    counters, size caches or output archives.  Every length prefix is the length
    of the bytes that follow it. *)
Require Import Verif.Bits Verif.Varint Verif.VarintSpec Verif.VarintFacts.
Require Import Verif.Schema Verif.Archive Verif.Decode Verif.Encode Verif.WellTyped.

(** The shortest varint of [n] and the tag of a field; see [vint_spec] for their shape. *)
Definition vint (n : Z) : bytes := pack_loop (Z.to_nat (Z.log2 n)) n.
Definition tagb (num wt : Z) : bytes := vint (8 * num + wt).

Definition enc_scalar (e : elem) (v : val) : bytes :=
  match e, v with
  | EVar t, VInt z => pack_varint t z
  | EBool, VInt z => [z]
  | EFix is64 _, VInt z => le_bytes (fix_size is64) z
  | EEnum _, VInt z => pack_varint VI64 z
  | EBytes _ _, VBytes b => vint (zlen b) ++ b
  | _, _ => []
  end.

(** [body ty v] are the bytes of the nested message [v]. *)
Section Enc.
  Variable body : nat -> val -> bytes.

  Definition enc_elem (num : Z) (e : elem) (v : val) : bytes :=
    match e with
    | EMsg ty false => tagb num WT_LEN ++ vint (zlen (body ty v)) ++ body ty v
    | EMsg ty true => tagb num WT_SGROUP ++ body ty v ++ tagb num WT_EGROUP
    | _ => tagb num (elem_wt e) ++ enc_scalar e v
    end.

  Definition enc_packed (num : Z) (e : elem) (vs : list val) : bytes :=
    let p := concat (map (enc_scalar e) vs) in tagb num WT_LEN ++ vint (zlen p) ++ p.

  Definition enc_field (f : field) (vs : list val) : bytes :=
    match f with
    | Field num e (CRep true) => if packable e then enc_packed num e vs else concat (map (enc_elem num e) vs)
    | Field num e _ => concat (map (enc_elem num e) vs)
    | Oneof alts =>
        match vs with
        | VAlt i v :: _ => match nth_error alts i with Some (num, e) => enc_elem num e v | None => [] end
        | _ => []
        end
    end.

  (** Omitted members are not written. *)
  Fixpoint enc_fields (fds : list field) (fs : list (list val)) {struct fs} : bytes :=
    match fs, fds with
    | vs :: fs', f :: fds' => (if omit f vs then [] else enc_field f vs) ++ enc_fields fds' fs'
    | _, _ => []
    end.
End Enc.

Definition enc_unknown (k : ukind) (u : list (Z * bytes)) : bytes :=
  match k with UNone => [] | _ => concat (map snd u) end.

Fixpoint enc_msg (E : env) (ty : nat) (v : val) {struct v} : bytes :=
  match v with
  | VMsg fs u => enc_fields (enc_msg E) (m_fields (desc_of E ty)) fs ++ enc_unknown (m_unk (desc_of E ty)) u
  | _ => []
  end.

(** Message values held by the value [c] of member [f]. *)
Inductive sub_msg : field -> list val -> nat -> val -> Prop :=
| SubF num ty delim c vs v : In v vs -> sub_msg (Field num (EMsg ty delim) c) vs ty v
| SubO alts i num ty delim v vs : nth_error alts i = Some (num, EMsg ty delim) -> sub_msg (Oneof alts) (VAlt i v :: vs) ty v.

(** [holds E ty v f c]: member [f] of message [v] holds [c]. *)
Definition holds (E : env) (ty : nat) (v : val) (f : field) (c : list val) : Prop :=
  In (f, c) (combine (m_fields (desc_of E ty)) (msg_fields v)).

(** [nested E ty v n]: some chain of [n] messages inside one another starts at [v]. *)
Inductive nested (E : env) : nat -> val -> nat -> Prop :=
| NOne ty fs u : nested E ty (VMsg fs u) 1
| NStep ty v f c ty' v' n : holds E ty v f c -> sub_msg f c ty' v' -> nested E ty' v' n -> nested E ty v (S n).

(** ** Induction on nested messages *)
Section Ind.
  Variables (E : env) (P : nat -> val -> Prop).
  Hypothesis step : forall ty v, (forall f c ty' v', holds E ty v f c -> sub_msg f c ty' v' -> P ty' v') -> P ty v.

  Fixpoint vsize (v : val) : nat :=
    match v with
    | VMsg fs _ => S (fold_right (fun c n => fold_right (fun x m => vsize x + m) 0 c + n) 0 fs)%nat
    | VAlt _ v => S (vsize v)
    | _ => 1%nat
    end.

  Lemma in_sum {A} (g : A -> nat) l x : In x l -> (g x <= fold_right (fun c n => g c + n) 0 l)%nat.
  Proof. induction l as [|y t IH]; [intros []|]. cbn. intros [->|H]; [lia|]. specialize (IH H). lia. Qed.

  Lemma sub_smaller ty v f c ty' v' : holds E ty v f c -> sub_msg f c ty' v' -> (vsize v' < vsize v)%nat.
  Proof.
    unfold holds. intros Hh Hs. destruct v as [| |fs u|]; cbn [msg_fields] in Hh; try (destruct (m_fields _); destruct Hh).
    apply in_combine_r in Hh. cbn [vsize]. apply (in_sum (fun c => fold_right (fun x m => vsize x + m)%nat 0%nat c)) in Hh.
    assert (vsize v' <= fold_right (fun x m => vsize x + m) 0 c)%nat; [|lia].
    inversion Hs; subst.
    - apply (in_sum vsize). assumption.
    - cbn [fold_right vsize]. lia.
  Qed.

  Lemma nested_ind_msg : forall ty v, P ty v.
  Proof.
    intros ty v. remember (vsize v) as n eqn:Hn. revert ty v Hn. induction n as [n IH] using lt_wf_ind. intros ty v ->.
    apply step. intros f c ty' v' Hh Hs. eapply IH; [|reflexivity]. eapply sub_smaller; eauto.
  Qed.
End Ind.
