(** A message whose only field is a string that is not valid is rejected. *)
Require Import Verif.Bits Verif.Varint Verif.VarintSpec Verif.VarintProofs Verif.VarintFacts Verif.VarintMain.
Require Import Verif.Schema Verif.Archive Verif.Decode Verif.DecodeSafe Verif.Wire Verif.WireFacts.
Require Import Verif.DecodeSpec1 Verif.DecodeSpec2 Verif.DecodeSpec3 Verif.DecodeSpec4 Verif.DecodeLaws Verif.DecodeLaws2.
Require Import Verif.FieldSpec Verif.DecodeOcc Verif.WireGrammar Verif.GrammarFacts Verif.WellTyped Verif.DecodeTerms Verif.DecodeMain.

(** Field number [num] of message type [ty] is a validated string. *)
Definition string_field (E : env) (ty : nat) (num : Z) : Prop :=
  exists i view, (exists c, member E ty num i (Field num (EBytes true view) c)) \/
    (exists alts j, member E ty num i (Oneof alts) /\ find_alt num alts 0 = Some (j, EBytes true view)).

Section Reject.
  Context (E : env) (utf8_ok : bytes -> bool) (limit : Z).
  Hypothesis Hse : safe_env E.

  Lemma invalid_rejected ty cur num tb lb p : 0 < num -> m_entry (desc_of E ty) = false -> scope_ok limit 0 = true ->
    string_field E ty num -> tag_bytes num WT_LEN tb -> len_bytes (zlen p) lb -> all_bytes p -> utf8_ok p = false ->
    rejected (decode_bytes E utf8_ok limit ty cur (tb ++ lb ++ p)).
  Proof.
    intros Hn He Hs (i & view & Hm) Ht Hl Hb Hu.
    assert (Hbs : all_bytes (tb ++ lb ++ p)).
    { destruct Ht as (T1 & _), Hl as (L1 & _). apply Forall_app. split; [apply is_varint_all_bytes; auto|].
      apply Forall_app. split; [apply is_varint_all_bytes; auto|exact Hb]. }
    pose proof (decode_bytes_spec E utf8_ok limit Hse ty cur _ Hbs He) as Q.
    pose proof (tok_pay_lenb utf8_ok (grpB limit 1) num lb p [] Hn Hl) as T. rewrite app_nil_r in T.
    rewrite (spec_one E utf8_ok limit _ _ _ _ Hs (tokB_one limit 1 num WT_LEN tb (lb ++ p) _ [] Ht T)) in Q.
    assert (V : forall b e cur depth, e = EBytes true view ->
      ap_value E utf8_ok limit b e cur depth (Rec tb (8 * num + WT_LEN) (lb ++ p) p []) = TErr).
    { intros b e c d ->. unfold ap_value. cbn [r_tag r_pay elem_wt].
      rewrite (proj1 (tag_parts num WT_LEN ltac:(lia) (elem_wt_range (EMsg 0 false)))), Z.eqb_refl, Hu. reflexivity. }
    destruct Hm as [(c & Hm)|(alts & j & Hm & Ha)].
    - rewrite (apr_field E utf8_ok limit _ _ _ _ _ _ _ _ _ _ _ _ _ Hn (elem_wt_range (EMsg 0 false)) Hm) in Q.
      cbn [elem_wt] in Q.
      destruct c; cbn [ap_field packable andb] in Q; rewrite V in Q by reflexivity; exact Q.
    - rewrite (apr_field E utf8_ok limit _ _ _ _ _ _ _ _ _ _ _ _ _ Hn (elem_wt_range (EMsg 0 false)) Hm) in Q.
      cbn [elem_wt ap_field r_tag] in Q.
      rewrite (proj2 (tag_parts num WT_LEN ltac:(lia) (elem_wt_range (EMsg 0 false)))), Ha in Q.
      rewrite V in Q by reflexivity; exact Q.
  Qed.
End Reject.
