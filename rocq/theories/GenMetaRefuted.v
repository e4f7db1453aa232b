(** The fields for which generated code departs from the schema (PropertiesMeta.v). *)
Require Import Verif.Bits Verif.Varint Verif.Schema Verif.Encode Verif.EncodeSpec Verif.Pool Verif.PoolSpec Verif.PoolAttrs Verif.GenMeta Verif.GenMetaSpec Verif.GenMetaProofs Verif.GenLink Verif.GenMetaEx.
Local Open Scope Z_scope.

Ltac faithful_field B := split; [match goal with |- attributes (g_proto ?x) _ _ _ => exact (attrs_made _ (g_proto x) B) end|try solve [decided | split; decided]|split; [|split; [|split]]; try solve [decided]].
Ltac coherent_field := split; try solve [decided | split; decided].

Lemma scope_prefix : exists o g, faithful [proto2; none] [proto2] g /\ coherent o [proto2; none] g /\
  ~ covered o g /\ forall msg0, behaves false msg0 (SOne (emit o g)) (Field 1 (EVar VI32) COpt) /\ ~ proto_card o [proto2; none] g false msg0 COpt.
Proof.
  pose (p := FProto [97; 98] 1 LABEL_OPTIONAL TYPE_INT32 [] [] [] None false None [] none).
  pose (g := GField (FDsc p (field_attrs (eff [proto2]) false p)) [112; 46; 77] false false false [] false false 0 None).
  assert (N : ~ covered only_a g).
  { intros (s & [<- | []] & (t & [= <-] & [K | [K | (r & K)]])); discriminate K. }
  exists only_a, g. split; [faithful_field proto2_based|]. split; [coherent_field|]. split; [exact N|]. intros msg0. split.
  - one_member. apply AsOptional; [left; reflexivity|reflexivity].
  - intros K. inversion K as [| | |L R M|L R T|]; subst; [destruct M as ([M | M] & _); discriminate M|]. destruct T as [[T | T] | [T | [T | (_ & T)]]]; try discriminate T; [exfalso; apply T; reflexivity|]. exact (N (T eq_refl)).
Qed.
Lemma string_default : exists o g d, faithful [proto2; none] [proto2] g /\ coherent o [proto2; none] g /\ ~ tracked o [proto2; none] g /\
  g_text g = Some (VBytes d) /\ d <> [] /\ forall msg0, let e := EBytes false false in
  source_elem false (emit o g) = Some e /\ has_option (joined (s_options (emit o g))) OExplicit = false /\
  initial msg0 e (emit o g) = VBytes [] /\ omitted msg0 e (emit o g) = VBytes d.
Proof.
  exists only_a, (made proto2 98 1 LABEL_OPTIONAL TYPE_STRING None none false [] false 0 (Some (VBytes [104; 105]))), [104; 105].
  split; [faithful_field proto2_based|]. split; [coherent_field|]. split.
  - intros [[T | T] | [T | [T | (_ & T)]]]; try discriminate T; [exfalso; apply T; reflexivity|]. destruct (T eq_refl) as (s & [<- | []] & (t & [= <-] & [K | [K | (r & K)]])); discriminate K.
  - split; [reflexivity|]. split; [discriminate|]. intros msg0. split; [reflexivity|]. split; [reflexivity|]. split; reflexivity.
Qed.
Lemma required_enum : exists o g, faithful [proto2; none] [proto2] g /\ coherent o [proto2; none] g /\ ~ In 0 (g_enum g) /\
  forall msg0, behaves false msg0 (SOne (emit o g)) (Field 1 (EEnum (Some (g_enum g))) (CPlain true (VInt 0))) /\ ~ proto_card o [proto2; none] g false msg0 (CPlain true (VInt 0)).
Proof.
  exists (everywhere true), (made proto2 98 1 LABEL_REQUIRED TYPE_ENUM None none true [3; 5] false 0 None).
  split; [faithful_field proto2_based|]. split; [coherent_field|]. split; [cbn; lia|]. intros msg0. split.
  - one_member. apply (AsPlain false msg0); reflexivity.
  - intros K. inversion K.
Qed.
Lemma legacy_required_enum : exists o scopes g, faithful scopes [proto2] g /\ coherent o scopes g /\ required scopes g /\ ~ flattened o scopes g /\
  forall msg0, behaves false msg0 (SOne (emit o g)) (Field 1 (EEnum None) (CPlain true (VInt 3))) /\ ~ proto_type o scopes [proto2] g false (EEnum None).
Proof.
  pose (f := Features LEGACY_REQUIRED 0 0 0 0).
  exists (everywhere false), [edition; f], (made edition 98 1 LABEL_OPTIONAL TYPE_ENUM None f true [3; 5] false 0 None).
  assert (R : required [edition; f] (made edition 98 1 LABEL_OPTIONAL TYPE_ENUM None f true [3; 5] false 0 None)) by (right; reflexivity).
  split; [faithful_field edition_based|]. split; [coherent_field|]. split; [exact R|]. split; [intros (_ & _ & _ & K); exact (K R)|]. intros msg0. split.
  - one_member. apply (AsPlain false msg0); reflexivity.
  - intros (u & d & e & _ & _ & [(_ & _ & ->) | ([K | (_ & _ & _ & K)] & _)] & H); [discriminate H|apply K; reflexivity|exact (K R)].
Qed.
Lemma map_delimited : exists o scopes escopes g, regular o scopes escopes g /\ g_map g = true /\
  forall msg0, behaves false msg0 (SOne (emit o g)) (Field 1 (EMsg (g_ty g) true) (CMap true)).
Proof.
  pose (f := Features 0 0 0 0 DELIMITED).
  exists (everywhere false), [edition; f], [edition], (made edition 98 1 LABEL_REPEATED TYPE_MESSAGE None f false [] true 1 None).
  split; [regular_field edition_based (everywhere_covers false)|]. split; [reflexivity|]. intros msg0. one_member. apply (AsMap false msg0); reflexivity.
Qed.
Lemma extension_presence : exists o g d, faithful [edition; none] [edition] g /\ g_ext g = true /\ fa_explicit (g_attrs g) = true /\
  (forall msg0, behaves false msg0 (SOne (emit_extension o g)) (Field 1 (EVar VI32) (CPlain false (VInt d)))) /\
  enc_msg [MDesc [Field 1 (EVar VI32) (CPlain false (VInt d))] UNone false] 0 (VMsg [[VInt d]] []) = [].
Proof.
  pose (p := proto 98 1 LABEL_OPTIONAL TYPE_INT32 None none).
  exists (everywhere false), (GField (FDsc p (field_attrs (eff [edition]) false p)) [] false true false [] false false 0 (Some (VInt 7))), 7.
  split; [faithful_field edition_based|]. split; [reflexivity|]. split; [reflexivity|]. split; [intros msg0; one_member; apply (AsImplicit false msg0); reflexivity|reflexivity].
Qed.
