(** C40: the optional member types behave as option values. *)
Require Import Verif.Bits Verif.Optional Verif.OptionalProofs.

(** ** C40: any sequence of operations on any number of objects. *)
Theorem C40_optional_operations T (dflt zero : T) ps m :
  map as_option (o_run dflt zero m ps) = s_run zero (map as_option m) ps.
Proof. exact (run_option dflt zero ps m). Qed.
Print Assumptions C40_optional_operations.

(** Presence, value and value_or are those of the option. *)
Theorem C40_optional_observers T (o : opt T) d :
  (o_has o = true <-> exists v, as_option o = Some v) /\
  (forall v, as_option o = Some v -> o_get o = v) /\
  o_value_or o d = match as_option o with Some v => v | None => d end.
Proof. exact (observers o d). Qed.
Print Assumptions C40_optional_observers.

(** Starting from empty objects, an absent value reads as the default and
    equality is equality of options, if nothing is assigned through the
    reference of an empty object. *)
Theorem C40_optional_default T (dflt zero : T) ps n o : clean zero dflt (repeat None n) ps ->
  In o (o_run dflt zero (repeat (o_empty dflt) n) ps) -> o_has o = false -> o_get o = dflt.
Proof. exact (run_default dflt zero ps n o). Qed.
Print Assumptions C40_optional_default.

Theorem C40_optional_equality T (dflt zero : T) eqb ps n a b : eqb dflt dflt = true -> clean zero dflt (repeat None n) ps ->
  In a (o_run dflt zero (repeat (o_empty dflt) n) ps) -> In b (o_run dflt zero (repeat (o_empty dflt) n) ps) ->
  o_eqb eqb a b = option_eqb eqb (as_option a) (as_option b).
Proof. exact (run_eq dflt zero eqb ps n a b). Qed.
Print Assumptions C40_optional_equality.

Example C40_case :
  let ps := [OAssign 0%nat 7; OCopy 1%nat 0%nat; OWrite 1%nat 9; OReset 0%nat; OSwap 0%nat 2%nat; OMove 2%nat 1%nat 0; OStd 0%nat (Some 3)] in
  clean 0 5 (repeat None 3) ps /\
  map as_option (o_run 5 0 (repeat (o_empty 5) 3) ps) = [Some 3; Some 0; Some 9].
Proof. cbv zeta. split; [repeat split; cbn; try discriminate; left; discriminate|reflexivity]. Qed.

(** Without that condition two empty optionals can differ. *)
Theorem C40_empty_equality_refuted : exists ps a b,
  o_run 0 0 (repeat (o_empty 0) 2) ps = [a; b] /\ as_option a = None /\ as_option b = None /\ o_eqb Z.eqb a b = false.
Proof. exists [OWrite 0%nat 1], (Opt 1 false), (Opt 0 false). repeat split. Qed.
Print Assumptions C40_empty_equality_refuted.

(** ** C40: the one-byte optional<bool>. *)
Theorem C40_optional_bool_operations d ps m :
  map as_option_bool (b_run d m ps) = s_run false (map as_option_bool m) (map (b_spec d) ps).
Proof. exact (run_bool d ps m). Qed.
Print Assumptions C40_optional_bool_operations.

Theorem C40_optional_bool_observers d ps n a b :
  In a (b_run d (repeat (b_empty d) n) ps) -> In b (b_run d (repeat (b_empty d) n) ps) ->
  0 <= a < 256 /\ (b_has a = false -> b_get a = d) /\ b_eqb a b = option_eqb Bool.eqb (as_option_bool a) (as_option_bool b).
Proof. exact (bool_facts d ps n a b). Qed.
Print Assumptions C40_optional_bool_observers.

Example C40_bool_case :
  map as_option_bool (b_run true (repeat (b_empty true) 3) [BEmplace 0; BAssign 1 false; BSwap 1 2; BCopy 1 0; BReset 0]%nat) =
  [None; Some true; Some false].
Proof. reflexivity. Qed.

(** emplace() without arguments ignores the declared default, except for bool. *)
Theorem C40_emplace_default_refuted :
  (exists dflt : Z, map as_option (o_run dflt 0 [o_empty dflt] [OEmplace 0%nat]) <> [Some dflt]) /\
  (forall d, map as_option_bool (b_run d [b_empty d] [BEmplace 0%nat]) = [Some d]).
Proof. split; [exists 5; cbn; congruence|intros []; reflexivity]. Qed.
Print Assumptions C40_emplace_default_refuted.
