(** The options of the code generator: C95. *)
From Coq Require Import Ascii String.
Require Import Verif.Bits Verif.CppText Verif.PluginOptions Verif.PluginOptionsSpec Verif.PluginOptionsProof.
Local Open Scope Z_scope.
Local Open Scope list_scope.

(** C95.  The options are what the settings ask for: for a key that is given several times
    the last value counts, the scopes of proto2_explicit_presence are collected in order,
    other keys change nothing. *)
Theorem C95_settings : forall ps, Forall clean ps -> asks ps (parse_plugin_options (parameters ps)).
Proof. exact options_asked. Qed.
Print Assumptions C95_settings.
(** Every text is a list of settings, and settings leave no choice. *)
Theorem C95_every_text : forall s, exists ps, Forall clean ps /\ s = parameters ps /\
  forall r, asks ps r <-> r = parse_plugin_options s.
Proof.
  exact (fun s => match parameters_of s with
    | ex_intro _ ps (conj C E) => ex_intro _ ps (conj C (conj E
        (fun r => eq_ind_r (fun s => asks ps r <-> r = parse_plugin_options s)
          (conj (fun A => options_determined ps _ _ A (options_asked ps C))
                (fun Q => eq_ind_r (asks ps) (options_asked ps C) Q)) E)))
    end).
Qed.
Print Assumptions C95_every_text.
(** The options are refused exactly if some namespace_prefix is no dotted name, also if a
    later one is. *)
Theorem C95_error : forall ps, Forall clean ps ->
  (parse_plugin_options (parameters ps) = None <-> exists v, In v (given (txt "namespace_prefix") ps) /\ from_dotted v = None).
Proof. exact options_error. Qed.
Print Assumptions C95_error.
Example C95_case :
  let ps := [(txt "directory_prefix", Some (txt "a")); (txt "proto2_explicit_presence", Some (txt ".p.M"));
             (txt "namespace_prefix", Some (txt "x.class")); (txt "preserve_proto_field_names", None); (txt "unknown", Some (txt "1"));
             (txt "proto2_explicit_presence", Some (txt ".q=r")); (txt "directory_prefix", Some (txt "gen"))] in
  Forall clean ps /\
  parameters ps = txt "directory_prefix=a,proto2_explicit_presence=.p.M,namespace_prefix=x.class,preserve_proto_field_names,unknown=1,proto2_explicit_presence=.q=r,directory_prefix=gen" /\
  parse_plugin_options (parameters ps)
  = Some (Options (txt "gen") (Some (txt "x::class_")) [txt ".p.M"; txt ".q=r"] true None).
Proof.
  cbv zeta. split; [| split; vm_compute; reflexivity].
  repeat constructor; cbn; intro H; repeat (destruct H as [H | H]; [discriminate |]); exact H.
Qed.
Example C95_case_error :
  parse_plugin_options (txt "namespace_prefix=a..b,namespace_prefix=a.b") = None /\
  parse_plugin_options (txt "preserve_proto_field_names=1,,") = Some (Options [] None [[46]] false None).
Proof. split; vm_compute; reflexivity. Qed.
