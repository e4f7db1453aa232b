(** What the parameter text of the code generator says, without looking at how it is read:
    a list of settings, written with commas between them. *)
From Coq Require Import Ascii String.
Require Import Verif.Bits Verif.CppText Verif.PluginOptions.
Local Open Scope Z_scope.
Local Open Scope list_scope.

(** A key alone, or a key and a value. *)
Definition setting : Type := bytes * option bytes.
Definition written (s : setting) : bytes := match snd s with None => fst s | Some v => fst s ++ 61 :: v end.
Fixpoint commas (l : list bytes) : bytes := match l with [] => [] | [a] => a | a :: t => a ++ 44 :: commas t end.
Definition parameters (ps : list setting) : bytes := commas (map written ps).

(** A key has neither a comma nor an equal sign, a value has no comma. *)
Definition clean (s : setting) : Prop :=
  ~ In 61 (fst s) /\ ~ In 44 (fst s) /\ match snd s with None => True | Some v => ~ In 44 v end.

(** The values given for a key, in order; a key alone gives the empty value. *)
Fixpoint given (key : bytes) (ps : list setting) : list bytes :=
  match ps with
  | [] => []
  | (k, v) :: t => if list_eq_dec Z.eq_dec k key then match v with None => [] | Some v => v end :: given key t else given key t
  end.
(** The value that counts. *)
Fixpoint final (l : list bytes) : option bytes := match l with [] => None | [a] => Some a | _ :: t => final t end.

(** What the settings ask for. *)
Definition asks (ps : list setting) (r : option options) : Prop :=
  match r with
  | None => exists v, In v (given (txt "namespace_prefix") ps) /\ from_dotted v = None
  | Some o =>
      (forall v, In v (given (txt "namespace_prefix") ps) -> from_dotted v <> None) /\
      namespace_prefix o = match final (given (txt "namespace_prefix") ps) with None => None | Some v => from_dotted v end /\
      directory_prefix o = match final (given (txt "directory_prefix") ps) with None => [] | Some v => v end /\
      explicit_presences o = match given (txt "proto2_explicit_presence") ps with [] => [[46]] | l => l end /\
      (preserve_names o = true <->
       final (given (txt "preserve_proto_field_names") ps) = Some [] \/
       final (given (txt "preserve_proto_field_names") ps) = Some (txt "true")) /\
      export_request o = final (given (txt "export_request") ps)
  end.
