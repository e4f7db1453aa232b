(** Setting fields of dynamic messages from arrays of char.

    Modelled code: include/hpp_proto/dynamic_message/message_fields.hpp:376-384 and 401-409, on the model of C105.
    Specification: CharArraySpec.v, and of C105 [meant]. *)
From Coq Require Import Ascii String.
Require Import Verif.Bits Verif.CppText Verif.DynSlots Verif.DynSlotsProofs Verif.Dyn Verif.DynMain Verif.DynAccess Verif.DynAccessSpec Verif.CharArray Verif.CharArraySpec Verif.CharArray1.
Local Open Scope list_scope.
Local Open Scope Z_scope.

(** ** C114: a string literal, or an array of char without a null at its end, sets a string field to its characters *)
(** A literal: the characters [b], which may have null characters among them, and the null that ends it. *)
Theorem C114_literal : forall E fuel count t fs k i f b m, made count (map dynf_of fs) t -> meant fs k i f -> length m = t_slots t ->
  tf_type f = PString -> tf_repeated f = false ->
  exists m', set_array E fuel t fs k (b ++ [0]) m = Some (m', None) /\ look t i m' = Some (true, FBytes b).
Proof. exact set_literal. Qed.
Print Assumptions C114_literal.
(** An array whose last character is not null. *)
Theorem C114_whole : forall E fuel count t fs k i f b c m, made count (map dynf_of fs) t -> meant fs k i f -> length m = t_slots t ->
  tf_type f = PString -> tf_repeated f = false -> c <> 0 ->
  exists m', set_array E fuel t fs k (b ++ [c]) m = Some (m', None) /\ look t i m' = Some (true, FBytes (b ++ [c])).
Proof. exact set_whole. Qed.
Print Assumptions C114_whole.
(** Fields of other types, and repeated ones, refuse all arrays and stay as they are. *)
Theorem C114_other : forall E fuel count t fs k i f a m, made count (map dynf_of fs) t -> meant fs k i f -> a <> [] ->
  tf_type f <> PString \/ tf_repeated f = true -> set_array E fuel t fs k a m = Some (m, Some InvalidType).
Proof. exact set_array_other. Qed.
Print Assumptions C114_other.

(** A message with string s = 1 and bytes d = 2. *)
Definition ca_fields : list tfield := [TField (txt "s") 1 PString false None true 0 []; TField (txt "d") 2 PBytes false None true 0 []].
Definition ca_type : dtype := match dtype_of 0 (map dynf_of ca_fields) with Some t => t | None => DType [] 0 end.
Lemma ca_made : made 0 (map dynf_of ca_fields) ca_type.
Proof.
  split; [|split; [|reflexivity]].
  - unfold oneofs_valid. apply Forall_forall. intros f [<-|[<-|[]]] o H; discriminate H.
  - unfold fields_valid. apply Forall_forall. intros f [<-|[<-|[]]]; cbn; intuition (try discriminate; try congruence).
Qed.
Lemma ca_name : meant ca_fields (ByName (txt "s")) 0 (TField (txt "s") 1 PString false None true 0 []).
Proof. split; [reflexivity|]. split; [reflexivity|]. intros j g H L. lia. Qed.
Lemma ca_number : meant ca_fields (ByNumber 2) 1 (TField (txt "d") 2 PBytes false None true 0 []).
Proof. split; [reflexivity|]. split; [reflexivity|]. intros j g H L. destruct j; [|lia]. injection L as <-. discriminate. Qed.
Example C114_type : made 0 (map dynf_of ca_fields) ca_type /\ meant ca_fields (ByName (txt "s")) 0 (TField (txt "s") 1 PString false None true 0 []) /\
  meant ca_fields (ByNumber 2) 1 (TField (txt "d") 2 PBytes false None true 0 []) /\ length (new_message ca_type) = t_slots ca_type.
Proof. exact (conj ca_made (conj ca_name (conj ca_number eq_refl))). Qed.
Example C114_case :
  option_map (fun x => look ca_type 0 (fst x)) (set_array (fun _ => ca_type) 1 ca_type ca_fields (ByName (txt "s")) (txt "hi" ++ [0]) (new_message ca_type)) = Some (Some (true, FBytes (txt "hi"))) /\
  option_map snd (set_array (fun _ => ca_type) 1 ca_type ca_fields (ByNumber 2) (txt "hi" ++ [0]) (new_message ca_type)) = Some (Some InvalidType).
Proof. split; vm_compute; reflexivity. Qed.

(** A buffer that is longer than the C string in it does not set the field to that string: the null characters that
    follow, all but the last, become part of the value.  char b[8] = "hi". *)
Theorem C114_buffer_refuted : ~ forall E fuel count t fs k i f a m m' e, made count (map dynf_of fs) t -> meant fs k i f -> length m = t_slots t ->
  set_array E fuel t fs k a m = Some (m', e) -> e = None -> look t i m' = Some (true, FBytes (c_string a)).
Proof.
  intros H. destruct (C114_literal (fun _ => ca_type) 1 0 ca_type ca_fields (ByName (txt "s")) 0 _ (txt "hi" ++ repeat 0 5) (new_message ca_type) ca_made ca_name eq_refl eq_refl eq_refl) as (m' & S & L).
  specialize (H (fun _ => ca_type) 1%nat 0%nat ca_type ca_fields (ByName (txt "s")) 0%nat _ ((txt "hi" ++ repeat 0 5) ++ [0]) (new_message ca_type) m' None ca_made ca_name eq_refl S eq_refl). rewrite L in H. vm_compute in H. discriminate H.
Qed.
Print Assumptions C114_buffer_refuted.
(** In general: a C string [b] in a buffer with [n] more null characters. *)
Theorem C114_padded : forall E fuel count t fs k i f b n m, made count (map dynf_of fs) t -> meant fs k i f -> length m = t_slots t ->
  tf_type f = PString -> tf_repeated f = false -> ~ In 0 b ->
  c_string (b ++ repeat 0 (S n)) = b /\ exists m', set_array E fuel t fs k (b ++ repeat 0 (S n)) m = Some (m', None) /\ look t i m' = Some (true, FBytes (b ++ repeat 0 n)).
Proof. exact set_padded. Qed.
Print Assumptions C114_padded.
