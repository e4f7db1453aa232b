(** C46: strings in fields that require UTF-8.  The validator [utf8_ok] is any
    function (the code calls the external function is_utf8). *)
Require Import Verif.Bits Verif.Varint Verif.VarintSpec.
Require Import Verif.Schema Verif.Archive Verif.Decode Verif.DecodeSafe Verif.Encode Verif.WireGrammar Verif.FieldSpec Verif.DecodeTerms Verif.WellTyped.
Require Import Verif.Utf8Spec Verif.Utf8Proofs Verif.Utf8Main Verif.ExampleSchema Verif.ExampleMessage.

(** Whatever archive is read from, a message that was read holds only valid
    strings, at any nesting level, if the message it was read into did. *)
Theorem C46_read A (AR : aops A) E utf8_ok limit : valid_defaults E utf8_ok -> forall fuel ty cur a v a',
  valid_strings E utf8_ok ty cur -> decode AR E utf8_ok limit fuel ty cur a = Ok (v, a') -> valid_strings E utf8_ok ty v.
Proof. exact (read_valid AR E utf8_ok limit). Qed.
Print Assumptions C46_read.

(** A message that was written holds only valid strings. *)
Theorem C46_written E utf8_ok limit : valid_defaults E utf8_ok -> forall ty v bs,
  wt_msg E (fun _ => true) ty v -> encode_bytes E utf8_ok limit ty v = Ok bs -> valid_strings E utf8_ok ty v.
Proof. exact (write_valid E utf8_ok limit). Qed.
Print Assumptions C46_written.

(** A field with an invalid string is rejected, in every kind of member. *)
Theorem C46_rejected E utf8_ok limit : safe_env E -> forall ty cur num tb lb p,
  0 < num -> m_entry (desc_of E ty) = false -> scope_ok limit 0 = true ->
  string_field E ty num -> tag_bytes num WT_LEN tb -> len_bytes (zlen p) lb -> all_bytes p -> utf8_ok p = false ->
  rejected (decode_bytes E utf8_ok limit ty cur (tb ++ lb ++ p)).
Proof. exact (invalid_rejected E utf8_ok limit). Qed.
Print Assumptions C46_rejected.

Definition ascii (b : bytes) : bool := forallb (fun x => x <? 128) b.

Lemma ex_valid_defaults : valid_defaults (ex_env UBytes) ascii.
Proof.
  intros ty b H. destruct ty as [|[|[|ty]]]; [| | |destruct ty];
    inversion H as [|? ? ? ? k f c x e y ? Hf Hc Hx Ho Hh]; subst;
    repeat (destruct k as [|k]; [injection Hf as <-; injection Hc as <-; cbn in Hx; repeat (destruct Hx as [Hx|Hx]; [subst x|]);
      try contradiction; destruct Ho as [<- <-]; inversion Hh; reflexivity|]);
    try (destruct k; discriminate); destruct Hf.
Qed.

(** A string inside a message inside a oneof inside a message: [t] of [c] of [child]. *)
Definition ex_nested (b : bytes) : val :=
  VMsg [[]; [VBytes []]; []; [VMsg [[]; [VBytes []]; []; []; []; [VAlt 2 (VMsg [[]; [VBytes []]; []; []; []; [VAlt 1 (VBytes b)]; []; []; []; [VInt 0]] [])];
    []; []; []; [VInt 0]] []]; []; []; []; []; []; [VInt 0]] [].

Example C46_case : let E := ex_env UBytes in
  valid_defaults E ascii /\ holds_string E 0 (ex_nested [200; 1]) [200; 1] /\ holds_string E 0 (ex_nested [65]) [65] /\
  decode_bytes E ascii 100 0 (default_msg E 0) [34; 5; 66; 3; 58; 1; 65] = Ok (ex_nested [65]) /\
  decode_bytes E ascii 100 0 (default_msg E 0) [34; 6; 66; 4; 58; 2; 200; 1] = Err BadMessage /\
  encode_bytes E ascii 100 0 (ex_nested [65]) = Ok [34; 5; 66; 3; 58; 1; 65] /\
  encode_bytes E ascii 100 0 (ex_nested [200; 1]) = Err BadMessage /\
  string_field E 0 7 /\ string_field E 0 2.
Proof.
  cbv zeta. split; [exact ex_valid_defaults|].
  assert (K : forall b, holds_string (ex_env UBytes) 0 (ex_nested b) b).
  { intros b. eapply (HMember _ _ _ _ _ 3); [reflexivity|reflexivity|left; reflexivity|split; reflexivity|].
    eapply (HMember _ _ _ _ _ 5); [reflexivity|reflexivity|left; reflexivity|exists 2%nat, 8; split; reflexivity|].
    eapply (HMember _ _ _ _ _ 5); [reflexivity|reflexivity|left; reflexivity|exists 1%nat, 7; split; reflexivity|].
    apply HString. }
  split; [apply K|]. split; [apply K|]. split; [vm_compute; reflexivity|]. split; [vm_compute; reflexivity|].
  split; [vm_compute; reflexivity|]. split; [vm_compute; reflexivity|]. split.
  - exists 5%nat, false. right. exists [(6, EBool); (7, EBytes true false); (8, EMsg 0 false)], 1%nat. split; reflexivity.
  - exists 1%nat, false. left. exists (CPlain false (VBytes [])). reflexivity.
Qed.
