(** Schemas and inputs for the properties about input memory. *)
Require Import Verif.Bits Verif.Varint Verif.Schema Verif.Archive Verif.Decode Verif.DecodeSafe Verif.DecodeSpec1.
Require Import Verif.SimMain Verif.Region Verif.RegionMain Verif.ExampleSchema Verif.ExampleMessage.

(** The example message cut into four segments: a short one, an empty one and two long ones. *)
Definition ex_segs : list bytes := [firstn 3 ex_bytes; []; firstn 25 (skipn 3 ex_bytes); skipn 28 ex_bytes].
Lemma ex_segs_all : concat ex_segs = ex_bytes. Proof. reflexivity. Qed.
Lemma ex_bytes_ok : all_bytes ex_bytes. Proof. apply bytesb_ok. reflexivity. Qed.

(** [message Deep { Deep child = 1;  Deep g = 16 [delimited]; }]: a child whose last
    byte is the first byte of the tag of [g]. *)
Definition deep_env : env := [MDesc [Field 1 (EMsg 0 false) COpt; Field 16 (EMsg 0 true) COpt] UNone false].
Definition deep_segs : list bytes := [[10; 17] ++ concat (repeat [24; 0] 8); [131; 1] ++ repeat 0 20].
Lemma deep_safe : safe_env deep_env.
Proof. intros [|[|ty]]; unfold desc_of; cbn; repeat (constructor; cbn; try discriminate; auto). Qed.

(** [message View { string s = 1; }] with string views. *)
Definition view_env (utf8 : bool) : env := [MDesc [Field 1 (EBytes utf8 true) (CPlain false (VBytes []))] UNone false].
Lemma view_safe u : safe_env (view_env u).
Proof. intros [|[|ty]]; unfold desc_of; cbn; repeat (constructor; cbn; try discriminate; auto). Qed.
Lemma view_plain big path : env_plain (rops true true big path) (view_env false).
Proof.
  intros [|[|ty]]; unfold desc_of; cbn; repeat constructor. intros u v [= <- <-]. reflexivity.
Qed.
Lemma ex_plain big path : env_plain (rops true true big path) (ex_env UBytes).
Proof.
  intros [|[|[|ty]]]; unfold desc_of; cbn [ex_env nth ex_root ex_entry ex_open m_fields]; [| | |destruct ty; constructor];
    repeat constructor; intros u v; try discriminate; intros [= <- <-]; reflexivity.
Qed.
