(** The example of PropertiesDynWire.v. *)
Require Import Verif.Bits Verif.Varint Verif.DynSlots Verif.Dyn Verif.Schema Verif.Archive Verif.Decode Verif.Encode Verif.DynWire.
Require Import Verif.DynSlotsProofs Verif.WellTyped Verif.DynView Verif.DynEncode4.

(** The example: a message with fields without and with presence, packed fields, a oneof
    and groups. *)
Definition dw_fields0 : list wfield :=
  [ WField 1 (EVar VI32) None None false 0 []; WField 2 (EBytes true false) None None true 0 [104]; WField 3 (EVar VS64) (Some true) None false 0 [];
    WField 4 (EMsg 1 false) None (Some 0%nat) true 0 []; WField 5 (EBytes false false) None (Some 0%nat) true 0 [];
    WField 6 (EMsg 1 true) (Some false) None false 0 []; WField 7 (EFix false true) (Some true) None false 0 []; WField 8 EBool (Some false) None false 0 []; WField 9 (EFix true true) None None false 0 [] ].
Definition dw_fields1 : list wfield := [ WField 1 (EEnum (Some [0; 5])) None None true 5 [] ].
Definition dw_type (n : nat) (fs : list wfield) : wtype := match wtype_of n false fs with Some t => t | None => WType [] 0 false end.
Definition dw_types : list wtype := Eval vm_compute in [dw_type 1 dw_fields0; dw_type 0 dw_fields1].
(** Field 9 is set to its default value; slot 3 belongs to the oneof, of which field 4
    is selected. *)
Definition dw_message : list slot :=
  [ (1, CInt (-2)); (1, CBytes []); (2, CInts [1; -64]); (2, CMsg [(0, CInt 5)]); (2, CMsgs [[(1, CInt 5)]; [(0, CZero)]]); (1, CInts [1065353216]); (2, CInts [1; 0]); (1, CInt 0) ].
Definition dw_value : val :=
  VMsg [ [VInt (-2)]; [VBytes []]; [VInt 1; VInt (-64)]; [VAlt 0 (VMsg [[]] [])]; [VMsg [[VInt 5]] []; VMsg [[]] []]; [VInt 1065353216]; [VInt 1; VInt 0]; [VInt 0] ] [].
Definition dw_written : bytes :=
  [8; 254; 255; 255; 255; 255; 255; 255; 255; 255; 1; 18; 0; 26; 2; 2; 127; 34; 0; 51; 8; 5; 52; 51; 52; 58; 4; 0; 0; 128; 63; 64; 1; 64; 0].
Lemma dw_ok : wtypes_ok dw_types.
Proof.
  assert (K : forall f, match w_oneof f, w_explicit f with Some _, false => False | _, _ => True end -> match w_elem f, w_rep f, w_explicit f with EMsg _ _, None, false => False | _, _, _ => True end ->
    (w_explicit f = false -> w_dint f = 0 /\ w_dbytes f = []) -> 1 <= w_num f < 2 ^ 29 -> wfield_ok f).
  { intros f H1 H2 H3 H4. split; [exact H4|]. split; [|split; [|exact H3]].
    - intros o Ho. rewrite Ho in H1. destruct (w_explicit f); [reflexivity|contradiction].
    - intros ty d He Hr. rewrite He, Hr in H2. destruct (w_explicit f); [reflexivity|contradiction]. }
  constructor; [|constructor; [|constructor]].
  - exists 1%nat, dw_fields0. split; [|split; [|reflexivity]].
    + unfold oneofs_valid, dw_fields0. cbn [map]. repeat (apply Forall_cons; [intros o Ho; cbn in *; first [discriminate Ho | injection Ho as <-; split; [lia|reflexivity]]|]). apply Forall_nil.
    + unfold dw_fields0. repeat (apply Forall_cons; [apply K; cbn; auto; lia|]). apply Forall_nil.
  - exists 0%nat, dw_fields1. split; [|split; [|reflexivity]].
    + apply Forall_cons; [discriminate|apply Forall_nil].
    + repeat (apply Forall_cons; [apply K; cbn; auto; try lia; discriminate|]). apply Forall_nil.
Qed.
Ltac held := match goal with |- match ?v with _ => _ end => let v' := eval vm_compute in v in change v with v' end; cbv beta iota; cbn [w_elem fst snd].
Ltac nums := unfold fits, in_vtype, fits_s, fix_size, all_bytes; repeat (first [split; [reflexivity|]|apply Forall_cons|apply Forall_nil]); try lia.
Ltac slots := split; [reflexivity|]; repeat (apply Forall_cons; [intros Hh; vm_compute in Hh; try discriminate Hh; clear Hh; cbn [fst snd]; held|]); try apply Forall_nil.
Lemma dw_typed1 : typed dw_types 1 1 [(1, CInt 5)] /\ typed dw_types 1 1 [(0, CZero)] /\ typed dw_types 1 1 [(0, CInt 5)].
Proof. split; [|split]; slots. nums. Qed.
Lemma dw_typed : typed dw_types 2 0 dw_message.
Proof.
  slots; [nums|nums|apply dw_typed1| |nums|nums|nums].
  split; [reflexivity|]. apply Forall_cons; [apply dw_typed1|]. apply Forall_cons; [apply dw_typed1|]. apply Forall_nil.
Qed.
Lemma dw_clean u : u [] = true -> clean dw_types u 2 0 dw_message.
Proof.
  intros Hu. repeat (apply Forall_cons; [intros _; cbn [fst snd]; held; cbn [clean_val]; auto; repeat (first [apply Forall_cons; [exact I|]|apply Forall_nil])|]); try apply Forall_nil.
  all: repeat (apply Forall_cons; [intros Hh; vm_compute in Hh; try discriminate Hh; clear Hh; cbn [fst snd]; held; reflexivity|]); try apply Forall_nil.
  apply Forall_cons; [|apply Forall_cons; [|apply Forall_nil]]; (apply Forall_cons; [intros Hh; vm_compute in Hh; try discriminate Hh; cbn [fst snd]; held; reflexivity|apply Forall_nil]).
Qed.
