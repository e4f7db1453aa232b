(** Descriptors for the examples of google.protobuf.Any. *)
From Coq Require Import Ascii String.
Require Import Verif.Bits Verif.Varint Verif.CppText Verif.Pool Verif.PoolSpec Verif.PoolAttrs Verif.DynSlots Verif.Dyn Verif.Schema Verif.Archive Verif.Decode Verif.DynWire Verif.DynDecode Verif.DynView Verif.DynJson Verif.DynJsonSpec Verif.DynJsonTree.
Require Import Verif.DynSlotsProofs Verif.DynWireEx Verif.DynJson1 Verif.DynJsonSafe Verif.DynJson7 Verif.DynJsonEx Verif.DynJsonBad Verif.DynAny Verif.DynAnySpec Verif.DynAnySafe Verif.DynAnyEx.
Require Verif.Factory4 Verif.Factory5.
Require Import Verif.Factory Verif.FactorySpec Verif.FactoryEx Verif.FactoryJson Verif.FactoryJsonSpec Verif.FactoryJsonEx.
Local Open Scope list_scope.
Local Open Scope Z_scope.

(** proto3, package [p]:
[[
    import "google/protobuf/any.proto";
    message M { google.protobuf.Any any = 1; int32 n = 2; }
    message Flat { int32 a = 1; }
]] *)
Definition ax_M := wk_message "M" [wk_field "any" "any" 1 1 11 ".google.protobuf.Any" None; wk_field "n" "n" 2 1 5 "" None] [] 0 false.
Definition ax_flat := wk_message "Flat" [wk_field "a" "a" 1 1 5 "" None] [] 0 false.
Definition ax_files := [FileProto (txt "a.proto") (txt "p") [fl_name any_proto] [ax_M; ax_flat] [] [] proto3_text 0 fx_none; any_proto].
Definition ax_made := match initialize fx_no_floats ax_files with Done r => r | _ => jx_none end.
Definition ax_pool : pool := Eval vm_compute in fst ax_made.
Definition ax_types : list wtype := Eval vm_compute in snd ax_made.
Definition ax_json : list jtype := Eval vm_compute in json_types ax_pool.
Notation ax_find := (get_message_type ax_pool).
Lemma ax_json_eq : json_types ax_pool = ax_json. Proof. vm_compute. reflexivity. Qed.
Example ax_representable : representable ax_files. Proof. apply representable_check. reflexivity. Qed.
Example ax_accepted : initialize fx_no_floats ax_files = Done (ax_pool, ax_types). Proof. vm_compute. reflexivity. Qed.
Example ax_names : json_names_distinct ax_files.
Proof. unfold json_names_distinct. repeat (apply Forall_cons; [apply Factory5.nodup_b_spec; vm_compute; reflexivity|]). apply Forall_nil. Qed.
Example ax_enums : enum_names_good ax_files.
Proof. unfold enum_names_good. apply Forall_nil. Qed.
Example ax_entries : entries_good ax_files.
Proof.
  split.
  - repeat (apply Forall_cons; [intros He; discriminate He|]). apply Forall_nil.
  - repeat (apply Forall_cons; [intros n m Ht Hn Hi He; first [reflexivity|exfalso; vm_compute in Ht; intuition discriminate|exfalso]|]); try apply Forall_nil.
    all: vm_compute in Hn; injection Hn as <-; vm_compute in Hi; repeat (destruct Hi as [Hi|Hi]; [try discriminate Hi; injection Hi as <-; discriminate He|]); destruct Hi.
Qed.
Example ax_defaults : no_implicit_defaults ax_files.
Proof. unfold no_implicit_defaults. repeat (apply Forall_cons; [right; reflexivity|]). apply Forall_nil. Qed.

(** { any: Flat { a: 5 }, n: 3 } *)
Definition ax_message : list slot := [(1, CMsg (da_any url_flat [8; 5])); (1, CInt 3)].
Definition ax_tree : json := JObj [(txt "any", JObj [(txt "@type", JStr url_flat); (txt "a", JNum (txt "5"))]); (txt "n", JNum (txt "3"))].
Lemma ax_written : awrite_json ax_types ax_json any_text true 8 dj_show ax_find 10 0 ax_message = Ok (render ax_tree).
Proof. vm_compute. reflexivity. Qed.
Lemma ax_typed : typed ax_types 10 0 ax_message.
Proof.
  split; [reflexivity|]. apply Forall_cons; [intros _|].
  - split; [reflexivity|]. apply Forall_cons; [intros _; apply bytes_in; reflexivity|]. apply Forall_cons; [intros _; apply bytes_in; reflexivity|]. apply Forall_nil.
  - apply Forall_cons; [intros _; cbn; nums|]. apply Forall_nil.
Qed.
Notation ax_print := (aprintable ax_types ax_json any_text 8 dj_show dj_parse ax_find).
Lemma ax_print_any n ty m : known_of ax_json ty = KAny -> any_printable ax_types ax_json any_text 8 ax_find n (ax_print n) ty m -> ax_print (S n) ty m.
Proof. intros K H. cbn [aprintable]. rewrite K. exact H. Qed.
Lemma ax_print_message n ty m : known_of ax_json ty = KNone -> w_entry (wty ax_types ty) = false ->
  (forall jf f l, In (jf, (f, l)) (jfields ax_types ax_json ty) -> has (f, l) m = true -> slot_printable any_text dj_show dj_parse (ax_print n) jf f l (slot_at m l)) -> ax_print (S n) ty m.
Proof. intros K E H. cbn [aprintable]. rewrite K. unfold printable_body. rewrite K, E. exact H. Qed.
Lemma ax_held : held ax_types ax_json any_text 8 ax_find 8 (ax_print 8) url_flat [8; 5].
Proof.
  exists 1%nat, [(1, CInt 5)]. split; [vm_compute; reflexivity|]. split; [vm_compute; reflexivity|]. split; [vm_compute; reflexivity|]. split; [vm_compute; reflexivity|].
  split; [split; [reflexivity|]; apply Forall_cons; [intros _; cbn; nums|apply Forall_nil]|]. split.
  - apply ax_print_message; [reflexivity|reflexivity|]. intros jf f l H _. cbn in H. destruct H as [H|[]]. injection H as <- <- <-. exact Logic.I.
  - intros _. split; [reflexivity|]. split; [cbn; intros K; repeat (destruct K as [K|K]; [discriminate K|]); exact K|]. intros f l t d H E. cbn in H. destruct H as [H|[]]. injection H as <- <-. discriminate E.
Qed.
Lemma ax_printable : ax_print 10 0 ax_message.
Proof.
  apply ax_print_message; [reflexivity|reflexivity|]. intros jf f l H Hh. cbn in H.
  destruct H as [H|[H|[]]]; injection H as <- <- <-; [|exact Logic.I]. intros ty d E. injection E as <- <-. apply ax_print_any; [reflexivity|]. do 4 eexists. exists url_flat, [8; 5].
  split; [reflexivity|]. split; [reflexivity|]. split; [left; reflexivity|]. split; [reflexivity|]. split; [reflexivity|]. exact ax_held.
Qed.
Lemma ax_quiet : aquiet ax_types ax_json ax_find (render ax_tree).
Proof.
  split.
  - intros b H. apply Forall_forall. intros c Hc.
    assert (K : forallb (fun t => match t with Str b => forallb (fun c => (0 <=? c) && (c <? 256)) b | _ => true end) (render ax_tree) = true) by (vm_compute; reflexivity).
    rewrite forallb_forall in K. specialize (K _ H). cbn in K. rewrite forallb_forall in K. specialize (K _ Hc). unfold is_byte. lia.
  - right. intros H. cbn in H. repeat (destruct H as [H|H]; [discriminate H|]). exact H.
Qed.
Lemma ax_readable : Forall (fun e => Forall (fun v => fits_s 32 (snd v)) (ep_values (snd e))) (all_enums ax_files) /\ floats_fit dj_parse /\ sound ax_types 10 0 (new_slots ax_types 0) /\
  aquiet ax_types ax_json ax_find (render ax_tree) /\ calm ax_json 0 (render ax_tree) /\
  aread_json ax_types ax_json any_text 8 dj_parse ax_find true 10 0 (new_slots ax_types 0) (render ax_tree) = Ok ax_message.
Proof.
  split; [apply Forall_nil|]. split; [exact dj_floats|]. split; [exact (sound_new ax_types (Factory4.factory_wellformed fx_no_floats ax_files ax_representable ax_pool ax_types ax_accepted ax_defaults) 9 0)|].
  split; [exact ax_quiet|]. split; [intros H; discriminate H|]. vm_compute. reflexivity.
Qed.
(** An Any whose URL names no message. *)
Definition ax_unknown : list slot := da_any (txt "x.y/p.None") [].
Lemma ax_refused : known_of ax_json 2 = KAny /\ map fst (all_messages ax_files) = [txt "p.M"; txt "p.Flat"; txt "google.protobuf.Any"] /\
  (exists f0 l0 f1 l1, w_fields (wty ax_types 2) = [(f0, l0); (f1, l1)] /\ value (dyn_of f0) l0 (slot_at ax_unknown l0) = FBytes (txt "x.y/p.None") /\ value (dyn_of f1) l1 (slot_at ax_unknown l1) = FBytes [] /\ has (f0, l0) ax_unknown = true) /\
  awrite_json ax_types ax_json any_text true 8 dj_show ax_find 10 2 ax_unknown = Err BadMessage.
Proof.
  split; [reflexivity|]. split; [vm_compute; reflexivity|]. split; [|vm_compute; reflexivity]. do 4 eexists. split; [reflexivity|]. split; [reflexivity|]. split; reflexivity.
Qed.
