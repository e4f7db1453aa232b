(** C51, C61, C62: dynamic messages.

    [slot_layout count fs] is the layout of a message type with [count] oneofs and the
    fields [fs]; [None]: the type is refused.  [made count fs t]: [t] is the message
    type the factory makes of valid fields [fs].  [look t i m] is what a user reads of
    field [i] of the message [m]: whether it has a value, and its value.
    [view E n ty m]: all the fields, looking [n] messages deep. *)
Require Import Verif.Bits Verif.DynSlots Verif.DynSlotsProofs Verif.Dyn Verif.DynMain Verif.DynClone.

(** ** C51: slots *)

(** Every field has a slot inside the message, and every slot of the message is the
    slot of some field. *)
Theorem C51_slots : forall count fs ls slots, oneofs_valid count fs -> slot_layout count fs = Some (ls, slots) ->
  length ls = length fs /\ forall s, (s < slots)%nat <-> exists i l, nth_error ls i = Some l /\ l_slot l = s.
Proof. exact slots_used. Qed.
Print Assumptions C51_slots.

(** Two fields have the same slot exactly when they are the same field or
    alternatives of one oneof. *)
Theorem C51_share : forall count fs ls slots i j l m, oneofs_valid count fs -> slot_layout count fs = Some (ls, slots) ->
  nth_error ls i = Some l -> nth_error ls j = Some m -> (l_slot l = l_slot m <-> i = j \/ alternatives fs i j).
Proof. exact share_iff. Qed.
Print Assumptions C51_share.

(** When field [i] of a oneof is the one stored, every alternative [j] of the oneof
    reports [i] as the active field, and only [i] itself reports a value.  Nothing
    stored: no active field and no value. *)
Theorem C51_active : forall count fs ls slots i j l m, oneofs_valid count fs -> slot_layout count fs = Some (ls, slots) -> Z.of_nat (length fs) <= 2 ^ 31 ->
  alternatives fs i j -> nth_error ls i = Some l -> nth_error ls j = Some m ->
  active_oneof_index m (l_ordinal l) = Z.of_nat i /\ (has_word false m (l_ordinal l) = true <-> j = i) /\ active_oneof_index m 0 = -1 /\ has_word false m 0 = false.
Proof. exact active_of. Qed.
Print Assumptions C51_active.

(** A field outside oneofs reports itself when something is stored; a singular one
    is marked by 1 and a repeated one by its size. *)
Theorem C51_active_plain : forall count fs ls slots i f l w, oneofs_valid count fs -> slot_layout count fs = Some (ls, slots) -> Z.of_nat (length fs) <= 2 ^ 31 ->
  nth_error fs i = Some f -> d_oneof f = None -> nth_error ls i = Some l -> 0 <= w ->
  active_oneof_index l w = (if w =? 0 then -1 else Z.of_nat i) /\ (d_repeated f = false -> l_ordinal l = 1) /\ has_word (d_repeated f) l w = (if d_repeated f then 0 <? w else w =? 1).
Proof. exact active_plain. Qed.
Print Assumptions C51_active_plain.

(** A message type is refused exactly when the fields of some oneof are not
    consecutive or are more than 65534. *)
Theorem C51_accepted : forall count fs, oneofs_valid count fs ->
  ((exists ls slots, slot_layout count fs = Some (ls, slots)) <-> contiguous fs /\ forall o, Z.of_nat (members fs o) <= 65534).
Proof. exact accepted_iff. Qed.
Print Assumptions C51_accepted.

(** A type with a plain field, a oneof of two, a repeated field, a oneof of three. *)
Definition some_fields := [DField None false; DField (Some 0%nat) false; DField (Some 0%nat) false; DField None true; DField (Some 1%nat) false; DField (Some 1%nat) false; DField (Some 1%nat) false].
Definition some_layouts := match slot_layout 2 some_fields with Some (ls, _) => ls | None => [] end.
Example some_fields_valid : oneofs_valid 2 some_fields.
Proof. repeat apply Forall_cons; try apply Forall_nil; cbn; intros o H; try discriminate H; injection H as <-; (split; [lia|reflexivity]). Qed.
Example some_fields_slots : slot_layout 2 some_fields = Some (some_layouts, 4%nat) /\ map l_slot some_layouts = [0; 1; 1; 2; 3; 3; 3]%nat /\ map l_ordinal some_layouts = [1; 2; 3; 0; 2; 3; 4].
Proof. vm_compute. auto. Qed.
Example some_fields_active : alternatives some_fields 4 6 /\ map (fun l => active_oneof_index l 3) some_layouts = [0; 2; 2; 3; 5; 5; 5].
Proof. split; [exists 1%nat; split; reflexivity|vm_compute; reflexivity]. Qed.
(** A oneof interrupted by another field is refused. *)
Example interrupted : oneofs_valid 1 [DField (Some 0%nat) false; DField None false; DField (Some 0%nat) false] /\
  slot_layout 1 [DField (Some 0%nat) false; DField None false; DField (Some 0%nat) false] = None.
Proof. split; [repeat apply Forall_cons; try apply Forall_nil; cbn; intros o H; try discriminate H; injection H as <-; (split; [lia|reflexivity])|vm_compute; reflexivity]. Qed.

(** ** C61: reading and writing fields *)
(** In a new message no field has a value and every field reads as its default. *)
Theorem C61_new : forall count fs t i f l, made count fs t -> field t i = Some (f, l) -> look t i (new_message t) = Some (false, default_value f).
Proof. exact new_look. Qed.
Print Assumptions C61_new.

(** set succeeds exactly on values of the kind of the field. *)
Theorem C61_set_accepts : forall t i f l v m, field t i = Some (f, l) -> ((exists m', set_field t i v m = Some m') <-> accepts (y_kind f) v = true).
Proof. exact set_accepted. Qed.
Print Assumptions C61_set_accepts.

(** A field reads as what it was set to. *)
Theorem C61_get_after_set : forall count fs t i v m m', made count fs t -> length m = t_slots t -> set_field t i v m = Some m' ->
  look t i m' = Some (input_present v, input_value v) /\ length m' = length m.
Proof. exact set_same. Qed.
Print Assumptions C61_get_after_set.

(** Setting a field changes no other field, except the alternatives of its oneof. *)
Theorem C61_set_others : forall count fs t i j v m m', made count fs t -> set_field t i v m = Some m' -> j <> i -> ~ alternatives (dfields fs) i j -> look t j m' = look t j m.
Proof. exact set_other. Qed.
Print Assumptions C61_set_others.

(** Setting a member of a oneof clears the others. *)
Theorem C61_set_oneof : forall count fs t i j g k v m m', made count fs t -> length m = t_slots t -> set_field t i v m = Some m' ->
  field t j = Some (g, k) -> j <> i -> alternatives (dfields fs) i j -> look t j m' = Some (false, default_value g).
Proof. exact set_alternative. Qed.
Print Assumptions C61_set_oneof.

(** The same for emplace on message fields: the new message is empty. *)
Theorem C61_emplace : forall count fs t i f l n m, made count fs t -> length m = t_slots t -> field t i = Some (f, l) -> (exists ty, y_kind f = KMsg ty) ->
  look t i (emplace_field n t i m) = Some (true, FMsg (repeat zero_slot n)).
Proof. exact emplace_same. Qed.
Print Assumptions C61_emplace.
Theorem C61_emplace_others : forall count fs t i j n m, made count fs t -> j <> i -> ~ alternatives (dfields fs) i j -> look t j (emplace_field n t i m) = look t j m.
Proof. exact emplace_other. Qed.
Print Assumptions C61_emplace_others.
Theorem C61_emplace_oneof : forall count fs t i j g k n m, made count fs t -> length m = t_slots t -> field t j = Some (g, k) -> field t i <> None -> j <> i -> alternatives (dfields fs) i j ->
  look t j (emplace_field n t i m) = Some (false, default_value g).
Proof. exact emplace_alternative. Qed.
Print Assumptions C61_emplace_oneof.

(** A cleared field has no value, and reads as its default if it has explicit
    presence or is repeated; fields outside its oneof do not change. *)
Theorem C61_clear : forall count fs t i f l m, made count fs t -> length m = t_slots t -> field t i = Some (f, l) ->
  exists v, look t i (clear_field t i m) = Some (false, v) /\ (y_explicit f = true \/ Dyn.repeated f = true -> v = default_value f).
Proof. exact clear_same. Qed.
Print Assumptions C61_clear.
Theorem C61_clear_others : forall count fs t i j m, made count fs t -> j <> i -> ~ alternatives (dfields fs) i j -> look t j (clear_field t i m) = look t j m.
Proof. exact clear_other. Qed.
Print Assumptions C61_clear_others.

(** The content of every slot fits the field that reads it: in a new message, and
    after set, emplace and clear.  So no read of a message, at any depth, yields an
    unspecified value. *)
Theorem C61_typed : forall E ty, env_made E ->
  typed E ty (new_message (E ty)) /\
  forall m i, typed E ty m ->
    typed E ty (clear_field (E ty) i m) /\
    (forall v m', set_field (E ty) i v m = Some m' -> typed E ty m') /\
    (forall f l ty', field (E ty) i = Some (f, l) -> y_kind f = KMsg ty' -> typed E ty (emplace_field (t_slots (E ty')) (E ty) i m)).
Proof.
  intros E ty HE. split; [exact (new_typed E ty HE)|]. intros m i T. split; [exact (clear_typed E ty i m HE T)|]. split.
  - intros v m'. exact (set_typed E ty i v m m' HE T).
  - intros f l ty'. exact (emplace_typed E ty i m f l ty' HE T).
Qed.
Print Assumptions C61_typed.
Theorem C61_defined : forall E n ty m, typed E ty m -> defined (view E n ty m) = true.
Proof. exact typed_defined. Qed.
Print Assumptions C61_defined.

(** *** Example types and findings *)
Definition make (count : nat) (fs : list dynf) : dtype := match dtype_of count fs with Some t => t | None => DType [] 0 end.
Definition f_int (o : option nat) (e : bool) (d : Z) := DynF KInt o e d [].
Definition f_str (o : option nat) (e : bool) (d : bytes) := DynF KBytes o e 0 d.
(** 0: optional int32 = 7; string; message 1; repeated message 1; enum; repeated int.
    1: int32; optional string.
    2: oneof { int64; string; message 1; enum }; int32. *)
Definition fields0 := [f_int (Some 0%nat) true 7; f_str None false []; DynF (KMsg 1) None true 0 []; DynF (KMsgs 1) None false 0 []; DynF KEnum None true 3 []; DynF KInts None false 0 []].
Definition fields1 := [f_int None false 0; f_str None true [104; 105]].
Definition fields2 := [f_int (Some 0%nat) true 0; f_str (Some 0%nat) true []; DynF (KMsg 1) (Some 0%nat) true 0 []; DynF KEnum (Some 0%nat) true 3 []; f_int None false 0].
Definition dyn_env (ty : nat) : dtype := match ty with 0%nat => make 1 fields0 | 1%nat => make 0 fields1 | _ => make 1 fields2 end.
Definition simple_env (ty : nat) : dtype := match ty with 0%nat => make 1 fields0 | _ => make 0 fields1 end.
(** oneof { string; int64 }; int32. *)
Definition fields3 := [f_str (Some 0%nat) true []; f_int (Some 0%nat) true 0; f_int None false 0].
Ltac valid := repeat apply Forall_cons; try apply Forall_nil; cbn; intros o H; try discriminate H; injection H as <-; (split; [lia|reflexivity]).
Ltac validf := repeat apply Forall_cons; try apply Forall_nil; cbn; (split; [intros o H; try discriminate H; reflexivity|intros H; try discriminate H; split; reflexivity]).
Example made0 : made 1 fields0 (dyn_env 0).
Proof. split; [valid|]. split; [validf|]. vm_compute. reflexivity. Qed.
Example made1 : made 0 fields1 (dyn_env 1).
Proof. split; [valid|]. split; [validf|]. vm_compute. reflexivity. Qed.
Example made2 : made 1 fields2 (dyn_env 2).
Proof. split; [valid|]. split; [validf|]. vm_compute. reflexivity. Qed.
Example dyn_env_made : env_made dyn_env.
Proof. intros [|[|ty]]; [exists 1%nat, fields0; exact made0|exists 0%nat, fields1; exact made1|exists 1%nat, fields2; exact made2]. Qed.
Example made3 : made 1 fields3 (make 1 fields3).
Proof. split; [valid|]. split; [validf|]. vm_compute. reflexivity. Qed.
Example simple_env_single : env_single simple_env.
Proof.
  intros [|ty]; [exists 1%nat, fields0; split; [exact made0|]|exists 0%nat, fields1; split; [exact made1|]]; intros i j (o & Hi & Hj).
  - assert (K : forall n, oneof_at (dfields fields0) n = Some o -> n = 0%nat) by (intros n Hn; do 6 (destruct n as [|n]; [try discriminate Hn; reflexivity|]); destruct n; discriminate Hn).
    rewrite (K i Hi), (K j Hj). reflexivity.
  - do 2 (destruct i as [|i]; [discriminate Hi|]). destruct i; discriminate Hi.
Qed.
Example slots2 : t_slots (dyn_env 2) = 2%nat /\ alternatives (dfields fields2) 0 1.
Proof. split; [reflexivity|]. exists 0%nat. split; reflexivity. Qed.

(** Finding: after clear_field a numeric field without presence still reads as its
    old value, and so does a string. *)
Theorem C61_clear_value_refuted : exists count fs t i v m f l, made count fs t /\ set_field t i v (new_message t) = Some m /\ field t i = Some (f, l) /\
  look t i (clear_field t i m) = Some (false, input_value v) /\ input_value v <> default_value f.
Proof. exists 0%nat, fields1, (dyn_env 1), 0%nat, (IInt 5). do 3 eexists. split; [exact made1|]. split; [vm_compute; reflexivity|]. split; [vm_compute; reflexivity|]. split; [vm_compute; reflexivity|discriminate]. Qed.
Print Assumptions C61_clear_value_refuted.

(** Finding: clearing a member of a oneof that is not active clears the active one. *)
Theorem C61_clear_oneof_refuted : exists count fs t i j v m, made count fs t /\ i <> j /\ set_field t i v (new_message t) = Some m /\
  look t j m = Some (false, FBytes []) /\ look t i m = Some (true, FInt 5) /\ look t i (clear_field t j m) = Some (false, FInt 0).
Proof. exists 1%nat, fields2, (dyn_env 2), 0%nat, 1%nat, (IInt 5). eexists. split; [exact made2|]. split; [discriminate|]. split; [vm_compute; reflexivity|]. split; [vm_compute; reflexivity|]. split; vm_compute; reflexivity. Qed.
Print Assumptions C61_clear_oneof_refuted.

(** Finding: reading an absent enum through its mutable reference overwrites the
    content of the active alternative. *)
Theorem C61_read_enum_refuted : exists count fs t i j v m, made count fs t /\ i <> j /\ set_field t i v (new_message t) = Some m /\
  look t i m = Some (true, input_value v) /\ look t i (peek_enum t j m) <> look t i m.
Proof. exists 1%nat, fields2, (dyn_env 2), 1%nat, 3%nat, (IBytes [97]). eexists. split; [exact made2|]. split; [discriminate|]. split; [vm_compute; reflexivity|]. split; [vm_compute; reflexivity|vm_compute; discriminate]. Qed.
Print Assumptions C61_read_enum_refuted.

(** ** C62: cloning *)
(** clone_from ends on every message. *)
Theorem C62_ends : forall E ty dst src, exists fuel r, clone_message E fuel ty dst src = Some r.
Proof. intros E ty dst src. exists (S (mdepth src)). apply clone_ends. lia. Qed.
Print Assumptions C62_ends.

(** Among types whose oneofs have one member each (the proto3 optional fields), a
    clone shows the same values as its source at every depth, whatever the target
    held before, and the same presence except that numeric fields with explicit
    presence are always present.  [tidy]: no field was cleared that C61_clear_value_refuted is about. *)
Theorem C62_clone : forall E fuel ty dst src r, env_single E -> typed E ty dst -> typed E ty src -> (forall n, tidy (view E n ty src) = true) ->
  clone_message E fuel ty dst src = Some r -> forall n, view E n ty r = copied (view E n ty src).
Proof. intros E fuel ty dst src r HE Td Ts Ht H. exact (proj2 (clone_good E fuel HE ty dst src r Td Ts H) Ht). Qed.
Print Assumptions C62_clone.

(** If the numeric fields with explicit presence are all set, the clone is equal. *)
Theorem C62_equal : forall E fuel ty dst src r, env_single E -> typed E ty dst -> typed E ty src -> (forall n, tidy (view E n ty src) = true /\ all_set (view E n ty src) = true) ->
  clone_message E fuel ty dst src = Some r -> forall n, view E n ty r = view E n ty src.
Proof.
  intros E fuel ty dst src r HE Td Ts Ht H n. rewrite <- (copied_all_set _ (proj2 (Ht n))).
  exact (proj2 (clone_good E fuel HE ty dst src r Td Ts H) (fun k => proj1 (Ht k)) n).
Qed.
Print Assumptions C62_equal.

(** The clone is well typed, and the hypotheses hold of messages built by set. *)
Theorem C62_typed : forall E fuel ty dst src r, env_single E -> typed E ty dst -> typed E ty src -> clone_message E fuel ty dst src = Some r -> typed E ty r.
Proof. intros E fuel ty dst src r HE Td Ts H. exact (proj1 (clone_good E fuel HE ty dst src r Td Ts H)). Qed.
Print Assumptions C62_typed.
Theorem C62_tidy : forall E n ty, env_made E -> tidy (view E n ty (new_message (E ty))) = true /\
  forall i v m m', length m = t_slots (E ty) -> tidy (view E n ty m) = true -> set_field (E ty) i v m = Some m' -> tidy (view E n ty m') = true.
Proof. intros E n ty HE. split; [exact (new_tidy E n ty HE)|]. intros i v m m'. exact (set_tidy E n ty i v m m' HE). Qed.
Print Assumptions C62_tidy.

(** Setting a message field to a message. *)
Theorem C62_set_message : forall E fuel ty l src s s' f, env_single E -> y_kind f = KMsg ty -> typed_slot (typed E) f l s -> typed E ty src -> (forall n, tidy (view E n ty src) = true) ->
  set_message E fuel ty l src s = Some s' -> exists m, value f l s' = FMsg m /\ has_value f l s' = true /\ forall n, view E n ty m = copied (view E n ty src).
Proof. exact set_message_shows. Qed.
Print Assumptions C62_set_message.

(** Finding: an optional numeric field absent in the source is present in the clone. *)
Theorem C62_absent_refuted : exists E fuel ty src r i f l, env_single E /\ typed E ty src /\ clone_message E fuel ty (new_message (E ty)) src = Some r /\
  field (E ty) i = Some (f, l) /\ look (E ty) i src = Some (false, FInt 7) /\ look (E ty) i r = Some (true, FInt 7).
Proof.
  assert (M : env_made simple_env) by (intros [|ty]; [exists 1%nat, fields0; exact made0|exists 0%nat, fields1; exact made1]).
  exists simple_env, 1%nat, 0%nat, (new_message (simple_env 0)). do 4 eexists. split.
  - exact simple_env_single.
  - split; [apply new_typed; exact M|]. split; [vm_compute; reflexivity|]. instantiate (1 := 0%nat). split; [vm_compute; reflexivity|]. split; vm_compute; reflexivity.
Qed.
Print Assumptions C62_absent_refuted.

(** Finding: with a oneof of several members, the fields after it may not be cloned. *)
Theorem C62_oneof_refuted : exists E fuel ty m src r, env_made E /\ set_field (E ty) 1 (IBytes [97]) (new_message (E ty)) = Some m /\ set_field (E ty) 4 (IInt 5) m = Some src /\
  clone_message E fuel ty (new_message (E ty)) src = Some r /\
  look (E ty) 1 src = Some (true, FBytes [97]) /\ look (E ty) 4 src = Some (true, FInt 5) /\ look (E ty) 4 r = Some (false, FInt 0).
Proof.
  exists dyn_env, 1%nat, 2%nat. do 3 eexists. split; [exact dyn_env_made|]. split; [vm_compute; reflexivity|]. split; [vm_compute; reflexivity|]. split; [vm_compute; reflexivity|].
  split; [vm_compute; reflexivity|]. split; vm_compute; reflexivity.
Qed.
Print Assumptions C62_oneof_refuted.

(** Finding: or the active member is replaced by an inactive numeric one. *)
Theorem C62_active_refuted : exists count fs t fuel src r, made count fs t /\ set_field t 0 (IBytes [97]) (new_message t) = Some src /\
  clone_message (fun _ => t) fuel 0 (new_message t) src = Some r /\
  look t 0 src = Some (true, FBytes [97]) /\ look t 1 src = Some (false, FInt 0) /\ look t 0 r = Some (false, FBytes []) /\ look t 1 r = Some (true, FInt 0).
Proof.
  exists 1%nat, fields3, (make 1 fields3), 1%nat. do 2 eexists. split; [exact made3|]. split; [vm_compute; reflexivity|]. split; [vm_compute; reflexivity|].
  split; [vm_compute; reflexivity|]. split; [vm_compute; reflexivity|]. split; vm_compute; reflexivity.
Qed.
Print Assumptions C62_active_refuted.

(** A message with nested and repeated messages that meets the hypotheses of C62_equal:
    optional int 1, string "a", message { int 9 }, two messages, enum 3, ints. *)
Definition inner_slots (z : Z) : list slot := [(1, CInt z); (1, CBytes [98])].
Definition outer_slots : list slot :=
  [(2, CInt 1); (1, CBytes [97]); (1, CMsg (inner_slots 9)); (2, CMsgs [inner_slots 4; inner_slots 0]); (1, CInt 3); (3, CInts [7; 8; 9])].
Example inner_typed : forall z, typed simple_env 1 (inner_slots z).
Proof.
  intros z. constructor; [reflexivity|]. intros f l [[= <- <-]|[[= <- <-]|[]]]; [apply TyInt; [auto|]|apply TyBytes; [auto|]]; intros _; right; eexists; reflexivity.
Qed.
Example outer_typed : typed simple_env 0 outer_slots.
Proof.
  constructor; [reflexivity|]. intros f l [[= <- <-]|[[= <- <-]|[[= <- <-]|[[= <- <-]|[[= <- <-]|[[= <- <-]|[]]]]]]].
  - apply TyInt; [auto|]. intros _. right. eexists. reflexivity.
  - apply TyBytes; [auto|]. intros _. right. eexists. reflexivity.
  - eapply (TyMsg _ _ _ _ 1%nat); [reflexivity|reflexivity|reflexivity|apply inner_typed].
  - eapply (TyMsgs _ _ _ _ 1%nat); [reflexivity|reflexivity|cbn; lia|]. repeat apply Forall_cons; try apply Forall_nil; apply inner_typed.
  - apply TyInt; [auto|]. intros _. right. eexists. reflexivity.
  - eapply TyInts; [reflexivity|reflexivity|cbn; lia].
Qed.
Example outer_tidy : forall n, tidy (view simple_env n 0 outer_slots) = true /\ all_set (view simple_env n 0 outer_slots) = true.
Proof. intros [|[|n]]; [split; vm_compute; reflexivity|split; vm_compute; reflexivity|]. destruct n; split; vm_compute; reflexivity. Qed.
Example outer_clone : exists r, clone_message simple_env 3 0 (new_message (simple_env 0)) outer_slots = Some r /\ view simple_env 3 0 r = view simple_env 3 0 outer_slots.
Proof. eexists. split; [vm_compute; reflexivity|vm_compute; reflexivity]. Qed.
