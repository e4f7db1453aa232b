(** What the gRPC library demands of a reactor, and what an application relies on. *)
Require Import Verif.Bits Verif.Varint Verif.Schema Verif.Archive Verif.Decode Verif.Encode Verif.WellTyped Verif.Grpc.

(** Buffers with the same bytes, however they are cut *)
Definition same_bytes (a b : buffer) : Prop :=
  match a, b with Slices x, Slices y => concat x = concat y | _, _ => a = b end.

(** ** The rules of a stream *)
(** At most one read and one write at a time, the RPC is finished at most once, nothing is
    started afterwards.  The library reports the end of what was started. *)
Record outstanding := Out { reading : bool; writing : bool; finished : bool }.
Definition idle : outstanding := Out false false false.
(** [Broken]: against the rules.  [Odd]: the library reports what was not started. *)
Inductive verdict := Fine (x : outstanding) | Broken | Odd.
Definition report (e : event) (x : outstanding) : verdict :=
  match e with
  | EReadDone _ _ _ _ => if reading x then Fine (Out false (writing x) (finished x)) else Odd
  | EWriteDone _ _ => if writing x then Fine (Out (reading x) false (finished x)) else Odd
  | ECancel => Fine x
  end.
Definition begin_read (x : outstanding) : verdict := if reading x || finished x then Broken else Fine (Out true (writing x) (finished x)).
Definition begin_write (x : outstanding) : verdict := if writing x || finished x then Broken else Fine (Out (reading x) true (finished x)).
Definition end_rpc (x : outstanding) : verdict := if finished x then Broken else Fine (Out (reading x) (writing x) true).
Definition end_with (x : outstanding) : verdict := if writing x || finished x then Broken else Fine (Out (reading x) (writing x) true).

(** What the library sees: events and calls *)
Definition asked (o : op) : outstanding -> verdict :=
  match o with
  | ORead => begin_read
  | OWrite _ => begin_write
  | OFinish _ => end_rpc
  | OWriteFinish _ _ => end_with
  | OReply _ _ => end_rpc
  end.
(** What the handler sees: events and its own actions *)
Definition acted (a : action) : outstanding -> verdict :=
  match a with
  | ARead => begin_read
  | AWrite _ => begin_write
  | AFinish _ => end_rpc
  | AWriteFinish _ _ => end_with
  | AReply _ => end_rpc
  end.
Definition judged (lib : bool) (i : item) (x : outstanding) : verdict :=
  match i with
  | Ev e => report e x
  | Act a => if lib then Fine x else acted a x
  | Call o => if lib then asked o x else Fine x
  | Left => Fine x
  end.
Fixpoint judge (lib : bool) (l : list item) (x : outstanding) : verdict :=
  match l with
  | [] => Fine x
  | i :: t => match judged lib i x with Fine y => judge lib t y | v => v end
  end.
Notation seen_by_library l := (judge true l idle).
Notation seen_by_handler l := (judge false l idle).

(** ** Handlers *)
(** The handler finishes only when nothing is outstanding, and has no read and write
    outstanding at the same time. *)
Definition calm (i : item) (x : outstanding) : bool :=
  match i with
  | Act ARead => negb (writing x)
  | Act (AWrite _) => negb (reading x)
  | Act _ => negb (reading x) && negb (writing x)
  | _ => true
  end.
Fixpoint stays_calm (l : list item) (x : outstanding) : bool :=
  match l with
  | [] => true
  | i :: t => calm i x && match judged false i x with Fine y => stays_calm t y | _ => true end
  end.
(** A function for failures that does nothing unless it handles them *)
Definition quiet {X} (f : option (X -> (X * list action) * bool)) : Prop :=
  match f with Some f => forall x, snd (f x) = false -> snd (fst (f x)) = [] | None => True end.
(** One that handles every failure *)
Definition handles {X} (f : option (X -> (X * list action) * bool)) : Prop :=
  exists g, f = Some g /\ forall x, snd (g x) = true.

(** Whatever happens, the replies are messages of their type. *)
Definition well_formed (wt : val -> Prop) (a : action) : Prop :=
  match a with AWrite v | AWriteFinish v _ | AReply v => wt v | _ => True end.
Definition tidy (wt : val -> Prop) (H : handler) : Prop :=
  let ok {X} (p : X * list action) := Forall (well_formed wt) (snd p) in
  let ok_option f := match f with Some g => forall x : h_state H, ok (fst (g x)) | None => True end in
  ok (h_start H) /\ (forall x q, ok (h_read_ok H x q)) /\ (forall x, ok (h_write_ok H x)) /\ (forall x, ok (h_cancel H x)) /\
  ok_option (h_write_error H) /\ ok_option (h_read_cancel H) /\ ok_option (h_read_eof H).

(** ** Messages *)
(** The bytes of a buffer *)
Definition content (b : buffer) : bytes := match b with Slices l => concat l | _ => [] end.
(** Its bytes are bytes, and not more than there can be. *)
Definition usable (b : buffer) : Prop := all_bytes (content b) /\ (zlen (content b) < 2 ^ 62)%Z.
Definition written (i : item) : option val :=
  match i with Act (AWrite v) | Act (AWriteFinish v _) | Act (AReply v) => Some v | _ => None end.
Definition sent (i : item) : option buffer :=
  match i with Call (OWrite b) | Call (OWriteFinish b _) | Call (OReply b _) => Some b | _ => None end.
Fixpoint some_of {X Y} (f : X -> option Y) (l : list X) : list Y :=
  match l with [] => [] | x :: t => match f x with Some y => y :: some_of f t | None => some_of f t end end.

(** What is seen of a buffer that is read into [cur] *)
Definition seen (E : env) (utf8_ok : bytes -> bool) (limit : Z) (ty : nat) (cur : val) (b : buffer) : gstatus * option val :=
  match b with
  | Unreadable => (s_compressed, Some cur)
  | _ => match decode_bytes E utf8_ok limit ty (default_msg E ty) (content b) with Ok v => (s_ok, Some v) | _ => (s_unread, None) end
  end.
Definition usable_event (e : event) : Prop := match e with EReadDone _ b _ _ => usable b | _ => True end.
(** A reply that can be written, and a buffer with its bytes *)
Definition writable (E : env) (utf8_ok : bytes -> bool) (maxd : Z) (rt : nat) (v : val) : Prop :=
  wt_msg E utf8_ok rt v /\ exists bs, encode_bytes E utf8_ok maxd rt v = Ok bs.
Definition carries (E : env) (utf8_ok : bytes -> bool) (maxd : Z) (rt : nat) (v : val) (b : buffer) : Prop :=
  exists l bs, b = Slices l /\ encode_bytes E utf8_ok maxd rt v = Ok bs /\ concat l = bs.
(** Failures reported by the library: the function of the handler for it, and the status
    with which the RPC is finished if the handler leaves it *)
Definition failure_of (H : handler) (e : event) : option (option (h_state H -> (h_state H * list action) * bool) * gstatus) :=
  match e with
  | EWriteDone false c => Some (h_write_error H, if c then s_cancelled else s_write_failed)
  | EReadDone false _ c1 c2 => Some (if c1 then h_read_cancel H else h_read_eof H, if c2 then s_cancelled else s_ok)
  | _ => None
  end.
Definition leaves {X} (f : option (X -> (X * list action) * bool)) : Prop := match f with Some g => forall x, snd (g x) = false | None => True end.

(** ** The handler *)
(** What the handler does when something is reported, and whether it leaves it *)
Definition told (E : env) (utf8_ok : bytes -> bool) (limit : Z) (qt : nat) (H : handler) (e : event) (h : h_state H) : (h_state H * list action) * bool :=
  match failure_of H e with
  | Some (Some f, _) => let '(r, handled) := f h in (r, negb handled)
  | Some (None, _) => ((h, []), true)
  | None =>
      (match e with
       | EReadDone _ b _ _ => h_read_ok H h (seen E utf8_ok limit qt (default_msg E qt) b)
       | EWriteDone _ _ => h_write_ok H h
       | ECancel => h_cancel H h
       end, false)
  end.
(** The reports and what the handler does, in order *)
Fixpoint script (E : env) (utf8_ok : bytes -> bool) (limit : Z) (qt : nat) (H : handler) (h : h_state H) (es : list event) : list item :=
  match es with
  | [] => []
  | e :: t => let '((h', acts), lv) := told E utf8_ok limit qt H e h in Ev e :: map Act acts ++ (if lv then [Left] else []) ++ script E utf8_ok limit qt H h' t
  end.
Definition is_call (i : item) : bool := match i with Call _ => true | _ => false end.
(** What the library is asked for on behalf of an action *)
Definition asks_for (E : env) (utf8_ok : bytes -> bool) (maxd : Z) (rt : nat) (a : action) (o : op) : Prop :=
  let message v o' := wt_msg E utf8_ok rt v ->
    (exists b, carries E utf8_ok maxd rt v b /\ o = o' b) \/ (exists e, encode_bytes E utf8_ok maxd rt v = Err e) /\ o = OFinish s_unwritten in
  match a with
  | ARead => o = ORead
  | AWrite v => message v OWrite
  | AFinish s => o = OFinish s
  | AWriteFinish v s => message v (fun b => OWriteFinish b s)
  | AReply v => message v (fun b => OReply b s_ok)
  end.
(** Each action is followed by what it asks for, each failure that is left by finishing, and
    there is nothing else. *)
Fixpoint in_step (does : action -> op -> Prop) (l : list item) : Prop :=
  match l with
  | [] => True
  | Ev _ :: t => in_step does t
  | Act a :: Call o :: t => does a o /\ in_step does t
  | Left :: Call (OFinish _) :: t => in_step does t
  | _ => False
  end.
