(** What the gRPC library demands of the client of a stream, and what both ends of a stream
    rely on. *)
Require Import Verif.Bits Verif.Varint Verif.Schema Verif.Archive Verif.Decode Verif.Encode Verif.WellTyped Verif.Grpc Verif.GrpcSpec Verif.GrpcClient.

(** ** The rules *)
(** The call is started; a response is asked for, and its buffer set; a request was handed
    over, and its buffer read; there are no more requests; a request failed; the call is over *)
Record progress := Progress { started : bool; p_reading : bool; p_set : bool; p_writing : bool; p_taken : bool; p_closed : bool; p_failed : bool; over : bool }.
Inductive opinion := Good (x : progress) | Against | Strange.
(** The buffer of a request is not touched until OnWriteDone, that of a response is not read
    before OnReadDone.  The call is started once, there is one read and one write at a time,
    and no write after the last one. *)
Definition may_ask (o : cop) (x : progress) : opinion :=
  let '(Progress s r u w t c f d) := x in
  match o with
  | PStart => if s then Against else Good (Progress true r u w t c f d)
  | PRead => if r || d then Against else Good (Progress s true false w t c f d)
  | PWrite last => if w || c || d then Against else Good (Progress s r u true false (c || last) f d)
  | PWritesDone => if c || d then Against else Good (Progress s r u w t true f d)
  | PHold _ | PRelease => Good x
  end.
(** What the library does.  [rs]: the responses are a stream. *)
Definition may_do (rs : bool) (s : cstep) (x : progress) : opinion :=
  let '(Progress st r u w t c f d) := x in
  match s with
  | CGet _ => if r then Against else Good x
  | LTake => if st && w && negb t && negb f && negb d then Good (Progress st r u w true c f d) else Strange
  | LWritten ok => if w && (negb ok || t && negb f) then Good (Progress st r u false t c (f || negb ok) d) else Strange
  | LPut _ => if (if rs then r else true) && negb u && negb d then Good (Progress st r true w t c f d) else Strange
  | LRead ok => if r && Bool.eqb ok u then Good (Progress st false false w t c f d) else Strange
  | LWritesDone _ => if c then Good x else Strange
  | LDone _ => if d || r || w then Strange else Good (Progress st r u w t c f true)
  | _ => Good x
  end.
(** What the library sees: what it is asked for.  What the application sees: what it does,
    where a write counts if it returns OK. *)
Definition opined (lib rs : bool) (i : citem) (x : progress) : opinion :=
  match i with
  | Asks o => if lib then may_ask o x else Good x
  | Returns _ last s => if lib then Good x else if is_ok s then may_ask (PWrite last) x else Good x
  | Did CStart => if lib then Good x else may_ask PStart x
  | Did CRead => if lib then Good x else may_ask PRead x
  | Did CWritesDone => if lib then Good x else may_ask PWritesDone x
  | Did (CHold n) => if lib then Good x else may_ask (PHold n) x
  | Did CRelease => if lib then Good x else may_ask PRelease x
  | Did s => may_do rs s x
  | _ => Good x
  end.
Fixpoint opine (lib rs : bool) (l : list citem) (x : progress) : opinion :=
  match l with
  | [] => Good x
  | i :: t => match opined lib rs i x with Good y => opine lib rs t y | v => v end
  end.
(** At first; with one request, that was handed over. *)
Definition at_first : progress := Progress false false false false false false false false.
Definition with_request : progress := Progress false false false true false true false false.

(** ** Messages *)
(** The messages of which write returned OK *)
Definition accepted (i : citem) : option val := match i with Returns v _ s => if is_ok s then Some v else None | _ => None end.
Definition took (i : citem) : option buffer := match i with Takes b => Some b | _ => None end.
Definition put (i : citem) : option buffer := match i with Did (LPut b) => Some b | _ => None end.
Definition usable_step (s : cstep) : Prop := match s with LPut b => usable b | _ => True end.
Definition wt_step (wt : val -> Prop) (s : cstep) : Prop := match s with CWrite v _ => wt v | _ => True end.
(** What follows from a step, when [b] was put last *)
Definition follows (E : env) (utf8_ok : bytes -> bool) (maxd limit : Z) (qt rt : nat) (s : cstep) (b : buffer) (l : list citem) : Prop :=
  match s with
  | CStart => l = [Asks PStart]
  | CRead => l = [Asks PRead]
  | CWrite v last => wt_msg E utf8_ok qt v ->
      (exists bs, encode_bytes E utf8_ok maxd qt v = Ok bs) /\ l = [Asks (PWrite last); Returns v last s_ok] \/
      (exists e, encode_bytes E utf8_ok maxd qt v = Err e) /\ l = [Returns v last s_unwritten]
  | CWritesDone => l = [Asks PWritesDone]
  | CHold n => l = [Asks (PHold n)]
  | CRelease => l = [Asks PRelease]
  | CGet cur => l = [Gets (seen E utf8_ok limit rt cur b)]
  | LTake => exists q, l = [Takes q]
  | _ => l = []
  end.
(** The steps with what follows from each *)
Fixpoint follow (E : env) (utf8_ok : bytes -> bool) (maxd limit : Z) (qt rt : nat) (ss : list cstep) (b : buffer) (l : list citem) : Prop :=
  match ss with
  | [] => l = []
  | s :: t => exists x y, l = Did s :: x ++ y /\ follows E utf8_ok maxd limit qt rt s b x /\ follow E utf8_ok maxd limit qt rt t (match s with LPut b' => b' | _ => b end) y
  end.

(** ** From end to end *)
(** The network: what arrives is what was sent, in order and up to some point, with the same
    bytes. *)
Definition delivered (sent got : list buffer) : Prop := exists n, Forall2 same_bytes (firstn n sent) got.
(** The requests the library hands to the reactor of the server *)
Definition arrived (e : event) : option buffer := match e with EReadDone true b _ _ => Some b | _ => None end.
Definition act_of (i : item) : option action := match i with Act a => Some a | _ => None end.
(** What the handler does when it is given the messages [vs] one after the other, and all
    else that is reported *)
Fixpoint given (E : env) (utf8_ok : bytes -> bool) (limit : Z) (qt : nat) (H : handler) (h : h_state H) (es : list event) (vs : list val) : list action :=
  match es with
  | [] => []
  | e :: t =>
      match arrived e, vs with
      | Some _, v :: vs' => let '(h', acts) := h_read_ok H h (s_ok, Some v) in acts ++ given E utf8_ok limit qt H h' t vs'
      | Some _, [] => []
      | None, _ => let '((h', acts), _) := told E utf8_ok limit qt H e h in acts ++ given E utf8_ok limit qt H h' t vs
      end
  end.
(** What get_response gives is the last message that arrived, of [ws]. *)
Fixpoint in_turn_gets (ws : list val) (cur : option val) (l : list citem) : Prop :=
  match l with
  | [] => True
  | Did (LPut _) :: t => match ws with w :: ws' => in_turn_gets ws' (Some w) t | [] => False end
  | Gets g :: t => (forall w, cur = Some w -> g = (s_ok, Some w)) /\ in_turn_gets ws cur t
  | _ :: t => in_turn_gets ws cur t
  end.
Definition no_write (s : cstep) : Prop := match s with CWrite _ _ => False | _ => True end.
