(** The binary encoder of dynamic messages: model of
    include/hpp_proto/dynamic_message/pb_serializer_ext.hpp:356-658, on the storage
    of Dyn.v.  It is called by pb_serializer::serialize (binpb/serialize.hpp:552-673)
    in place of the templates over generated messages. *)
Require Import Verif.Bits Verif.Varint Verif.DynSlots Verif.Dyn Verif.Schema Verif.Archive Verif.Decode Verif.Encode Verif.Output.

(** ** Descriptors *)
(** What the serializer asks of a field_descriptor_t: its number, type, whether it is
    repeated, and then packed ([w_rep]), the oneof it belongs to,
    explicit_presence() (types.hpp:198-201) and its default value.  The [view] flag of
    string types is not used. *)
Record wfield := WField { w_num : Z; w_elem : elem; w_rep : option bool; w_oneof : option nat; w_explicit : bool; w_dint : Z; w_dbytes : bytes }.
Definition is_rep (f : wfield) : bool := match w_rep f with Some _ => true | None => false end.

(** The kind of storage, runtime_traits_for (factory.cpp:146-260). *)
Definition kind_of (e : elem) (rep : bool) : dkind :=
  match e with
  | EVar _ | EBool | EFix _ _ => if rep then KInts else KInt
  | EEnum _ => if rep then KInts else KEnum
  | EBytes _ _ => if rep then KStrs else KBytes
  | EMsg ty _ => if rep then KMsgs ty else KMsg ty
  end.
Definition dyn_of (f : wfield) : dynf := DynF (kind_of (w_elem f) (is_rep f)) (w_oneof f) (w_explicit f) (w_dint f) (w_dbytes f).

(** A message descriptor with the layout of its fields; [w_entry] is is_map_entry(). *)
Record wtype := WType { w_fields : list (wfield * layout); w_slots : nat; w_entry : bool }.
Definition wtype_of (count : nat) (entry : bool) (fs : list wfield) : option wtype :=
  match slot_layout count (map (fun f => DField (w_oneof f) (is_rep f)) fs) with
  | None => None
  | Some (ls, n) => Some (WType (combine fs ls) n entry)
  end.

(** The default value as a value of the field. *)
Definition w_default (f : wfield) : val := match w_elem f with EBytes _ _ => VBytes (w_dbytes f) | _ => VInt (w_dint f) end.

(** setup_repeated, descriptor_pool.hpp:300-319: only numeric types can be packed. *)
Definition packed (f : wfield) : bool := match w_rep f with Some p => p && packable (w_elem f) | None => false end.

(** serialized_tag, factory.cpp:366-373. *)
Definition wire_of (f : wfield) : Z := if packed f then WT_LEN else elem_wt (w_elem f).
Definition stag (f : wfield) : Z := make_tag (w_num f) (wire_of f).

(** ** Presence *)
(** value() of a singular numeric or string field, and the elements of a repeated one
    ([UB]: the storage holds something else). *)
Definition single (f : wfield) (l : layout) (s : slot) : res val :=
  match value (dyn_of f) l s with FInt z => Ok (VInt z) | FBytes b => Ok (VBytes b) | _ => UB end.
Definition several (f : wfield) (l : layout) (s : slot) : res (list val) :=
  match value (dyn_of f) l s with FInts x => Ok (map VInt x) | FStrs x => Ok (map VBytes x) | _ => UB end.

(** is_present_or_explicit_default, pb_serializer_ext.hpp:51-53 with
    scalar_fields.hpp:76-82, enum_fields.hpp:183-189, string_fields.hpp:74-81,
    bytes_fields.hpp:76-83, message_fields.hpp:552; for repeated fields whether there
    are elements.  Floating point values are compared as such. *)
Definition present (f : wfield) (l : layout) (s : slot) : bool :=
  has_value (dyn_of f) l s &&
  (is_rep f || match w_elem f with EMsg _ _ => true | _ => false end || w_explicit f ||
   negb (match single f l s with Ok v => is_default (w_elem f) (w_default f) v | _ => false end)).

(** ** Output *)
(** One call of the archive, with several values of which the first that cannot be
    written ends the call; [checked] tells whether the result is looked at. *)
Inductive dcall := DCall (checked : bool) (ws : list wop).
Definition call_ops (d : dcall) : list wop := match d with DCall _ ws => ws end.
Definition dflat (ds : list dcall) : bytes := flat (concat (map call_ops ds)).

Section DynEncode.
  Context (W : list wtype) (utf8_ok : bytes -> bool) (maxd : Z).
  Definition wty (ty : nat) : wtype := nth ty W (WType [] 0 false).

  (** ** size_cache_counter<message_value_cref>, 356-407 *)
  (** [Err BadMessage]: recursion_limit_exceeded was set; the C++ goes on counting. *)
  Section Count.
    Variable rec : nat -> list slot -> res nat.
    Fixpoint dcnt_list (ty : nat) (x : list (list slot)) : res nat :=
      match x with [] => Ok 0%nat | m :: t => a <- rec ty m ;; b <- dcnt_list ty t ;; Ok (a + b)%nat end.
    Definition dcnt_field (f : wfield) (l : layout) (s : slot) : res nat :=
      match w_elem f, w_rep f with
      | EMsg ty delim, None =>
          match value (dyn_of f) l s with FMsg m => c <- rec ty m ;; Ok (c + if delim then 0 else 1)%nat | _ => UB end
      | EMsg ty delim, Some _ =>
          match value (dyn_of f) l s with FMsgs x => c <- dcnt_list ty x ;; Ok (c + if delim then 0 else length x)%nat | _ => UB end
      | EVar _, Some _ | EEnum _, Some _ => Ok (if packed f then 1 else 0)%nat
      | _, _ => Ok 0%nat
      end.
    Fixpoint dcnt_fields (fs : list (wfield * layout)) (m : list slot) : res nat :=
      match fs with
      | [] => Ok 0%nat
      | (f, l) :: t => a <- (if present f l (slot_at m l) then dcnt_field f l (slot_at m l) else Ok 0%nat) ;; b <- dcnt_fields t m ;; Ok (a + b)%nat
      end.
  End Count.
  Fixpoint dcnt (fuel : nat) (depth : Z) (ty : nat) (m : list slot) : res nat :=
    match fuel with
    | O => NoFuel
    | S n => if scope_ok maxd depth then dcnt_fields (dcnt n (depth + 1)) (w_fields (wty ty)) m else Err BadMessage
    end.

  (** ** message_size_calculator<message_value_cref>, 409-526 *)
  (** 417-419 *)
  Definition wtag_size (f : wfield) : Z := varint_size_u (stag f).
  (** sizeof of the arithmetic types. *)
  Definition width (e : elem) : Z := match e with EFix is64 _ => Z.of_nat (fix_size is64) | _ => 1 end.
  Definition add_res (a : res szr) (b : res szr) : res szr := x <- a ;; y <- b ;; Ok (add_sz x y).
  Section Size.
    Variable rec : nat -> list slot -> res szr.
    (** 491-502 and 504-517: the entry is reserved before the message is measured. *)
    Definition dsz_message (f : wfield) (ty : nat) (delim : bool) (m : list slot) : res szr :=
      '(s, c) <- rec ty m ;;
      Ok (if delim then (2 * wtag_size f + s, c) else (wtag_size f + len_size s, saturate s :: c)).
    Fixpoint dsz_messages (f : wfield) (ty : nat) (delim : bool) (x : list (list slot)) : res szr :=
      match x with [] => Ok (0, []) | m :: t => add_res (dsz_message f ty delim m) (dsz_messages f ty delim t) end.
    Fixpoint sum_with_tag (ts : Z) (e : elem) (vs : list val) : Z :=
      match vs with [] => 0 | v :: t => ts + scalar_size e v + sum_with_tag ts e t end.
    Definition dsz_field (f : wfield) (l : layout) (s : slot) : res szr :=
      match w_elem f, w_rep f with
      | EMsg ty delim, None => match value (dyn_of f) l s with FMsg m => dsz_message f ty delim m | _ => UB end
      | EMsg ty delim, Some _ => match value (dyn_of f) l s with FMsgs x => dsz_messages f ty delim x | _ => UB end
      | e, None => v <- single f l s ;; Ok (wtag_size f + scalar_size e v, [])
      | e, Some _ =>
          vs <- several f l s ;;
          Ok (match e with
              | EVar _ | EEnum _ =>
                  if packed f then (wtag_size f + len_size (sum_sizes e vs), [saturate (sum_sizes e vs)])
                  else (sum_with_tag (wtag_size f) e vs, [])
              | EBytes _ _ => (sum_with_tag (wtag_size f) e vs, [])
              | _ =>
                  if packed f then (wtag_size f + len_size (zlen vs * width e), [])
                  else (zlen vs * (wtag_size f + width e), [])
              end)
      end.
    Fixpoint dsz_fields (fs : list (wfield * layout)) (m : list slot) : res szr :=
      match fs with
      | [] => Ok (0, [])
      | (f, l) :: t => add_res (if present f l (slot_at m l) then dsz_field f l (slot_at m l) else Ok (0, [])) (dsz_fields t m)
      end.
  End Size.
  Fixpoint dsz (fuel : nat) (ty : nat) (m : list slot) : res szr :=
    match fuel with O => NoFuel | S n => dsz_fields (dsz n) (w_fields (wty ty)) m end.

  (** ** field_serializer, 528-657 *)
  Definition dser_res := res (list dcall * list Z).
  Definition seq_d (a : dser_res) (k : list Z -> dser_res) : dser_res :=
    '(ws, c) <- a ;; '(ws', c') <- k c ;; Ok (ws ++ ws', c').

  (** What follows the tag of a scalar, 558-575: enums are varints of int32_t. *)
  Definition dscalar_ops (e : elem) (v : val) : res (list wop) :=
    match e, v with EEnum _, VInt z => Ok [WVar VI32 z] | _, _ => scalar_ops utf8_ok e v end.
  Fixpoint dlist_ops (pre : list wop) (e : elem) (vs : list val) : res (list dcall) :=
    match vs with
    | [] => Ok []
    | v :: t => ws <- dscalar_ops e v ;; r <- dlist_ops pre e t ;; Ok (DCall true (pre ++ ws) :: r)
    end.
  Section Ser.
    Variable rec : nat -> list slot -> list Z -> dser_res.
    (** message_tag_writer, 615-641, around the fields of the message: its writes are not checked. *)
    Definition dser_message (f : wfield) (ty : nat) (delim : bool) (m : list slot) (c : list Z) : dser_res :=
      if delim then
        '(ws, c') <- rec ty m c ;;
        Ok (DCall false [wtag (w_num f) WT_SGROUP] :: ws ++ [DCall false [wtag (w_num f) WT_EGROUP]], c')
      else
        match c with
        | [] => UB
        | len :: c0 => '(ws, c') <- rec ty m c0 ;; Ok (DCall false [wtag (w_num f) WT_LEN; WVar VU32 len] :: ws, c')
        end.
    Fixpoint dser_messages (f : wfield) (ty : nat) (delim : bool) (x : list (list slot)) (c : list Z) : dser_res :=
      match x with [] => Ok ([], c) | m :: t => seq_d (dser_message f ty delim m c) (dser_messages f ty delim t) end.
    (** 552-604,643-657.  The byte count of packed fixed size values is computed in uint32_t. *)
    Definition dser_field (f : wfield) (l : layout) (s : slot) (c : list Z) : dser_res :=
      match w_elem f, w_rep f with
      | EMsg ty delim, None => match value (dyn_of f) l s with FMsg m => dser_message f ty delim m c | _ => UB end
      | EMsg ty delim, Some _ => match value (dyn_of f) l s with FMsgs x => dser_messages f ty delim x c | _ => UB end
      | e, None => v <- single f l s ;; ws <- dscalar_ops e v ;; Ok ([DCall true (WVar VU32 (stag f) :: ws)], c)
      | e, Some _ =>
          vs <- several f l s ;;
          if packed f then
            match e with
            | EVar _ | EEnum _ =>
                match c with
                | [] => UB
                | len :: c' => ws <- dlist_ops [] e vs ;; Ok (DCall true [WVar VU32 (stag f); WVar VU32 len] :: ws, c')
                end
            | _ => ws <- dlist_ops [] e vs ;; Ok (DCall true [WVar VU32 (stag f); WVar VU32 (wrapU 32 (width e * zlen vs))] :: ws, c)
            end
          else ws <- dlist_ops [WVar VU32 (stag f)] e vs ;; Ok (ws, c)
      end.
    Fixpoint dser_fields (fs : list (wfield * layout)) (m : list slot) (c : list Z) : dser_res :=
      match fs with
      | [] => Ok ([], c)
      | (f, l) :: t => seq_d (if present f l (slot_at m l) then dser_field f l (slot_at m l) c else Ok ([], c)) (dser_fields t m)
      end.
  End Ser.
  (** 606-613 *)
  Fixpoint dser (fuel : nat) (depth : Z) (ty : nat) (m : list slot) (c : list Z) : dser_res :=
    match fuel with
    | O => NoFuel
    | S n => if scope_ok maxd depth then dser_fields (dser n (depth + 1)) (w_fields (wty ty)) m c else Err BadMessage
    end.

  (** binpb/serialize.hpp:552-603 on a dynamic message, as [plan] of Encode.v. *)
  Definition dplan (fuel : nat) (ty : nat) (m : list slot) : res (Z * list dcall) :=
    n <- dcnt fuel 0 ty m ;;
    '(s, c) <- dsz fuel ty m ;;
    if (n <? length c)%nat then UB
    else if max_message_size <=? s then Err TooLarge
    else '(ws, _) <- dser fuel 0 ty m (c ++ repeat 0 (n - length c)) ;; Ok (s, ws).

  (** write_binpb into a buffer that can be resized (dynamic_message/binpb.hpp:45-50). *)
  Definition dyn_encode (fuel : nat) (ty : nat) (m : list slot) : res bytes :=
    '(_, ws) <- dplan fuel ty m ;; Ok (dflat ws).
End DynEncode.

(** ** Chunked output, as [chunked_run] of Output.v *)
Fixpoint chunked_calls (k : sink) (ds : list dcall) (s : cstate) : res (bool * cstate) :=
  match ds with
  | [] => Ok (true, s)
  | DCall checked ws :: t => '(ok, s) <- chunked_run k ws s ;; if ok || negb checked then chunked_calls k t s else Ok (false, s)
  end.
Definition dyn_write_chunked (W : list wtype) (utf8_ok : bytes -> bool) (maxd : Z) (k : nat -> sink) (fuel ty : nat) (m : list slot) : res (option (list bytes)) :=
  '(s, ds) <- dplan W utf8_ok maxd fuel ty m ;;
  '(ok, st) <- chunked_calls (k (Z.to_nat s)) ds c_init ;; Ok (if ok then Some (rev (c_out st)) else None).
