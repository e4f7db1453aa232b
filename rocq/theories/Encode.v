(** The binary encoder: model of include/hpp_proto/binpb/serialize.hpp:200-812.

    The serializer is a template over the output archive; here it produces the
    list of write operations it performs on that archive ([wop]), and Output.v
    interprets them for the contiguous and the chunked archive.  A failed write
    makes the C++ code stop and return false, exactly as interpreting the list
    and stopping at the failure does.

    Simplifications: sizes are unbounded integers instead of uint64_t (a message
    whose size exceeds 2^64 cannot be held in memory); allocation failure is not
    modelled. *)
Require Import Verif.Bits Verif.Varint Verif.Schema Verif.Archive Verif.Decode.

(** One call of archive.serialize: a varint (serialize.hpp:92-102) or raw bytes
    (fixed width values, byte strings, packed arrays; serialize.hpp:77-90). *)
Inductive wop := WVar (t : vtype) (v : Z) | WRaw (b : bytes).

Definition wop_bytes (w : wop) : bytes :=
  match w with WVar t v => pack_varint t v | WRaw b => b end.

Definition flat (ws : list wop) : bytes := concat (map wop_bytes ws).

(** max_message_size and saturate_to_max_message_size, serialize.hpp:338-342. *)
Definition max_message_size : Z := 2 ^ 31 - 1.
Definition saturate (s : Z) : Z := if max_message_size <=? s then max_message_size else s.

(** len_size, serialize.hpp:200. *)
Definition len_size (len : Z) : Z := varint_size_u len + len.

(** [varint_size(meta.number << 3U)], e.g. serialize.hpp:415. *)
Definition tag_size (num : Z) : Z := varint_size_u (wrapU 32 (Z.shiftl num 3)).

(** Equality of IEEE values given as bit patterns of [w] bits, [m] of them
    mantissa: [==] on float/double (meta.hpp:69-83 via field_types.hpp:564-581). *)
Definition is_nan (w m b : Z) : bool :=
  (Z.land (Z.shiftr b m) (2 ^ (w - 1 - m) - 1) =? 2 ^ (w - 1 - m) - 1) && negb (Z.land b (2 ^ m - 1) =? 0).
Definition float_eq (is64 : bool) (a b : Z) : bool :=
  let w := if is64 then 64 else 32 in
  let m := if is64 then 52 else 23 in
  negb (is_nan w m a) && negb (is_nan w m b) &&
  ((a =? b) || ((a mod 2 ^ (w - 1) =? 0) && (b mod 2 ^ (w - 1) =? 0))).

Fixpoint bytes_eqb (a b : bytes) : bool :=
  match a, b with
  | [], [] => true
  | x :: a', y :: b' => (x =? y) && bytes_eqb a' b'
  | _, _ => false
  end.

(** is_default_value, field_types.hpp:564-581, against the default [d]. *)
Definition is_default (e : elem) (d : val) (v : val) : bool :=
  match e, d, v with
  | EMsg _ _, _, _ => false
  | EFix is64 true, VInt x, VInt y => float_eq is64 x y
  | _, VInt x, VInt y => x =? y
  | _, VBytes x, VBytes y => bytes_eqb x y
  | _, _, _ => false
  end.

(** omit_value, meta.hpp:69-83,100. *)
Definition omit (f : field) (vs : list val) : bool :=
  match f, vs with
  | Field _ e (CPlain false d), v :: _ => is_default e d v
  | Field _ _ (CPlain _ _), _ => false
  | _, [] => true
  | _, _ :: _ => false
  end.

Section Encode.
  Context (E : env) (utf8_ok : bytes -> bool) (maxd : Z).

  (** ** size_cache_counter, serialize.hpp:210-329 *)
  (** [None]: recursion_limit_exceeded was set. *)
  Definition add_opt (a b : option nat) : option nat :=
    match a, b with Some x, Some y => Some (x + y)%nat | _, _ => None end.

  Section Count.
    Variable rec : nat -> val -> option nat.

    (** count of one element, serialize.hpp:250-266,295-318 (a map pair is an
        element of its entry message type). *)
    Definition cnt_elem (e : elem) (v : val) : option nat :=
      match e with
      | EMsg ty delim => add_opt (rec ty v) (Some (if delim then 0 else 1)%nat)
      | _ => Some 0%nat
      end.
    Fixpoint cnt_list (e : elem) (vs : list val) : option nat :=
      match vs with [] => Some 0%nat | v :: t => add_opt (cnt_elem e v) (cnt_list e t) end.

    Definition cnt_field (f : field) (vs : list val) : option nat :=
      match f with
      | Field _ e (CRep packed) =>
          if packed && packable e
          then Some (match e with EVar _ | EEnum _ => 1 | _ => 0 end)%nat
          else cnt_list e vs
      | Field _ e _ => cnt_list e vs
      | Oneof alts =>
          match vs with
          | VAlt i v :: _ =>
              match nth_error alts i with Some (_, e) => cnt_elem e v | None => Some 0%nat end
          | _ => Some 0%nat
          end
      end.

    Fixpoint cnt_fields (fds : list field) (fs : list (list val)) {struct fs} : option nat :=
      match fs, fds with
      | vs :: fs', f :: fds' =>
          add_opt (if omit f vs then Some 0%nat else cnt_field f vs) (cnt_fields fds' fs')
      | _, _ => Some 0%nat
      end.
  End Count.

  Fixpoint cnt_msg (depth : Z) (ty : nat) (v : val) {struct v} : option nat :=
    match v with
    | VMsg fs _ =>
        if scope_ok maxd depth
        then cnt_fields (fun ty' v' => cnt_msg (depth + 1) ty' v') (m_fields (desc_of E ty)) fs
        else None
    | _ => Some 0%nat
    end.

  (** ** message_size_calculator, serialize.hpp:344-535 *)
  (** Result: the size and the cache entries in the order of
      consume_size_cache_entry. *)
  Definition szr := (Z * list Z)%type.
  Definition add_sz (a b : szr) : szr := (fst a + fst b, snd a ++ snd b).

  (** Size of the varint / fixed / byte-string payload of a scalar after its
      tag, serialize.hpp:404-452,468-475. *)
  Definition scalar_size (e : elem) (v : val) : Z :=
    match e, v with
    | EVar t, VInt z => encode_size t z
    | EBool, _ => 1
    | EFix is64 _, _ => Z.of_nat (fix_size is64)
    | EEnum _, VInt z => encode_size VI64 z
    | EBytes _ _, VBytes b => len_size (zlen b)
    | _, _ => 0
    end.

  Section Size.
    Variable rec : nat -> val -> szr.

    (** field_size of one element, serialize.hpp:440-479. *)
    Definition sz_elem (num : Z) (e : elem) (v : val) : szr :=
      match e with
      | EMsg ty false =>
          let '(s, c) := rec ty v in (tag_size num + len_size s, saturate s :: c)
      | EMsg ty true => let '(s, c) := rec ty v in (2 * tag_size num + s, c)
      | _ => (tag_size num + scalar_size e v, [])
      end.
    Fixpoint sz_list (num : Z) (e : elem) (vs : list val) : szr :=
      match vs with [] => (0, []) | v :: t => add_sz (sz_elem num e v) (sz_list num e t) end.

    (** Sum of the payload sizes of packed elements, serialize.hpp:508-516. *)
    Fixpoint sum_sizes (e : elem) (vs : list val) : Z :=
      match vs with [] => 0 | v :: t => scalar_size e v + sum_sizes e t end.

    Definition sz_field (f : field) (vs : list val) : szr :=
      match f with
      | Field num e (CRep packed) =>
          if packed && packable e then
            match e with
            | EVar _ | EEnum _ =>
                let s := sum_sizes e vs in (tag_size num + len_size s, [saturate s])
            | EFix is64 _ => (tag_size num + len_size (zlen vs * Z.of_nat (fix_size is64)), [])
            | _ => (tag_size num + len_size (zlen vs), [])
            end
          else sz_list num e vs
      | Field num e _ => sz_list num e vs
      | Oneof alts =>
          match vs with
          | VAlt i v :: _ =>
              match nth_error alts i with Some (num, e) => sz_elem num e v | None => (0, []) end
          | _ => (0, [])
          end
      end.

    Fixpoint sz_fields (fds : list field) (fs : list (list val)) {struct fs} : szr :=
      match fs, fds with
      | vs :: fs', f :: fds' =>
          add_sz (if omit f vs then (0, []) else sz_field f vs) (sz_fields fds' fs')
      | _, _ => (0, [])
      end.
  End Size.

  (** pb_unknown_fields / pb_extensions members, serialize.hpp:386-403; they come
      last in pb_meta (hpp_generator.cpp emits them after the other fields). *)
  Definition unk_size (k : ukind) (unk : list (Z * bytes)) : Z :=
    match k with UNone => 0 | _ => fold_right (fun p s => zlen (snd p) + s) 0 unk end.

  Fixpoint sz_msg (ty : nat) (v : val) {struct v} : szr :=
    match v with
    | VMsg fs unk =>
        let D := desc_of E ty in
        let '(s, c) := sz_fields (fun ty' v' => sz_msg ty' v') (m_fields D) fs in
        (s + unk_size (m_unk D) unk, c)
    | _ => (0, [])
    end.

  (** ** serialize, serialize.hpp:675-806 *)
  (** State: the remaining cache entries.  An exhausted cache is undefined
      behaviour. *)
  Definition serr := res (list wop * list Z).
  Definition seq_s (a : serr) (k : list Z -> serr) : serr :=
    '(ws, c) <- a ;; '(ws', c') <- k c ;; Ok (ws ++ ws', c').

  Definition wtag (num wt : Z) : wop := WVar VU32 (make_tag num wt).

  (** Payload of a scalar after its tag, serialize.hpp:698-739. *)
  Definition scalar_ops (e : elem) (v : val) : res (list wop) :=
    match e, v with
    | EVar t, VInt z => Ok [WVar t z]
    | EBool, VInt z => Ok [WRaw [z]]
    | EFix is64 _, VInt z => Ok [WRaw (le_bytes (fix_size is64) z)]
    | EEnum _, VInt z => Ok [WVar VI64 z]
    | EBytes utf8 _, VBytes b =>
        if utf8 && negb (utf8_ok b) then Err BadMessage else Ok [WVar VU64 (zlen b); WRaw b]
    | _, _ => UB
    end.

  (** Elements of a packed field, serialize.hpp:775-784. *)
  Fixpoint packed_ops (e : elem) (vs : list val) : res (list wop) :=
    match vs with
    | [] => Ok []
    | v :: t => w <- scalar_ops e v ;; ws <- packed_ops e t ;; Ok (w ++ ws)
    end.

  Section Ser.
    Variable rec : nat -> val -> list Z -> serr.

    (** serialize_field of one element, serialize.hpp:698-752,787-797. *)
    Definition ser_elem (num : Z) (e : elem) (v : val) (c : list Z) : serr :=
      match e with
      | EMsg ty false =>
          match c with
          | [] => UB
          | len :: c' =>
              '(ws, c'') <- rec ty v c' ;;
              Ok (wtag num WT_LEN :: WVar VU32 len :: ws, c'')
          end
      | EMsg ty true =>
          '(ws, c') <- rec ty v c ;;
          Ok (wtag num WT_SGROUP :: ws ++ [wtag num WT_EGROUP], c')
      | _ => ws <- scalar_ops e v ;; Ok (wtag num (elem_wt e) :: ws, c)
      end.
    Fixpoint ser_list (num : Z) (e : elem) (vs : list val) (c : list Z) : serr :=
      match vs with
      | [] => Ok ([], c)
      | v :: t => seq_s (ser_elem num e v c) (ser_list num e t)
      end.

    Definition ser_field (f : field) (vs : list val) (c : list Z) : serr :=
      match f with
      | Field num e (CRep packed) =>
          if packed && packable e then
            match e with
            | EVar _ | EEnum _ =>
                match c with
                | [] => UB
                | len :: c' => ws <- packed_ops e vs ;; Ok (wtag num WT_LEN :: WVar VU32 len :: ws, c')
                end
            | EFix is64 _ =>
                ws <- packed_ops e vs ;;
                Ok (wtag num WT_LEN :: WVar VU64 (zlen vs * Z.of_nat (fix_size is64)) :: [WRaw (flat ws)], c)
            | _ =>
                ws <- packed_ops e vs ;;
                Ok (wtag num WT_LEN :: WVar VU64 (zlen vs) :: [WRaw (flat ws)], c)
            end
          else ser_list num e vs c
      | Field num e _ => ser_list num e vs c
      | Oneof alts =>
          match vs with
          | VAlt i v :: _ =>
              match nth_error alts i with Some (num, e) => ser_elem num e v c | None => Ok ([], c) end
          | _ => Ok ([], c)
          end
      end.

    Fixpoint ser_fields (fds : list field) (fs : list (list val)) (c : list Z) {struct fs} : serr :=
      match fs, fds with
      | vs :: fs', f :: fds' =>
          seq_s (if omit f vs then Ok ([], c) else ser_field f vs c) (ser_fields fds' fs')
      | _, _ => Ok ([], c)
      end.
  End Ser.

  (** Unknown fields / extensions, serialize.hpp:704-718. *)
  Definition unk_ops (k : ukind) (unk : list (Z * bytes)) : list wop :=
    match k with UNone => [] | _ => map (fun p => WRaw (snd p)) unk end.

  Fixpoint ser_msg (depth : Z) (ty : nat) (v : val) (c : list Z) {struct v} : serr :=
    match v with
    | VMsg fs unk =>
        if scope_ok maxd depth then
          let D := desc_of E ty in
          '(ws, c') <- ser_fields (fun ty' v' c' => ser_msg (depth + 1) ty' v' c') (m_fields D) fs c ;;
          Ok (ws ++ unk_ops (m_unk D) unk, c')
        else Err BadMessage
    | _ => UB
    end.

  (** serialize into a buffer up to the writes themselves,
      serialize.hpp:552-603: count the cache entries, compute the size, write
      with a cache of exactly the counted length.  The size pass stores its
      entries through a raw pointer into the cache ([UB] if it stores more than
      counted). *)
  Definition plan (ty : nat) (v : val) : res (Z * list wop) :=
    match cnt_msg 0 ty v with
    | None => Err BadMessage
    | Some n =>
        let '(s, c) := sz_msg ty v in
        if (n <? length c)%nat then UB
        else if max_message_size <=? s then Err TooLarge
        else
          '(ws, _) <- ser_msg 0 ty v (c ++ repeat 0 (n - length c)) ;;
          Ok (s, ws)
    end.

  (** write_binpb on a resizable buffer; Output.v shows that the contiguous
      archive produces exactly these bytes. *)
  Definition encode_bytes (ty : nat) (v : val) : res bytes :=
    '(_, ws) <- plan ty v ;; Ok (flat ws).
End Encode.
