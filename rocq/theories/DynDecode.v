(** The binary decoder of dynamic messages: model of
    include/hpp_proto/dynamic_message/pb_serializer_ext.hpp:55-352, on the storage of
    Dyn.v.  It is called by the loops of binpb/deserialize.hpp:1301-1386 in place of
    the templates over generated messages.  Generic in the archive, like Decode.v, with
    the same simplifications. *)
Require Import Verif.Bits Verif.Varint Verif.DynSlots Verif.Dyn Verif.Schema Verif.Archive Verif.Decode Verif.Encode Verif.DynWire.

(** ** Storing *)
Definition content_of (v : val) : content := match v with VInt z => CInt z | VBytes b => CBytes b | _ => CBad end.

(** reset() of the singular fields: scalar_fields.hpp:169, enum_fields.hpp:279,
    string_fields.hpp:173-176, bytes_fields.hpp:174-177.  That of numbers leaves the content. *)
Definition reset_slot (f : wfield) (s : slot) : slot := match w_elem f with EBytes _ _ => reset_bytes s | _ => clear_slot s end.

(** pb_serializer_ext.hpp:75-80,105-109,153-158,175-180: a value read is stored, unless
    it is the default of a field without presence.  Floating point values are compared
    as such. *)
Definition store (f : wfield) (l : layout) (v : val) (s : slot) : slot :=
  if w_explicit f || negb (is_default (w_elem f) (w_default f) v) then (l_ordinal l, content_of v) else reset_slot f s.

Section DynDecode.
  Context {A : Type} (AR : aops A) (W : list wtype) (utf8_ok : bytes -> bool) (maxd : Z).
  Definition new_slots (ty : nat) : list slot := repeat zero_slot (w_slots (wty W ty)).

  (** set_as_default() and emplace(), scalar_fields.hpp:170, enum_fields.hpp:310,
      string_fields.hpp:171, bytes_fields.hpp:172, message_fields.hpp:621-634. *)
  Definition default_slot (f : wfield) (l : layout) : slot :=
    (l_ordinal l, match w_elem f with EMsg ty _ => CMsg (new_slots ty) | EBytes _ _ => CBytes (w_dbytes f) | _ => CInt (w_dint f) end).

  (** ** Scalars *)
  (** Strings and bytes, 119-149: an empty string is not validated. *)
  Definition ddec_bytes (utf8 : bool) (a : A) : res (val * A) :=
    '(len, a1) <- a_varint AR VU32 a ;;
    if len =? 0 then Ok (VBytes [], a1)
    else '(b, a2) <- a_packed AR len 1 a1 ;; if utf8 && negb (utf8_ok b) then Err BadMessage else Ok (VBytes b, a2).

  (** 60-74,82-98: numbers are read like those of generated messages; an enum is
      returned as the int32_t it becomes. *)
  Definition ddec_scalar (e : elem) (tag : Z) (a : A) : res (val * A) :=
    match e with
    | EBytes utf8 _ => if negb (tag_type tag =? WT_LEN) then Err BadMessage else ddec_bytes utf8 a
    | _ => '(v, a1) <- dec_scalar AR utf8_ok e tag a ;; Ok (enum_val e v, a1)
    end.
  (** valid_enum_value, descriptor_pool.hpp:439-441; other types hold every value. *)
  Definition valid (e : elem) (v : val) : bool := match e with EEnum closed => enum_valid closed (int_of v) | _ => true end.

  (** ** Messages *)
  Definition drecT := option Z -> nat -> list slot -> Z -> A -> res (list slot * A).

  (** deserialize and deserialize_sized, deserialize.hpp:1338-1386, of a
      message_value_mref: what is said there of map entries is decided at compile time
      and does not apply. *)
  Definition ddec_msg (rec : drecT) (ty : nat) (m : list slot) (depth : Z) (a : A) : res (list slot * A) :=
    if scope_ok maxd depth then rec None ty m (depth + 1) a else Err TooLarge.
  Definition ddec_sized (rec : drecT) (ty : nat) (m : list slot) (depth : Z) (a : A) : res (list slot * A) :=
    '(len, a1) <- a_varint AR VU32 a ;;
    if len <? a_avail AR a1 then
      let '(sub, rest) := a_split AR len a1 in '(m', _) <- ddec_msg rec ty m depth sub ;; Ok (m', rest)
    else if len =? a_avail AR a1 then ddec_msg rec ty m depth a1
    else Err BadMessage.
  (** deserialize.hpp:1315-1320 *)
  Definition ddec_group (rec : drecT) (num : Z) (ty : nat) (m : list slot) (depth : Z) (a : A) : res (list slot * A) :=
    if scope_ok maxd depth then rec (Some num) ty m (depth + 1) a else Err TooLarge.

  (** 196-206: the second field of a map entry is given a value.  [UB]: there is no
      second field, fields()[1] is out of bounds. *)
  Definition complete (ty : nat) (m : list slot) : res (list slot) :=
    if w_entry (wty W ty) then
      match nth_error (w_fields (wty W ty)) 1 with
      | Some (f, l) => Ok (if is_rep f || has_value (dyn_of f) l (slot_at m l) then m else put m (l_slot l) (default_slot f l))
      | None => UB
      end
    else Ok m.

  (** 193-213.  The entry is completed even if reading it failed, which is not seen
      because the contents after an error are not modelled. *)
  Definition ddec_message (rec : drecT) (ty : nat) (delim : bool) (m : list slot) (tag depth : Z) (a : A) : res (list slot * A) :=
    if negb delim && (tag_type tag =? WT_LEN) then '(m1, a1) <- ddec_sized rec ty m depth a ;; m2 <- complete ty m1 ;; Ok (m2, a1)
    else if delim && (tag_type tag =? WT_SGROUP) then ddec_group rec (tag_number tag) ty m depth a
    else Err BadMessage.

  (** ** Repeated fields *)
  (** The loops of 230-245 and 264-286; the elements are those before [n] more are
      read.  The storage is enlarged beforehand, which is not seen here. *)
  Fixpoint delems {X : Type} (one : list X -> A -> res (list X * A)) (n : nat) (cur : list X) (a : A) : res (list X * A) :=
    match n with
    | O => Ok (cur, a)
    | S k =>
        '(cur1, a1) <- one cur a ;;
        match k with O => Ok (cur1, a1) | _ => '(_, a2) <- a_tag AR a1 ;; delems one k cur1 a2 end
    end.
  (** 222-228,251-262: no check of the wire type. *)
  Definition dunpacked {X : Type} (one : list X -> A -> res (list X * A)) (fuel : nat) (tag depth : Z) (cur : list X) (a : A) : res (list X * A) :=
    n <- count_loop AR maxd fuel fuel depth tag a ;; delems one n cur a.
  Definition done_scalar (e : elem) (tag : Z) (cur : list val) (a : A) : res (list val * A) :=
    '(v, a1) <- ddec_scalar e tag a ;; Ok (if valid e v then cur ++ [v] else cur, a1).
  Definition done_message (rec : drecT) (ty : nat) (delim : bool) (tag depth : Z) (cur : list (list slot)) (a : A) : res (list (list slot) * A) :=
    '(m, a1) <- ddec_message rec ty delim (new_slots ty) tag depth a ;; Ok (cur ++ [m], a1).

  (** 289-333: numbers as those of generated messages.  The values of a closed enum
      that are not known are removed, from those the field had before too. *)
  Definition dpacked (e : elem) (cur : list val) (a : A) : res (list val * A) :=
    '(vs, _, a1) <- dec_packed AR UNone 0 (match e with EEnum _ => EEnum None | _ => e end) cur [] a ;;
    Ok (match e with EEnum (Some _) => filter (valid e) vs | _ => vs end, a1).
  (** The elements, after the field is resized to their number or adopts them. *)
  Definition elems_slot (e : elem) (vs : list val) : slot :=
    (zlen vs, match e with EBytes _ _ => CStrs (map (fun v => match v with VBytes b => b | _ => [] end) vs) | _ => CInts (map int_of vs) end).

  (** ** Fields *)
  (** operator() of field_deserializer, 69-80,101-117,151-180,215-220,306-338. *)
  Definition ddec_field (rec : drecT) (fuel : nat) (f : wfield) (l : layout) (tag depth : Z) (s : slot) (a : A) : res (slot * A) :=
    match w_elem f, w_rep f with
    | EMsg ty delim, None =>
        m <- (if has_value (dyn_of f) l s then match value (dyn_of f) l s with FMsg m => Ok m | _ => UB end else Ok (new_slots ty)) ;;
        '(m1, a1) <- ddec_message rec ty delim m tag depth a ;; Ok ((l_ordinal l, CMsg m1), a1)
    | EMsg ty delim, Some _ =>
        match value (dyn_of f) l s with
        | FMsgs x => '(y, a1) <- dunpacked (done_message rec ty delim tag depth) fuel tag depth x a ;; Ok ((zlen y, CMsgs y), a1)
        | _ => UB
        end
    | e, None => '(v, a1) <- ddec_scalar e tag a ;; Ok (if valid e v then store f l v s else s, a1)
    | EBytes _ _ as e, Some _ => vs <- several f l s ;; '(ws, a1) <- dunpacked (done_scalar e tag) fuel tag depth vs a ;; Ok (elems_slot e ws, a1)
    | e, Some _ =>
        vs <- several f l s ;;
        '(ws, a1) <- (if tag_type tag =? elem_wt e then dunpacked (done_scalar e tag) fuel tag depth vs a
                      else if tag_type tag =? WT_LEN then dpacked e vs a
                      else Err BadMessage) ;;
        Ok (elems_slot e ws, a1)
    end.

  (** field_descriptor_by_number, message_fields.hpp:113-121: the first field with the number. *)
  Definition by_number (n : Z) (t : wtype) : option (wfield * layout) := find (fun fl => w_num (fst fl) =? n) (w_fields t).

  (** deserialize_field_by_tag, 340-352: fields that are not known are skipped, and not kept. *)
  Definition ddec_by_tag (rec : drecT) (fuel : nat) (ty : nat) (tag depth : Z) (m : list slot) (a : A) : res (list slot * A) :=
    if tag_number tag =? 0 then Err BadMessage
    else
      match by_number (tag_number tag) (wty W ty) with
      | Some (f, l) => '(s, a1) <- ddec_field rec fuel f l tag depth (slot_at m l) a ;; Ok (put m (l_slot l) s, a1)
      | None => a1 <- skip_one AR maxd fuel depth tag a ;; Ok (m, a1)
      end.

  (** The loops of deserialize and deserialize_group, deserialize.hpp:1356-1364,1324-1335. *)
  Fixpoint ddec_loop (fuel : nat) (mode : option Z) (ty : nat) (m : list slot) (depth : Z) (a : A) : res (list slot * A) :=
    match fuel with
    | O => NoFuel
    | S n =>
        if a_avail AR a <=? 0 then
          match mode with
          | None => if a_avail AR a =? 0 then Ok (m, a) else Err BadMessage
          | Some _ => Err BadMessage
          end
        else
          '(tag, a1) <- a_tag AR a ;;
          if match mode with Some num => (tag_type tag =? WT_EGROUP) && (num =? tag_number tag) | None => false end then Ok (m, a1)
          else '(m1, a2) <- ddec_by_tag (ddec_loop n) n ty tag depth m a1 ;; ddec_loop n mode ty m1 depth a2
    end.
  Definition ddecode (fuel : nat) (ty : nat) (m : list slot) (a : A) : res (list slot * A) := ddec_msg (ddec_loop fuel) ty m 0 a.
End DynDecode.

(** read_binpb of a dynamic message, dynamic_message/binpb.hpp:25-31: the message is reset first. *)
Definition dyn_read (W : list wtype) (utf8_ok : bytes -> bool) (maxd : Z) (ty : nat) (bs : bytes) : res (list slot) :=
  '(m, _) <- ddecode zops W utf8_ok maxd (S (length bs)) ty (new_slots W ty) (Zip [] bs) ;; Ok m.
