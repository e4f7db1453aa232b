(** The binary decoder: model of the free functions of
    include/hpp_proto/binpb/deserialize.hpp:616-1386, generic in the archive
    (a C++ template parameter there, [aops] here).

    Simplifications: the contents of the message after an error status are not
    modelled (functions return the error only); allocation failure is not
    modelled; the recursion counter of the context, which every scope restores
    on exit, is passed down as [depth]. *)
Require Import Verif.Bits Verif.Varint Verif.Schema Verif.Archive.

Section Decode.
  Context {A : Type} (AR : aops A) (E : env) (utf8_ok : bytes -> bool) (maxd : Z).

  (** detail::recursion_scope::ok, recursion.hpp:60-67. *)
  Definition scope_ok (depth : Z) : bool := (depth <=? maxd) && negb (depth =? 2 ^ 32 - 1).

  (** ** Skipping *)

  (** do_skip_field, deserialize.hpp:691-709; [grp] skips a group body. *)
  Definition do_skip_field (grp : Z -> A -> res A) (tag : Z) (a : A) : res A :=
    if tag =? 0 then Err BadMessage
    else
      let wt := tag_type tag in
      if wt =? WT_VARINT then a_skip_varint AR a
      else if wt =? WT_LEN then '(len, a1) <- a_varint AR VU32 a ;; a_skip AR len a1
      else if wt =? WT_I64 then a_skip AR 8 a
      else if wt =? WT_SGROUP then grp (tag_number tag) a
      else if wt =? WT_I32 then a_skip AR 4 a
      else Err BadMessage.

  (** The loop of do_skip_group, deserialize.hpp:731-747; [depth] is the counter
      inside the scope, used by nested groups (deserialize.hpp:725-729). *)
  Fixpoint skip_group_loop (fuel : nat) (num depth : Z) (a : A) : res A :=
    match fuel with
    | O => NoFuel
    | S f =>
        if a_avail AR a <=? 0 then Err BadMessage
        else
          '(tag, a1) <- a_tag AR a ;;
          if (tag_type tag =? WT_EGROUP) && (tag_number tag =? num) then Ok a1
          else if a_avail AR a1 <=? 0 then Err BadMessage
          else
            a2 <- do_skip_field
                    (fun n x => if scope_ok depth then skip_group_loop f n (depth + 1) x else Err TooLarge)
                    tag a1 ;;
            skip_group_loop f num depth a2
    end.

  (** do_skip_group, deserialize.hpp:724-748. *)
  Definition do_skip_group (fuel : nat) (depth : Z) (num : Z) (a : A) : res A :=
    if scope_ok depth then skip_group_loop fuel num (depth + 1) a else Err TooLarge.

  Definition skip_one (fuel : nat) (depth tag : Z) (a : A) : res A :=
    do_skip_field (do_skip_group fuel depth) tag a.

  (** The loop of skip_fields_match_tag, deserialize.hpp:716-721. *)
  Fixpoint skip_match_loop (n fuel : nat) (depth tag : Z) (a : A) : res A :=
    match n with
    | O => NoFuel
    | S k =>
        '(m, a1) <- a_match AR tag a ;;
        if m then a2 <- skip_one fuel depth tag a1 ;; skip_match_loop k fuel depth tag a2
        else Ok a1
    end.

  (** skip_fields_match_tag, deserialize.hpp:711-722. *)
  Definition skip_fields_match_tag (fuel : nat) (depth tag : Z) (a : A) : res A :=
    a1 <- skip_one fuel depth tag a ;; skip_match_loop fuel fuel depth tag a1.

  (** skip_field, deserialize.hpp:674-689. *)
  Definition skip_field (fuel : nat) (k : ukind) (depth tag : Z) (unk : list (Z * bytes)) (a : A)
    : res (list (Z * bytes) * A) :=
    match k with
    | UNone => a1 <- skip_one fuel depth tag a ;; Ok (unk, a1)
    | _ =>
        let w := a_unwind AR tag a in
        a1 <- skip_fields_match_tag fuel depth tag a ;;
        let len := a_avail AR w - a_avail AR a1 in
        let '(fa, _) := a_split AR len w in
        '(b, _) <- a_packed AR len 1 fa ;;
        Ok (unk_add k (tag_number tag) b unk, a1)
    end.

  (** deserialize_unknown_enum, deserialize.hpp:649-672.  With the pair list
      representation a new pair refers to a local array: the stored view
      dangles, modelled as [UB]. *)
  Definition unknown_enum (k : ukind) (num v : Z) (unk : list (Z * bytes)) : res (list (Z * bytes)) :=
    let b := pack_varint VU32 (make_tag num WT_VARINT) ++ pack_varint VI64 v in
    match k with
    | UPairs => if existsb (fun p => fst p =? num) unk then Ok (upairs_add num b unk) else UB
    | _ => Ok (unk_add k num b unk)
    end.

  (** ** Scalars *)

  (** [static_cast<enum_type>(int64)]: enums have underlying type int32, deserialize.hpp:1089. *)
  Definition to_enum (v : Z) : Z := wrapS 32 v.
  Definition enum_valid (closed : option (list Z)) (v : Z) : bool :=
    match closed with None => true | Some l => existsb (Z.eqb v) l end.

  (** String and bytes fields: deserialize_packed_repeated with a char/byte
      element type, deserialize.hpp:808-859,1218-1225. *)
  Definition dec_bytes (utf8 view : bool) (a : A) : res (val * A) :=
    '(len, a1) <- a_varint AR VU32 a ;;
    if a_padded AR && view then
      let '(o, a2) := a_view AR len a1 in
      match o with
      | Some b => if utf8 && negb (utf8_ok b) then Err BadMessage else Ok (VBytes b, a2)
      | None => if utf8 then UB else Ok (VBytes [], a2)
      end
    else if len =? 0 then
      if utf8 && negb (utf8_ok []) then Err BadMessage else Ok (VBytes [], a1)
    else
      '(b, a2) <- a_packed AR len 1 a1 ;;
      if utf8 && negb (utf8_ok b) then Err BadMessage else Ok (VBytes b, a2).

  (** Arithmetic, bool, enum and byte-string fields (everything but messages),
      without the closed enum check: deserialize.hpp:1062-1078,1174-1192,1218-1225.
      Enum values are returned as the int64 read from the wire. *)
  Definition dec_scalar (e : elem) (tag : Z) (a : A) : res (val * A) :=
    if negb (tag_type tag =? elem_wt e) then Err BadMessage
    else
      match e with
      | EVar t => '(v, a1) <- a_varint AR t a ;; Ok (VInt v, a1)
      | EBool => '(v, a1) <- a_bool AR a ;; Ok (VInt v, a1)
      | EFix is64 _ => '(b, a1) <- a_fixed AR (fix_size is64) a ;; Ok (VInt (le_val b), a1)
      | EEnum _ => '(v, a1) <- a_varint AR VI64 a ;; Ok (VInt v, a1)
      | EBytes utf8 view => dec_bytes utf8 view a
      | EMsg _ _ => UB
      end.

  Definition enum_val (e : elem) (v : val) : val :=
    match e, v with EEnum _, VInt z => VInt (to_enum z) | _, _ => v end.
  Definition int_of (v : val) : Z := match v with VInt z => z | _ => 0 end.

  (** ** Messages *)

  (** The decoding loop of a message body with the rest of its fuel: the mode is
      [None] for deserialize and [Some number] for deserialize_group, followed by
      type, members, unknown fields and depth. *)
  Definition recT := option Z -> nat -> list (list val) -> list (Z * bytes) -> Z -> A -> res (val * A).

  (** deserialize, deserialize.hpp:1338-1352 (the loop is [rec]). *)
  Definition dec_msg (rec : recT) (ty : nat) (cur : val) (depth : Z) (a : A) : res (val * A) :=
    if negb (scope_ok depth) then Err TooLarge
    else
      _ <- (if m_entry (desc_of E ty) && (0 <? a_avail AR a)
            then b <- a_byte0 AR a ;; if tag_number b =? 1 then Ok tt else Err BadMessage
            else Ok tt) ;;
      rec None ty (msg_fields cur) (msg_unk cur) (depth + 1) a.

  (** deserialize_sized, deserialize.hpp:1367-1386. *)
  Definition dec_sized (rec : recT) (ty : nat) (cur : val) (depth : Z) (a : A) : res (val * A) :=
    '(len, a1) <- a_varint AR VU32 a ;;
    if (len =? 0) && m_entry (desc_of E ty) then Err BadMessage
    else if len <? a_avail AR a1 then
      let '(sub, rest) := a_split AR len a1 in
      '(v, _) <- dec_msg rec ty cur depth sub ;; Ok (v, rest)
    else if len =? a_avail AR a1 then dec_msg rec ty cur depth a1
    else Err BadMessage.

  (** deserialize_group, deserialize.hpp:1315-1320. *)
  Definition dec_group (rec : recT) (num : Z) (ty : nat) (cur : val) (depth : Z) (a : A) : res (val * A) :=
    if scope_ok depth then rec (Some num) ty (msg_fields cur) (msg_unk cur) (depth + 1) a
    else Err TooLarge.

  (** One message-typed occurrence, deserialize.hpp:1194-1207. *)
  Definition dec_message (rec : recT) (ty : nat) (delim : bool) (cur : val) (tag depth : Z) (a : A)
    : res (val * A) :=
    if negb (tag_type tag =? (if delim then WT_SGROUP else WT_LEN)) then Err BadMessage
    else if delim then dec_group rec (tag_number tag) ty cur depth a
    else dec_sized rec ty cur depth a.

  Definition dec_value (rec : recT) (e : elem) (cur : val) (tag depth : Z) (a : A) : res (val * A) :=
    match e with
    | EMsg ty delim => dec_message rec ty delim cur tag depth a
    | _ => dec_scalar e tag a
    end.

  (** What a fresh element of a repeated field, optional or oneof alternative holds. *)
  Definition elem_default (e : elem) : val :=
    match e with
    | EMsg ty _ => default_msg E ty
    | EBytes _ _ => VBytes []
    | _ => VInt 0
    end.

  (** ** Repeated fields *)

  (** count_packed_elements, deserialize.hpp:750-763. *)
  Definition count_packed (e : elem) (len : Z) (a : A) : res (option nat) :=
    match e with
    | EFix is64 _ =>
        let sz := Z.of_nat (fix_size is64) in
        Ok (if len mod sz =? 0 then Some (Z.to_nat (len / sz)) else None)
    | _ => a_nvarints AR len a
    end.

  (** Cut raw bytes into little-endian values of [sz] bytes. *)
  Fixpoint chunks (n sz : nat) (b : bytes) : list Z :=
    match n with O => [] | S k => le_val (firstn sz b) :: chunks k sz (skipn sz b) end.

  (** Drop unknown closed enum values into the unknown fields, deserialize.hpp:863-872. *)
  Fixpoint filter_enum (k : ukind) (num : Z) (closed : option (list Z)) (vs : list Z) (unk : list (Z * bytes))
    : res (list val * list (Z * bytes)) :=
    match vs with
    | [] => Ok ([], unk)
    | v :: t =>
        if enum_valid closed v then
          '(r, unk') <- filter_enum k num closed t unk ;; Ok (VInt v :: r, unk')
        else
          unk1 <- unknown_enum k num v unk ;; filter_enum k num closed t unk1
    end.

  (** deserialize_packed_repeated, deserialize.hpp:808-903. *)
  Definition dec_packed (k : ukind) (num : Z) (e : elem) (cur : list val) (unk : list (Z * bytes)) (a : A)
    : res (list val * list (Z * bytes) * A) :=
    '(len, a1) <- a_varint AR VU32 a ;;
    if len =? 0 then Ok (cur, unk, a1)
    else
      o <- count_packed e len a1 ;;
      match o with
      | None => Err BadMessage
      | Some n =>
          match e with
          | EBool => '(vs, a2) <- a_pbool AR n a1 ;; Ok (cur ++ map VInt vs, unk, a2)
          | EFix is64 _ =>
              '(b, a2) <- a_packed AR (Z.of_nat n) (fix_size is64) a1 ;;
              Ok (cur ++ map VInt (chunks n (fix_size is64) b), unk, a2)
          | EEnum closed =>
              '(vs, a2) <- a_pvarint AR VI64 len n a1 ;;
              '(r, unk') <- filter_enum k num closed (map to_enum vs) unk ;;
              Ok (cur ++ r, unk', a2)
          | EVar t => '(vs, a2) <- a_pvarint AR t len n a1 ;; Ok (cur ++ map VInt vs, unk, a2)
          | _ => UB
          end
      end.

  (** count_unpacked_elements and count_groups, deserialize.hpp:765-800. *)
  Fixpoint count_loop (n fuel : nat) (depth tag : Z) (a : A) : res nat :=
    match n with
    | O => NoFuel
    | S k =>
        a1 <- skip_one fuel depth tag a ;;
        if a_avail AR a1 =? 0 then Ok 1%nat
        else
          '(t, a2) <- a_tag AR a1 ;;
          if t =? tag then c <- count_loop k fuel depth tag a2 ;; Ok (S c) else Ok 1%nat
    end.

  (** deserialize_unpacked_repeated_elements and the loop of
      deserialize_repeated_group, deserialize.hpp:970-996,1047-1058: [n] more
      elements; the tag between two elements is read without being looked at. *)
  Fixpoint dec_elements (one : list val -> list (Z * bytes) -> A -> res (list val * list (Z * bytes) * A))
    (n : nat) (cur : list val) (unk : list (Z * bytes)) (a : A)
    : res (list val * list (Z * bytes) * A) :=
    match n with
    | O => Ok (cur, unk, a)
    | S k =>
        '(cur1, unk1, a1) <- one cur unk a ;;
        match k with
        | O => Ok (cur1, unk1, a1)
        | _ => '(_, a2) <- a_tag AR a1 ;; dec_elements one k cur1 unk1 a2
        end
    end.

  (** One element: deserialize_unpacked_sequence_element, deserialize.hpp:931-968. *)
  Definition dec_one (rec : recT) (k : ukind) (e : elem) (tag depth : Z)
    (cur : list val) (unk : list (Z * bytes)) (a : A) : res (list val * list (Z * bytes) * A) :=
    '(v, a1) <- dec_value rec e (elem_default e) tag depth a ;;
    match e with
    | EEnum (Some _ as closed) =>
        let z := to_enum (int_of v) in
        if enum_valid closed z then Ok (cur ++ [VInt z], unk, a1)
        else unk1 <- unknown_enum k (tag_number tag) z unk ;; Ok (cur, unk1, a1)
    | _ => Ok (cur ++ [enum_val e v], unk, a1)
    end.

  (** One map element: deserialize_unpacked_associative_element,
      deserialize.hpp:905-919 (or the sequence version when not associative). *)
  Definition dec_map_one (rec : recT) (assoc : bool) (e : elem) (tag depth : Z)
    (cur : list val) (unk : list (Z * bytes)) (a : A) : res (list val * list (Z * bytes) * A) :=
    '(v, a1) <- dec_value rec e (elem_default e) tag depth a ;;
    Ok ((if assoc then map_put v cur else cur ++ [v]), unk, a1).

  (** deserialize_unpacked_repeated / deserialize_repeated_group, deserialize.hpp:998-1060. *)
  Definition dec_unpacked (one : list val -> list (Z * bytes) -> A -> res (list val * list (Z * bytes) * A))
    (fuel : nat) (e : elem) (tag depth : Z) (cur : list val) (unk : list (Z * bytes)) (a : A)
    : res (list val * list (Z * bytes) * A) :=
    if negb (tag_type tag =? elem_wt e) then Err BadMessage
    else
      n <- count_loop fuel fuel depth tag a ;;
      dec_elements one n cur unk a.

  (** ** One occurrence of a field *)

  (** Current value used as the starting point of a message-typed optional or
      oneof alternative, deserialize.hpp:1094-1111,1154-1156,1257-1263. *)
  Definition start_val (e : elem) (cur : list val) : val :=
    match cur with v :: _ => v | [] => elem_default e end.

  (** deserialize_oneof once the alternative [i] is known,
      deserialize.hpp:1239-1273.  A closed enum alternative is stored with
      [std::get], which throws when another alternative is active. *)
  Definition dec_oneof (rec : recT) (k : ukind) (i : nat) (num : Z) (e : elem) (tag depth : Z)
    (cur : list val) (unk : list (Z * bytes)) (a : A) : res (list val * list (Z * bytes) * A) :=
    let active := match cur with VAlt j v :: _ => if Nat.eqb i j then [v] else [] | _ => [] end in
    '(v, a1) <- dec_value rec e (start_val e active) tag depth a ;;
    match e with
    | EEnum (Some _ as closed) =>
        if enum_valid closed (to_enum (int_of v)) then
          match active with
          | [] => Exn
          | _ => Ok ([VAlt i (enum_val e v)], unk, a1)
          end
        else unk1 <- unknown_enum k num (int_of v) unk ;; Ok (cur, unk1, a1)
    | _ => Ok ([VAlt i (enum_val e v)], unk, a1)
    end.

  (** deserialize_field for each kind of member, deserialize.hpp:1062-1237. *)
  Definition dec_field (rec : recT) (fuel : nat) (k : ukind) (f : field) (tag depth : Z)
    (cur : list val) (unk : list (Z * bytes)) (a : A) : res (list val * list (Z * bytes) * A) :=
    match f with
    | Field num e (CPlain ex d) =>
        '(v, a1) <- dec_value rec e (start_val e cur) tag depth a ;;
        match e with
        | EEnum (Some _ as closed) =>
            if ex && negb (enum_valid closed (to_enum (int_of v))) then
              _ <- unknown_enum k num (int_of v) unk ;; Err TooLarge
            else Ok ([enum_val e v], unk, a1)
        | _ => Ok ([enum_val e v], unk, a1)
        end
    | Field num e COpt =>
        '(v, a1) <- dec_value rec e (start_val e cur) tag depth a ;;
        match e with
        | EEnum (Some _ as closed) =>
            if enum_valid closed (to_enum (int_of v)) then Ok ([enum_val e v], unk, a1)
            else unk1 <- unknown_enum k num (int_of v) unk ;; Ok (cur, unk1, a1)
        | _ => Ok ([enum_val e v], unk, a1)
        end
    | Field num e (CRep _) =>
        if packable e && (tag_type tag =? WT_LEN) then dec_packed k num e cur unk a
        else dec_unpacked (dec_one rec k e tag depth) fuel e tag depth cur unk a
    | Field num e (CMap assoc) =>
        dec_unpacked (dec_map_one rec assoc e tag depth) fuel e tag depth cur unk a
    | Oneof alts =>
        match find_alt (tag_number tag) alts 0 with
        | Some (i, e) => dec_oneof rec k i (tag_number tag) e tag depth cur unk a
        | None => UB
        end
    end.

  (** deserialize_field_by_tag, deserialize.hpp:1275-1299. *)
  Definition dec_by_tag (rec : recT) (fuel : nat) (ty : nat) (tag depth : Z)
    (fs : list (list val)) (unk : list (Z * bytes)) (a : A)
    : res (list (list val) * list (Z * bytes) * A) :=
    let D := desc_of E ty in
    if tag_number tag =? 0 then Err BadMessage
    else
      match find_field (tag_number tag) (m_fields D) 0 with
      | Some (i, f) =>
          '(cur, unk1, a1) <- dec_field rec fuel (m_unk D) f tag depth (nth i fs []) unk a ;;
          Ok (set_nth i cur fs, unk1, a1)
      | None =>
          if 0 <? a_avail AR a then
            '(unk1, a1) <- skip_field fuel (m_unk D) depth tag unk a ;; Ok (fs, unk1, a1)
          else Err BadMessage
      end.

  (** The loops of deserialize and deserialize_group, deserialize.hpp:1356-1364,1324-1335. *)
  Fixpoint dec_loop (fuel : nat) (mode : option Z) (ty : nat) (fs : list (list val))
    (unk : list (Z * bytes)) (depth : Z) (a : A) : res (val * A) :=
    match fuel with
    | O => NoFuel
    | S f =>
        if a_avail AR a <=? 0 then
          match mode with
          | None => if a_avail AR a =? 0 then Ok (VMsg fs unk, a) else Err BadMessage
          | Some _ => Err BadMessage
          end
        else
          '(tag, a1) <- a_tag AR a ;;
          if match mode with
             | Some num => (tag_type tag =? WT_EGROUP) && (num =? tag_number tag)
             | None => false
             end
          then Ok (VMsg fs unk, a1)
          else
            '(fs1, unk1, a2) <- dec_by_tag (dec_loop f) f ty tag depth fs unk a1 ;;
            dec_loop f mode ty fs1 unk1 depth a2
    end.

  (** pb_serializer::deserialize on a root message, deserialize.hpp:1461-1503:
      the recursion counter starts at zero. *)
  Definition decode (fuel : nat) (ty : nat) (cur : val) (a : A) : res (val * A) :=
    dec_msg (dec_loop fuel) ty cur 0 a.
End Decode.

(** read_binpb on a byte list with the reference archive. *)
Definition decode_bytes (E : env) (utf8_ok : bytes -> bool) (maxd : Z) (ty : nat) (cur : val) (bs : bytes) : res val :=
  '(v, _) <- decode zops E utf8_ok maxd (S (length bs)) ty cur (Zip [] bs) ;; Ok v.
