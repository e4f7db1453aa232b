(** Specification of decoding, independent of archives: a message is a sequence
    of records; decoding applies the records one after the other.

    Three outcomes besides success: [TErr] the bytes are not acceptable, [TDev]
    the input uses a feature on which the library is known to deviate from this
    specification (a retained unknown field whose tag is not in its shortest form;
    see DESIGN.md), [TFuel] the recursion bound of the
    definition was too small (shown not to happen). *)
Require Import Verif.Bits Verif.Varint Verif.VarintSpec Verif.VarintProofs Verif.VarintFacts Verif.VarintMain.
Require Import Verif.Schema Verif.Archive Verif.Decode.

Inductive tres (T : Type) := TOk (x : T) | TErr | TDev | TFuel.
Arguments TOk {T}. Arguments TErr {T}. Arguments TDev {T}. Arguments TFuel {T}.

Definition tbind {A B} (r : tres A) (k : A -> tres B) : tres B :=
  match r with TOk x => k x | TErr => TErr | TDev => TDev | TFuel => TFuel end.
Notation "x <~ r ;; k" := (tbind r (fun x => k)) (at level 61, r at next level, right associativity).
Notation "' p <~ r ;; k" := (tbind r (fun p => k)) (at level 61, p pattern, r at next level, right associativity).

(** A record: tag bytes, tag, the bytes after the tag, and their meaning: the
    varint / fixed width bytes or the content of a length delimited field, and
    the records of a group. *)
Inductive rec := Rec (tb : bytes) (tag : Z) (pb : bytes) (pay : bytes) (sub : list rec).

Definition r_tb (r : rec) := match r with Rec tb _ _ _ _ => tb end.
Definition r_tag (r : rec) := match r with Rec _ t _ _ _ => t end.
Definition r_pb (r : rec) := match r with Rec _ _ pb _ _ => pb end.
Definition r_pay (r : rec) := match r with Rec _ _ _ p _ => p end.
Definition r_sub (r : rec) := match r with Rec _ _ _ _ s => s end.
Definition r_raw (r : rec) : bytes := r_tb r ++ r_pb r.

(** A tag: a varint of at most five bytes.  Of a five byte tag the library reads
    only four bytes and sets the upper four bits ([tag_value]); the field numbers
    this misreads are the subject of C10. *)
Definition tok_tag (bs : bytes) : tres (bytes * Z * bytes) :=
  match scan 5 bs with
  | Found n => TOk (firstn n bs, tag_value (firstn n bs), skipn n bs)
  | _ => TErr
  end.

Definition tok_take (n : nat) (bs : bytes) : tres (bytes * bytes) :=
  if (n <=? length bs)%nat then TOk (firstn n bs, skipn n bs) else TErr.

(** The bytes after a tag: meaning, group records, remaining bytes. *)
Definition tok_pay (grp : Z -> bytes -> tres (list rec * bytes)) (tag : Z) (bs : bytes)
  : tres (bytes * list rec * bytes) :=
  let wt := tag_type tag in
  if tag =? 0 then TErr
  else if wt =? WT_VARINT then
    match scan 10 bs with Found n => TOk (firstn n bs, [], skipn n bs) | _ => TErr end
  else if wt =? WT_LEN then
    match scan 6 bs with
    | Found n =>
        '(p, rest) <~ tok_take (Z.to_nat (b128 (firstn n bs) mod 2 ^ 32)) (skipn n bs) ;; TOk (p, [], rest)
    | _ => TErr
    end
  else if wt =? WT_I64 then '(p, rest) <~ tok_take 8 bs ;; TOk (p, [], rest)
  else if wt =? WT_SGROUP then '(rs, rest) <~ grp (tag_number tag) bs ;; TOk ([], rs, rest)
  else if wt =? WT_I32 then '(p, rest) <~ tok_take 4 bs ;; TOk (p, [], rest)
  else TErr.

Definition used (bs rest : bytes) : bytes := firstn (length bs - length rest) bs.

Section Wire.
  Context (E : env) (utf8_ok : bytes -> bool) (maxd : Z).

  (** Records up to the end ([None]) or up to the end-group tag of a group. *)
  Fixpoint tok (fuel : nat) (mode : option Z) (depth : Z) (bs : bytes) : tres (list rec * bytes) :=
    match fuel with
    | O => TFuel
    | S f =>
        match bs with
        | [] => match mode with None => TOk ([], []) | Some _ => TErr end
        | _ =>
            '(tb, tag, bs1) <~ tok_tag bs ;;
            if match mode with
               | Some num => (tag_type tag =? WT_EGROUP) && (tag_number tag =? num)
               | None => false
               end
            then TOk ([], bs1)
            else
              '(p, sub, bs2) <~ tok_pay
                 (fun num x => if scope_ok maxd depth then tok f (Some num) (depth + 1) x else TErr) tag bs1 ;;
              '(rs, rest) <~ tok f mode depth bs2 ;;
              TOk (Rec tb tag (used bs1 bs2) p sub :: rs, rest)
        end
    end.

  Definition tokB (mode : option Z) (depth : Z) (bs : bytes) : tres (list rec * bytes) :=
    tok (S (length bs)) mode depth bs.

  (** ** Applying records to a message *)
  Definition is_closed (e : elem) : bool := match e with EEnum (Some _) => true | _ => false end.

  Definition lift {T} (r : res T) : tres T :=
    match r with Ok x => TOk x | Err _ => TErr | _ => TDev end.

  (** The varints of a packed payload. *)
  Fixpoint varints (fuel : nat) (max : nat) (bs : bytes) : option (list bytes) :=
    match bs with
    | [] => Some []
    | _ =>
        match fuel with
        | O => None
        | S f =>
            match scan max bs with
            | Found n =>
                match varints f max (skipn n bs) with Some l => Some (firstn n bs :: l) | None => None end
            | _ => None
            end
        end
    end.

  Definition bool_of (b : bytes) : Z := if b128 b mod 2 ^ 64 =? 0 then 0 else 1.

  Definition state := (list (list val) * list (Z * bytes))%type.

  Section Apply.
    (** Applies the records of a nested message body. *)
    Variable body : nat -> Z -> state -> list rec -> tres state.

    (** A message-typed record applied to the value [cur]. *)
    Definition ap_message (ty : nat) (delim : bool) (cur : val) (depth : Z) (r : rec) : tres val :=
      let st := (msg_fields cur, msg_unk cur) in
      if delim then
        '(fs, unk) <~ body ty (depth + 1) st (r_sub r) ;; TOk (VMsg fs unk)
      else if m_entry (desc_of E ty) && negb (tag_number (hd 0 (r_pay r)) =? 1) then TErr
      else if negb (scope_ok maxd depth) then TErr
      else
        '(rs, _) <~ tokB None (depth + 1) (r_pay r) ;;
        '(fs, unk) <~ body ty (depth + 1) st rs ;; TOk (VMsg fs unk).

    Definition ap_value (e : elem) (cur : val) (depth : Z) (r : rec) : tres val :=
      if negb (tag_type (r_tag r) =? elem_wt e) then TErr
      else
        match e with
        | EVar t =>
            if (length (r_pay r) <=? max_len t)%nat then TOk (VInt (meaning t (b128 (r_pay r)))) else TErr
        | EBool => TOk (VInt (bool_of (r_pay r)))
        | EFix _ _ => TOk (VInt (le_val (r_pay r)))
        | EEnum _ => TOk (VInt (meaning VI64 (b128 (r_pay r))))
        | EBytes utf8 _ => if utf8 && negb (utf8_ok (r_pay r)) then TErr else TOk (VBytes (r_pay r))
        | EMsg ty delim => ap_message ty delim cur depth r
        end.

    (** A packed record. *)
    Definition ap_packed (k : ukind) (num : Z) (e : elem) (cur : list val) (unk : list (Z * bytes)) (p : bytes)
      : tres (list val * list (Z * bytes)) :=
      match e with
      | EFix is64 _ =>
          let sz := fix_size is64 in
          if zlen p mod Z.of_nat sz =? 0
          then TOk (cur ++ map VInt (chunks (length p / sz) sz p), unk) else TErr
      | EVar t =>
          match varints (length p) (max_len t) p with
          | Some l => TOk (cur ++ map (fun b => VInt (meaning t (b128 b))) l, unk)
          | None => TErr
          end
      | EBool =>
          match varints (length p) 10 p with
          | Some l => TOk (cur ++ map (fun b => VInt (bool_of b)) l, unk)
          | None => TErr
          end
      | EEnum closed =>
          match varints (length p) 10 p with
          | Some l =>
              '(r, unk') <~ lift (filter_enum k num closed (map (fun b => to_enum (meaning VI64 (b128 b))) l) unk) ;;
              TOk (cur ++ r, unk')
          | None => TErr
          end
      | _ => TErr
      end.

    (** One record applied to a member. *)
    Definition ap_field (k : ukind) (f : field) (depth : Z) (cur : list val) (unk : list (Z * bytes)) (r : rec)
      : tres (list val * list (Z * bytes)) :=
      match f with
      | Field num e (CPlain ex d) =>
          v <~ ap_value e (start_val E e cur) depth r ;;
          match e with
          | EEnum (Some _ as closed) =>
              if ex && negb (enum_valid closed (to_enum (int_of v))) then TErr else TOk ([enum_val e v], unk)
          | _ => TOk ([enum_val e v], unk)
          end
      | Field num e COpt =>
          v <~ ap_value e (start_val E e cur) depth r ;;
          match e with
          | EEnum (Some _ as closed) =>
              if enum_valid closed (to_enum (int_of v)) then TOk ([enum_val e v], unk)
              else unk' <~ lift (unknown_enum k num (int_of v) unk) ;; TOk (cur, unk')
          | _ => TOk ([enum_val e v], unk)
          end
      | Field num e (CRep _) =>
          if packable e && (tag_type (r_tag r) =? WT_LEN) then ap_packed k num e cur unk (r_pay r)
          else
            v <~ ap_value e (elem_default E e) depth r ;;
            match e with
            | EEnum (Some _ as closed) =>
                let z := to_enum (int_of v) in
                if enum_valid closed z then TOk (cur ++ [VInt z], unk)
                else unk' <~ lift (unknown_enum k (tag_number (r_tag r)) z unk) ;; TOk (cur, unk')
            | _ => TOk (cur ++ [enum_val e v], unk)
            end
      | Field num e (CMap assoc) =>
          v <~ ap_value e (elem_default E e) depth r ;;
          TOk ((if assoc then map_put v cur else cur ++ [v]), unk)
      | Oneof alts =>
          match find_alt (tag_number (r_tag r)) alts 0 with
          | Some (i, e) =>
              let active := match cur with VAlt j v :: _ => if Nat.eqb i j then [v] else [] | _ => [] end in
              v <~ ap_value e (start_val E e active) depth r ;;
              if is_closed e then TDev else TOk ([VAlt i (enum_val e v)], unk)
          | None => TErr
          end
      end.

    (** A record of a field the message does not know: kept as is, or dropped. *)
    Definition ap_unknown (k : ukind) (unk : list (Z * bytes)) (r : rec) : tres (list (Z * bytes)) :=
      match k with
      | UNone => TOk unk
      | _ =>
          if zlen (r_tb r) =? varint_size_u (r_tag r)
          then TOk (unk_add k (tag_number (r_tag r)) (r_raw r) unk) else TDev
      end.

    (** One record applied to a message. *)
    Definition ap_rec (ty : nat) (depth : Z) (st : state) (r : rec) : tres state :=
      let '(fs, unk) := st in
      let D := desc_of E ty in
      let n := tag_number (r_tag r) in
      if n =? 0 then TErr
      else
        match find_field n (m_fields D) 0 with
        | Some (i, f) =>
            '(cur, unk1) <~ ap_field (m_unk D) f depth (nth i fs []) unk r ;; TOk (set_nth i cur fs, unk1)
        | None => unk1 <~ ap_unknown (m_unk D) unk r ;; TOk (fs, unk1)
        end.

    (** Records applied one after the other. *)
    Fixpoint ap_recs (ty : nat) (depth : Z) (st : state) (rs : list rec) : tres state :=
      match rs with
      | [] => TOk st
      | r :: t => st1 <~ ap_rec ty depth st r ;; ap_recs ty depth st1 t
      end.
  End Apply.

  Fixpoint ap_body (fuel : nat) (ty : nat) (depth : Z) (st : state) (rs : list rec) : tres state :=
    match fuel with
    | O => TFuel
    | S f => ap_recs (ap_body f) ty depth st rs
    end.
End Wire.
