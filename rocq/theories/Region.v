(** basic_in with its regions, deserialize.hpp:97-613, for contiguous, segmented
    and padded input.

    A region is a piece of readable memory with positions relative to its first
    byte.  Reading a byte that is not in the memory of the current region is
    [UB].  This is stricter than the C++ code for patch regions, which lie one
    after another in a single patch buffer: a model run that stays inside the
    region stays inside the patch buffer.  Moving a pointer outside of the region
    without reading through it is not an error of the model (the code does this
    in [skip] and [split]). *)
Require Import Verif.Bits Verif.Varint Verif.Schema Verif.Archive.

(** input_buffer_region, deserialize.hpp:97-131, as stored in the table of
    regions: memory, [_end] and [_slope_begin] relative to [_begin]. *)
Record region := Reg { r_mem : bytes; r_e : Z; r_s : Z }.

(** basic_in, deserialize.hpp:142-148: memory of the current region, [_begin],
    [_end] and [_slope_begin] of [current], [rest], [size_exclude_current]. *)
Record arch := Arch { c_mem : bytes; c_b : Z; c_e : Z; c_s : Z; c_rest : list region; c_sec : Z }.

Definition slope_size : Z := 16.                  (* deserialize.hpp:93 *)
Definition patch_buffer_size : Z := 2 * slope_size.  (* deserialize.hpp:94 *)

(** The bytes that can be read from [_begin] on. *)
Definition rd (a : arch) : bytes := if c_b a <? 0 then [] else skipn (Z.to_nat (c_b a)) (c_mem a).

Definition at_pos (b : Z) (a : arch) : arch := Arch (c_mem a) b (c_e a) (c_s a) (c_rest a) (c_sec a).

(** set_current_region followed by consume(offset), deserialize.hpp:152-163,171-172. *)
Definition enter (r : region) (off : Z) (a : arch) : arch :=
  let d := c_sec a - r_s r in
  if 0 <? d
  then Arch (r_mem r) off (r_e r) (Z.min (r_s r) (r_e r)) (tl (c_rest a)) d
  else let s := Z.min (r_s r) (c_sec a) in
       Arch (r_mem r) off (c_sec a) s (tl (c_rest a)) (c_sec a - s).

(** The loop of maybe_advance_region, deserialize.hpp:165-179. *)
Fixpoint advance_loop (l : list region) (a : arch) : arch :=
  match l with
  | [] => a
  | r :: t => if 0 <? c_b a - c_s a then advance_loop t (enter r (c_b a - c_s a) a) else a
  end.

(** How deserialize_packed copies: append_raw_data by whole elements (290-305),
    memcpy by bytes or one element at a time (308-340). *)
Inductive copy_path := CopyRaw | CopyBytes | CopyEach.

(** Bytes copied from one region when [m] bytes are left and the region has [n]. *)
Definition copy_step (path : copy_path) (sz : nat) (m n : Z) : Z :=
  match path with
  | CopyRaw => Z.min (m / Z.of_nat sz) (Z.quot n (Z.of_nat sz)) * Z.of_nat sz
  | CopyBytes => Z.min m (wrapU 64 n)
  | CopyEach => Z.of_nat sz
  end.

Section Ops.
  Variables (contiguous padded big : bool) (path : copy_path).

  (** maybe_advance_region, deserialize.hpp:165-179. *)
  Definition advance (a : arch) : arch := if padded then a else advance_loop (c_rest a) a.

  (** region_size, deserialize.hpp:183. *)
  Definition region_size (a : arch) : Z := c_e a - c_b a.

  (** in_avail, deserialize.hpp:184-190. *)
  Definition in_avail (a : arch) : Z := if contiguous then region_size a else c_sec a - (c_b a - c_s a).

  (** The parsers return a pointer; it is accepted when not beyond [_end]. *)
  Definition r_parse (p : pres) (a : arch) : res (option (Z * arch)) :=
    match p with
    | PUB => UB
    | PUnterm => Ok None
    | POk v n => if c_b a + Z.of_nat n <=? c_e a then Ok (Some (v, at_pos (c_b a + Z.of_nat n) a)) else Ok None
    end.

  (** read_tag, deserialize.hpp:591-600. *)
  Definition r_tag (a : arch) : res (Z * arch) :=
    let a1 := advance a in
    o <- r_parse (shift_mix SMTAG (rd a1)) a1 ;;
    Ok (match o with Some (v, a2) => (wrapU 32 v, a2) | None => (0, a1) end).

  (** match_tag, deserialize.hpp:602-612. *)
  Definition r_match (tag : Z) (a : arch) : res (bool * arch) :=
    let a1 := advance a in
    o <- r_parse (shift_mix SMTAG (rd a1)) a1 ;;
    Ok (match o with Some (v, a2) => if v =? tag then (true, a2) else (false, a1) | None => (false, a1) end).

  Definition r_checked (p : pres) (a : arch) : res (Z * arch) :=
    o <- r_parse p a ;; match o with Some x => Ok x | None => Err BadMessage end.

  (** deserialize(varint), deserialize.hpp:279-286. *)
  Definition r_varint (t : vtype) (a : arch) : res (Z * arch) := r_checked (parse_varint t (rd a)) a.
  (** deserialize(bool), deserialize.hpp:257-263. *)
  Definition r_bool (a : arch) : res (Z * arch) := r_checked (parse_bool (rd a)) a.

  (** consume followed by a read of the bytes. *)
  Definition r_take (n : nat) (a : arch) : res (bytes * arch) :=
    if (n <=? length (rd a))%nat then Ok (firstn n (rd a), at_pos (c_b a + Z.of_nat n) a) else UB.

  (** skip, deserialize.hpp:462-468. *)
  Definition r_skip (n : Z) (a : arch) : res arch :=
    if in_avail a <? n then Err BadMessage else Ok (at_pos (c_b a + n) a).

  (** skip_varint, deserialize.hpp:443-452: looks at no more than ten bytes and
      not beyond [_end]. *)
  Definition r_skip_varint (a : arch) : res arch :=
    let n := Z.to_nat (Z.min 10 (region_size a)) in
    if region_size a <? 0 then UB
    else if (n <=? length (rd a))%nat then
      match find_term n (rd a) with
      | Some k => Ok (at_pos (c_b a + Z.of_nat k) a)
      | None => Err BadMessage
      end
    else match find_term (length (rd a)) (rd a) with
         | Some k => Ok (at_pos (c_b a + Z.of_nat k) a)
         | None => UB
         end.

  (** split, deserialize.hpp:473-497; size() wraps when [_begin] is beyond [_end]. *)
  Definition r_split (n : Z) (a : arch) : arch * arch :=
    ((if n <=? wrapU 64 (region_size a) then
        let e := c_b a + n in
        let s := Z.min e (c_s a) in
        Arch (c_mem a) (c_b a) e s (c_rest a) (e - s)
      else
        Arch (c_mem a) (c_b a) (c_e a) (c_s a) (c_rest a) (n + (c_b a - c_s a))),
     at_pos (c_b a + n) a).

  (** The copying loops of deserialize_packed, deserialize.hpp:290-340. *)
  Fixpoint copy_loop (fuel : nat) (sz : nat) (m : Z) (a : arch) : res (bytes * arch) :=
    if m =? 0 then Ok ([], a)
    else
      match fuel with
      | O => NoFuel
      | S f =>
          let a1 := advance a in
          let k := copy_step path sz m (region_size a1) in
          if k <? 0 then UB
          else
            '(b, a2) <- r_take (Z.to_nat k) a1 ;;
            '(t, a3) <- copy_loop f sz (m - k) a2 ;;
            Ok (b ++ t, a3)
      end.

  (** deserialize_packed, deserialize.hpp:342-357. *)
  Definition r_packed (n : Z) (sz : nat) (a : arch) : res (bytes * arch) :=
    let m := n * Z.of_nat sz in
    if in_avail a <? m then Err BadMessage
    else if contiguous && negb (match path with CopyEach => true | _ => false end) then r_take (Z.to_nat m) a
    else copy_loop (S (Z.to_nat m)) sz m a.

  (** read_bytes, deserialize.hpp:499-507: the view is not checked. *)
  Definition r_view (n : Z) (a : arch) : option bytes * arch :=
    ((if (Z.to_nat n <=? length (rd a))%nat then Some (firstn (Z.to_nat n) (rd a)) else None),
     at_pos (c_b a + n) a).

  (** count_number_of_varints_in_region, deserialize.hpp:522-552, over [n] bytes. *)
  Definition r_count (n : nat) (a : arch) : res nat :=
    if (n <=? length (rd a))%nat then Ok (count_region big (firstn n (rd a))) else UB.

  (** The last part of number_of_varints: check the last byte, then count. *)
  Definition r_count_last (n : nat) (a : arch) : res (option nat) :=
    match nth_error (rd a) (n - 1) with
    | None => UB
    | Some b => if b <? 128 then c <- r_count n a ;; Ok (Some c) else Ok None
    end.

  (** The loop of number_of_varints, deserialize.hpp:567-585. *)
  Fixpoint nvarints_loop (fuel : nat) (acc : nat) (n : Z) (a : arch) : res (option nat) :=
    match fuel with
    | O => NoFuel
    | S f =>
        if (0 <? n) && (0 <? in_avail a) then
          let a1 := advance a in
          if region_size a1 <? n then
            if region_size a1 <? 0 then UB
            else
              c <- r_count (Z.to_nat (region_size a1)) a1 ;;
              nvarints_loop f (acc + c) (n - wrapU 32 (region_size a1)) (at_pos (c_e a1) a1)
          else
            o <- r_count_last (Z.to_nat n) a1 ;;
            Ok (match o with Some c => Some (acc + c)%nat | None => None end)
        else Ok None
    end.

  (** number_of_varints, deserialize.hpp:556-589. *)
  Definition r_nvarints (n : Z) (a : arch) : res (option nat) :=
    if n <=? region_size a then r_count_last (Z.to_nat n) a
    else if (n <=? in_avail a) && negb contiguous then nvarints_loop (S (Z.to_nat n)) 0 n a
    else Ok None.

  (** parse_packed_varints_in_a_region, deserialize.hpp:393-410: [len] bytes from
      the first of [m]; the parser itself may read on in the memory. *)
  Fixpoint parse_piece (fuel : nat) (t : vtype) (room : nat) (len : nat) (m : bytes) : res (list Z) :=
    match len with
    | O => Ok []
    | _ =>
      match fuel, room with
      | O, _ => NoFuel
      | _, O => Err BadMessage
      | S f, S r =>
        match parse_varint t m with
        | PUB => UB
        | PUnterm => Err BadMessage
        | POk v n =>
            if (n <=? len)%nat then vs <- parse_piece f t r (len - n) (skipn n m) ;; Ok (v :: vs)
            else Err BadMessage
        end
      end
    end.

  (** Number of bytes after the last terminator of the slope area, if there is one. *)
  Fixpoint after_term (l : bytes) : option nat :=
    match l with
    | [] => None
    | b :: t => if b <? 128 then Some O else match after_term t with Some k => Some (S k) | None => None end
    end.

  (** consume_packed_varints, deserialize.hpp:108-130: how many bytes to take;
      zero stands for the empty span. *)
  Definition piece_len (n : Z) (a : arch) : res Z :=
    let size := wrapU 64 (region_size a) in
    if n <=? size then Ok n
    else if c_s a <? c_e a then
      if (c_s a <? 0) || (zlen (c_mem a) <? c_e a) then UB
      else
        match after_term (rev (firstn (Z.to_nat (c_e a - c_s a)) (skipn (Z.to_nat (c_s a)) (c_mem a)))) with
        | None => Ok 0
        | Some k => if size <? Z.of_nat k then Ok 0 else Ok (size - Z.of_nat k)
        end
    else Ok 0.

  (** parse_packed_varints_in_regions, deserialize.hpp:412-427. *)
  Fixpoint pvarint_loop (fuel : nat) (t : vtype) (n : Z) (room : nat) (a : arch) : res (list Z * arch) :=
    if n =? 0 then Ok ([], a)
    else
      match fuel with
      | O => NoFuel
      | S f =>
          let a1 := advance a in
          k <- piece_len n a1 ;;
          if k =? 0 then Err BadMessage
          else
            vs <- parse_piece (Z.to_nat k) t room (Z.to_nat k) (rd a1) ;;
            '(ws, a2) <- pvarint_loop f t (n - k) (room - length vs) (at_pos (c_b a1 + k) a1) ;;
            Ok (vs ++ ws, a2)
      end.

  (** deserialize_packed_varint, deserialize.hpp:429-441. *)
  Definition r_pvarint (t : vtype) (n : Z) (room : nat) (a : arch) : res (list Z * arch) :=
    '(vs, a') <-
      (if contiguous then
         vs <- parse_piece (Z.to_nat n) t room (Z.to_nat n) (rd a) ;; Ok (vs, at_pos (c_b a + n) a)
       else pvarint_loop (S (Z.to_nat n)) t n room a) ;;
    Ok (pad_room room vs, a').

  (** deserialize_packed_boolean, deserialize.hpp:377-391. *)
  Fixpoint r_pbool (n : nat) (a : arch) : res (list Z * arch) :=
    match n with
    | O => Ok ([], a)
    | S k =>
        '(v, a1) <- r_bool (if contiguous then a else advance a) ;;
        '(vs, a2) <- r_pbool k a1 ;; Ok (v :: vs, a2)
    end.

  (** unwind_tag, deserialize.hpp:509-514. *)
  Definition r_unwind (tag : Z) (a : arch) : arch := at_pos (c_b a - varint_size_u tag) a.

  Definition r_byte0 (a : arch) : res Z := match rd a with b :: _ => Ok b | [] => UB end.

  Definition rops : aops arch := {|
    a_padded := padded;
    a_avail := in_avail;
    a_tag := r_tag;
    a_match := r_match;
    a_varint := r_varint;
    a_bool := r_bool;
    a_fixed := r_take;
    a_skip := r_skip;
    a_skip_varint := r_skip_varint;
    a_split := r_split;
    a_packed := r_packed;
    a_view := r_view;
    a_nvarints := r_nvarints;
    a_pvarint := r_pvarint;
    a_pbool := r_pbool;
    a_unwind := r_unwind;
    a_byte0 := r_byte0
  |}.
End Ops.

(** ** The constructor from segments, deserialize.hpp:200-247 *)

(** State of its loop.  [done] are the finished regions, [open] the contents of
    the patch region under construction with its slope position, [None] when the
    table is still empty.  [patch] is all that was written to the patch buffer. *)
Record build := Build { done : list region; open : option (bytes * Z); patch : bytes }.

Definition add_segment (first : bool) (seg : bytes) (st : build) : build :=
  if negb first && (zlen seg =? 0) then st
  else
    let cur := match open st with Some (d, _) => d | None => [] end in
    if zlen seg <=? slope_size then
      Build (done st) (Some (cur ++ seg, zlen (cur ++ seg))) (patch st ++ seg)
    else
      let head := firstn 16 seg in
      let tail := skipn (length seg - 16) seg in
      let seg_region := Reg seg (zlen seg) (zlen seg - slope_size) in
      match open st with
      | None => Build (done st ++ [seg_region]) (Some (tail, zlen tail)) (patch st ++ tail)
      | Some (d, s) =>
          Build (done st ++ [Reg (d ++ head) (zlen (d ++ head)) s; seg_region])
                (Some (tail, zlen tail)) (patch st ++ head ++ tail)
      end.

Fixpoint add_segments (first : bool) (segs : list bytes) (st : build) : build :=
  match segs with
  | [] => st
  | seg :: t => add_segments false t (add_segment first seg st)
  end.

Definition zeros : bytes := repeat 0 16.

(** The finished table: the last region ends where its contents end, sixteen
    zero bytes follow. *)
Definition table (segs : list bytes) : list region :=
  let st := add_segments true segs (Build [] None []) in
  match open st with
  | None => done st
  | Some (d, _) => done st ++ [Reg (d ++ zeros) (zlen d) (zlen d)]
  end.

(** Everything written to the patch buffer, including the zeros. *)
Definition patch_written (segs : list bytes) : bytes :=
  match segs with [] => [] | _ => patch (add_segments true segs (Build [] None [])) ++ zeros end.

(** The archive after construction; without any segment everything is null. *)
Definition open_segments (segs : list bytes) : arch :=
  match table segs with
  | [] => Arch [] 0 0 0 [] 0
  | r :: t => Arch (r_mem r) 0 (r_e r) (Z.min (r_s r) (r_e r)) t (zlen (concat segs) - r_s r)
  end.

(** Padded input, deserialize.hpp:1430-1450: one region, the slope begins at the end. *)
Definition open_padded (bs pad : bytes) : arch := Arch (bs ++ pad) 0 (zlen bs) (zlen bs) [] 0.
