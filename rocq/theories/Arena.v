(** Model of detail::arena_vector, include/hpp_proto/memory_resource_utils.hpp:235-403, and
    of the capture of unknown fields into a list of (number, bytes) pairs kept through it,
    include/hpp_proto/binpb/deserialize.hpp:621-672.

    Memory is a list of blocks; a block is a list of cells; a cell holds a value or is
    uninitialised.  A pointer is a block number and an offset, or null.  Reading or writing
    outside a block, and using null, is undefined behaviour: the result is [None].
    Simplifications: element constructors do not throw and the memory resource never fails;
    an uninitialised cell may be copied (it stays uninitialised); the memory of one element
    type does not overlap that of another. *)
From Coq Require Import List Arith Bool.
Import ListNotations.
Local Open Scope nat_scope.
Local Open Scope list_scope.

(** A pointer to elements: None is nullptr. *)
Definition ptr := option (nat * nat).
Definition ptr_eqb (p q : ptr) : bool :=
  match p, q with
  | None, None => true
  | Some (b, o), Some (c, u) => (b =? c) && (o =? u)
  | _, _ => false
  end.
(** A view: data() and size() of std::string_view or equality_comparable_span. *)
Record view := View { v_ptr : ptr; v_size : nat }.

Section Arena.
  Context {V : Type}.

  (** A cell is [Some v] once constructed with [v]; [None] is raw memory. *)
  Definition cell := option V.
  Definition mem := list (list cell).

  Fixpoint set_nth {T} (i : nat) (x : T) (l : list T) : list T :=
    match l, i with
    | [], _ => []
    | _ :: t, O => x :: t
    | h :: t, S j => h :: set_nth j x t
    end.

  (** p[i] read and written. *)
  Definition load (m : mem) (p : ptr) (i : nat) : option cell :=
    match p with
    | None => None
    | Some (b, o) => match nth_error m b with None => None | Some bl => nth_error bl (o + i) end
    end.
  Definition store (m : mem) (p : ptr) (i : nat) (c : cell) : option mem :=
    match p with
    | None => None
    | Some (b, o) =>
        match nth_error m b with
        | None => None
        | Some bl => if o + i <? length bl then Some (set_nth b (set_nth (o + i) c bl) m) else None
        end
    end.

  (** mr.allocate(n * sizeof(value_type), alignof(value_type)): a fresh block. *)
  Definition allocate (m : mem) (n : nat) : mem * ptr := (m ++ [repeat None n], Some (length m, 0)).

  (** std::uninitialized_copy and std::copy of [k] elements, from [src] at [i], to [dst] at [j]:
      one element after the other, in ascending order. *)
  Fixpoint copy (m : mem) (src : ptr) (i : nat) (dst : ptr) (j : nat) (k : nat) : option mem :=
    match k with
    | O => Some m
    | S k' =>
        match load m src i with
        | None => None
        | Some c => match store m dst j c with None => None | Some m' => copy m' src (S i) dst (S j) k' end
        end
    end.

  (** std::uninitialized_default_construct of [k] elements at [dst], from [j]. *)
  Fixpoint fill (m : mem) (dst : ptr) (j : nat) (k : nat) (c : cell) : option mem :=
    match k with
    | O => Some m
    | S k' => match store m dst j c with None => None | Some m' => fill m' dst (S j) k' c end
    end.

  (** Construction of the given values, one after the other, at [dst] from [j]. *)
  Fixpoint put_list (m : mem) (dst : ptr) (j : nat) (l : list V) : option mem :=
    match l with
    | [] => Some m
    | v :: l' => match store m dst j (Some v) with None => None | Some m' => put_list m' dst (S j) l' end
    end.

  (** Members mr (as the memory), view_, data_ and capacity_, 384-388. *)
  Record arena := Arena { a_mem : mem; a_view : view; a_data : ptr; a_cap : nat }.

  (** arena_vector(View &, MemoryResource &), 271-273: data_ is null, capacity_ is 0. *)
  Definition arena_open (m : mem) (v : view) : arena := Arena m v None 0.

  (** What a default constructed element holds: raw memory for arithmetic types. *)
  Variable dflt : cell.

  (** resize, 280-295. *)
  Definition resize (a : arena) (n : nat) : option arena :=
    let v := a_view a in
    if a_cap a <? n then
      let (m, p) := allocate (a_mem a) n in
      match (if v_size v <? n then
               match copy m (v_ptr v) 0 p 0 (v_size v) with
               | None => None
               | Some m' => fill m' p (v_size v) (n - v_size v) dflt
               end
             else copy m (v_ptr v) 0 p 0 n) with
      | None => None
      | Some m' => Some (Arena m' (View p n) p n)
      end
    else
      match (if v_size v <? n then fill (a_mem a) (a_data a) (v_size v) (n - v_size v) dflt
             else Some (a_mem a)) with
      | None => None
      | Some m' => Some (Arena m' (View (a_data a) n) (a_data a) (a_cap a))
      end.

  (** assign_range_with_size, 390-401: std::ranges::uninitialized_copy into a span of [n]
      copies at most [n] elements. *)
  Definition assign_with_size (a : arena) (r : view) (n : nat) : option arena :=
    if a_cap a <? n then
      let (m, p) := allocate (a_mem a) n in
      match copy m (v_ptr r) 0 p 0 (Nat.min (v_size r) n) with
      | None => None
      | Some m' => Some (Arena m' (View p n) p n)
      end
    else
      match (if ptr_eqb (v_ptr (a_view a)) (v_ptr r) then Some (a_mem a)
             else copy (a_mem a) (v_ptr r) 0 (a_data a) 0 (v_size r)) with
      | None => None
      | Some m' => Some (Arena m' (View (a_data a) n) (a_data a) (a_cap a))
      end.

  (** The argument of push_back: a value, or a reference to an element in memory. *)
  Inductive earg := EVal (v : V) | ERef (p : ptr).
  (** push_back, emplace_back, 315-323: the reference is read after the storage was renewed. *)
  Definition push_back (a : arena) (x : earg) : option arena :=
    let n := v_size (a_view a) in
    match assign_with_size a (a_view a) (n + 1) with
    | None => None
    | Some a1 =>
        match (match x with EVal v => Some (Some v) | ERef p => load (a_mem a1) p 0 end) with
        | None => None
        | Some c =>
            match store (a_mem a1) (a_data a1) n c with
            | None => None
            | Some m => Some (Arena m (a_view a1) (a_data a1) (a_cap a1))
            end
        end
    end.

  (** clear, 325-329. *)
  Definition clear (a : arena) : arena := Arena (a_mem a) (View None 0) None 0.

  (** A range argument: elements in memory, or the very view object that is modified. *)
  Inductive rarg := RView (r : view) | RSelf.
  Definition range_of (a : arena) (r : rarg) : view :=
    match r with RView v => v | RSelf => a_view a end.

  (** assign_range, assign, operator=, 297-300,331-342. *)
  Definition assign_range (a : arena) (r : rarg) : option arena :=
    assign_with_size a (range_of a r) (v_size (range_of a r)).

  (** append_range, 344-350; begin and end of [r] are taken after the storage was renewed,
      so that for RSelf they are those of the new view.  The overload with two iterators
      (352-358) is the case RView. *)
  Definition append_range (a : arena) (r : rarg) : option arena :=
    let old := v_size (a_view a) in
    let n := v_size (range_of a r) in
    match assign_with_size a (a_view a) (old + n) with
    | None => None
    | Some a1 =>
        let s := range_of a1 r in
        match copy (a_mem a1) (v_ptr s) 0 (a_data a1) old (v_size s) with
        | None => None
        | Some m => Some (Arena m (a_view a1) (a_data a1) (a_cap a1))
        end
    end.

  (** append_raw_data, 370-382: the elements [l] encoded in the bytes, whose number is a
      multiple of the element size, are appended. *)
  Definition append_raw (a : arena) (l : list V) : option arena :=
    let old := v_size (a_view a) in
    match assign_with_size a (a_view a) (old + length l) with
    | None => None
    | Some a1 =>
        match put_list (a_mem a1) (a_data a1) old l with
        | None => None
        | Some m => Some (Arena m (a_view a1) (a_data a1) (a_cap a1))
        end
    end.

  (** reserve, 360-368: at most [n] elements are copied, the view keeps its size. *)
  Definition reserve (a : arena) (n : nat) : option arena :=
    if a_cap a <? n then
      let (m, p) := allocate (a_mem a) n in
      match copy m (v_ptr (a_view a)) 0 p 0 (Nat.min (v_size (a_view a)) n) with
      | None => None
      | Some m' => Some (Arena m' (View p (v_size (a_view a))) p n)
      end
    else Some a.

  (** data, begin, operator[] read through data_, 302-313. *)
  Definition index (a : arena) (i : nat) : option cell := load (a_mem a) (a_data a) i.

  (** What a view shows: its elements, one after the other. *)
  Fixpoint read_cells (m : mem) (p : ptr) (i k : nat) : option (list cell) :=
    match k with
    | O => Some []
    | S k' =>
        match load m p i with
        | None => None
        | Some c => match read_cells m p (S i) k' with None => None | Some l => Some (c :: l) end
        end
    end.
  Definition shown (m : mem) (v : view) : option (list cell) := read_cells m (v_ptr v) 0 (v_size v).

  (** One operation. *)
  Inductive aop :=
  | AResize (n : nat) | APush (x : earg) | AClear | AAssign (r : rarg) | AAppend (r : rarg)
  | ARaw (l : list V) | AReserve (n : nat).
  Definition a_step (a : arena) (o : aop) : option arena :=
    match o with
    | AResize n => resize a n
    | APush x => push_back a x
    | AClear => Some (clear a)
    | AAssign r => assign_range a r
    | AAppend r => append_range a r
    | ARaw l => append_raw a l
    | AReserve n => reserve a n
    end.
  Fixpoint a_run (a : arena) (os : list aop) : option arena :=
    match os with
    | [] => Some a
    | o :: t => match a_step a o with None => None | Some a' => a_run a' t end
    end.
End Arena.
Arguments mem : clear implicits.
Arguments cell : clear implicits.
Arguments arena : clear implicits.
Arguments aop : clear implicits.
Arguments earg : clear implicits.

(** ** Unknown fields kept as pairs *)
(** Two memories: the pairs of a field number and the view of its bytes, and the bytes. *)
Section Captured.
  Context {B : Type}.
  Definition pair_cell := (nat * view)%type.

  (** The state while a message is read: the arena_vector on extensions.fields made on entry
      to deserialize or deserialize_group (deserialize.hpp:1322-1323,1355-1356) and the
      memory of the bytes. *)
  Record capt := Capt { c_list : arena pair_cell; c_bytes : mem B }.

  (** std::find_if over [begin(), end()): the pairs are read through data_ (624-625,662-663). *)
  Fixpoint find_pair (a : arena pair_cell) (num i k : nat) : option (option nat) :=
    match k with
    | O => Some None
    | S k' =>
        match index a i with
        | Some (Some (f, _)) => if f =? num then Some (Some i) else find_pair a num (S i) k'
        | _ => None
        end
    end.
  Definition find_number (a : arena pair_cell) (num : nat) : option (option nat) :=
    find_pair a num 0 (v_size (a_view a)).

  (** deserialize_unknown_fields for a contiguous range of pairs, 621-642; [data] are the
      bytes of the field, as handed over by archive.deserialize_packed (append_raw_data). *)
  Definition capture (c : capt) (num : nat) (data : list B) : option capt :=
    match find_number (c_list c) num with
    | None => None
    | Some None =>
        match append_raw (arena_open (c_bytes c) (View None 0)) data with
        | None => None
        | Some f =>
            match push_back (c_list c) (EVal (num, a_view f)) with
            | None => None
            | Some l => Some (Capt l (a_mem f))
            end
        end
    | Some (Some i) =>
        match index (c_list c) i with
        | Some (Some (n, v)) =>
            match append_raw (arena_open (c_bytes c) v) data with
            | None => None
            | Some f =>
                match store (a_mem (c_list c)) (a_data (c_list c)) i (Some (n, a_view f)) with
                | None => None
                | Some m => Some (Capt (Arena m (a_view (c_list c)) (a_data (c_list c)) (a_cap (c_list c))) (a_mem f))
                end
            end
        | _ => None
        end
    end.

  (** One message, or one occurrence of a nested message: a new arena_vector on the list
      left by the previous one, and the unknown fields in order. *)
  Fixpoint capture_all (c : capt) (fs : list (nat * list B)) : option capt :=
    match fs with
    | [] => Some c
    | (n, d) :: t => match capture c n d with None => None | Some c' => capture_all c' t end
    end.
  Definition read_occurrence (pm : mem pair_cell) (bm : mem B) (ext : view) (fs : list (nat * list B)) : option capt :=
    capture_all (Capt (arena_open pm ext) bm) fs.

  (** The extensions as an application sees them: number and bytes of each pair. *)
  Fixpoint show_pairs (bm : mem B) (l : list (cell pair_cell)) : option (list (nat * list (cell B))) :=
    match l with
    | [] => Some []
    | Some (n, v) :: t =>
        match shown bm v, show_pairs bm t with
        | Some bs, Some r => Some ((n, bs) :: r)
        | _, _ => None
        end
    | None :: _ => None
    end.
  Definition shown_ext (pm : mem pair_cell) (bm : mem B) (ext : view) : option (list (nat * list (cell B))) :=
    match shown pm ext with None => None | Some l => show_pairs bm l end.
End Captured.
Arguments capt : clear implicits.
