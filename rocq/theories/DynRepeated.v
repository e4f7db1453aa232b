(** Model of the repeated fields of dynamic messages as handles on storage {content, capacity, size}
    (include/hpp_proto/dynamic_message/storage.hpp 30-100), with their memory: the [mref] classes of
    repeated_scalar_fields.hpp 178-267, repeated_string_fields.hpp 85-190, repeated_bytes_fields.hpp 85-190,
    repeated_enum_fields.hpp 233-370 and repeated_message_fields.hpp 143-245.
    Memory is a list of blocks that only grows: the memory resource is monotonic and nothing is ever
    given back to it.  A cell is one element; [None] is an element that has no determinate value.
    Simplified: an element is an opaque value (for strings and bytes the bytes it refers to, for messages
    the whole message, whose [num_slots] slots are one cell); the descriptors, which are asserted equal, are
    left out; sizes over the asserted 2147483647 are undefined; allocation does not fail. *)
From Coq Require Import List Arith ZArith Bool.
From Verif Require Import Archive Indirect.
Import ListNotations.
Local Open Scope nat_scope.

Section WithElements.
Context {V : Type}.

Local Notation cell := (option V).
Definition memory := list (list cell).

(** storage.hpp 30-100: one of the [repeated_storage] members of the union. *)
Record fld := mk_fld { f_content : option nat; f_cap : nat; f_size : nat }.
Definition empty_fld : fld := mk_fld None 0 0.

(** What differs between the classes.
    [k_fresh]: the element that [resize] makes: [uninitialized_default_construct] leaves numbers and
    enums (scalar 217, enum 254) indeterminate and makes strings and bytes empty (string 107);
    messages are filled with [value_storage{}] (message 177-182).
    [k_share]: [alias_from] takes the capacity of the other field too (scalar 256-259, message 217-220) or
    only its elements, by [adopt] (string 176-179, bytes 175-178, enum 360-363).
    [k_drop]: [reset] lets go of the memory (scalar 232-237, string 148-152, bytes 147-151, enum 302-306) or
    only sets the size (message 204). *)
Record kind := mk_kind { k_fresh : cell; k_share : bool; k_drop : bool }.
Definition numbers : kind := mk_kind None true true.
Definition enums : kind := mk_kind None false true.
Definition texts (empty : V) : kind := mk_kind (Some empty) false true.
Definition messages (blank : V) : kind := mk_kind (Some blank) true false.

(** The assertion at the head of [reserve], [resize] and [adopt]. *)
Definition fits (n : nat) : bool := (Z.of_nat n <=? 2147483647)%Z.

(** The memory behind [content]; a null pointer has no elements. *)
Definition block (m : memory) (c : option nat) : res (list cell) :=
  match c with
  | None => Ok []
  | Some b => match nth_error m b with Some l => Ok l | None => UB end
  end.

(** Elements [i], [i+1], ... as many as [n], behind [content]. *)
Definition load (m : memory) (c : option nat) (i n : nat) : res (list cell) :=
  l <- block m c ;;
  if i + n <=? length l then Ok (firstn n (skipn i l)) else UB.

(** Write elements from index [i] on; writing no element is not an access. *)
Definition store (m : memory) (c : option nat) (i : nat) (cs : list cell) : res memory :=
  match c with
  | None => if length cs =? 0 then Ok m else UB
  | Some b =>
    l <- block m (Some b) ;;
    if i + length cs <=? length l
    then Ok (update b (firstn i l ++ cs ++ skipn (i + length cs) l) m) else UB
  end.

(** scalar 194-206, string 87-97, bytes 87-97, enum 235-244, message 145-167.  Simplified: messages also
    construct the spare elements, which nobody can read before [resize] fills them. *)
Definition reserve (m : memory) (f : fld) (n : nat) : res (memory * fld) :=
  if fits n then
    if f_cap f <? n then
      cs <- load m (f_content f) 0 (f_size f) ;;
      Ok (m ++ [cs ++ repeat None (n - f_size f)], mk_fld (Some (length m)) n (f_size f))
    else Ok (m, f)
  else UB.

(** scalar 208-220, string 99-110, bytes 99-110, enum 246-257, message 169-184. *)
Definition resize (K : kind) (m : memory) (f : fld) (n : nat) : res (memory * fld) :=
  if fits n then
    let old_size := f_size f in
    ' (m1, f1) <- (if f_cap f <? n then reserve m f n else Ok (m, f)) ;;
    m2 <- (if old_size <? n then store m1 (f_content f1) old_size (repeat (k_fresh K) (n - old_size)) else Ok m1) ;;
    Ok (m2, mk_fld (f_content f1) (f_cap f1) n)
  else UB.

(** scalar 188-192, string 142-146, bytes 141-145, enum 287-291, message 211-215 followed by setting the
    message. *)
Definition push_back (K : kind) (m : memory) (f : fld) (v : V) : res (memory * fld) :=
  let idx := f_size f in
  ' (m1, f1) <- resize K m f (idx + 1) ;;
  m2 <- store m1 (f_content f1) idx [Some v] ;;
  Ok (m2, f1).

(** The same where the argument is a reference to an element (scalar 188 takes [const value_type &]): it
    is read after [resize], at the place where it was before. *)
Definition push_back_ref (K : kind) (m : memory) (f : fld) (c : option nat) (i : nat) : res (memory * fld) :=
  let idx := f_size f in
  ' (m1, f1) <- resize K m f (idx + 1) ;;
  cs <- load m1 c i 1 ;;
  match cs with
  | [Some v] => m2 <- store m1 (f_content f1) idx [Some v] ;; Ok (m2, f1)
  | _ => UB
  end.

(** scalar 249-254, string 165-173, bytes 165-173, enum 323-328. *)
Definition set (K : kind) (m : memory) (f : fld) (vs : list V) : res (memory * fld) :=
  ' (m1, f1) <- resize K m f (length vs) ;;
  m2 <- store m1 (f_content f1) 0 (map Some vs) ;;
  Ok (m2, f1).

(** The loop of enum 336-344: [i] numbers were written; a name without number cuts the list off there. *)
Fixpoint set_loop (K : kind) (m : memory) (f : fld) (i : nat) (vs : list (option V)) : res (memory * fld * bool) :=
  match vs with
  | [] => Ok (m, f, true)
  | Some v :: rest => m1 <- store m (f_content f) i [Some v] ;; set_loop K m1 f (S i) rest
  | None :: _ => ' (m1, f1) <- resize K m f i ;; Ok (m1, f1, false)
  end.

(** enum 330-346: setting enums by name; a name is represented by its number, [None] for an unknown name. *)
Definition set_names (K : kind) (m : memory) (f : fld) (vs : list (option V)) : res (memory * fld * bool) :=
  ' (m1, f1) <- resize K m f (length vs) ;;
  set_loop K m1 f1 0 vs.

(** scalar 261-267, string 181-190, bytes 180-190, enum 365-368, message 222-228: [resize], then copy the
    elements of the other field. *)
Definition clone_from (K : kind) (m : memory) (f g : fld) : res (memory * fld) :=
  if f_size g =? 0 then Ok (m, mk_fld (f_content f) (f_cap f) 0)
  else
    ' (m1, f1) <- resize K m f (f_size g) ;;
    cs <- load m1 (f_content g) 0 (f_size g) ;;
    m2 <- store m1 (f_content f1) 0 cs ;;
    Ok (m2, f1).

(** scalar 238, string 154, bytes 153, enum 308, message 205. *)
Definition clear (f : fld) : fld := mk_fld (f_content f) (f_cap f) 0.

(** scalar 232-237, string 148-152, bytes 147-151, enum 302-306, message 204. *)
Definition reset (K : kind) (f : fld) : fld := if k_drop K then empty_fld else clear f.

(** scalar 241-247, string 158-164, bytes 157-163, enum 315-321 of memory that the caller has made. *)
Definition adopt (m : memory) (vs : list V) : res (memory * fld) :=
  if fits (length vs) then Ok (m ++ [map Some vs], mk_fld (Some (length m)) (length vs) (length vs)) else UB.

(** scalar 256-259, message 217-220; string 176-179, bytes 175-178, enum 360-363. *)
Definition alias_from (K : kind) (g : fld) : fld :=
  if k_share K then g else mk_fld (f_content g) (f_size g) (f_size g).

(** The operations on the fields numbered from 0. *)
Inductive op :=
| OReserve (k n : nat) | OResize (k n : nat)
| OPush (k : nat) (v : V) | OPushRef (k j i : nat)
| OSet (k : nat) (vs : list V) | OSetNames (k : nat) (vs : list (option V))
| OClone (k j : nat) | OClear (k : nat) | OReset (k : nat)
| OAdopt (k : nat) (vs : list V) | OAlias (k j : nat)
| OWrite (k i : nat) (v : V)            (* at(i) = v *)
| OAt (k i : nat) | OSize (k : nat) | OAll (k : nat).     (* OAll: iterate over all the elements *)

Inductive seen := SVal (v : V) | SThrow | SSize (n : nat) | SVals (vs : list V) | SName (ok : bool).

Fixpoint determinate (cs : list cell) : res (list V) :=
  match cs with
  | [] => Ok []
  | Some v :: r => vs <- determinate r ;; Ok (v :: vs)
  | None :: _ => UB
  end.

Definition state := (memory * list fld)%type.

Definition fget (fs : list fld) (k : nat) : res fld :=
  match nth_error fs k with Some f => Ok f | None => UB end.

Definition step (K : kind) (o : op) (s : state) : res (state * list seen) :=
  let (m, fs) := s in
  let put k (r : res (memory * fld)) := ' (m1, f1) <- r ;; Ok ((m1, update k f1 fs), []) in
  match o with
  | OReserve k n => f <- fget fs k ;; put k (reserve m f n)
  | OResize k n => f <- fget fs k ;; put k (resize K m f n)
  | OPush k v => f <- fget fs k ;; put k (push_back K m f v)
  | OPushRef k j i => f <- fget fs k ;; g <- fget fs j ;;
      if i <? f_size g then put k (push_back_ref K m f (f_content g) i) else UB
  | OSet k vs => f <- fget fs k ;; put k (set K m f vs)
  | OSetNames k vs => f <- fget fs k ;; ' (m1, f1, ok) <- set_names K m f vs ;; Ok ((m1, update k f1 fs), [SName ok])
  | OClone k j => f <- fget fs k ;; g <- fget fs j ;; put k (clone_from K m f g)
  | OClear k => f <- fget fs k ;; put k (Ok (m, clear f))
  | OReset k => f <- fget fs k ;; put k (Ok (m, reset K f))
  | OAdopt k vs => f <- fget fs k ;; put k (adopt m vs)
  | OAlias k j => f <- fget fs k ;; g <- fget fs j ;; put k (Ok (m, alias_from K g))
  | OWrite k i v => f <- fget fs k ;;
      if i <? f_size f then m1 <- store m (f_content f) i [Some v] ;; Ok ((m1, fs), []) else Ok (s, [SThrow])
  | OAt k i => f <- fget fs k ;;
      if i <? f_size f
      then cs <- load m (f_content f) i 1 ;; vs <- determinate cs ;; Ok (s, map SVal vs)
      else Ok (s, [SThrow])
  | OSize k => f <- fget fs k ;; Ok (s, [SSize (f_size f)])
  | OAll k => f <- fget fs k ;;
      cs <- load m (f_content f) 0 (f_size f) ;; vs <- determinate cs ;; Ok (s, [SVals vs])
  end.

Fixpoint run (K : kind) (p : list op) (s : state) : res (state * list seen) :=
  match p with
  | [] => Ok (s, [])
  | o :: rest => ' (s1, out) <- step K o s ;; ' (s2, out2) <- run K rest s1 ;; Ok (s2, out ++ out2)
  end.

(** A message with [n] such fields, all unset. *)
Definition start (n : nat) : state := ([], repeat empty_fld n).

(** Elements of memory taken from the memory resource. *)
Definition used (m : memory) : nat := length (concat m).

End WithElements.
Arguments memory V : clear implicits.
Arguments kind V : clear implicits.
Arguments op V : clear implicits.
Arguments seen V : clear implicits.
Arguments state V : clear implicits.
