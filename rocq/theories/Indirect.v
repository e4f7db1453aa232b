(** Model of the owning pointers of recursive messages: [optional_indirect],
    include/hpp_proto/optional_indirect.hpp:13-366, and [indirect], include/hpp_proto/indirect.hpp:11-236,
    with std::allocator, and of the recursive messages that hold them.

    Memory is a list of blocks, each a message (T) of some data and a fixed number of members of type
    optional_indirect<T>; a block that was destroyed and deallocated is [None], and no block number is
    used twice, so a use after free is seen as such.  A handle (an object of one of the two classes) is
    addressed by the block it lies in and its position there; the variables of the program are the
    handles of block 0.  Using a block that is not there is undefined behaviour ([UB]).
    Simplifications: allocation and construction do not fail; the allocator is std::allocator
    (is_always_equal and propagate_on_container_move_assignment hold, the other propagation
    traits do not matter then); the calls of the members of a destroyed message are made in order,
    and their [obj_ = nullptr] is left out; the data of a message is a number. *)
From Coq Require Import List Arith ZArith Bool.
From Verif Require Import Archive.
Import ListNotations.
Local Open Scope nat_scope.
Local Open Scope list_scope.

(** A message: data, and for each member of type optional_indirect<T> its [obj_]
    (optional_indirect.hpp:24, indirect.hpp:23). *)
Record node := mk_node { nd_data : Z; nd_kids : list (option nat) }.
Definition heap := list (option node).
(** The address of a handle. *)
Definition loc := (nat * nat)%type.
Definition loc_eqb (a b : loc) : bool := (fst a =? fst b) && (snd a =? snd b).

Fixpoint update {T} (i : nat) (x : T) (l : list T) : list T :=
  match l, i with
  | [], _ => []
  | _ :: t, O => x :: t
  | h :: t, S j => h :: update j x t
  end.

(** [*p]. *)
Definition deref (h : heap) (p : nat) : res node :=
  match nth_error h p with Some (Some n) => Ok n | _ => UB end.
(** Reading [obj_] of a handle. *)
Definition rd (h : heap) (l : loc) : res (option nat) :=
  n <- deref h (fst l) ;; match nth_error (nd_kids n) (snd l) with Some o => Ok o | None => UB end.
(** Writing [obj_] of a handle. *)
Definition wr (h : heap) (l : loc) (o : option nat) : res heap :=
  n <- deref h (fst l) ;;
  if snd l <? length (nd_kids n)
  then Ok (update (fst l) (Some (mk_node (nd_data n) (update (snd l) o (nd_kids n)))) h)
  else UB.
(** Assigning the data of a message. *)
Definition wr_data (h : heap) (p : nat) (d : Z) : res heap :=
  n <- deref h p ;; Ok (update p (Some (mk_node d (nd_kids n))) h).
(** allocate and construct (optional_indirect.hpp:347-354, indirect.hpp:205-227). *)
Definition make (h : heap) (n : node) : heap * nat := (h ++ [Some n], length h).

(** allocate_construct / emplace of a copy of [*p]: the implicit copy constructor of the message, which
    copies the members with the copy constructor of optional_indirect (optional_indirect.hpp:57-62).
    Simplified: the block is numbered after those of its members. *)
Fixpoint copyT (fuel : nat) (h : heap) (p : nat) : res (heap * nat) :=
  match fuel with
  | O => NoFuel
  | S f =>
      n <- deref h p ;;
      r <- (fix kids (h : heap) (ks : list (option nat)) : res (heap * list (option nat)) :=
              match ks with
              | [] => Ok (h, [])
              | None :: t => r <- kids h t ;; Ok (fst r, None :: snd r)
              | Some q :: t => c <- copyT f h q ;; r <- kids (fst c) t ;; Ok (fst r, Some (snd c) :: snd r)
              end) h (nd_kids n) ;;
      Ok (make (fst r) (mk_node (nd_data n) (snd r)))
  end.

(** destroy and deallocate (optional_indirect.hpp:230-236, indirect.hpp:229-235): the implicit destructor
    of the message resets its members (optional_indirect.hpp:33). *)
Fixpoint destroyT (fuel : nat) (h : heap) (p : nat) : res heap :=
  match fuel with
  | O => NoFuel
  | S f =>
      n <- deref h p ;;
      h <- (fix kids (h : heap) (ks : list (option nat)) : res heap :=
              match ks with
              | [] => Ok h
              | None :: t => kids h t
              | Some q :: t => h <- destroyT f h q ;; kids h t
              end) h (nd_kids n) ;;
      _ <- deref h p ;; Ok (update p None h)
  end.

(** Fuel for a heap: no tree in it is deeper. *)
Definition fuel_of (h : heap) : nat := S (length h).

(** reset() (optional_indirect.hpp:230-236), destroy() (indirect.hpp:229-235). *)
Definition reset (h : heap) (l : loc) : res heap :=
  o <- rd h l ;;
  match o with
  | None => Ok h
  | Some p => h <- destroyT (fuel_of h) h p ;; wr h l None
  end.

(** The end of emplace_impl (optional_indirect.hpp:355-360): [h] and [p] are the memory after the
    construction and the new object. *)
Definition replace (h : heap) (l : loc) (p : nat) : res heap :=
  o <- rd h l ;;
  match o with
  | None => wr h l (Some p)
  | Some q => h <- destroyT (fuel_of h) h q ;; wr h l (Some p)
  end.

(** emplace_impl with a copy of [*q] (optional_indirect.hpp:347-361). *)
Definition emplace_copy (h : heap) (l : loc) (q : nat) : res heap :=
  c <- copyT (fuel_of h) h q ;; replace (fst c) l (snd c).

(** Copy assignment of optional_indirect (optional_indirect.hpp:142-157). *)
Definition copy_assign (h : heap) (l l' : loc) : res heap :=
  if loc_eqb l l' then Ok h else
  o <- rd h l' ;;
  match o with
  | Some q => emplace_copy h l q
  | None => reset h l
  end.

(** Move assignment (optional_indirect.hpp:97-110, indirect.hpp:112-124): reset, then
    [std::exchange(other.obj_, nullptr)]. *)
Definition move_assign (h : heap) (l l' : loc) : res heap :=
  if loc_eqb l l' then Ok h else
  h <- reset h l ;;
  o <- rd h l' ;;
  h <- wr h l' None ;;
  wr h l o.

(** swap (optional_indirect.hpp:203-217, indirect.hpp:182-191); [indirect] has no test for the same object,
    where swapping changes nothing. *)
Definition swap (h : heap) (l l' : loc) : res heap :=
  if loc_eqb l l' then Ok h else
  o <- rd h l ;;
  o' <- rd h l' ;;
  h <- wr h l o' ;;
  wr h l' o.

(** The implicit assignment operators of a message: data and then member by member, with [asg] the
    assignment of the members. *)
Fixpoint assign_kids (asg : heap -> loc -> loc -> res heap) (h : heap) (p q : nat) (k n : nat) : res heap :=
  match n with
  | O => Ok h
  | S m => h <- asg h (p, k) (q, k) ;; assign_kids asg h p q (S k) m
  end.
Definition assignT (asg : heap -> loc -> loc -> res heap) (K : nat) (h : heap) (p q : nat) : res heap :=
  n <- deref h q ;; h <- wr_data h p (nd_data n) ;; assign_kids asg h p q 0 K.

(** operator=(T &&) with [std::move] of [*q] (optional_indirect.hpp:133-140, indirect.hpp:94-101): assigns the
    message, or constructs one by moving the members. *)
Definition take (K : nat) (h : heap) (l : loc) (q : nat) : res heap :=
  o <- rd h l ;;
  match o with
  | Some p => assignT move_assign K h p q
  | None =>
      n <- deref h q ;;
      let c := make (update q (Some (mk_node (nd_data n) (map (fun _ => None) (nd_kids n)))) h) n in
      wr (fst c) l (Some (snd c))
  end.

(** operator=(const indirect &) (indirect.hpp:74-92): assigns the message or constructs a copy;
    the other object must hold one. *)
Definition assign_indirect (K : nat) (h : heap) (l l' : loc) : res heap :=
  if loc_eqb l l' then Ok h else
  o <- rd h l ;;
  o' <- rd h l' ;;
  match o' with
  | None => UB
  | Some q =>
      match o with
      | Some p => assignT copy_assign K h p q
      | None => emplace_copy h l q
      end
  end.

(** operator== (optional_indirect.hpp:246-251) with the implicit operator== of messages. *)
Fixpoint eqT (fuel : nat) (h : heap) (a b : option nat) : res bool :=
  match fuel with
  | O => NoFuel
  | S f =>
      match a, b with
      | Some p, Some q =>
          n <- deref h p ;; m <- deref h q ;;
          if negb (nd_data n =? nd_data m)%Z then Ok false else
          (fix kids (ks js : list (option nat)) : res bool :=
             match ks, js with
             | a :: ks, b :: js => e <- eqT f h a b ;; if e then kids ks js else Ok false
             | _, _ => Ok true
             end) (nd_kids n) (nd_kids m)
      | None, None => Ok true
      | _, _ => Ok false
      end
  end.

(** A handle named by a variable and members below it: [v->m->m'] uses operator-> (optional_indirect.hpp:192-193),
    which is undefined for an empty handle. *)
Fixpoint resolve (h : heap) (p : nat) (path : list nat) : res loc :=
  match path with
  | [] => UB
  | k :: rest =>
      match rest with
      | [] => o <- rd h (p, k) ;; Ok (p, k)
      | _ => o <- rd h (p, k) ;; match o with Some q => resolve h q rest | None => UB end
      end
  end.

(** What a program does with handles. *)
Inductive op :=
| OPush                                  (* a new variable, optional_indirect.hpp:27 *)
| OPushCopy (a : list nat)               (* copy constructor, 57-62 *)
| OPushMove (a : list nat)               (* move constructor, 55-56 *)
| OPop                                   (* destructor of the last variable, 33 *)
| OReset (a : list nat)
| OEmplace (a : list nat) (d : Z)        (* emplace(args), 195-200: a message without submessages *)
| OCopy (a b : list nat)
| OMove (a b : list nat)
| OSwap (a b : list nat)
| OTake (a b : list nat)                 (* a = std::move( *b ) *)
| OAssign (a b : list nat)               (* indirect: a = b *)
| OSet (a : list nat) (d : Z)            (* a->data = d *)
| OHas (a : list nat)                    (* has_value(), 159 *)
| OValue (a : list nat)                  (* value(), 162-167: throws bad_optional_access if empty *)
| OEq (a b : list nat).

(** What is observed. *)
Inductive seen := SBool (b : bool) | SData (d : Z) | SThrow.

(** Variables: handles of block 0. *)
Definition push (h : heap) : res (heap * loc) :=
  n <- deref h 0 ;;
  Ok (update 0 (Some (mk_node (nd_data n) (nd_kids n ++ [None]))) h, (0, length (nd_kids n))).
Definition pop (h : heap) : res heap :=
  n <- deref h 0 ;;
  h <- reset h (0, length (nd_kids n) - 1) ;;
  n <- deref h 0 ;;
  Ok (update 0 (Some (mk_node (nd_data n) (removelast (nd_kids n)))) h).

(** One operation; [K] is the number of members of a message. *)
Definition step (K : nat) (o : op) (h : heap) : res (heap * list seen) :=
  match o with
  | OPush => r <- push h ;; Ok (fst r, [])
  | OPushCopy a =>
      la <- resolve h 0 a ;; c <- rd h la ;; r <- push h ;;
      match c with
      | None => Ok (fst r, [])
      | Some q => h <- emplace_copy (fst r) (snd r) q ;; Ok (h, [])
      end
  | OPushMove a =>
      la <- resolve h 0 a ;; c <- rd h la ;; r <- push h ;;
      h <- wr (fst r) la None ;; h <- wr h (snd r) c ;; Ok (h, [])
  | OPop => h <- pop h ;; Ok (h, [])
  | OReset a => la <- resolve h 0 a ;; h <- reset h la ;; Ok (h, [])
  | OEmplace a d =>
      la <- resolve h 0 a ;;
      let c := make h (mk_node d (repeat None K)) in
      h <- replace (fst c) la (snd c) ;; Ok (h, [])
  | OCopy a b => la <- resolve h 0 a ;; lb <- resolve h 0 b ;; h <- copy_assign h la lb ;; Ok (h, [])
  | OMove a b => la <- resolve h 0 a ;; lb <- resolve h 0 b ;; h <- move_assign h la lb ;; Ok (h, [])
  | OSwap a b => la <- resolve h 0 a ;; lb <- resolve h 0 b ;; h <- swap h la lb ;; Ok (h, [])
  | OTake a b =>
      la <- resolve h 0 a ;; lb <- resolve h 0 b ;; c <- rd h lb ;;
      match c with Some q => h <- take K h la q ;; Ok (h, []) | None => UB end
  | OAssign a b => la <- resolve h 0 a ;; lb <- resolve h 0 b ;; h <- assign_indirect K h la lb ;; Ok (h, [])
  | OSet a d =>
      la <- resolve h 0 a ;; c <- rd h la ;;
      match c with Some p => h <- wr_data h p d ;; Ok (h, []) | None => UB end
  | OHas a => la <- resolve h 0 a ;; c <- rd h la ;; Ok (h, [SBool (match c with Some _ => true | None => false end)])
  | OValue a =>
      la <- resolve h 0 a ;; c <- rd h la ;;
      match c with Some p => n <- deref h p ;; Ok (h, [SData (nd_data n)]) | None => Ok (h, [SThrow]) end
  | OEq a b =>
      la <- resolve h 0 a ;; lb <- resolve h 0 b ;; x <- rd h la ;; y <- rd h lb ;;
      e <- eqT (fuel_of h) h x y ;; Ok (h, [SBool e])
  end.

Fixpoint run (K : nat) (p : list op) (h : heap) : res (heap * list seen) :=
  match p with
  | [] => Ok (h, [])
  | o :: t => r <- step K o h ;; r' <- run K t (fst r) ;; Ok (fst r', snd r ++ snd r')
  end.

(** A program starts with no variables. *)
Definition start : heap := [Some (mk_node 0 [])].
