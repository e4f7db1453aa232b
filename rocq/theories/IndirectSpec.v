(** Specification of the owning pointers as values: a handle is an optional tree, a program is a
    sequence of operations on the variables, which are the children of a root. *)
From Coq Require Import List Arith ZArith Bool.
From Verif Require Import Indirect.
Import ListNotations.
Local Open Scope nat_scope.
Local Open Scope list_scope.

(** The value of a message: data and submessages, some absent. *)
Inductive tree := Node (d : Z) (kids : list (option tree)).
Definition kids_of (t : tree) : list (option tree) := let '(Node _ ks) := t in ks.

(** What stands at a path below [o]; None if the path leads through something absent. *)
Fixpoint tget (path : list nat) (o : option tree) : option (option tree) :=
  match path with
  | [] => Some o
  | k :: r => match o with
              | Some (Node _ ks) => match nth_error ks k with Some o' => tget r o' | None => None end
              | None => None
              end
  end.
(** The value with [v] put there. *)
Fixpoint tput (path : list nat) (v o : option tree) : option tree :=
  match path with
  | [] => v
  | k :: r => match o with
              | Some (Node d ks) =>
                  Some (Node d (match nth_error ks k with Some o' => update k (tput r v o') ks | None => ks end))
              | None => None
              end
  end.

Fixpoint prefix (a b : list nat) : bool :=
  match a, b with
  | [], _ => true
  | x :: a, y :: b => (x =? y) && prefix a b
  | _, [] => false
  end.
(** Neither handle lies in what the other owns. *)
Definition apart (a b : list nat) : bool := negb (prefix a b) && negb (prefix b a).

(** Equality of values. *)
Fixpoint node_eqb (a b : tree) {struct a} : bool :=
  let '(Node d ks) := a in
  let '(Node e js) := b in
  (d =? e)%Z &&
  (fix go (ks js : list (option tree)) : bool :=
     match ks, js with
     | [], [] => true
     | None :: ks, None :: js => go ks js
     | Some x :: ks, Some y :: js => node_eqb x y && go ks js
     | _, _ => false
     end) ks js.
Definition tree_eqb (a b : option tree) : bool :=
  match a, b with
  | None, None => true
  | Some x, Some y => node_eqb x y
  | _, _ => false
  end.

(** A handle of the program: at least a variable. *)
Definition handle (a : list nat) (t : tree) : option (option tree) :=
  match a with [] => None | _ => tget a (Some t) end.
Definition setv (a : list nat) (v : option tree) (t : tree) : tree :=
  match tput a v (Some t) with Some t' => t' | None => t end.
Definition add (v : option tree) (t : tree) : tree := let '(Node d ks) := t in Node d (ks ++ [v]).
Definition drop (t : tree) : tree := let '(Node d ks) := t in Node d (removelast ks).

Definition same (a b : list nat) : bool := prefix a b && prefix b a.

(** The meaning of an operation on values; None where it has none: a path through something absent,
    copying an [indirect] that was moved from, and moving, swapping or assigning between
    a message and a part of it. *)
Definition vstep (K : nat) (o : op) (t : tree) : option (tree * list seen) :=
  match o with
  | OPush => Some (add None t, [])
  | OPushCopy a => match handle a t with Some v => Some (add v t, []) | None => None end
  | OPushMove a => match handle a t with Some v => Some (add v (setv a None t), []) | None => None end
  | OPop => match kids_of t with [] => None | _ => Some (drop t, []) end
  | OReset a => match handle a t with Some _ => Some (setv a None t, []) | None => None end
  | OEmplace a d =>
      match handle a t with Some _ => Some (setv a (Some (Node d (repeat None K))) t, []) | None => None end
  | OCopy a b =>
      match handle a t, handle b t with Some _, Some v => Some (setv a v t, []) | _, _ => None end
  | OMove a b =>
      match handle a t, handle b t with
      | Some _, Some v =>
          if same a b then Some (t, [])
          else if apart a b then Some (setv a v (setv b None t), []) else None
      | _, _ => None
      end
  | OSwap a b =>
      match handle a t, handle b t with
      | Some u, Some v =>
          if same a b then Some (t, [])
          else if apart a b then Some (setv a v (setv b u t), []) else None
      | _, _ => None
      end
  | OTake a b =>
      match handle a t, handle b t with
      | Some _, Some (Some (Node d ks)) =>
          if same a b then Some (t, [])
          else if apart a b
               then Some (setv a (Some (Node d ks)) (setv b (Some (Node d (map (fun _ => None) ks))) t), [])
               else None
      | _, _ => None
      end
  | OAssign a b =>
      match handle a t, handle b t with
      | Some u, Some v =>
          if same a b then Some (t, [])
          else match v with
               | None => None
               | Some _ => if apart a b then Some (setv a v t, []) else None
               end
      | _, _ => None
      end
  | OSet a d =>
      match handle a t with Some (Some (Node _ ks)) => Some (setv a (Some (Node d ks)) t, []) | _ => None end
  | OHas a =>
      match handle a t with
      | Some v => Some (t, [SBool (match v with Some _ => true | None => false end)])
      | None => None
      end
  | OValue a =>
      match handle a t with
      | Some (Some (Node d _)) => Some (t, [SData d])
      | Some None => Some (t, [SThrow])
      | None => None
      end
  | OEq a b =>
      match handle a t, handle b t with
      | Some u, Some v => Some (t, [SBool (tree_eqb u v)])
      | _, _ => None
      end
  end.

Fixpoint vrun (K : nat) (p : list op) (t : tree) : option (tree * list seen) :=
  match p with
  | [] => Some (t, [])
  | o :: q =>
      match vstep K o t with
      | None => None
      | Some (t', s) => match vrun K q t' with None => None | Some (t'', s') => Some (t'', s ++ s') end
      end
  end.

(** Messages in a value, and objects in memory. *)
Fixpoint size (t : tree) : nat :=
  let '(Node _ ks) := t in
  S ((fix go (ks : list (option tree)) : nat :=
        match ks with [] => 0 | None :: r => go r | Some u :: r => size u + go r end) ks).
Definition live (h : heap) : nat := length (filter (fun b => match b with Some _ => true | None => false end) h).
