(** What repeated fields of dynamic messages should be: lists.  A field is the list of its elements, an element
    [None] being one that was made but has not got a value.  A field that another field was aliased from
    has no list any more: it may not be used, until it is made to let go of its memory. *)
From Coq Require Import List Arith ZArith Bool.
From Verif Require Import Indirect DynRepeated.
Import ListNotations.
Local Open Scope nat_scope.

Section WithElements.
Context {V : Type}.

Definition vstate := list (option (list (option V))).

Definition vget (s : vstate) (k : nat) : option (list (option V)) :=
  match nth_error s k with Some (Some l) => Some l | _ => None end.

(** The largest list. *)
Definition allowed (n : nat) : bool := (Z.of_nat n <=? 2147483647)%Z.

Definition obind {A B} (o : option A) (k : A -> option B) : option B := match o with Some x => k x | None => None end.

(** The values of the elements, if all have one. *)
Fixpoint values (l : list (option V)) : option (list V) :=
  match l with
  | [] => Some []
  | Some v :: r => option_map (cons v) (values r)
  | None :: _ => None
  end.

(** The names before the first unknown one. *)
Fixpoint known (l : list (option V)) : list V :=
  match l with Some v :: r => v :: known r | _ => [] end.

(** [fresh]: the element that resizing makes; [drop]: whether reset lets go of the memory. *)
Definition vstep (fresh : option V) (drop : bool) (o : op V) (s : vstate) : option (vstate * list (seen V)) :=
  let put k l := if allowed (length l) then Some (update k (Some l) s, []) else None in
  match o with
  | OReserve k n => obind (vget s k) (fun l => if allowed n then Some (s, []) else None)
  | OResize k n => obind (vget s k) (fun l => if allowed n then Some (update k (Some (firstn n l ++ repeat fresh (n - length l))) s, []) else None)
  | OPush k v => obind (vget s k) (fun l => put k (l ++ [Some v]))
  | OPushRef k j i => obind (vget s k) (fun l => obind (vget s j) (fun l' =>
      match nth_error l' i with Some (Some v) => put k (l ++ [Some v]) | _ => None end))
  | OSet k vs => obind (vget s k) (fun l => put k (map Some vs))
  | OSetNames k vs => obind (vget s k) (fun l => if allowed (length vs) then
      Some (update k (Some (map Some (known vs))) s, [SName (length (known vs) =? length vs)]) else None)
  | OClone k j => obind (vget s k) (fun l => obind (vget s j) (fun l' => put k l'))
  | OClear k => obind (vget s k) (fun l => Some (update k (Some []) s, []))
  | OReset k => match nth_error s k with
                | Some (Some _) => Some (update k (Some []) s, [])
                | Some None => if drop then Some (update k (Some []) s, []) else None
                | None => None
                end
  | OAdopt k vs => obind (nth_error s k) (fun _ => put k (map Some vs))
  | OAlias k j => obind (nth_error s k) (fun _ => obind (vget s j) (fun l =>
      Some (update k (Some l) (update j None s), [])))
  | OWrite k i v => obind (vget s k) (fun l =>
      if i <? length l then Some (update k (Some (update i (Some v) l)) s, []) else Some (s, [SThrow]))
  | OAt k i => obind (vget s k) (fun l =>
      match nth_error l i with Some (Some v) => Some (s, [SVal v]) | Some None => None | None => Some (s, [SThrow]) end)
  | OSize k => obind (vget s k) (fun l => Some (s, [SSize (length l)]))
  | OAll k => obind (vget s k) (fun l => obind (values l) (fun vs => Some (s, [SVals vs])))
  end.

Fixpoint vrun (fresh : option V) (drop : bool) (p : list (op V)) (s : vstate) : option (vstate * list (seen V)) :=
  match p with
  | [] => Some (s, [])
  | o :: rest => obind (vstep fresh drop o s) (fun r =>
      obind (vrun fresh drop rest (fst r)) (fun r2 => Some (fst r2, snd r ++ snd r2)))
  end.

(** All fields empty. *)
Definition vstart (n : nat) : vstate := repeat (Some []) n.

End WithElements.
Arguments vstate V : clear implicits.
