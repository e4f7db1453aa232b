(** The cycle check of the descriptor pool
    (include/hpp_proto/descriptor_pool.hpp).

    A file is its index in [files_]; [deps] holds for each file the indices of
    its [dependencies_] (the code computes them as [dep - files_.data()]). *)
Require Import Verif.Bits.

(** [v\[i\] = x] on a vector. *)
Fixpoint set_at {A} (i : nat) (x : A) (l : list A) : list A :=
  match l, i with
  | [], _ => []
  | _ :: t, O => x :: t
  | y :: t, S k => y :: set_at k x t
  end.

Definition edge_at (inc : list Z) (i : nat) : Z := nth i inc 0.

(** descriptor_pool.hpp:833-839: count the incoming edges.
    Simplification: [std::size_t] counters are unbounded integers. *)
Definition count_in (inc : list Z) (d : nat) : list Z := set_at d (edge_at inc d + 1) inc.
Definition incoming (deps : list (list nat)) : list Z :=
  fold_left (fun inc ds => fold_left count_in ds inc) deps (repeat 0 (length deps)).

(** descriptor_pool.hpp:841-847: the files nobody imports. *)
Fixpoint roots (i : nat) (inc : list Z) : list nat :=
  match inc with
  | [] => []
  | x :: t => if x =? 0 then i :: roots (S i) t else roots (S i) t
  end.

(** descriptor_pool.hpp:853-858: release the dependencies of one file. *)
Fixpoint release (ds : list nat) (inc : list Z) (pending : list nat) : list Z * list nat :=
  match ds with
  | [] => (inc, pending)
  | d :: ds =>
      let x := edge_at inc d - 1 in
      release ds (set_at d x inc) (if x =? 0 then pending ++ [d] else pending)
  end.

(** descriptor_pool.hpp:849-859: the loop over the growing list [pending];
    returns the number of visited files.  [None]: out of fuel. *)
Fixpoint kahn_loop (fuel : nat) (deps : list (list nat)) (next : nat) (inc : list Z) (pending : list nat) (visited : nat) : option nat :=
  match fuel with
  | O => None
  | S fuel =>
      match nth_error pending next with
      | None => Some visited
      | Some file => let '(inc, pending) := release (nth file deps []) inc pending in kahn_loop fuel deps (S next) inc pending (S visited)
      end
  end.

(** descriptor_pool.hpp:832-862. *)
Definition acyclic_check (deps : list (list nat)) : option bool :=
  let inc := incoming deps in
  match kahn_loop (S (length deps)) deps 0 inc (roots 0 inc) 0 with
  | Some visited => Some (Nat.eqb visited (length deps))
  | None => None
  end.
