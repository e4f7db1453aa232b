(** C63, C64: views modified through a memory resource.

    [arena_open m v] is the arena_vector made on the view [v] in the memory [m]; [a_run]
    executes operations on it, with [None] for undefined behaviour.  [shown m v] are the
    elements one sees through the view [v].  [vec_ops] is the specification: the same
    operations on a list of elements, as of a std::vector.  [dflt] is what a default
    constructed element holds ([None]: nothing, for numbers). *)
From Coq Require Import List Arith.
Import ListNotations.
Require Import Verif.Arena Verif.ArenaProofs Verif.ArenaMain Verif.ArenaCapture.
Local Open Scope nat_scope.
Local Open Scope list_scope.

(** ** C63: arena_vector is a vector that leaves other memory alone *)

(** Any sequence of operations, with arguments anywhere in the memory that existed before:
    the view shows what a vector would hold, and no block that existed before is written. *)
Theorem C63_vector : forall (V : Type) (dflt : cell V) m v xs os ys,
  shown m v = Some xs -> vec_ops dflt m xs os = Some ys ->
  exists a, a_run dflt (arena_open m v) os = Some a /\ shown (a_mem a) (a_view a) = Some ys /\
    forall b, b < length m -> nth_error (a_mem a) b = nth_error m b.
Proof.
  intros V dflt m v xs os ys H HO.
  destruct (run_ok dflt m os (arena_open m v) xs ys (inv_open _ _ _ H) (open_framed m v) HO) as (a & E & I & F).
  exists a. split; [exact E|]. split; [apply I|]. intros b Hb. apply (framed_blocks (length m)); auto.
Qed.
Print Assumptions C63_vector.

(** Every view taken before keeps showing the same elements. *)
Theorem C63_other_views : forall (V : Type) (dflt : cell V) m v xs os ys a w zs,
  shown m v = Some xs -> vec_ops dflt m xs os = Some ys -> a_run dflt (arena_open m v) os = Some a ->
  shown m w = Some zs -> shown (a_mem a) w = Some zs.
Proof.
  intros V dflt m v xs os ys a w zs H HO HR HW.
  destruct (run_ok dflt m os (arena_open m v) xs ys (inv_open _ _ _ H) (open_framed m v) HO) as (a1 & E & I & F).
  rewrite HR in E. injection E as <-. apply (shown_kept m); auto. now apply framed_kept.
Qed.
Print Assumptions C63_other_views.

(** After at least one operation the elements are reached by index as well. *)
Theorem C63_index : forall (V : Type) (dflt : cell V) m v xs os ys a i,
  shown m v = Some xs -> vec_ops dflt m xs os = Some ys -> os <> [] -> a_run dflt (arena_open m v) os = Some a ->
  i < length ys -> index a i = nth_error ys i.
Proof.
  intros V dflt m v xs os ys a i H HO HN HR Hi.
  destruct (run_ok dflt m os (arena_open m v) xs ys (inv_open _ _ _ H) (open_framed m v) HO) as (a1 & E & I & F).
  rewrite HR in E. injection E as <-. apply (inv_index _ _ _ I); [|exact Hi].
  apply (run_index dflt m os (arena_open m v) xs ys a (inv_open _ _ _ H) (open_framed m v) HO HR HN).
Qed.
Print Assumptions C63_index.

(** Arguments inside the vector itself: push_back of an own element and append of an own
    part, given by iterators, do what they do for other arguments. *)
Theorem C63_push_own : forall (V : Type) (dflt : cell V) m v xs os ys a b o i,
  shown m v = Some xs -> vec_ops dflt m xs os = Some ys -> a_run dflt (arena_open m v) os = Some a ->
  v_ptr (a_view a) = Some (b, o) -> i < length ys ->
  exists a' c, push_back a (ERef (Some (b, o + i))) = Some a' /\ nth_error ys i = Some c /\
    shown (a_mem a') (a_view a') = Some (ys ++ [c]).
Proof.
  intros V dflt m v xs os ys a b o i H HO HR HP Hi.
  destruct (run_ok dflt m os (arena_open m v) xs ys (inv_open _ _ _ H) (open_framed m v) HO) as (a1 & E & I & F).
  rewrite HR in E. injection E as <-. pose proof (inv_size _ _ _ I) as HZ.
  destruct (shown_load _ _ _ i (proj1 I) ltac:(rewrite HZ; exact Hi)) as (b' & o' & c & P & A & N).
  rewrite HP in P. injection P as <- <-.
  destruct (push_step _ a ys (ERef (Some (b, o + i))) c I) as (a2 & E2 & I2 & _).
  - rewrite load_at, Nat.add_0_r. exact A.
  - exists a2, c. split; [exact E2|]. split; [exact N|]. apply I2.
Qed.
Print Assumptions C63_push_own.
Theorem C63_append_own : forall (V : Type) (dflt : cell V) m v xs os ys a b o i n,
  shown m v = Some xs -> vec_ops dflt m xs os = Some ys -> a_run dflt (arena_open m v) os = Some a ->
  v_ptr (a_view a) = Some (b, o) -> i + n <= length ys ->
  exists a', append_range a (RView (View (Some (b, o + i)) n)) = Some a' /\
    shown (a_mem a') (a_view a') = Some (ys ++ firstn n (skipn i ys)).
Proof.
  intros V dflt m v xs os ys a b o i n H HO HR HP Hi.
  destruct (run_ok dflt m os (arena_open m v) xs ys (inv_open _ _ _ H) (open_framed m v) HO) as (a1 & E & I & F).
  rewrite HR in E. injection E as <-.
  destruct (step_ok dflt _ a ys (AAppend (RView (View (Some (b, o + i)) n))) _ I (S_append_own dflt _ a ys b o i n HP Hi)) as (a2 & E2 & I2 & _).
  exists a2. split; [exact E2|]. apply I2.
Qed.
Print Assumptions C63_append_own.

(** Memory: each of [k] elements pushed takes a new block for all elements so far, so the
    memory used grows with the square of [k]. *)
Theorem C63_push_memory : forall (V : Type) (dflt : cell V) m v vs a,
  a_run dflt (arena_open m v) (map (fun x => APush (EVal x)) vs) = Some a ->
  2 * total (a_mem a) = 2 * total m + length vs * (2 * v_size v + length vs + 1).
Proof. intros V dflt m v vs a H. exact (push_total dflt vs (arena_open m v) a (or_introl eq_refl) H). Qed.
Print Assumptions C63_push_memory.

(** Not as of a vector: appending the view object itself, as merging a message with itself
    does (merge.hpp:222), writes past the end of the new block. *)
Theorem C63_self_append_refuted : forall (V : Type) (m : mem V) v xs,
  shown m v = Some xs -> 0 < v_size v -> append_range (arena_open m v) RSelf = None.
Proof. intros V m v xs. exact (self_append m v xs). Qed.
Print Assumptions C63_self_append_refuted.

(** reserve with fewer elements than there are leaves a view longer than its memory. *)
Theorem C63_reserve_refuted : forall (V : Type) (m : mem V) v xs n,
  shown m v = Some xs -> 0 < n -> n < v_size v ->
  exists a, reserve (arena_open m v) n = Some a /\ v_size (a_view a) = v_size v /\ shown (a_mem a) (a_view a) = None.
Proof. intros V m v xs n. exact (reserve_short m v xs n). Qed.
Print Assumptions C63_reserve_refuted.

(** A view on the middle of a buffer; a second view on the same buffer. *)
Definition ex_mem : mem nat := [[Some 10; Some 11; Some 12; Some 13]].
Definition ex_view : view := View (Some (0, 1)) 2.
Definition ex_ops : list (aop nat) :=
  [APush (EVal 7); AAppend (RView (View (Some (0, 0)) 3)); APush (ERef (Some (0, 3))); AResize 4; AReserve 9;
   ARaw [1; 2]; AResize 8; AAppend (RView (View (Some (0, 1)) 2))].
Example C63_hyps : shown ex_mem ex_view = Some [Some 11; Some 12] /\
  vec_ops None ex_mem [Some 11; Some 12] ex_ops =
    Some [Some 11; Some 12; Some 7; Some 10; Some 1; Some 2; None; None; Some 11; Some 12].
Proof. split; reflexivity. Qed.
Example C63_runs :
  option_map (fun a => shown (a_mem a) (a_view a)) (a_run None (arena_open ex_mem ex_view) ex_ops) =
  Some (vec_ops None ex_mem [Some 11; Some 12] ex_ops).
Proof. reflexivity. Qed.
Example C63_own_hyps :
  option_map (fun a => v_ptr (a_view a)) (a_run None (arena_open ex_mem ex_view) ex_ops) = Some (Some (5, 0)).
Proof. reflexivity. Qed.
Example C63_push_memory_runs :
  option_map (fun a => total (a_mem a)) (a_run None (arena_open ex_mem ex_view) (map (fun x => APush (EVal x)) [5; 6; 7])) =
  Some (4 + (3 + 4 + 5)).
Proof. reflexivity. Qed.

(** ** C64: unknown fields kept as a list of pairs *)

(** Reading one message whose list is empty: the list then has each field number once, in
    order of first occurrence, with the bytes of all its occurrences; memory that existed
    before, of pairs or of bytes, is not written. *)
Theorem C64_capture : forall (B : Type) pm (bm : mem B) ext fs, v_size ext = 0 ->
  exists c, read_occurrence pm bm ext fs = Some c /\
    shown_ext (a_mem (c_list c)) (c_bytes c) (a_view (c_list c)) = Some (as_cells (add_fields fs [])) /\
    (forall b, b < length pm -> nth_error (a_mem (c_list c)) b = nth_error pm b) /\
    (forall b, b < length bm -> nth_error (c_bytes c) b = nth_error bm b).
Proof. intros B. exact occurrence_ok. Qed.
Print Assumptions C64_capture.

(** Reading into a message that already has such fields -- as for the second occurrence of
    a nested message -- uses a null pointer at the first of them. *)
Theorem C64_second_occurrence_refuted : forall (B : Type) pm (bm : mem B) ext f fs,
  0 < v_size ext -> read_occurrence pm bm ext (f :: fs) = None.
Proof. intros B. exact occurrence_again. Qed.
Print Assumptions C64_second_occurrence_refuted.

Definition ex_fields : list (nat * list nat) := [(100, [1; 2]); (7, [3]); (100, [4; 5; 6]); (9, [])].
Example C64_runs :
  match read_occurrence [] [] (View None 0) ex_fields with
  | Some c =>
      shown_ext (a_mem (c_list c)) (c_bytes c) (a_view (c_list c)) = Some (as_cells [(100, [1; 2; 4; 5; 6]); (7, [3]); (9, [])]) /\
      read_occurrence (a_mem (c_list c)) (c_bytes c) (a_view (c_list c)) [(8, [1])] = None
  | None => False
  end.
Proof. vm_compute. split; reflexivity. Qed.
