(** Model of merge(), include/hpp_proto/merge.hpp, for a destination and a source
    of the same message type.

    Not modelled: the overloads for two different trait types (205-216 and the
    [assign] path 147-159), memory resources (bind_empty_container_to_context,
    61-74), what a moved-from source is left with, and a source that is the
    destination object itself. *)
Require Import Verif.Bits Verif.Varint Verif.Schema Verif.Encode.

(** insert of one entry into a map kept sorted by key; an entry whose key is
    there already stays (dest.insert / dest.merge, merge.hpp:254-258,271-280). *)
Fixpoint map_ins (e : val) (l : list val) : list val :=
  match l with
  | [] => [e]
  | h :: t =>
      if key_ltb (entry_key h) (entry_key e) then h :: map_ins e t
      else if key_ltb (entry_key e) (entry_key h) then e :: l
      else l
  end.

(** perform for associative containers and insert_or_replace, merge.hpp:226-281:
    nothing for an empty source, assignment for an empty destination, otherwise
    the old entries are inserted into a copy of the source. *)
Definition merge_map (g c : list val) : list val :=
  match c, g with
  | [], _ => g
  | _, [] => c
  | _, _ => fold_left (fun l e => map_ins e l) g c
  end.

(** Unknown fields and extensions, merge.hpp:283-320.  One flat byte string is a
    contiguous byte range, hence concepts::singular: the assignment of 322-338
    applies.  A map keeps one entry per number and appends; a sequence of pairs
    is a repeated field and is appended. *)
Definition merge_unk (k : ukind) (w u : list (Z * bytes)) : list (Z * bytes) :=
  match k with
  | UNone => w
  | UBytes => u
  | UMap => fold_left (fun w p => umap_add (fst p) (snd p) w) u w
  | UPairs => w ++ u
  end.

Section Merge.
  (** [mv]: the source is an rvalue. *)
  Context (E : env) (mv : bool).

  (** One member, merge.hpp:96-213,226-239,322-338: destination [g], source [c].
      [rec ty t s] merges message [s] into [t]. *)
  Definition merge_field (rec : nat -> val -> val -> val) (f : field) (g c : list val) : list val :=
    match f with
    | Field _ e (CPlain ex d) =>
        match e, g, c with
        | EMsg ty _, t :: _, s :: _ => [rec ty t s]
        | _, _, [] => g
        | _, _, s :: _ => if ex || negb (is_default e d s) then [s] else g
        end
    | Field _ e COpt =>
        match c with
        | [] => g
        | s :: _ =>
            match e with
            | EMsg ty _ => [rec ty (match g with t :: _ => t | [] => default_msg E ty end) s]
            | _ => [s]
            end
        end
    | Field _ e (CRep _) =>
        match e with
        | EMsg ty _ => if mv then match g with [] => c | _ => g ++ c end
                       else g ++ map (fun s => rec ty (default_msg E ty) s) c
        | _ => match g with [] => c | _ => g ++ c end
        end
    | Field _ _ (CMap true) => merge_map g c
    | Field _ _ (CMap false) => match g with [] => c | _ => g ++ c end
    | Oneof alts =>
        match c with
        | VAlt j s :: _ =>
            match g with
            | VAlt i t :: _ =>
                if Nat.eqb i j then
                  match nth_error alts j with
                  | Some (_, EMsg ty _) => [VAlt j (rec ty t s)]
                  | _ => [VAlt j s]
                  end
                else c
            | _ => c
            end
        | _ => g
        end
    end.

  Definition merge_fields (rec : nat -> val -> val -> val) : list field -> list (list val) -> list (list val) -> list (list val) :=
    fix go (fds : list field) (gs fs : list (list val)) {struct fs} : list (list val) :=
      match fds, gs, fs with
      | f :: fds', g :: gs', c :: fs' => merge_field rec f g c :: go fds' gs' fs'
      | _, _, _ => []
      end.

  (** perform on two messages, merge.hpp:76-94. *)
  Fixpoint merge_msg (ty : nat) (dst src : val) {struct src} : val :=
    match dst, src with
    | VMsg gs w, VMsg fs u =>
        VMsg (merge_fields merge_msg (m_fields (desc_of E ty)) gs fs) (merge_unk (m_unk (desc_of E ty)) w u)
    | _, _ => dst
    end.
End Merge.
