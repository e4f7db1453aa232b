(** The options of writing JSON for dynamic messages, always_print_fields_with_no_presence
    and preserve_proto_field_names: model of include/hpp_proto/dynamic_message/json.hpp:125-228,
    269-313, 651-663, 700-727, 817-862.  Reading has no such options. *)
Require Import Verif.Bits Verif.Varint Verif.Timestamp Verif.Duration.
Require Import Verif.DynSlots Verif.Dyn Verif.Schema Verif.Archive Verif.Decode Verif.Encode Verif.DynWire Verif.DynDecode Verif.DynJson.

Section DynOpt.
  (** As in DynJson; [always], [preserve]: the options. *)
  Context (W : list wtype) (J : list jtype) (le : bool) (maxd : Z) (fshow : bool -> Z -> bytes) (always preserve : bool).

  Section Level.
    Variable rec : bool -> nat -> list slot -> res (list tok).
    (** should_serialize_field, 169-179, and the condition of to<JSON, field_cref>, 147 *)
    Definition shows (f : wfield) (l : layout) (s : slot) : bool := has_value (dyn_of f) l s || (always && negb (w_explicit f)).
    (** to<JSON, T> of the reference to a field.  Without a value: numbers and bools are
        written by value(), 705-711; repeated fields are ranges without elements, 719-726 and
        749-796; glaze writes null for other references, which have value() and
        has_value() or operator* and operator bool. *)
    Definition write_shown (q : bool) (jf : jfield) (f : wfield) (l : layout) (s : slot) : res (list tok) :=
      if has_value (dyn_of f) l s then write_field W le fshow rec q jf f l s
      else match w_elem f, w_rep f with
           | _, Some _ | (EVar _ | EBool | EFix _ _), None => write_field W le fshow rec q jf f l s
           | _, None => Ok [TNull]
           end.
    (** to<JSON, field_cref>, 143-153 *)
    Definition write_ref (q : bool) (jf : jfield) (f : wfield) (l : layout) (s : slot) : res (list tok) :=
      if shows f l s then write_shown q jf f l s else Ok [].
    (** serialize_regular_field, 181-198, and to_json, 200-228, of
        generic_message_json_serializer *)
    Definition name_in (jf : jfield) : bytes := if preserve then j_name jf else j_json jf.
    Fixpoint show_members (q first : bool) (fs : list (jfield * (wfield * layout))) (m : list slot) : res (list tok) :=
      match fs with
      | [] => Ok []
      | (jf, (f, l)) :: t =>
          if shows f l (slot_at m l) then
            x <- write_shown q jf f l (slot_at m l) ;;
            y <- show_members q false t m ;;
            Ok ((if first then [] else [Comma]) ++ Str (name_in jf) :: Colon :: x ++ y)
          else show_members q first t m
      end.
    (** map_entry_message_json_adapter, 269-313 *)
    Fixpoint show_entry_fields (q first : bool) (fs : list (jfield * (wfield * layout))) (m : list slot) : res (list tok) :=
      match fs with
      | [] => Ok []
      | (jf, (f, l)) :: t =>
          if shows f l (slot_at m l) then
            x <- write_shown (q || first) jf f l (slot_at m l) ;;
            y <- show_entry_fields q false t m ;;
            Ok ((if first then quote f x else Colon :: x) ++ y)
          else show_entry_fields q first t m
      end.
    (** value_message_json_serializer::to_json, 651-663 *)
    Definition show_value (q : bool) (ty : nat) (m : list slot) : res (list tok) :=
      match w_fields (wty W ty) with
      | [] => Ok []
      | (_, l0) :: _ =>
          let i := active_oneof_index l0 (fst (slot_at m l0)) in
          if i <? 0 then Ok []
          else match nth_error (jfields W J ty) (Z.to_nat i) with Some (jf, (f, l)) => write_ref q jf f l (slot_at m l) | None => Ok [] end
      end.
    (** write_impl, 826-862: the other types do not look at the options. *)
    Definition show_body (q : bool) (ty : nat) (m : list slot) : res (list tok) :=
      if w_entry (wty W ty) then b <- unset_value W J ty m ;; if b then Ok [] else show_entry_fields q true (jfields W J ty) m
      else
        match known_of J ty with
        | KValue => show_value q ty m
        | KWrapper => match jfields W J ty with (jf, (f, l)) :: _ => write_ref q jf f l (slot_at m l) | [] => UB end
        | KNone => x <- show_members q true (jfields W J ty) m ;; Ok (LBrace :: x ++ [RBrace])
        | _ => write_body W J le fshow rec q ty m
        end.
  End Level.
  (** 817-824 *)
  Fixpoint show_msg (fuel : nat) (depth : Z) (q : bool) (ty : nat) (m : list slot) : res (list tok) :=
    match fuel with
    | O => NoFuel
    | S n => if scope_ok maxd depth then show_body (show_msg n (depth + 1)) q ty m else Err TooLarge
    end.
  (** write_json<opts> of a message_value_cref, json.hpp:590-600 *)
  Definition show_json (fuel : nat) (ty : nat) (m : list slot) : res (list tok) := show_msg fuel 0 false ty m.
End DynOpt.
