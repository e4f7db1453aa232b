(** Specification for the options of writing JSON for dynamic messages. *)
Require Import Verif.Bits Verif.Varint.
Require Import Verif.DynSlots Verif.Dyn Verif.Schema Verif.Archive Verif.Decode Verif.Encode Verif.DynWire Verif.DynDecode Verif.DynJson Verif.DynJsonSpec.

(** Each field is found by the name it is written with. *)
Definition names_found (W : list wtype) (J : list jtype) (preserve : bool) : Prop :=
  preserve = true -> forall ty x, In x (jfields W J ty) -> find_field W J ty (j_name (fst x)) = Some x.
(** A field without presence that is absent holds nothing of an earlier value, and a
    floating point zero is read back. *)
Definition fresh (utf8_ok : bytes -> bool) (fshow : bool -> Z -> bytes) (fparse : bool -> bytes -> option Z) (jf : jfield) (f : wfield) (l : layout) (s : slot) : Prop :=
  match w_elem f, w_rep f with
  | _, Some _ => 0 <= fst s
  | (EVar _ | EBool | EFix _ _), None => value (dyn_of f) l s = FInt 0 /\ scalar_printable utf8_ok fshow fparse jf (w_elem f) (VInt 0)
  | _, None => True
  end.
(** DynJsonSpec.printable, and the above if such fields are written *)
Fixpoint showable (W : list wtype) (J : list jtype) (utf8_ok : bytes -> bool) (fshow : bool -> Z -> bytes) (fparse : bool -> bytes -> option Z) (always : bool) (fuel : nat) (ty : nat) (m : list slot) : Prop :=
  match fuel with
  | O => False
  | S n =>
      printable_body W J utf8_ok fshow fparse (showable W J utf8_ok fshow fparse always n) ty m /\
      (always = true -> known_of J ty = KNone -> w_entry (wty W ty) = false ->
       forall jf f l, In (jf, (f, l)) (jfields W J ty) -> has (f, l) m = false -> w_explicit f = false -> fresh utf8_ok fshow fparse jf f l (slot_at m l))
  end.
(** The member a field gets *)
Definition printed (always : bool) (fl : wfield * layout) (m : list slot) : bool := has fl m || (always && negb (w_explicit (fst fl))).
Definition given (preserve : bool) (jf : jfield) : bytes := if preserve then j_name jf else j_json jf.
(** What is written for a field without presence that is absent: zero, false, an empty
    list or object, and null for strings, bytes and enums. *)
Definition absent_form (W : list wtype) (fshow : bool -> Z -> bytes) (f : wfield) : json :=
  match w_rep f, w_elem f with
  | Some _, EMsg ty _ => if w_entry (wty W ty) then JObj [] else JArr []
  | Some _, _ => JArr []
  | None, EBool => JBool false
  | None, EFix b true => JNum (fshow b 0)
  | None, (EVar (VI64 | VU64 | VS64) | EFix true false) => JStr [48]
  | None, (EVar _ | EFix false false) => JNum [48]
  | None, _ => JNull
  end.
(** The member written for a field *)
Definition member_for (W : list wtype) (fshow : bool -> Z -> bytes) (preserve : bool) (m : list slot) (x : jfield * (wfield * layout)) (p : bytes * json) : Prop :=
  fst p = given preserve (fst x) /\ (has (snd x) m = false -> snd p = absent_form W fshow (fst (snd x))).
(** Messages within are written as they are alone ([show]), those of a repeated field and
    the entries of a map in brackets and with commas; a map in braces. *)
Definition nested_for (W : list wtype) (show : nat -> list slot -> res (list tok)) (m : list slot) (x : jfield * (wfield * layout)) (p : bytes * json) : Prop :=
  let '(_, (f, l)) := x in
  forall tv d, w_elem f = EMsg tv d ->
  match value (dyn_of f) l (slot_at m l) with
  | FMsg v => show tv v = Ok (render (snd p))
  | FMsgs vs => exists xs, Forall2 (fun v t => show tv v = Ok t) vs xs /\
      render (snd p) = if w_entry (wty W tv) then LBrace :: commas (filter nonempty xs) ++ [RBrace] else LBrack :: commas (filter nonempty xs) ++ [RBrack]
  | _ => True
  end.
