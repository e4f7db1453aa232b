(** What a JSON value does to a dynamic message: a specification by the structure of the
    value, without tokens, positions or counts of elements. *)
Require Import Verif.Bits Verif.Varint Verif.Base64 Verif.Timestamp Verif.Duration.
Require Import Verif.DynSlots Verif.Dyn Verif.Schema Verif.Archive Verif.Decode Verif.Encode Verif.DynWire Verif.DynDecode Verif.DynJson Verif.DynJsonSpec.

Section Tree.
  Context (W : list wtype) (J : list jtype) (utf8_ok : bytes -> bool) (maxd : Z) (fparse : bool -> bytes -> option Z) (strict : bool).

  (** The scalar a value stands for: numbers of 64 bits, and numbers and bools that are
      keys of maps ([key]), are strings. *)
  Definition scalar_of (key : bool) (jf : jfield) (e : elem) (j : json) : option val :=
    match e, j with
    | (EVar _ | EFix _ _), JStr t => if key || wide jf e then option_map VInt (number_value fparse jf e t) else None
    | (EVar _ | EFix _ _), JNum t => if key || wide jf e then None else option_map VInt (number_value fparse jf e t)
    | EBool, JBool b => if key then None else Some (VInt (if b then 1 else 0))
    | EBool, JStr t => if key then if eqb_bytes t true_text then Some (VInt 1) else if eqb_bytes t false_text then Some (VInt 0) else None else None
    | EEnum _, JStr t => option_map VInt (value_of (j_values jf) t)
    | EEnum _, JNum t => option_map VInt (number_value fparse jf (EVar VI32) t)
    | EBytes _ _, JStr t => if j_string jf then if utf8_ok t then Some (VBytes t) else None else option_map VBytes (b64_decode t)
    | _, _ => None
    end.
  Definition or_bad {T} (o : option T) : res T := match o with Some x => Ok x | None => Err BadMessage end.
  Fixpoint each {A B} (f : A -> res B) (l : list A) : res (list B) :=
    match l with [] => Ok [] | a :: t => b <- f a ;; bs <- each f t ;; Ok (b :: bs) end.
  Fixpoint in_turn {A S} (f : S -> A -> res S) (s : S) (l : list A) : res S :=
    match l with [] => Ok s | a :: t => s1 <- f s a ;; in_turn f s1 t end.

  Section Level.
    (** [sub]: a value for a message; [pair]: a member for an entry of a map. *)
    Variable sub : nat -> list slot -> json -> res (list slot).
    Variable pair : nat -> list slot -> bytes * json -> res (list slot).

    (** A value other than null for a field. *)
    Definition assign (jf : jfield) (f : wfield) (l : layout) (s : slot) (j : json) : res slot :=
      match w_elem f, w_rep f with
      | EMsg ty _, None =>
          m <- (if has_value (dyn_of f) l s then match value (dyn_of f) l s with FMsg m => Ok m | _ => UB end else Ok (new_slots W ty)) ;;
          m1 <- sub ty m j ;; Ok (l_ordinal l, CMsg m1)
      | EMsg ty _, Some _ =>
          match value (dyn_of f) l s with
          | FMsgs x =>
              y <- (match w_entry (wty W ty), j with
                    | true, JObj ps => each (pair ty (new_slots W ty)) ps
                    | false, JArr js => each (sub ty (new_slots W ty)) js
                    | _, _ => Err BadMessage
                    end) ;;
              Ok (zlen (x ++ y), CMsgs (x ++ y))
          | _ => UB
          end
      | e, None => v <- or_bad (scalar_of false jf e j) ;; Ok (l_ordinal l, content_of v)
      | e, Some _ =>
          vs <- several f l s ;;
          ws <- (match j with JArr js => each (fun x => or_bad (scalar_of false jf e x)) js | _ => Err BadMessage end) ;;
          Ok (elems_slot e (vs ++ ws))
      end.
    Definition set_field (x : jfield * (wfield * layout)) (m : list slot) (j : json) : res (list slot) :=
      let '(jf, (f, l)) := x in
      s <- (match j with JNull => set_null W J f l (slot_at m l) | _ => assign jf f l (slot_at m l) j end) ;; Ok (put m (l_slot l) s).
    (** The i-th field of the type. *)
    Definition set_nth (i : nat) (ty : nat) (m : list slot) (j : json) : res (list slot) :=
      match nth_error (jfields W J ty) i with Some x => set_field x m j | None => UB end.

    (** A member of the object of a message: keys that are not the name of a field are errors or ignored. *)
    Definition set_member (ty : nat) (m : list slot) (p : bytes * json) : res (list slot) :=
      match find_field W J ty (fst p) with
      | Some x => set_field x m (snd p)
      | None => if strict then Err BadMessage else Ok m
      end.
    Definition times (decode : list Z -> option (Z * Z)) (ty : nat) (m : list slot) (j : json) : res (list slot) :=
      match j with
      | JStr t =>
          match decode t, w_fields (wty W ty) with
          | Some (s, n), [(_, l0); (_, l1)] => Ok (put (put m (l_slot l0) (l_ordinal l0, CInt s)) (l_slot l1) (l_ordinal l1, CInt n))
          | _, _ => Err BadMessage
          end
      | _ => Err BadMessage
      end.
    Definition set_body (ty : nat) (m : list slot) (j : json) : res (list slot) :=
      match known_of J ty with
      | KAny => Err BadMessage
      | KTimestamp => times timestamp_decode ty m j
      | KDuration => times duration_decode ty m j
      | KFieldMask =>
          match j with
          | JStr [] => Ok m
          | JStr t => match w_fields (wty W ty) with [(_, l0)] => let ps := split_commas [] t in Ok (put m (l_slot l0) (zlen ps, CStrs ps)) | _ => Err BadMessage end
          | _ => Err BadMessage
          end
      | KValue =>
          match j with
          | JNull => match nth_error (w_fields (wty W ty)) 0 with Some (_, l0) => Ok (put m (l_slot l0) (l_ordinal l0, CInt 0)) | None => UB end
          | JNum _ => set_nth 1 ty m j
          | JStr _ => set_nth 2 ty m j
          | JBool _ => set_nth 3 ty m j
          | JObj _ => set_nth 4 ty m j
          | JArr _ => set_nth 5 ty m j
          end
      | KStruct | KListValue | KWrapper => set_nth 0 ty m j
      | KNone => match j with JObj ps => in_turn (set_member ty) m ps | _ => Err BadMessage end
      end.
    Definition set_entry (ty : nat) (m : list slot) (p : bytes * json) : res (list slot) :=
      match jfields W J ty with
      | (kj, (kf, kl)) :: (vj, (vf, vl)) :: _ =>
          if key_elem kj kf then
            k <- or_bad (scalar_of true kj (w_elem kf) (JStr (fst p))) ;;
            let m1 := put m (l_slot kl) (l_ordinal kl, content_of k) in
            s <- (match snd p with
                  | JNull =>
                      s1 <- set_null W J vf vl (slot_at m1 vl) ;;
                      match w_elem vf with EMsg tv _ => match known_of J tv with KValue => Ok s1 | _ => Err BadMessage end | _ => Err BadMessage end
                  | j => assign vj vf vl (slot_at m1 vl) j
                  end) ;;
            Ok (put m1 (l_slot vl) s)
          else Err BadMessage
      | _ => UB
      end.
  End Level.
  (** What the value [j] does to [m]: to a map entry type nothing can be assigned. *)
  Fixpoint set_json (fuel : nat) (depth : Z) (ty : nat) (m : list slot) (j : json) : res (list slot) :=
    match fuel with
    | O => NoFuel
    | S n => if scope_ok maxd depth then set_body (set_json n (depth + 1)) (set_pair n (depth + 1)) ty m j else Err TooLarge
    end
  with set_pair (fuel : nat) (depth : Z) (ty : nat) (m : list slot) (p : bytes * json) : res (list slot) :=
    match fuel with
    | O => NoFuel
    | S n => if scope_ok maxd depth then set_entry (set_json n (depth + 1)) (set_pair n (depth + 1)) ty m p else Err TooLarge
    end.
End Tree.
