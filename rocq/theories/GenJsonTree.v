(** What a JSON value does to a generated message: a specification by the structure of the
    value, without tokens, positions or counts of elements. *)
Require Import Verif.Bits Verif.Varint Verif.Base64 Verif.Timestamp Verif.Duration Verif.FieldMask.
Require Import Verif.Schema Verif.Archive Verif.Decode Verif.Encode Verif.DynJson Verif.DynJsonSpec Verif.DynJsonTree Verif.GenJson.

Section Tree.
  Context (E : env) (G : list gtype) (utf8_ok : bytes -> bool) (fparse : bool -> bytes -> option Z) (lenient strict : bool).
  (** The scalar a value stands for, for which [q] says that numbers and bools are strings. *)
  Definition gscalar_of (checked q : bool) (jf : jfield) (e : elem) (j : json) : res val :=
    match e with
    | EMsg _ _ => UB
    | _ => or_bad
        match e, j with
        | (EVar _ | EFix _ _), JStr t => if q then option_map VInt (number_value fparse jf e t) else None
        | (EVar _ | EFix _ _), JNum t => if negb q || lenient then option_map VInt (number_value fparse jf e t) else None
        | EBool, JBool b => if q then None else Some (VInt (if b then 1 else 0))
        | EBool, JStr t => if q then if eqb_bytes t true_text then Some (VInt 1) else if eqb_bytes t false_text then Some (VInt 0) else None else None
        | EEnum _, JStr t => if j_null jf then None else option_map VInt (value_of (j_values jf) t)
        | EEnum _, JNum t => if checked then option_map VInt (number_value fparse jf (EVar VI32) t) else None
        | EEnum _, JNull => if j_null jf && negb checked then Some (VInt 0) else None
        | EBytes _ _, JStr t => if j_string jf then if negb checked || utf8_ok t then Some (VBytes t) else None else option_map VBytes (b64_decode t)
        | _, _ => None
        end
    end.

  Section Level.
    (** A value for a message. *)
    Variable sub : nat -> val -> json -> res val.
    Definition gvalue_of (checked q : bool) (jf : jfield) (e : elem) (cur : val) (j : json) : res val :=
      match e with EMsg ty _ => sub ty cur j | _ => gscalar_of checked q jf e j end.
    Definition glist_of (jf : jfield) (e : elem) (j : json) : res (list val) :=
      match j with JArr js => each (gvalue_of true (wide jf e) jf e (elem_default E e)) js | _ => Err BadMessage end.
    Definition gpair_of (te : nat) (p : bytes * json) : res val :=
      match entry_of E G te with
      | Some (kj, ek, (vj, ev)) =>
          k <- gscalar_of true true kj ek (JStr (fst p)) ;; x <- gvalue_of true (wide vj ev) vj ev (elem_default E ev) (snd p) ;; Ok (VMsg [[k]; [x]] [])
      | None => UB
      end.
    (** Of entries with one key the last counts. *)
    Definition gmap_of (assoc : bool) (te : nat) (cur : list val) (j : json) : res (list val) :=
      match j with
      | JObj ps =>
          if assoc then in_turn (fun es p => e <- gpair_of te p ;; Ok (map_put e es)) cur ps
          else es <- each (gpair_of te) ps ;; Ok (cur ++ es)
      | _ => Err BadMessage
      end.
    (** A value for a member: null clears it, elements are added. *)
    Definition gfield_of (jf : jfield) (std : bool) (e : elem) (c : card) (cur : list val) (j : json) : res (list val) :=
      match c with
      | COpt =>
          match j with
          | JNull => Ok []
          | _ => v <- gvalue_of (negb std) (negb std && wide jf e) jf e (match cur with [v] => v | _ => elem_default E e end) j ;; Ok [v]
          end
      | CPlain ex d =>
          match j, ex with
          | JNull, false => Ok [d]
          | _, _ => v <- gvalue_of (negb ex) (wide jf e) jf e (match cur with [v] => v | _ => elem_default E e end) j ;; Ok [v]
          end
      | CRep _ => match j with JNull => Ok [] | _ => vs <- glist_of jf e j ;; Ok (cur ++ vs) end
      | CMap assoc => match j, e with JNull, _ => Ok [] | _, EMsg te _ => gmap_of assoc te cur j | _, _ => UB end
      end.
    Definition galt_of (jf : jfield) (k : nat) (e : elem) (j : json) : res (list val) :=
      match j with JNull => Ok [] | _ => v <- gvalue_of true (wide jf e) jf e (elem_default E e) j ;; Ok [VAlt k v] end.
    Definition gtarget_of (t : target) (ty : nat) (fs : list (list val)) (j : json) : res (list (list val)) :=
      match t with
      | TField i =>
          match nth_error (g_members (gty G ty)) i, nth_error (m_fields (desc_of E ty)) i, nth_error fs i with
          | Some (GField jf std), Some (Field _ e c), Some cur => vs <- gfield_of jf std e c cur j ;; Ok (Schema.set_nth i vs fs)
          | _, _, _ => UB
          end
      | TAlt i k =>
          match nth_error (g_members (gty G ty)) i, nth_error (m_fields (desc_of E ty)) i with
          | Some (GOneof jfs), Some (Oneof alts) =>
              match nth_error jfs k, nth_error alts k with
              | Some jf, Some (_, e) => vs <- galt_of jf k e j ;; Ok (Schema.set_nth i vs fs)
              | _, _ => UB
              end
          | _, _ => UB
          end
      end.
    (** A member of the object: its key leads to a member of the message, or is unknown. *)
    Definition gmember_of (ty : nat) (fs : list (list val)) (p : bytes * json) : res (list (list val)) :=
      match locate (fst p) (g_members (gty G ty)) 0 with
      | Some t => gtarget_of t ty fs (snd p)
      | None => if strict then Err BadMessage else Ok fs
      end.
    Definition gkind_of (ty : nat) (i : nat) (j : json) : res (list (list val)) :=
      match m_fields (desc_of E ty), g_members (gty G ty) with
      | [Oneof alts], [GOneof jfs] =>
          match nth_error jfs i, nth_error alts i with
          | Some jf, Some (_, EMsg st _) =>
              match m_fields (desc_of E st), g_members (gty G st) with
              | [Field _ (EMsg te _) (CMap assoc)], _ => es <- gmap_of assoc te [] j ;; Ok [[VAlt i (VMsg [es] [])]]
              | [Field _ e (CRep _)], [GField lj _] => vs <- glist_of lj e j ;; Ok [[VAlt i (VMsg [vs] [])]]
              | _, _ => UB
              end
          | Some jf, Some (_, e) => v <- gscalar_of true false jf e j ;; Ok [[VAlt i v]]
          | _, _ => UB
          end
      | _, _ => UB
      end.
    Definition gbody_of (ty : nat) (cur : val) (j : json) : res val :=
      match cur with
      | VMsg fs u =>
          fs' <-
            match gknown G ty with
            | KAny => Err BadMessage
            | KTimestamp => match j with JStr t => match timestamp_decode t with Some (s, n) => Ok [[VInt s]; [VInt n]] | None => Err BadMessage end | _ => Err BadMessage end
            | KDuration => match j with JStr t => match duration_decode t with Some (s, n) => Ok [[VInt s]; [VInt n]] | None => Err BadMessage end | _ => Err BadMessage end
            | KFieldMask => match j with JStr t => Ok [map VBytes (mask_decode t)] | _ => Err BadMessage end
            | KValue =>
                match j with
                | JNull => Ok [[VAlt 0 (VInt 0)]]
                | JNum _ => gkind_of ty 1 j
                | JStr _ => gkind_of ty 2 j
                | JBool _ => gkind_of ty 3 j
                | JObj _ => gkind_of ty 4 j
                | JArr _ => gkind_of ty 5 j
                end
            | KStruct => match m_fields (desc_of E ty), fs with [Field _ (EMsg te _) (CMap assoc)], [es] => es' <- gmap_of assoc te es j ;; Ok [es'] | _, _ => UB end
            | KListValue => match m_fields (desc_of E ty), g_members (gty G ty), fs with [Field _ e (CRep _)], [GField jf _], [vs] => vs' <- glist_of jf e j ;; Ok [vs ++ vs'] | _, _, _ => UB end
            | KWrapper => match m_fields (desc_of E ty), g_members (gty G ty) with [Field _ e (CPlain _ _)], [GField jf _] => v <- gscalar_of true (wide jf e) jf e j ;; Ok [[v]] | _, _ => UB end
            | KNone => match j with JObj ps => in_turn (gmember_of ty) fs ps | _ => Err BadMessage end
            end ;;
          Ok (VMsg fs' u)
      | _ => UB
      end.
  End Level.
  Fixpoint gset (fuel : nat) (ty : nat) (cur : val) (j : json) : res val :=
    match fuel with O => NoFuel | S n => gbody_of (gset n) ty cur j end.
End Tree.
