(** When a dynamic message and a generated message have the same type and the same content. *)
Require Import Verif.Bits Verif.Varint.
Require Import Verif.DynSlots Verif.Dyn Verif.Schema Verif.Archive Verif.Decode Verif.Encode Verif.DynWire Verif.DynView Verif.DynJson Verif.DynJsonSpec Verif.GenJson.

Section Agree.
  Context (W : list wtype) (J : list jtype) (E : env) (G : list gtype).
  Notation jfields := (jfields W J).
  Notation known_of := (known_of J).

  (** ** The same schema *)
  (** The member of a struct that is generated for a field that is not one of several of a oneof.
      Required fields are left out: they are always written by generated messages. *)
  Definition card_matches (f : wfield) (c : card) : Prop :=
    match c with
    | COpt => w_rep f = None /\ w_explicit f = true
    | CPlain false d => w_rep f = None /\ w_explicit f = false /\ d = w_default f
    | CPlain true _ => False
    | CRep _ => w_rep f <> None /\ forall te d, w_elem f = EMsg te d -> w_entry (wty W te) = false
    | CMap _ => w_rep f <> None /\ exists te d, w_elem f = EMsg te d /\ w_entry (wty W te) = true
    end.
  (** Whether the fields do not go on with one of the same oneof. *)
  Definition apart (o : option nat) (xs : list (jfield * (wfield * layout))) : Prop :=
    match o, xs with Some _, (_, (f, _)) :: _ => w_oneof f <> o | _, _ => True end.
  (** The fields of a message, in the order of the schema, and the members. *)
  Inductive matches : list (jfield * (wfield * layout)) -> list gmember -> list field -> Prop :=
  | M_nil : matches [] [] []
  | M_field jf f l std c xs bs fds : (std = true -> w_oneof f <> None) -> card_matches f c -> apart (w_oneof f) xs -> matches xs bs fds ->
      matches ((jf, (f, l)) :: xs) (GField jf std :: bs) (Field (w_num f) (w_elem f) c :: fds)
  | M_oneof g o xs bs fds : (2 <= length g)%nat -> Forall (fun x => w_oneof (fst (snd x)) = Some o) g -> apart (Some o) xs -> matches xs bs fds ->
      matches (g ++ xs) (GOneof (map fst g) :: bs) (Oneof (map (fun x => (w_num (fst (snd x)), w_elem (fst (snd x)))) g) :: fds).
  Definition type_matches (ty : nat) : Prop :=
    gknown G ty = known_of ty /\
    (if w_entry (wty W ty)
     then exists kj kf kl ks vj vf vl vs dk dv, jfields ty = [(kj, (kf, kl)); (vj, (vf, vl))] /\ g_members (gty G ty) = [GField kj ks; GField vj vs] /\
       m_fields (desc_of E ty) = [Field (w_num kf) (w_elem kf) (CPlain true dk); Field (w_num vf) (w_elem vf) (CPlain true dv)] /\ known_of ty = KNone
     else matches (jfields ty) (g_members (gty G ty)) (m_fields (desc_of E ty))) /\
    (forall te d f l, known_of ty = KStruct -> w_fields (wty W ty) = [(f, l)] -> w_elem f = EMsg te d ->
       exists kf vf tv dv, w_fields (wty W te) = [kf; vf] /\ w_elem (fst vf) = EMsg tv dv /\ known_of tv = KValue).
  Definition types_match : Prop := forall ty, type_matches ty.

  (** ** The same content *)
  (** The generated message with what a user reads from the dynamic one.  [fuel] bounds the nesting. *)
  Section View.
    Variable rec : nat -> list slot -> val.
    Fixpoint view_members (bs : list gmember) (xs : list (jfield * (wfield * layout))) (m : list slot) : list (list val) :=
      match bs with
      | [] => []
      | GField _ _ :: bs' =>
          match xs with
          | (_, (f, l)) :: xs' => member_vals rec m (MOne f l) :: view_members bs' xs' m
          | [] => []
          end
      | GOneof jfs :: bs' => group_vals rec 0 (map snd (firstn (length jfs) xs)) m :: view_members bs' (skipn (length jfs) xs) m
      end.
  End View.
  Fixpoint view (fuel : nat) (ty : nat) (m : list slot) : val :=
    match fuel with O => VMsg [] [] | S n => VMsg (view_members (view n) (g_members (gty G ty)) (jfields ty) m) [] end.

  (** ** Where both write the same *)
  (** An enum that is written by its number is not negative. *)
  Definition scalar_common (jf : jfield) (e : elem) (v : val) : Prop :=
    match e, v with EEnum _, VInt z => j_null jf = true \/ (exists n, In (n, z) (j_values jf)) \/ 0 <= z | _, _ => True end.
  Definition slot_common (rec : nat -> list slot -> Prop) (jf : jfield) (f : wfield) (l : layout) (s : slot) : Prop :=
    (w_oneof f <> None -> wide jf (w_elem f) = false) /\
    match value (dyn_of f) l s with
    | FInt z => scalar_common jf (w_elem f) (VInt z)
    | FInts x => Forall (fun z => scalar_common jf (w_elem f) (VInt z)) x
    | FMsg m => forall ty d, w_elem f = EMsg ty d -> rec ty m
    | FMsgs x => forall ty d, w_elem f = EMsg ty d -> Forall (rec ty) x
    | _ => True
    end.
  (** 64-bit integers are not in oneofs, a field without presence that was set was not set to its
      default, map entries, wrappers and google.protobuf.Value have their values. *)
  Fixpoint common (fuel : nat) (ty : nat) (m : list slot) : Prop :=
    match fuel with
    | O => False
    | S n =>
        let slots := forall jf f l, In (jf, (f, l)) (jfields ty) -> has (f, l) m = true -> slot_common (common n) jf f l (slot_at m l) in
        if w_entry (wty W ty) then slots /\ Forall (fun fl => has fl m = true) (w_fields (wty W ty))
        else
          match known_of ty with
          | KAny => False
          | KTimestamp | KDuration => Forall (fun fl => has fl m = true \/ unset fl m) (w_fields (wty W ty))
          | KFieldMask => Forall (fun fl => 0 <= fst (slot_at m (snd fl))) (w_fields (wty W ty))
          | KValue => slots /\ exists fl, In fl (w_fields (wty W ty)) /\ has fl m = true
          | KWrapper => slots /\ Forall (fun fl => has fl m = true) (w_fields (wty W ty))
          | KStruct | KListValue => slots /\ Forall (fun fl => 0 <= fst (slot_at m (snd fl))) (w_fields (wty W ty))
          | KNone =>
              slots /\
              forall f l v, In (f, l) (w_fields (wty W ty)) -> has (f, l) m = true -> w_rep f = None -> w_explicit f = false ->
                single f l (slot_at m l) = Ok v -> is_default (w_elem f) (w_default f) v = false
          end
    end.
End Agree.
