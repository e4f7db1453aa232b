(** What is expected of the JSON of generated messages. *)
Require Import Verif.Bits Verif.Varint Verif.FieldMaskProofs.
Require Import Verif.Schema Verif.Archive Verif.Decode Verif.Encode Verif.WellTyped Verif.DynJson Verif.GenJson.

Section Spec.
  Context (E : env) (G : list gtype) (utf8_ok : bytes -> bool).
  Context (fshow : bool -> Z -> bytes) (fparse : bool -> bytes -> option Z) (lenient always : bool).
  Notation gty := (gty G).
  Notation gknown := (gknown G).
  Notation entry_of := (entry_of E G).

  (** ** What is read back *)
  (** The message without unknown fields, in which a member that is not written has its
      default: they differ for a floating point number that is -0. *)
  Section Bare.
    Variable rec : nat -> val -> val.
    Definition bare_elem (e : elem) (v : val) : val := match e with EMsg ty _ => rec ty v | _ => v end.
    Definition bare_entry (te : nat) (v : val) : val :=
      match entry_of te, v with
      | Some (_, (_, ev)), VMsg [[k]; [x]] _ => VMsg [[k]; [bare_elem ev x]] []
      | _, _ => v
      end.
    Definition bare_member (f : field) (vs : list val) : list val :=
      match f with
      | Field _ e (CPlain ex d) => map (fun v => if ex || always || negb (is_default e d v) then bare_elem e v else d) vs
      | Field _ e (CMap _) => match e with EMsg te _ => map (bare_entry te) vs | _ => vs end
      | Field _ e COpt | Field _ e (CRep _) => map (bare_elem e) vs
      | Oneof alts => map (fun v => match v with VAlt i x => match nth_error alts i with Some (_, e) => VAlt i (bare_elem e x) | None => v end | _ => v end) vs
      end.
    Fixpoint bare_members (fds : list field) (fs : list (list val)) : list (list val) :=
      match fds, fs with f :: fds', vs :: fs' => bare_member f vs :: bare_members fds' fs' | _, _ => [] end.
    (** A struct or list that is the kind of a google.protobuf.Value. *)
    Definition bare_kind (fds : list field) (fs : list (list val)) : list (list val) :=
      match fds, fs with
      | [Oneof alts], [[VAlt i (VMsg xs _)]] =>
          match nth_error alts i with Some (_, EMsg st _) => [[VAlt i (VMsg (bare_members (m_fields (desc_of E st)) xs) [])]] | _ => fs end
      | _, _ => fs
      end.
    Definition bare_body (ty : nat) (fs : list (list val)) : list (list val) :=
      match gknown ty with
      | KTimestamp | KDuration | KFieldMask | KWrapper => fs
      | KValue => bare_kind (m_fields (desc_of E ty)) fs
      | _ => bare_members (m_fields (desc_of E ty)) fs
      end.
  End Bare.
  Fixpoint bare (fuel : nat) (ty : nat) (v : val) : val :=
    match fuel, v with
    | S n, VMsg fs _ => VMsg (bare_body (bare n) ty fs) []
    | _, _ => v
    end.

  (** ** Messages that can be written *)
  (** The values of scalars that JSON represents: floating point numbers that are read
      back, strings that are valid.  Where [checked] is false an enum has to have a name,
      and strings are not validated. *)
  Definition gscalar_printable (checked : bool) (jf : jfield) (e : elem) (v : val) : Prop :=
    match e, v with
    | EFix b true, VInt z => fparse b (fshow b z) = Some z
    | EEnum _, VInt z => j_null jf = false /\ ((exists n, In (n, z) (j_values jf)) \/ checked = true)
    | EBytes _ _, VBytes b => j_string jf = true -> checked = true -> utf8_ok b = true
    | _, _ => True
    end.
  (** google.protobuf.Value that is null: read as absent where that is possible. *)
  Definition is_null (v : val) : bool := match v with VMsg [[VAlt O _]] _ => true | _ => false end.
  Definition not_null (e : elem) (v : val) : Prop := forall ty d, e = EMsg ty d -> gknown ty = KValue -> is_null v = false.
  Section Printable.
    Variable rec : nat -> val -> Prop.
    Definition elem_printable (checked : bool) (jf : jfield) (e : elem) (v : val) : Prop :=
      match e with EMsg ty _ => rec ty v | _ => gscalar_printable checked jf e v end.
    Definition entry_printable (te : nat) (v : val) : Prop :=
      match entry_of te, v with
      | Some (kj, ek, (vj, ev)), VMsg [[k]; [x]] _ => gscalar_printable true kj ek k /\ elem_printable true vj ev x
      | _, _ => False
      end.
    (** Integers of 64 bits in a oneof are written without quotes, but read with them. *)
    Definition alt_printable (jfs : list jfield) (alts : list (Z * elem)) (v : val) : Prop :=
      match v with
      | VAlt i x =>
          forall jf num e, nth_error jfs i = Some jf -> nth_error alts i = Some (num, e) ->
            elem_printable true jf e x /\ not_null e x /\ (wide jf e = true -> lenient = true)
      | _ => False
      end.
    Definition member_printable (b : gmember) (f : field) (vs : list val) : Prop :=
      match b, f with
      | GField jf std, Field _ e COpt => Forall (fun v => elem_printable (negb std) jf e v /\ not_null e v) vs
      | GField jf _, Field _ e (CPlain ex _) => Forall (elem_printable (negb ex) jf e) vs
      | GField jf _, Field _ e (CRep _) => Forall (elem_printable true jf e) vs
      | GField _ _, Field _ e (CMap _) => match e with EMsg te _ => Forall (entry_printable te) vs | _ => False end
      | GOneof jfs, Oneof alts => Forall (alt_printable jfs alts) vs
      | _, _ => False
      end.
    Fixpoint members_printable (bs : list gmember) (fds : list field) (fs : list (list val)) : Prop :=
      match bs, fds, fs with
      | [], [], [] => True
      | b :: bs', f :: fds', vs :: fs' => member_printable b f vs /\ members_printable bs' fds' fs'
      | _, _, _ => False
      end.
    Definition message_printable (ty : nat) (fs : list (list val)) : Prop := members_printable (g_members (gty ty)) (m_fields (desc_of E ty)) fs.
    Definition kind_printable (ty : nat) (fs : list (list val)) : Prop :=
      match m_fields (desc_of E ty), g_members (gty ty), fs with
      | [Oneof alts], [GOneof jfs], [[VAlt i x]] =>
          match nth_error jfs i, nth_error alts i, i with
          | Some _, Some (_, EMsg st _), _ => match x with VMsg xs _ => message_printable st xs | _ => False end
          | Some _, Some _, O => x = VInt 0
          | Some jf, Some (_, e), _ => gscalar_printable true jf e x
          | _, _, _ => False
          end
      | _, _, _ => False
      end.
    Definition body_printable (ty : nat) (fs : list (list val)) : Prop :=
      match gknown ty with
      | KAny => False
      | KTimestamp | KDuration => True
      | KFieldMask => forall ps, fs = [map VBytes ps] -> Forall comma_free ps /\ ps <> [[]]
      | KValue => kind_printable ty fs
      | _ => message_printable ty fs
      end.
  End Printable.
  Fixpoint gprintable (fuel : nat) (ty : nat) (v : val) : Prop :=
    match fuel, v with
    | S n, VMsg fs _ => body_printable (gprintable n) ty fs
    | _, _ => False
    end.

  (** ** Schemas *)
  Definition names_ok (jf : jfield) : Prop := NoDup (map fst (j_values jf)) /\ ~ In [] (map fst (j_values jf)).
  Definition key_kind (kj : jfield) (ek : elem) : bool :=
    match ek with EBool => true | EBytes _ _ => j_string kj | e => match int_kind (j_signed kj) e with Some _ => true | None => false end end.
  Definition member_ok (b : gmember) (f : field) : Prop :=
    match b, f with
    | GField jf std, Field _ e c =>
        names_ok jf /\
        match c with
        | CMap _ =>
            exists te n1 n2 ek ev dk dv kj ks vj vs, e = EMsg te false /\
              m_fields (desc_of E te) = [Field n1 ek (CPlain true dk); Field n2 ev (CPlain true dv)] /\
              g_members (gty te) = [GField kj ks; GField vj vs] /\ key_kind kj ek = true
        | CPlain ex d => if ex then forall ty dl, e = EMsg ty dl -> d = default_msg E ty else scalar e = true
        | _ => True
        end
    | GOneof jfs, Oneof alts => length jfs = length alts /\ Forall names_ok jfs
    | _, _ => False
    end.
  Definition labels (jf : jfield) : list bytes := if eqb_bytes (j_json jf) (j_name jf) then [j_json jf] else [j_json jf; j_name jf].
  Definition fields_of (b : gmember) : list jfield := match b with GField jf _ => [jf] | GOneof jfs => jfs end.
  Definition gknown_ok (ty : nat) : Prop :=
    match gknown ty with
    | KNone | KAny => True
    | KTimestamp | KDuration => exists n1 n2, m_fields (desc_of E ty) = [Field n1 (EVar VI64) (CPlain false (VInt 0)); Field n2 (EVar VI32) (CPlain false (VInt 0))]
    | KFieldMask => exists n1 u v p, m_fields (desc_of E ty) = [Field n1 (EBytes u v) (CRep p)]
    | KValue =>
        exists alts jn jd js jb jt jl c u v st sl d1 d2, m_fields (desc_of E ty) = [Oneof alts] /\
          map snd alts = [EEnum c; EFix true true; EBytes u v; EBool; EMsg st d1; EMsg sl d2] /\
          g_members (gty ty) = [GOneof [jn; jd; js; jb; jt; jl]] /\ j_null jn = true /\ j_string js = true /\ gknown st = KStruct /\ gknown sl = KListValue
    | KStruct =>
        exists n1 te a kj ek vj tv d, m_fields (desc_of E ty) = [Field n1 (EMsg te false) (CMap a)] /\
          entry_of te = Some (kj, ek, (vj, EMsg tv d)) /\ gknown tv = KValue
    | KListValue => exists n1 tv d p, m_fields (desc_of E ty) = [Field n1 (EMsg tv d) (CRep p)] /\ gknown tv = KValue
    | KWrapper => exists n1 e d, m_fields (desc_of E ty) = [Field n1 e (CPlain false d)] /\ match e with EVar _ | EBool | EFix _ _ | EBytes _ _ => True | _ => False end
    end.
  (** The keys of an object are distinct: glaze does not compile otherwise. *)
  Definition gtype_ok (ty : nat) : Prop :=
    Forall2 member_ok (g_members (gty ty)) (m_fields (desc_of E ty)) /\
    NoDup (flat_map labels (flat_map fields_of (g_members (gty ty)))) /\
    gknown_ok ty.
  Definition gtypes_ok : Prop := forall ty, gtype_ok ty.
End Spec.
