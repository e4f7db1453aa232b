(** What is expected of google.protobuf.Any in the JSON of generated messages. *)
Require Import Verif.Bits Verif.Varint.
Require Import Verif.DynSlots Verif.Dyn Verif.Schema Verif.Archive Verif.Decode Verif.Encode Verif.DynWire Verif.DynDecode Verif.DynView Verif.DynJson Verif.DynJsonSpec Verif.DynJsonTree Verif.DynAny Verif.DynAnySpec.
Require Import Verif.GenJson Verif.GenJsonSpec Verif.GenJsonTree.

Section Spec.
  Context (E : env) (G : list gtype) (utf8_ok : bytes -> bool) (fshow : bool -> Z -> bytes) (fparse : bool -> bytes -> option Z) (lenient strict : bool).
  Context (W : list wtype) (J : list jtype) (maxd : Z) (find_type : bytes -> option nat) (deep : nat).

  (** What a value does to a message: GenJsonTree.v, but an Any is given the URL and the
      payload that DynAnySpec.v says an object stands for. *)
  Fixpoint gaset (fuel : nat) (ty : nat) (cur : val) (j : json) : res val :=
    match fuel with
    | O => NoFuel
    | S n =>
        match gknown G ty with
        | KAny =>
            match cur with
            | VMsg _ u =>
                '(url, data) <- parts_of W J find_type (aset_json W J utf8_ok maxd fparse find_type strict deep 0) (aset_payload W J utf8_ok maxd fparse find_type strict deep 0) (dyn_encode W utf8_ok maxd deep) j ;;
                Ok (VMsg [[VBytes url]; [VBytes data]] u)
            | _ => UB
            end
        | _ => gbody_of E G utf8_ok fparse lenient strict (gaset n) ty cur j
        end
    end.

  (** Messages that can be written: GenJsonSpec.v, with Any as in DynAnySpec.v. *)
  Fixpoint gaprintable (fuel : nat) (ty : nat) (v : val) : Prop :=
    match fuel, v with
    | S n, VMsg fs _ =>
        match gknown G ty with
        | KAny => exists url data, fs = [[VBytes url]; [VBytes data]] /\ held W J utf8_ok maxd find_type deep (aprintable W J utf8_ok maxd fshow fparse find_type deep) url data
        | _ => body_printable E G utf8_ok fshow fparse lenient (gaprintable n) ty fs
        end
    | _, _ => False
    end.

  (** google/protobuf/any.proto *)
  Definition ganys_ok : Prop :=
    forall ty, gknown G ty = KAny -> exists n1 n2 v1 v2, m_fields (desc_of E ty) = [Field n1 (EBytes true v1) (CPlain false (VBytes [])); Field n2 (EBytes false v2) (CPlain false (VBytes []))].
End Spec.
