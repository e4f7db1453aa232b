(** Properties of the generated headers with file descriptors. *)
From Coq Require Import Ascii String Sorting.Sorted.
Require Import Verif.Bits Verif.Varint Verif.CppText Verif.Pool Verif.PoolSpec Verif.GenNameCheck Verif.DynSlots Verif.Dyn Verif.DynWire Verif.Factory Verif.FactorySpec.
Require Import Verif.GenDesc Verif.GenDescSpec Verif.FactoryEx Verif.GenDescEx.
Require Verif.GenDesc2 Verif.GenDesc3.
Local Open Scope list_scope.

(** ** C108: the array of a .desc.hpp holds the file and everything it imports. *)
(** The generator makes the headers of every valid set of files whose descriptor names are apart: the recursion over the imports
    ends. *)
Theorem C108_generates encode fs spaces requested : representable fs -> valid_files fs -> length spaces = length fs ->
  descriptors_ok (checked_spaces fs spaces) = true -> incl requested (map fl_name fs) -> exists hs, generate_desc encode fs spaces requested = Some hs.
Proof. exact (GenDesc3.generates encode fs spaces requested). Qed.
Print Assumptions C108_generates.

(** If the headers of [f] and of all files it imports are made, and all these files have messages: every header included from that of
    [f] exists, every name in its array is defined once, and the elements are the descriptors of [f] and of every file it imports,
    directly or not, each of them once. *)
Theorem C108_array encode fs spaces requested hs f : representable fs -> length spaces = length fs -> generate_desc encode fs spaces requested = Some hs ->
  incl requested (map fl_name fs) -> NoDup requested -> In f fs -> (forall g, needs fs f g -> fl_messages g <> [] /\ In (fl_name g) requested) ->
  exists h, In h hs /\ h_file h = fl_name f /\ complete hs h /\ exists gs, NoDup gs /\ (forall g, In g gs <-> needs fs f g) /\ set_value hs h (map encode gs).
Proof. exact (GenDesc3.described encode fs spaces requested hs f). Qed.
Print Assumptions C108_array.

(** A factory for dynamic messages can be made from that array, if one can be made from all files, every file imports what it uses, and
    descriptors survive being written and read.  It has the types of [f] and of the files it imports, as they are described there. *)
Theorem C108_factory encode decode fc fs spaces requested hs f : representable fs -> length spaces = length fs -> generate_desc encode fs spaces requested = Some hs ->
  incl requested (map fl_name fs) -> NoDup requested -> In f fs -> (forall g, needs fs f g -> fl_messages g <> [] /\ In (fl_name g) requested) ->
  usable fc fs -> types_imported fs -> (forall g, In g fs -> decode (encode g) = Some g) ->
  exists h gs, In h hs /\ h_file h = fl_name f /\ NoDup gs /\ (forall g, In g gs <-> needs fs f g) /\
    forall vs, set_value hs h vs -> exists pl W, create_from_descs decode fc vs = Done (pl, W) /\ Forall2 (type_means fc gs) (concat (map scoped_messages gs)) W /\
      forall n m, In (n, m) (file_messages f) -> get_message_type pl n <> None.
Proof. exact (GenDesc3.factory_made encode decode fc fs spaces requested hs f). Qed.
Print Assumptions C108_factory.

(** A descriptor that cannot be read is an error. *)
Theorem C108_unreadable decode fc descs d : In d descs -> decode d = None -> create_from_descs decode fc descs = Invalid.
Proof. exact (GenDesc3.create_unreadable decode fc descs d). Qed.
Print Assumptions C108_unreadable.
Example C108_unreadable_case : create_from_descs (fun b => match b with [] => None | _ => Some gd_a end) fx_no_floats [[1%Z]; []] = Invalid.
Proof. reflexivity. Qed.

(** Three files that import one another in turn meet the hypotheses. *)
Example C108_case encode fc : representable gd_files /\ usable fc gd_files /\ types_imported gd_files /\ NoDup gd_requested /\
  (forall f g, needs gd_files f g -> fl_messages g <> [] /\ In (fl_name g) gd_requested) /\ exists hs, generate_desc encode gd_files gd_spaces gd_requested = Some hs.
Proof.
  split; [exact gd_representable|]. split; [exact (gd_usable fc)|]. split; [exact gd_imported|]. split; [exact gd_distinct|]. split; [exact gd_needs|]. eexists. exact (gd_generates encode).
Qed.
Example C108_headers encode : option_map (map (fun h => (h_file h, h_set h))) (generate_desc encode gd_files gd_spaces gd_requested) = Some
  [ (txt "c.proto", [txt "hpp_proto::file_descriptors::a_proto::file_descriptor_"; txt "hpp_proto::file_descriptors::x::b_proto::file_descriptor_"; txt "hpp_proto::file_descriptors::c_proto::file_descriptor_"]);
    (txt "a.proto", [txt "hpp_proto::file_descriptors::a_proto::file_descriptor_"]);
    (txt "x/b.proto", [txt "hpp_proto::file_descriptors::a_proto::file_descriptor_"; txt "hpp_proto::file_descriptors::x::b_proto::file_descriptor_"]) ].
Proof. rewrite gd_generates. reflexivity. Qed.

(** A file without messages gets no header, although the headers of files that import it include it and list its descriptor: of a
    file with an enum only, and one with a message that uses the enum, the header of the second cannot be compiled. *)
Theorem C108_no_messages_refuted encode fc : exists fs spaces, representable fs /\ usable fc fs /\ types_imported fs /\ spaces = map space_of fs /\
  exists hs h, generate_desc encode fs spaces (map fl_name fs) = Some hs /\ In h hs /\
    (exists n, In n (h_includes h) /\ forall b, In b hs -> h_file b <> n) /\ (exists n, In n (h_set h) /\ forall b, In b hs -> h_name b <> n).
Proof.
  exists gd_enums, (map space_of gd_enums). destruct (gd_enums_usable fc) as [R U]. split; [exact R|]. split; [exact U|]. split; [exact gd_enums_imported|]. split; [reflexivity|].
  destruct (gd_missing encode) as (hs & h & A & B & _ & C). exists hs, h. auto.
Qed.
Print Assumptions C108_no_messages_refuted.
