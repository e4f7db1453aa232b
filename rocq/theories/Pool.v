(** Construction of a descriptor pool from a set of file descriptors
    (include/hpp_proto/descriptor_pool.hpp).

    Names are byte strings.  Pointers between descriptors are replaced by the
    descriptors' values; the maps from full names to descriptors keep insertion
    order (the code iterates over them sorted by name, which changes neither the
    verdict nor which descriptors exist).  Only the options that influence
    validation and field attributes are kept.  A vector that is reserved up front
    must not grow past its capacity, because pointers to its elements are taken:
    doing so is the outcome [Realloc]. *)
Require Import Verif.Bits Verif.Kahn.

Inductive outcome (A : Type) : Type :=
| Done (a : A)
| Invalid          (* descriptor_pool_errc::validation_error *)
| Realloc          (* emplace_back beyond the reserved capacity *)
| NoFuel.
Arguments Done {A} a. Arguments Invalid {A}. Arguments Realloc {A}. Arguments NoFuel {A}.

Definition bind {A B} (x : outcome A) (f : A -> outcome B) : outcome B :=
  match x with Done a => f a | Invalid => Invalid | Realloc => Realloc | NoFuel => NoFuel end.
Notation "'let*' p := x 'in' e" := (bind x (fun p => e)) (at level 200, p pattern, x at level 100, e at level 200).
Definition require (b : bool) : outcome unit := if b then Done tt else Invalid.

(** [for (x : l) …] with an early return. *)
Fixpoint each {A S} (f : S -> A -> outcome S) (s : S) (l : list A) : outcome S :=
  match l with [] => Done s | x :: t => let* s := f s x in each f s t end.

(** emplace_back on a vector reserved for [cap] elements. *)
Definition emplace {A} (cap : nat) (l : list A) (x : A) : outcome (list A) :=
  if (length l <? cap)%nat then Done (l ++ [x]) else Realloc.

Definition name_eqb (a b : bytes) : bool := if list_eq_dec Z.eq_dec a b then true else false.
Definition is_empty {A} (l : list A) : bool := match l with [] => true | _ => false end.

(** ** Descriptor messages (google/protobuf/descriptor.proto) *)
(** FeatureSet; 0 is the UNKNOWN value of each feature. *)
Record features := Features { ft_presence : Z; ft_enum : Z; ft_repeated : Z; ft_utf8 : Z; ft_encoding : Z }.
Record fproto := FProto {
  fp_name : bytes; fp_number : Z; fp_label : Z; fp_type : Z; fp_type_name : bytes; fp_extendee : bytes; fp_json : bytes;
  fp_oneof : option Z; fp_opt3 : bool; fp_packed : option bool; fp_default : bytes; fp_feat : features }.
(** The values of an enum: their names and numbers. *)
Record eproto := EProto { ep_name : bytes; ep_values : list (bytes * Z); ep_feat : features }.
Inductive mproto := MProto (name : bytes) (fields exts : list fproto) (nested : list mproto) (enums : list eproto)
  (oneofs : nat) (entry : bool) (feat : features).
Definition mp_name m := let '(MProto x _ _ _ _ _ _ _) := m in x.
Definition mp_fields m := let '(MProto _ x _ _ _ _ _ _) := m in x.
Definition mp_exts m := let '(MProto _ _ x _ _ _ _ _) := m in x.
Definition mp_nested m := let '(MProto _ _ _ x _ _ _ _) := m in x.
Definition mp_enums m := let '(MProto _ _ _ _ x _ _ _) := m in x.
Definition mp_oneofs m := let '(MProto _ _ _ _ _ x _ _) := m in x.
Definition mp_entry m := let '(MProto _ _ _ _ _ _ x _) := m in x.
Definition mp_feat m := let '(MProto _ _ _ _ _ _ _ x) := m in x.
Record fileproto := FileProto {
  fl_name : bytes; fl_package : bytes; fl_deps : list bytes; fl_messages : list mproto; fl_enums : list eproto; fl_exts : list fproto;
  fl_syntax : bytes; fl_edition : Z; fl_feat : features }.

Definition TYPE_STRING := 9. Definition TYPE_GROUP := 10. Definition TYPE_MESSAGE := 11. Definition TYPE_BYTES := 12. Definition TYPE_ENUM := 14.
Definition LABEL_OPTIONAL := 1. Definition LABEL_REQUIRED := 2. Definition LABEL_REPEATED := 3.
Definition EXPLICIT := 1. Definition IMPLICIT := 2. Definition LEGACY_REQUIRED := 3.
Definition ENUM_OPEN := 1. Definition ENUM_CLOSED := 2.
Definition PACKED := 1. Definition EXPANDED := 2.
Definition UTF8_VERIFY := 2. Definition UTF8_NONE := 3.
Definition LENGTH_PREFIXED := 1. Definition DELIMITED := 2.
Definition EDITION_LEGACY := 900. Definition EDITION_PROTO3 := 999. Definition EDITION_2023 := 1000. Definition EDITION_2024 := 1001.

(** ** Features *)
(** descriptor_pool.hpp:921-930 merge_features: merge() of a FeatureSet, whose
    members are enums without presence. *)
Definition over (a b : Z) : Z := if b =? 0 then a else b.
Definition merge_features (a b : features) : features :=
  Features (over (ft_presence a) (ft_presence b)) (over (ft_enum a) (ft_enum b)) (over (ft_repeated a) (ft_repeated b))
    (over (ft_utf8 a) (ft_utf8 b)) (over (ft_encoding a) (ft_encoding b)).

(** descriptor_pool.hpp:954-1028 get_cpp_edition_defaults. *)
Definition edition_defaults : list (Z * features) :=
  [(EDITION_LEGACY, Features EXPLICIT ENUM_CLOSED EXPANDED UTF8_NONE LENGTH_PREFIXED);
   (EDITION_PROTO3, Features IMPLICIT ENUM_OPEN PACKED UTF8_VERIFY LENGTH_PREFIXED);
   (EDITION_2023, Features EXPLICIT ENUM_OPEN PACKED UTF8_VERIFY LENGTH_PREFIXED);
   (EDITION_2024, Features EXPLICIT ENUM_OPEN PACKED UTF8_VERIFY LENGTH_PREFIXED)].
Definition proto3_text : bytes := [112; 114; 111; 116; 111; 51].
Definition editions_text : bytes := [101; 100; 105; 116; 105; 111; 110; 115].
(** descriptor_pool.hpp:1030-1048 select_features. *)
Fixpoint find_edition (e : Z) (l : list (Z * features)) : outcome features :=
  match l with [] => Invalid | (k, f) :: t => if k =? e then Done f else find_edition e t end.
Definition select_features (f : fileproto) : outcome features :=
  find_edition (if name_eqb (fl_syntax f) proto3_text then EDITION_PROTO3 else if name_eqb (fl_syntax f) editions_text then fl_edition f else EDITION_LEGACY)
    edition_defaults.

(** ** Field attributes (descriptor_pool.hpp:222-341) *)
Record fattr := FAttr { fa_explicit : bool; fa_repeated : bool; fa_packed : bool; fa_utf8 : bool; fa_delimited : bool; fa_required : bool }.
Definition is_some {A} (o : option A) : bool := match o with Some _ => true | None => false end.
(** descriptor_pool.hpp:289-300 *)
Definition setup_presence (p : fproto) (f : features) : bool :=
  (fp_label p =? LABEL_OPTIONAL) &&
  ((fp_type p =? TYPE_GROUP) || (fp_type p =? TYPE_MESSAGE) || fp_opt3 p || is_some (fp_oneof p) || (ft_presence f =? EXPLICIT) || (ft_presence f =? 0)).
(** descriptor_pool.hpp:302-319 *)
Definition setup_packed (p : fproto) (f : features) : bool :=
  (fp_label p =? LABEL_REPEATED) &&
  negb ((fp_type p =? TYPE_MESSAGE) || (fp_type p =? TYPE_STRING) || (fp_type p =? TYPE_BYTES) || (fp_type p =? TYPE_GROUP)) &&
  (match fp_packed p with Some b => b | None => false end || (ft_repeated f =? PACKED)).
(** descriptor_pool.hpp:321-341 *)
Definition setup_utf8 (p : fproto) (f : features) : bool := (fp_type p =? TYPE_STRING) && (ft_utf8 f =? UTF8_VERIFY).
Definition setup_delimited (p : fproto) (f : features) : bool :=
  (fp_type p =? TYPE_GROUP) || ((fp_type p =? TYPE_MESSAGE) && (ft_encoding f =? DELIMITED)).
Definition setup_required (p : fproto) (f : features) : bool := (fp_label p =? LABEL_REQUIRED) || (ft_presence f =? LEGACY_REQUIRED).
(** descriptor_pool.hpp:224-234 (the constructor); [entry]: 1226-1228. *)
Definition field_attrs (inherited : features) (entry : bool) (p : fproto) : fattr :=
  let f := merge_features inherited (fp_feat p) in
  FAttr (setup_presence p f || entry) (fp_label p =? LABEL_REPEATED) (setup_packed p f) (setup_utf8 p f) (setup_delimited p f) (setup_required p f).
(** descriptor_pool.hpp:437-441 *)
Definition enum_closed (inherited : features) (e : eproto) : bool := ft_enum (merge_features inherited (ep_feat e)) =? ENUM_CLOSED.

(** ** The descriptors *)
Record mdsc := MDsc { md_full : bytes; md_proto : mproto; md_feat : features }.
Record edsc := EDsc { ed_full : bytes; ed_proto : eproto; ed_closed : bool }.
Record fdsc := FDsc { fd_proto : fproto; fd_attrs : fattr }.

(** descriptor_pool.hpp:1050-1057 *)
Definition join_by_dot (x y : bytes) : bytes := x ++ [46] ++ y.
Definition in_scope (scope name : bytes) : bytes := if is_empty scope then name else join_by_dot scope name.

(** ** Counting (descriptor_pool.hpp:720-759) *)
Record counter := Counter { c_files : nat; c_messages : nat; c_fields : nat; c_oneofs : nat; c_enums : nat }.
(** 743-756: the loop of count_message; the list [pending] is the stack (its
    head is back()). *)
Fixpoint count_loop (fuel : nat) (pending : list mproto) (c : counter) : option counter :=
  match fuel with
  | O => None
  | S fuel =>
      match pending with
      | [] => Some c
      | m :: rest =>
          count_loop fuel (rev (mp_nested m) ++ rest)
            (Counter (c_files c) (c_messages c + length (mp_nested m)) (c_fields c + (length (mp_fields m) + length (mp_exts m)))
               (c_oneofs c + mp_oneofs m) (c_enums c + length (mp_enums m)))
      end
  end.
(** Number of messages in a tree (used as fuel only). *)
Fixpoint msize (m : mproto) : nat := S (list_sum (map msize (mp_nested m))).
Definition count_message (o : option counter) (m : mproto) : option counter :=
  match o with
  | Some c => count_loop (S (msize m)) [m] (Counter (c_files c) (S (c_messages c)) (c_fields c) (c_oneofs c) (c_enums c))
  | None => None
  end.
(** 733-740 *)
Definition count_file (o : option counter) (f : fileproto) : option counter :=
  match o with
  | Some c =>
      match fold_left count_message (fl_messages f) (Some (Counter (S (c_files c)) (c_messages c) (c_fields c) (c_oneofs c) (c_enums c))) with
      | Some c => Some (Counter (c_files c) (c_messages c) (c_fields c + length (fl_exts f)) (c_oneofs c) (c_enums c + length (fl_enums f)))
      | None => None
      end
  | None => None
  end.
Definition count_all (fs : list fileproto) : option counter := fold_left count_file fs (Some (Counter 0 0 0 0 0)).

Section Build.
  Context (cap : counter).

  (** ** Messages and enums *)
  (** [s_messages], [s_enums]: the vectors messages_ and enums_; [s_mmap],
      [s_emap]: message_map_ and enum_map_; [s_oneofs]: the size of oneofs_. *)
  Record state := State { s_messages : list mdsc; s_enums : list edsc; s_mmap : list mdsc; s_emap : list edsc; s_oneofs : nat }.

  (** oneofs_.emplace_back for every declared oneof (1117-1121). *)
  Definition add_oneofs (n : nat) (s : state) : outcome state :=
    if (s_oneofs s + n <=? c_oneofs cap)%nat then Done (State (s_messages s) (s_enums s) (s_mmap s) (s_emap s) (s_oneofs s + n)) else Realloc.
  (** message_map_.try_emplace (1123-1125) *)
  Definition map_message (d : mdsc) (s : state) : outcome state :=
    let* _ := require (negb (existsb (fun x => name_eqb (md_full x) (md_full d)) (s_mmap s))) in
    Done (State (s_messages s) (s_enums s) (s_mmap s ++ [d]) (s_emap s) (s_oneofs s)).
  (** messages_.emplace_back with the name check (1127-1135, and 1087-1093) *)
  Definition add_message (d : mdsc) (s : state) : outcome state :=
    let* _ := require (negb (is_empty (mp_name (md_proto d)))) in
    let* l := emplace (c_messages cap) (s_messages s) d in
    Done (State l (s_enums s) (s_mmap s) (s_emap s) (s_oneofs s)).
  (** enums_.emplace_back and enum_map_.try_emplace (1140-1151, and 1101-1112) *)
  Definition add_enum (scope : bytes) (dot : bool) (inherited : features) (s : state) (e : eproto) : outcome state :=
    let* _ := require (negb (is_empty (ep_name e))) in
    let d := EDsc (if dot then join_by_dot scope (ep_name e) else in_scope scope (ep_name e)) e (enum_closed inherited e) in
    let* l := emplace (c_enums cap) (s_enums s) d in
    let* _ := require (negb (existsb (fun x => name_eqb (ed_full x) (ed_full d)) (s_emap s))) in
    Done (State (s_messages s) l (s_mmap s) (s_emap s ++ [d]) (s_oneofs s)).
  (** The descriptor of a nested message. *)
  Definition nested_dsc (d : mdsc) (m : mproto) : mdsc := MDsc (join_by_dot (md_full d) (mp_name m)) m (merge_features (md_feat d) (mp_feat m)).
  (** 1110-1155 build(message_descriptor_t &): depth first with an explicit
      stack (head = back()). *)
  Fixpoint build_message (fuel : nat) (pending : list mdsc) (s : state) : outcome state :=
    match fuel with
    | O => NoFuel
    | S fuel =>
        match pending with
        | [] => Done s
        | d :: rest =>
            let* s := add_oneofs (mp_oneofs (md_proto d)) s in
            let* s := map_message d s in
            let kids := map (nested_dsc d) (mp_nested (md_proto d)) in
            let* s := each (fun s k => add_message k s) s kids in
            let* s := each (add_enum (md_full d) true (md_feat d)) s (mp_enums (md_proto d)) in
            build_message fuel (kids ++ rest) s
        end
    end.
  (** 1076-1108 build(file_descriptor_t &); [feat]: the file's features. *)
  Definition build_top (package : bytes) (feat : features) (s : state) (m : mproto) : outcome state :=
    let d := MDsc (in_scope package (mp_name m)) m (merge_features feat (mp_feat m)) in
    let* s := add_message d s in build_message (S (msize m)) [d] s.
  Definition build_file (feat : features) (s : state) (f : fileproto) : outcome state :=
    let* s := each (build_top (fl_package f) feat) s (fl_messages f) in
    each (add_enum (fl_package f) false feat) s (fl_enums f).
  (** 801-817 build_files_from_fileset; [files]: files_ with their features. *)
  Definition add_file (st : list (fileproto * features) * state) (f : fileproto) : outcome (list (fileproto * features) * state) :=
    let '(files, s) := st in
    let* _ := require (negb (is_empty (fl_name f)) && negb (existsb (fun x => name_eqb (fl_name (fst x)) (fl_name f)) files)) in
    let* dflt := select_features f in
    let feat := merge_features dflt (fl_feat f) in
    let* files := emplace (c_files cap) files (f, feat) in
    let* s := build_file feat s f in
    Done (files, s).

  (** ** Dependencies (819-862) *)
  Fixpoint file_index (n : bytes) (files : list fileproto) : option nat :=
    match files with
    | [] => None
    | f :: t => if name_eqb (fl_name f) n then Some O else match file_index n t with Some k => Some (S k) | None => None end
    end.
  Fixpoint indices (files : list fileproto) (ds : list bytes) : option (list nat) :=
    match ds with
    | [] => Some []
    | d :: t => match file_index d files, indices files t with Some k, Some l => Some (k :: l) | _, _ => None end
    end.
  Fixpoint link (files todo : list fileproto) : option (list (list nat)) :=
    match todo with
    | [] => Some []
    | f :: t => match indices files (fl_deps f), link files t with Some l, Some ls => Some (l :: ls) | _, _ => None end
    end.
  Definition link_file_dependencies (files : list fileproto) : outcome unit :=
    match link files files with
    | None => Invalid
    | Some deps => match acyclic_check deps with Some b => require b | None => NoFuel end
    end.

  (** ** Fields *)
  (** 1059-1074 *)
  Definition is_valid_field_number (n : Z) : bool := (1 <=? n) && (n <=? 536870911) && ((n <? 19000) || (19999 <? n)).
  Definition has_valid_field_enums (p : fproto) : bool := (1 <=? fp_type p) && (fp_type p <=? 18) && (1 <=? fp_label p) && (fp_label p <=? 3).
  (** 1170-1187 to_default_json_name *)
  Fixpoint json_loop (up : bool) (l : bytes) : bytes :=
    match l with
    | [] => []
    | c :: t => if c =? 95 then json_loop true t
                else (if up && (97 <=? c) && (c <=? 122) then c - 32 else c) :: json_loop false t
    end.
  Definition default_json_name (n : bytes) : bytes := json_loop false n.
  (** 1188-1191 *)
  Definition custom_json (p : fproto) : bool := negb (is_empty (fp_json p)) && negb (name_eqb (fp_json p) (default_json_name (fp_name p))).

  Definition has (n : bytes) (l : list bytes) : bool := existsb (name_eqb n) l.
  (** The four sets of 1194-1201, fields_, and how many fields each oneof of the message has. *)
  Record fstate := FState { f_numbers : list Z; f_names : list bytes; f_json : list bytes; f_custom : list bytes; f_oneofs : list nat }.
  (** oneofs_[index]->fields_.push_back (1230-1239); the cast turns a negative
      index into a huge one. *)
  Definition add_to_oneof (p : fproto) (l : list nat) : outcome (list nat) :=
    match fp_oneof p with
    | None => Done l
    | Some i =>
        let* _ := require (negb (fp_label p =? LABEL_REPEATED)) in
        let index := wrapU 64 i in
        if index <? zlen l then Done (set_at (Z.to_nat index) (S (nth (Z.to_nat index) l O)) l) else Invalid
    end.
  (** 1202-1240: one field. *)
  Definition add_field (d : mdsc) (st : fstate * list fdsc) (p : fproto) : outcome (fstate * list fdsc) :=
    let '(s, fields) := st in
    let* _ := require (has_valid_field_enums p && is_valid_field_number (fp_number p)) in
    let* _ := require (negb (existsb (Z.eqb (fp_number p)) (f_numbers s))) in
    let* _ := require (negb (has (fp_name p) (f_names s))) in
    let custom := custom_json p in
    let* _ := require (negb (has (fp_name p) (f_custom s) || has (fp_json p) (f_custom s) ||
                             (custom && (has (fp_json p) (f_names s) || has (fp_json p) (f_json s))))) in
    let* fields := emplace (c_fields cap) fields (FDsc p (field_attrs (md_feat d) (mp_entry (md_proto d)) p)) in
    let* ones := add_to_oneof p (f_oneofs s) in
    Done (FState (fp_number p :: f_numbers s) (fp_name p :: f_names s) (if is_empty (fp_json p) then f_json s else fp_json p :: f_json s)
            (if custom then fp_json p :: f_custom s else f_custom s) ones, fields).
  (** 1169-1245 build_fields *)
  Definition build_fields (d : mdsc) (fields : list fdsc) : outcome (list fdsc) :=
    let* (s, fields) := each (add_field d) (FState [] [] [] [] (repeat O (mp_oneofs (md_proto d))), fields) (mp_fields (md_proto d)) in
    let* _ := require (negb (existsb (Nat.eqb 0) (f_oneofs s))) in
    Done fields.
  (** 1247-1260 build_extensions *)
  Definition add_extension (inherited : features) (fields : list fdsc) (p : fproto) : outcome (list fdsc) :=
    let* _ := require (has_valid_field_enums p && is_valid_field_number (fp_number p)) in
    emplace (c_fields cap) fields (FDsc p (field_attrs inherited false p)).
  (** 864-876 *)
  Definition build_message_fields (fields : list fdsc) (d : mdsc) : outcome (list fdsc) :=
    let* fields := build_fields d fields in each (add_extension (md_feat d)) fields (mp_exts (md_proto d)).
  (** 878-888 *)
  Definition build_file_extensions (fields : list fdsc) (f : fileproto * features) : outcome (list fdsc) :=
    each (add_extension (snd f)) fields (fl_exts (fst f)).

  (** ** Types (890-919, 1159-1167) *)
  Definition find_type (names : list bytes) (qualified : bytes) : bool :=
    match qualified with c :: n => (c =? 46) && has n names | [] => false end.
  Definition resolve_field (s : state) (f : fdsc) : outcome unit :=
    let p := fd_proto f in
    let* _ := require
      (if (fp_type p =? TYPE_MESSAGE) || (fp_type p =? TYPE_GROUP) then find_type (map md_full (s_mmap s)) (fp_type_name p)
       else if fp_type p =? TYPE_ENUM then find_type (map ed_full (s_emap s)) (fp_type_name p) else true) in
    require (is_empty (fp_extendee p) || find_type (map md_full (s_mmap s)) (fp_extendee p)).

  (** ** 761-786 init *)
  Record pool := Pool { p_files : list (fileproto * features); p_state : state; p_fields : list fdsc }.
  Definition init_with (fs : list fileproto) : outcome pool :=
    let* (files, s) := each add_file ([], State [] [] [] [] 0) fs in
    let* _ := link_file_dependencies (map fst files) in
    let* fields := each build_message_fields [] (s_mmap s) in
    let* fields := each build_file_extensions fields files in
    let* _ := each (fun _ f => resolve_field s f) tt fields in
    let* _ := require (length (s_messages s) =? c_messages cap)%nat in
    Done (Pool files s fields).
End Build.

(** The storage is reserved from the counts (788-799). *)
Definition init (fs : list fileproto) : outcome pool :=
  match count_all fs with Some cap => init_with cap fs | None => NoFuel end.

(** Lookups (624-652). *)
Definition get_message (p : pool) (n : bytes) : option mdsc := find (fun d => name_eqb (md_full d) n) (s_mmap (p_state p)).
Definition get_enum (p : pool) (n : bytes) : option edsc := find (fun d => name_eqb (ed_full d) n) (s_emap (p_state p)).
