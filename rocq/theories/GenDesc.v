(** The headers with file descriptors (.desc.hpp) made by the code generator, and making a factory from them. *)
From Coq Require Import Ascii String.
Require Import Verif.Bits Verif.Varint Verif.Schema Verif.CppText Verif.Pool Verif.GenNameCheck Verif.Dyn Verif.DynWire Verif.Factory.
Local Open Scope list_scope.
Local Open Scope nat_scope.

(** ** Names of dependencies (src/protoc-plugin/hpp_generator.cpp) *)
(** std::ranges::sort of qualified names, which are compared as strings (cpp_lexical_emitter.hpp 96).  Equal names are
    the same, so every sorting algorithm gives this list. *)
Fixpoint insert_name (n : bytes) (l : list bytes) : list bytes :=
  match l with [] => [n] | x :: t => if bytes_ltb x n then x :: insert_name n t else n :: l end.
Definition sort_names (l : list bytes) : list bytes := fold_right insert_name [] l.
(** std::ranges::unique and erase: of adjacent equal names the first stays. *)
Fixpoint unique (l : list bytes) : list bytes :=
  match l with
  | [] => []
  | x :: t => match unique t with y :: r => if name_eqb x y then y :: r else x :: y :: r | [] => [x] end
  end.

(** The member dependency_names (452) of every file. *)
Definition cache := list (list bytes).
Fixpoint put (c : cache) (i : nat) (v : list bytes) : cache :=
  match c, i with [], _ => [] | _ :: t, O => v :: t | x :: t, S k => x :: put t k v end.
Definition at_file (c : cache) (i : nat) : list bytes := nth i c [].

Section Names.
  (** The imports of the files by index (file_descriptor_t::dependencies) and their qualified_descriptor_name. *)
  Variable deps : list (list nat).
  Variable names : list bytes.

  (** 476-490 get_dependency_names.  The vector is filled in place; [None]: no fuel, which stands for endless recursion. *)
  Fixpoint get_dependency_names (fuel : nat) (c : cache) (i : nat) : option (cache * list bytes) :=
    match fuel with
    | O => None
    | S fuel =>
        if is_empty (at_file c i) then
          match (fix copy (c : cache) (ds : list nat) : option cache :=
                   match ds with
                   | [] => Some c
                   | d :: t => match get_dependency_names fuel c d with
                               | Some (c, ns) => copy (put c i (at_file c i ++ ns)) t
                               | None => None
                               end
                   end) c (nth i deps []) with
          | Some c => let l := unique (sort_names (at_file c i)) ++ [nth i names []] in Some (put c i l, l)
          | None => None
          end
        else Some (c, at_file c i)
    end.
End Names.

(** ** Headers *)
(** What a header contains: the header files it includes, given by their .proto files, the name and the bytes of the
    descriptor it defines, and the names listed by its function file_descriptor_set. *)
Record header := Header { h_file : bytes; h_includes : list bytes; h_name : bytes; h_value : bytes; h_set : list bytes }.

Section Headers.
  (** write_binpb of a file descriptor, without source_code_info, which [fileproto] does not have. *)
  Variable encode : fileproto -> bytes.
  Variable fs : list fileproto.
  (** The namespaces of the descriptors (descriptor_name.namespace_name(), C60, C87). *)
  Variable spaces : list bytes.
  Definition own_name (space : bytes) : bytes := append_segment space (txt "file_descriptor_").

  (** file_descriptor_t::messages(), descriptor_pool.hpp 561, 1080-1093: the messages that are not nested. *)
  Definition has_messages (f : fileproto) : bool := negb (is_empty (fl_messages f)).
  (** 1086-1120: the files that are checked. *)
  Definition checked_spaces : list bytes := map snd (filter (fun x => has_messages (fst x)) (combine fs spaces)).

  (** 2281-2336 process.  The text around the names is left out (C52, C59 and C60 are about it), and so are include paths
      that cannot be written, for which nothing is generated (C59). *)
  Definition process_desc (deps : list (list nat)) (c : cache) (i : nat) (f : fileproto) : option (cache * header) :=
    match get_dependency_names deps (map own_name spaces) (S (length fs)) c i with
    | Some (c, l) => Some (c, Header (fl_name f) (fl_deps f) (own_name (nth i spaces [])) (encode f) l)
    | None => None
    end.
  (** 2433-2480 generate_outputs_for_file and generate_requested_files: this header only. *)
  Fixpoint generate_files (deps : list (list nat)) (c : cache) (requested : list bytes) : option (list header) :=
    match requested with
    | [] => Some []
    | n :: t => match file_index n fs with
                | Some i => match nth_error fs i with
                            | Some f => if has_messages f then
                                          match process_desc deps c i f with
                                          | Some (c, h) => match generate_files deps c t with Some hs => Some (h :: hs) | None => None end
                                          | None => None
                                          end
                                        else generate_files deps c t
                            | None => None
                            end
                | None => None
                end
    end.
  (** 2540-2575 generate: the pool, the check of the names, the files. *)
  Definition generate_desc (requested : list bytes) : option (list header) :=
    match init fs, link fs fs with
    | Done _, Some deps => if descriptors_ok checked_spaces then generate_files deps (repeat [] (length fs)) requested else None
    | _, _ => None
    end.
End Headers.

(** ** Making a factory *)
Section Create.
  (** read_binpb of a file descriptor. *)
  Variable decode : bytes -> option fileproto.
  (** include/hpp_proto/descriptor_pool.hpp 591-606 make_file_descriptor_set *)
  Fixpoint make_file_descriptor_set (descs : list bytes) : option (list fileproto) :=
    match descs with
    | [] => Some []
    | d :: t => match decode d with Some f => match make_file_descriptor_set t with Some l => Some (f :: l) | None => None end | None => None end
    end.
  (** src/dynamic_message/factory.cpp 480-487 create_from_descs *)
  Definition create_from_descs (float_bits : bool -> bytes -> option Z) (descs : list bytes) : outcome (pool * list wtype) :=
    match make_file_descriptor_set descs with Some fs => initialize float_bits fs | None => Invalid end.
End Create.
