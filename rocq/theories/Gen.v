(** Model of the message ordering of the code generator: which dependencies between
    messages the plugin records, the order it declares them in, how it breaks cycles of
    dependencies, and what of it reaches the generated header.

    Source: /repo/src/protoc-plugin/hpp_generator.cpp, with the lines given at every
    definition.

    Simplifications:
    - A fully qualified name is the list of its components after the package; the
      components are numbers ordered as the C++ names are.  That the functions on
      dotted strings compute the same is GenNames.v.
    - Message descriptors are identified by their position in the pool.  The pool
      stores them in one vector (descriptor_pool.hpp:942, 1087, 1135), so this is also
      the order of their addresses, which the std::set and std::map of pointers use.
      The messages of one scope are added in the order of the schema, so this is also
      the order of descriptor.messages().
    - Of the generated header only the declarations of message types and the types of
      their members are modelled, for the owning traits. *)
Require Import List Arith Bool Lia.
Require Import Verif.Archive.
Import ListNotations.
Local Open Scope nat_scope.

Definition path := list nat.

(** A message descriptor: its file, its name and whether it is a map entry
    (descriptor_pool.hpp:454-520). *)
Record mdesc := mkM { m_file : nat; m_path : path; m_entry : bool }.

(** The type of a field: an enum is given by the message that declares it, [None] for
    the enums of a file or of another file. *)
Inductive ftype := TScalar | TMsg (t : nat) | TEnum (owner : option nat).

(** A field descriptor (descriptor_pool.hpp:236-330): the message that declares it
    ([None] for extensions declared in a file), whether it is an extension, its type,
    whether it is repeated, and its oneof. *)
Record fdesc := mkF { f_msg : option nat; f_ext : bool; f_type : ftype; f_rep : bool; f_oneof : option nat }.

Record pool := mkPool { msgs : list mdesc; flds : list fdesc }.

(** What the generator keeps in the descriptors: [dependencies], [forward_messages]
    (434-435) and [is_recursive] (241). *)
Record gst := mkG { deps : nat -> list nat; fwd : nat -> list nat; recs : nat -> bool }.

Definition upd {A} (f : nat -> A) k v := fun x => if x =? k then v else f x.
Definition mem (x : nat) (l : list nat) := existsb (Nat.eqb x) l.
Definition subset (a b : list nat) := forallb (fun x => mem x b) a.
Definition del (x : nat) (l : list nat) := filter (fun y => negb (y =? x)) l.
(** std::set::insert *)
Fixpoint insert (x : nat) (l : list nat) : list nat :=
  match l with
  | [] => [x]
  | y :: r => if x <? y then x :: l else if x =? y then l else y :: insert x r
  end.

Fixpoint path_eqb (a b : path) : bool :=
  match a, b with
  | [], [] => true
  | x :: a', y :: b' => (x =? y) && path_eqb a' b'
  | _, _ => false
  end.

(** get_common_ancestor (181-202) *)
Fixpoint common (a b : path) : path :=
  match a, b with
  | x :: a', y :: b' => if x =? y then x :: common a' b' else []
  | _, _ => []
  end.

Fixpoint prefixb (a b : path) : bool :=
  match a, b with
  | [], _ => true
  | x :: a', y :: b' => (x =? y) && prefixb a' b'
  | _ :: _, [] => false
  end.

Section Pool.
Variable P : pool.

Definition nmsgs := length (msgs P).
Definition nflds := length (flds P).
Definition mdef := mkM 0 [] false.
Definition fdef := mkF None true TScalar false None.
Definition mget i := nth i (msgs P) mdef.
Definition fget i := nth i (flds P) fdef.
Definition pathof i := m_path (mget i).
Definition fileof i := m_file (mget i).
Definition entry i := m_entry (mget i).
(** the last component of the name: the order of cpp_name *)
Definition name i := last (pathof i) 0.

(** get_message_descriptor of a name of a file (descriptor_pool.hpp:624-632) *)
Definition lookup (file : nat) (p : path) : option nat :=
  find (fun i => (fileof i =? file) && path_eqb (pathof i) p) (seq 0 nmsgs).

(** parent_message() *)
Definition parent i := lookup (fileof i) (removelast (pathof i)).

(** messages() of a scope of a file: of the file itself for the empty name
    (descriptor_pool.hpp:503, 561) *)
Definition messages_of (file : nat) (scope : path) : list nat :=
  filter (fun i => (fileof i =? file) && negb (path_eqb (pathof i) []) && path_eqb (removelast (pathof i)) scope) (seq 0 nmsgs).

(** fields() of a message *)
Definition fields_of m : list nat :=
  filter (fun f => negb (f_ext (fget f)) && match f_msg (fget f) with Some p => p =? m | None => false end) (seq 0 nflds).

(** fields()[1] of a map entry type, as used for the value of a map *)
Definition value_field t : option nat := nth_error (fields_of t) 1.

(** ** Recording dependencies *)

(** The part of resolve_field_dependency (773-818) for one field type: [p] is the
    message of [field_message_name], [x] the message whose name is [dependee_name],
    [en] whether the type is an enum.  Returns the new value of is_recursive and the
    dependency to record.  For messages of different files the names share at most a
    package, or the files differ at line 815: no dependency and not recursive. *)
Definition dependency (p x : nat) (en : bool) : bool * option (nat * nat) :=
  if fileof p =? fileof x then
    let ca := common (pathof p) (pathof x) in
    let n := S (length ca) in
    let dependent := firstn n (pathof p) in
    let dependee := firstn n (pathof x) in
    (negb en && (length ca =? length dependee),
     if (length dependee =? length ca) || (length dependent =? length ca) then None
     else match lookup (fileof p) dependent, lookup (fileof p) dependee with
          | Some d, Some e => Some (d, e)
          | _, _ => None
          end)
  else (false, None).

Definition record_field (st : gst) (p f x : nat) (en : bool) : gst :=
  let '(r, d) := dependency p x en in
  mkG (match d with Some (a, b) => upd (deps st) a (insert b (deps st a)) | None => deps st end)
      (fwd st) (upd (recs st) f r).

(** resolve_field_dependency (773-818) for a field [f] seen from the message [p]: map
    fields are resolved through the value field of the entry (783-790). *)
Definition resolve_simple (st : gst) (p f : nat) : gst :=
  match f_type (fget f) with
  | TMsg t => record_field st p f t false
  | TEnum (Some o) => record_field st p f o true
  | _ => st
  end.
Definition resolve_field (st : gst) (p f : nat) : gst :=
  match f_type (fget f) with
  | TMsg t => if entry t then match value_field t with Some v => resolve_simple st p v | None => st end
              else resolve_simple st p f
  | _ => resolve_simple st p f
  end.

(** resolve_message_field, resolve_enum_field (820-844) and their dispatch (1159-1172).
    A file extension has an empty [field_message_name] and records nothing. *)
Definition resolve_one (st : gst) (f : nat) : gst :=
  match f_msg (fget f) with
  | None => st
  | Some p =>
      match f_type (fget f) with
      | TMsg _ => if entry p then st else resolve_field st p f
      | TEnum _ => resolve_simple st p f
      | TScalar => st
      end
  end.

Definition gst0 := mkG (fun _ => []) (fun _ => []) (fun _ => false).

(** resolve_message_dependencies (1148-1173) *)
Definition resolve_dependencies : gst := fold_left resolve_one (seq 0 nflds) gst0.

(** ** Ordering *)

(** used_by_fields (433), filled by resolve_message_field (826-827) *)
Definition used_by d : list nat :=
  filter (fun f => match f_type (fget f) with TMsg t => t =? d | _ => false end) (seq 0 nflds).

Definition parent_is (f m : nat) : bool := match f_msg (fget f) with Some p => p =? m | None => false end.

(** The fields among [used_by d] that are looked at: the message of the field is in the
    file of [d] and satisfies [ok] (571-579, 597-604). *)
Definition users (ok : nat -> bool) d : list nat :=
  filter (fun f => match f_msg (fget f) with Some m => (fileof m =? fileof d) && ok m | None => false end) (used_by d).

(** The call of parent_file() on a null parent_message() (574, 600). *)
Definition null_user d : bool := existsb (fun f => match f_msg (fget f) with None => true | _ => false end) (used_by d).

Definition mark (fs : list nat) (st : gst) : gst :=
  mkG (deps st) (fwd st) (fun f => recs st f || mem f fs).

(** erase and insert (586-587, 627-628) *)
Definition release (m d : nat) (st : gst) : gst :=
  mkG (upd (deps st) m (del d (deps st m))) (upd (fwd st) m (insert d (fwd st m))) (recs st).

(** resolve_repeated_dependency_cycle (568-592); the std::map is searched in the order
    of the addresses. *)
Definition resolve_repeated (unres : list nat) (d : nat) (st : gst) : res (option nat * gst) :=
  if null_user d then UB
  else
    let us := users (fun m => mem m unres) d in
    let st1 := mark us st in
    match find (fun m => existsb (fun f => parent_is f m) us
                         && forallb (fun f => negb (parent_is f m) || f_rep (fget f)) us
                         && negb (entry m)) (seq 0 nmsgs) with
    | Some m => Ok (Some m, release m d st1)
    | None => Ok (None, st1)
    end.

(** resolve_map_dependency_cycle (594-633) *)
Definition resolve_map (unres : list nat) (d : nat) (st : gst) : res (option nat * gst) :=
  if null_user d then UB
  else
    let us := users (fun m => mem m unres || entry m) d in
    let st1 := mark us st in
    match find (fun m => existsb (fun f => parent_is f m) us && entry m
                         && match parent m with Some o => mem o unres | None => false end) (seq 0 nmsgs) with
    | Some m => match parent m with
                | Some o => Ok (Some o, release o d st1)
                | None => Ok (None, st1)
                end
    | None => Ok (None, st1)
    end.

Fixpoint first_of (f : nat -> gst -> res (option nat * gst)) (ds : list nat) (st : gst) : res (option nat * gst) :=
  match ds with
  | [] => Ok (None, st)
  | d :: r => '(w, st1) <- f d st ;;
              match w with Some m => Ok (Some m, st1) | None => first_of f r st1 end
  end.

(** resolve_container_dependency_cycle (635-649) *)
Definition resolve_container (unres : list nat) (st : gst) : res (option nat * gst) :=
  '(w, st1) <- first_of (resolve_repeated unres) unres st ;;
  match w with
  | Some m => Ok (Some m, st1)
  | None => first_of (resolve_map unres) unres st1
  end.

(** The message whose scope the type name of a field was resolved in: for the value of a
    map it is the message of the map (786). *)
Definition home f : option nat :=
  match f_msg (fget f) with
  | Some p => if entry p then parent p else Some p
  | None => None
  end.

(** The C++ spelling of the type of a field, if it is a single name without template
    arguments (719-751): the name of the message itself or of an enclosing message, or
    the alias of a message nested in the message of the field.  All other spellings of
    message types contain [<Traits>] or [::].  The spelling of enum types is left out:
    marking an enum field recursive has no effect on its type. *)
Definition spelled f : option nat :=
  match f_type (fget f), home f with
  | TMsg t, Some p =>
      if (fileof p =? fileof t) && negb (entry t) then
        let ca := common (pathof p) (pathof t) in
        match ca with
        | [] => None
        | _ => if length ca =? length (pathof t) then Some (name t)
               else if length ca =? length (pathof p) then
                 match skipn (length ca) (pathof t) with [n] => Some n | _ => None end
               else None
        end
      else None
  | _, _ => None
  end.

(** mark_field_recursive (556-566): the fields of the message and of the messages in it
    whose type is spelled as the name of [d]. *)
Definition mark_field_recursive (x d : nat) (st : gst) : gst :=
  mark (filter (fun f => negb (f_ext (fget f))
                         && match f_msg (fget f) with
                            | Some p => (fileof p =? fileof x) && prefixb (pathof x) (pathof p)
                            | None => false
                            end
                         && match spelled f with Some n => n =? name d | None => false end) (seq 0 nflds)) st.

(** resolve_dependency_cycle (651-655); begin() of an empty set must not be read. *)
Definition resolve_dependency_cycle (x : nat) (st : gst) : res gst :=
  match deps st x with
  | [] => UB
  | d :: _ => Ok (mark_field_recursive x d (release x d st))
  end.

(** std::ranges::sort by cpp_name (692) *)
Fixpoint by_name (x : nat) (l : list nat) : list nat :=
  match l with
  | [] => [x]
  | y :: r => if name x <? name y then x :: l else y :: by_name x r
  end.
Definition sort_names (l : list nat) : list nat := fold_right by_name [] l.

(** One pass over the unresolved messages, from the last to the first (671-681), and the
    removal of the resolved ones (683-685). *)
Definition pass (D : nat -> list nat) (resolved unres : list nat) : list nat * list nat :=
  fold_right (fun m '(r, keep) => if subset (D m) r then (r ++ [m], keep) else (r, m :: keep)) (resolved, []) unres.

(** The loop of order_messages (670-698) *)
Fixpoint order_loop (fuel : nat) (resolved unres : list nat) (st : gst) : res (list nat * gst) :=
  match fuel with
  | 0 => NoFuel
  | S k =>
      match unres with
      | [] => Ok (resolved, st)
      | _ =>
          let '(r, keep) := pass (deps st) resolved unres in
          if length keep <? length unres then order_loop k r keep st
          else
            '(w, st1) <- resolve_container unres st ;;
            match w with
            | Some m => order_loop k (resolved ++ [m]) (del m unres) st1
            | None =>
                let sorted := sort_names unres in
                st2 <- resolve_dependency_cycle (last sorted 0) st1 ;;
                order_loop k resolved sorted st2
            end
      end
  end.

Definition sum (l : list nat) := fold_right plus 0 l.

(** order_messages (657-700); the fuel is shown to suffice in GenOrder.v. *)
Definition order_messages (view : list nat) (st : gst) : res (list nat * gst) :=
  let ready := filter (fun m => match deps st m with [] => true | _ => false end) view in
  let unres := filter (fun m => match deps st m with [] => false | _ => true end) view in
  order_loop (S (2 * length unres + sum (map (fun m => length (deps st m)) unres))) ready unres st.

(** ** The generated header *)

(** What a member of a struct refers to: a message type, with whether the member holds
    it by value, or an enum declared in a message. *)
Inductive use := UMsg (t : nat) (by_value : bool) | UEnum (o : nat).

(** The declarations of a header: the forward declaration of a message, the opening of
    the namespace of the nested types of a message with its enums, and the definition of
    a message. *)
Inductive event := EFwd (t : nat) | EScope (m : nat) | EDef (m : nat) (us : list use).

(** Whether the member of a singular message field holds the message by value: not when
    it is an optional_indirect_t (field_type_wrapper, 1245-1251).  An alternative of a
    oneof is an indirect_t only if the message forward declares the message of the field
    (needs_indirect_oneof_alternative, oneof_field_type, 1292-1312); the only field of a
    oneof is always a std::optional (1376-1379). *)
Definition by_value (st : gst) (m f t : nat) : bool :=
  if f_rep (fget f) then false
  else match f_oneof (fget f) with
       | None => negb (recs st f)
       | Some k =>
           if 1 <? length (filter (fun g => match f_oneof (fget g) with Some j => j =? k | None => false end) (fields_of m))
           then negb (mem m (fwd st t))
           else true
       end.

(** field_type (1268-1290): a map holds its values in nodes. *)
Definition uses_of (st : gst) (m f : nat) : list use :=
  match f_type (fget f) with
  | TScalar | TEnum None => []
  | TEnum (Some o) => [UEnum o]
  | TMsg t =>
      if entry t then
        match value_field t with
        | Some v => match f_type (fget v) with
                    | TMsg x => [UMsg x false]
                    | TEnum (Some o) => [UEnum o]
                    | _ => []
                    end
        | None => []
        end
      else [UMsg t (by_value st m f t)]
  end.
Definition uses (st : gst) (m : nat) : list use := flat_map (uses_of st m) (fields_of m).

Section Process.
Variable process : nat -> gst -> res (list event * gst).
Fixpoint process_list (ms : list nat) (st : gst) : res (list event * gst) :=
  match ms with
  | [] => Ok ([], st)
  | m :: r => '(e, st1) <- process m st ;;
              '(es, st2) <- process_list r st1 ;;
              Ok (e ++ es, st2)
  end.
End Process.

(** process(message_descriptor_t) (1415-1478).  The namespace of the nested types is
    always opened here; for a message without enums and nested messages nothing is in
    it. *)
Fixpoint process (fuel : nat) (m : nat) (st : gst) : res (list event * gst) :=
  match fuel with
  | 0 => NoFuel
  | S k =>
      if entry m then Ok ([], st)
      else
        '(order, st1) <- order_messages (messages_of (fileof m) (pathof m)) st ;;
        '(es, st2) <- process_list (process k) order st1 ;;
        Ok (map EFwd (fwd st m) ++ EScope m :: es ++ [EDef m (uses st2 m)], st2)
  end.

(** the deepest nesting: fuel for [process] *)
Definition depth := list_max (map (fun m => length (m_path m)) (msgs P)).

(** process(file_descriptor_t) (1186-1221) on the state left by
    resolve_message_dependencies; the files processed before change only what belongs to
    their own messages *)
Definition generate_from (st : gst) (file : nat) : res (list event) :=
  '(order, st1) <- order_messages (messages_of file []) st ;;
  '(es, _) <- process_list (process (S depth)) order st1 ;;
  Ok es.

Definition generate (file : nat) : res (list event) := generate_from resolve_dependencies file.
End Pool.
