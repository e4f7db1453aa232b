(** Any messages and extensions: the two ways of keeping an encoded message
    inside another one. *)
From Coq Require Import String Ascii.
Require Import Verif.Bits Verif.Schema Verif.Archive Verif.Decode Verif.Encode.
Local Open Scope list_scope.

(** ** google.protobuf.Any *)
(** The characters of a string literal. *)
Fixpoint chars (s : string) : bytes :=
  match s with EmptyString => [] | String a t => Z.of_nat (nat_of_ascii a) :: chars t end.

Record any := Any { type_url : bytes; any_value : bytes }.

Definition slash : Z := 47.

(** Generated next to every message, for example descriptor.msg.hpp:950: the
    literal "type.googleapis.com/" followed by the full name of the message. *)
Definition message_type_url (name : bytes) : bytes := chars "type.googleapis.com/" ++ name.

(** A [const char *] seen as a string_view: the characters before the first NUL. *)
Fixpoint c_string (l : bytes) : bytes :=
  match l with [] => [] | c :: t => if c =? 0 then [] else c :: c_string t end.

(** message_name, field_types.hpp:583-588: std::size of the literal counts its
    NUL, so the pointer moves past the 19 characters and the slash. *)
Definition message_name (name : bytes) : bytes := c_string (skipn 20 (message_type_url name)).

(** std::string_view::rfind of one character. *)
Fixpoint rfind (c : Z) (l : bytes) : option nat :=
  match l with
  | [] => None
  | x :: t => match rfind c t with Some i => Some (S i) | None => if x =? c then Some O else None end
  end.

(** Outcome of unpack_any: errc::invalid_argument, or what read_binpb returns. *)
Inductive unpacked := InvalidArgument | Unpacked (r : res val).

Section Any.
  Variable E : env.
  Variable utf8_ok : bytes -> bool.

  (** pack_any, binpb.hpp:354-365 (both overloads). *)
  Definition pack_any (maxd : Z) (name : bytes) (ty : nat) (v : val) : res any :=
    bs <- encode_bytes E utf8_ok maxd ty v ;; Ok (Any (message_type_url name) bs).

  (** unpack_any, binpb.hpp:367-384; read_binpb starts from an empty message
      (binpb.hpp:231-235). *)
  Definition unpack_any (limit : Z) (name : bytes) (ty : nat) (a : any) : unpacked :=
    match rfind slash (type_url a) with
    | Some i => if list_eq_dec Z.eq_dec (skipn (i + 1) (type_url a)) (message_name name)
                then Unpacked (decode_bytes E utf8_ok limit ty (default_msg E ty) (any_value a)) else InvalidArgument
    | None => InvalidArgument
    end.
End Any.

(** ** Extensions *)
(** The store of an extendee: numbers with bytes.  [fields.find(number)],
    [fields[number] = data] on the sorted map of the owning traits. *)
Fixpoint umap_find (num : Z) (l : list (Z * bytes)) : option bytes :=
  match l with
  | [] => None
  | (n, b) :: t => if n =? num then Some b else umap_find num t
  end.

Fixpoint umap_set (num : Z) (b : bytes) (l : list (Z * bytes)) : list (Z * bytes) :=
  match l with
  | [] => [(num, b)]
  | (n, c) :: t => if n =? num then (n, b) :: t else if num <? n then (num, b) :: l else (n, c) :: umap_set num b t
  end.

Section Ext.
  Variable E : env.
  Variable utf8_ok : bytes -> bool.

  (** extension_base::number, binpb.hpp:285-288: the number of the first (and
      only) member of the extension type [xt]. *)
  Definition ext_number (xt : nat) : Z :=
    match m_fields (desc_of E xt) with Field n _ _ :: _ => n | _ => 0 end.

  (** The loop over the pairs of a non-owning store, binpb.hpp:299-314: the first
      match empties the extension object, every match is read into it. *)
  Fixpoint get_pairs (limit : Z) (xt : nat) (found : bool) (cur : val) (l : list (Z * bytes)) : res val :=
    match l with
    | [] => Ok cur
    | (n, b) :: t =>
        if n =? ext_number xt then
          v <- decode_bytes E utf8_ok limit xt (if found then cur else default_msg E xt) b ;; get_pairs limit xt true v t
        else get_pairs limit xt found cur t
    end.

  (** get_from, binpb.hpp:290-318: [cur] is the extension object before the call. *)
  Definition ext_get (limit : Z) (k : ukind) (xt : nat) (store : list (Z * bytes)) (cur : val) : res val :=
    match k with
    | UPairs => get_pairs limit xt false cur store
    | _ => match umap_find (ext_number xt) store with
           | Some b => decode_bytes E utf8_ok limit xt (default_msg E xt) b
           | None => Ok cur
           end
    end.

  (** set_to, binpb.hpp:320-340. *)
  Definition ext_set (maxd : Z) (k : ukind) (xt : nat) (v : val) (store : list (Z * bytes)) : res (list (Z * bytes)) :=
    bs <- encode_bytes E utf8_ok maxd xt v ;;
    match bs with
    | [] => Ok store
    | _ => Ok (match k with UPairs => store ++ [(ext_number xt, bs)] | _ => umap_set (ext_number xt) bs store end)
    end.

  (** in, binpb.hpp:342-351. *)
  Definition ext_in (k : ukind) (xt : nat) (store : list (Z * bytes)) : bool :=
    existsb (fun p => fst p =? ext_number xt) store.
End Ext.
