(** Services: model of service_generator, src/protoc-plugin/hpp_generator.cpp:2341-2429, of the
    table of methods in Stub, include/hpp_proto/grpc/client.hpp:64-102, and of CallbackService,
    include/hpp_proto/grpc/server.hpp:401-421.  Of the generated text only what varies is
    kept.  The includes are those of C59. *)
From Coq Require Import Ascii String.
From Coq Require Import ZArith List Bool.
Import ListNotations.
Require Import Verif.Bits Verif.CppText Verif.CppSpec Verif.Archive Verif.GenNameCheck.
Local Open Scope string_scope.
Local Open Scope list_scope.
Local Open Scope Z_scope.

(** MethodDescriptorProto, ServiceDescriptorProto and the file *)
Record method := Method { mt_name : bytes; mt_in : bytes; mt_out : bytes; mt_client : bool; mt_server : bool }.
Record service := Service { sv_name : bytes; sv_methods : list method }.
Record sfile := SFile { sf_package : bytes; sf_services : list service }.
(** The struct of a method: its name, the literal for method_name, client_streaming,
    server_streaming, rpc_type, ordinal, request_t, response_t *)
Record gmethod := GMethod { g_id : bytes; g_literal : bytes; g_client : bool; g_server : bool; g_kind : Z; g_ordinal : nat; g_request : bytes; g_response : bytes }.
(** The namespace of a service and the methods, which are also the list _methods *)
Record gservice := GService { gs_name : bytes; gs_methods : list gmethod }.

(** ** The generator *)
(** resolved_message_type, 2348-2358.  [msgs]: full names and C++ names; none: an error is
    recorded, and then nothing is generated. *)
Definition resolved (msgs : list (bytes * bytes)) (n : bytes) : option bytes :=
  option_map snd (find (fun x => same (fst x) (if starts [46] n then tl n else n)) msgs).
(** 2392 *)
Definition proto_service_name (package name : bytes) : bytes := match package with [] => name | _ => package ++ txt "." ++ name end.
(** 2397-2419 *)
Fixpoint gen_methods (msgs : list (bytes * bytes)) (service : bytes) (ordinal : nat) (l : list method) : option (list gmethod) :=
  match l with
  | [] => Some []
  | m :: t =>
      match resolved msgs (mt_in m), resolved msgs (mt_out m), gen_methods msgs service (S ordinal) t with
      | Some q, Some r, Some gs =>
          Some (GMethod (cpp (mt_name m)) (string_literal (txt "/" ++ service ++ txt "/" ++ mt_name m)) (mt_client m) (mt_server m)
                  ((if mt_server m then 2 else 0) + (if mt_client m then 1 else 0)) ordinal q r :: gs)
      | _, _, _ => None
      end
  end.
(** 2385-2424.  The names were validated before, 1053-1072 (service_ok). *)
Definition gen_service (msgs : list (bytes * bytes)) (package : bytes) (s : service) : option gservice :=
  if service_ok (NService (sv_name s) (map mt_name (sv_methods s))) then
    match gen_methods msgs (proto_service_name package (sv_name s)) 0 (sv_methods s) with
    | Some gs => Some (GService (cpp (sv_name s)) gs)
    | None => None
    end
  else None.
(** process, 2360-2428: the namespace is made from the package, services without methods
    are left out. *)
Definition with_methods (l : list service) : list service := filter (fun s => match sv_methods s with [] => false | _ => true end) l.
Definition gen_file (msgs : list (bytes * bytes)) (prefix : bytes) (f : sfile) : option (list gservice) :=
  match qualified_from_proto prefix (txt "." ++ sf_package f) with
  | Some _ => all_some (map (gen_service msgs (sf_package f)) (with_methods (sf_services f)))
  | None => None
  end.

(** ** The client *)
(** A literal as const char *: the bytes it denotes up to the first NUL *)
Fixpoint to_nul (l : bytes) : bytes := match l with [] => [] | c :: t => if c =? 0 then [] else c :: to_nul t end.
Definition method_name (g : gmethod) : option bytes := match read_literal (g_literal g) with Some (l, []) => Some (to_nul l) | _ => None end.
(** An element of grpc_methods_: name and type of RPC; before it is set there is no name. *)
Definition slot : Type := (option bytes * Z)%type.
Fixpoint set_slot (i : nat) (x : slot) (a : list slot) : list slot :=
  match a, i with [], _ => [] | _ :: t, O => x :: t | y :: t, S j => y :: set_slot j x t end.
(** Stub::Stub, 90-99 *)
Fixpoint set_methods (l : list gmethod) (a : list slot) : res (list slot) :=
  match l with
  | [] => Ok a
  | g :: t => if (g_ordinal g <? length a)%nat then set_methods t (set_slot (g_ordinal g) (method_name g, g_kind g) a) else UB
  end.
Definition new_stub (gs : list gmethod) : res (list slot) := set_methods gs (repeat (None, 0) (length gs)).
(** grpc_method, 83-87, with service_method_check, 31-32: does not compile for a method that
    is not the one at its place in the list. *)
Definition grpc_method (gs : list gmethod) (g : gmethod) : option (res slot) :=
  match nth_error gs (g_ordinal g) with
  | Some g' => if same (g_id g') (g_id g) then Some (a <- new_stub gs ;; match nth_error a (g_ordinal g) with Some x => Ok x | None => UB end) else None
  | None => None
  end.

(** ** The server *)
(** CallbackService, 401-421: what is registered with gRPC for the methods that the service has
    a function handle for *)
Definition register {H} (handle : gmethod -> option H) (gs : list gmethod) : list (slot * H) :=
  flat_map (fun g => match handle g with Some h => [((method_name g, g_kind g), h)] | None => [] end) gs.
