(** What gRPC and the users of a generated service rely on. *)
From Coq Require Import Ascii String.
From Coq Require Import ZArith List Bool.
Import ListNotations.
Require Import Verif.Bits Verif.CppText Verif.Archive Verif.GenNameCheck Verif.GenService.
Local Open Scope string_scope.
Local Open Scope list_scope.
Local Open Scope Z_scope.

(** grpc::internal::RpcMethod::RpcType: NORMAL_RPC, CLIENT_STREAMING, SERVER_STREAMING, BIDI_STREAMING *)
Definition rpc_type (client server : bool) : Z :=
  match client, server with false, false => 0 | true, false => 1 | false, true => 2 | true, true => 3 end.
(** The name of a service with its package *)
Definition full_name (package name : bytes) : bytes := if same package [] then name else package ++ [46] ++ name.
(** The path of a method on the wire *)
Definition path_of (package : bytes) (s : service) (m : method) : bytes := [47] ++ full_name package (sv_name s) ++ [47] ++ mt_name m.
(** The full name of a message, which a type in a descriptor has with a dot before it *)
Definition refers (n full : bytes) : Prop := n = 46 :: full \/ (n = full /\ forall t, n <> 46 :: t).
(** What a generated method has to be, and what a generated service has to be *)
Record same_method (msgs : list (bytes * bytes)) (package : bytes) (s : service) (gs : list gmethod) (m : method) (g : gmethod) : Prop := SameMethod {
  sm_called : grpc_method gs g = Some (Ok (Some (path_of package s m), rpc_type (mt_client m) (mt_server m)));
  sm_registered : (method_name g, g_kind g) = (Some (path_of package s m), rpc_type (mt_client m) (mt_server m));
  sm_streams : g_client g = mt_client m /\ g_server g = mt_server m;
  sm_request : exists full, In (full, g_request g) msgs /\ refers (mt_in m) full;
  sm_response : exists full, In (full, g_response g) msgs /\ refers (mt_out m) full }.
Definition same_service (msgs : list (bytes * bytes)) (package : bytes) (s : service) (x : gservice) : Prop :=
  Forall2 (same_method msgs package s (gs_methods x)) (sv_methods s) (gs_methods x) /\ NoDup (map g_id (gs_methods x)).
Definition has_methods (s : service) : bool := negb (length (sv_methods s) =? 0)%nat.
(** gRPC finds the handler by the path. *)
Definition found_by {H} (path : bytes) (r : list (slot * H)) : list (Z * H) :=
  map (fun x => (snd (fst x), snd x)) (filter (fun x => match fst (fst x) with Some p => same p path | None => false end) r).
(** A service in a server: its file, its descriptor, its generated methods, its functions *)
Record deployed {H} := Deployed { d_file : sfile; d_service : service; d_methods : list gmethod; d_handle : gmethod -> option H }.
Arguments deployed H : clear implicits.
Definition built {H} (d : deployed H) : Prop :=
  exists msgs prefix gs i x, gen_file msgs prefix (d_file d) = Some gs /\ nth_error (filter has_methods (sf_services (d_file d))) i = Some (d_service d) /\ nth_error gs i = Some x /\ d_methods d = gs_methods x.
Definition registry {H} (ds : list (deployed H)) : list (slot * H) := flat_map (fun d => register (d_handle d) (d_methods d)) ds.
Definition d_path {H} (d : deployed H) (m : method) : bytes := path_of (sf_package (d_file d)) (d_service d) m.
