(** C103: services, from the descriptor to the stub of the client and the handlers of the server. *)
From Coq Require Import Ascii String.
From Coq Require Import ZArith List Bool.
Import ListNotations.
Require Import Verif.Bits Verif.CppText Verif.Archive Verif.GenNameCheck Verif.GenService Verif.GenServiceSpec Verif.GenService1.
Local Open Scope string_scope.
Local Open Scope list_scope.
Local Open Scope Z_scope.

(** For every file that is generated there is one namespace per service with methods, in order,
    and one struct per method, in order; names are distinct; the stub calls the path and the kind
    of RPC of the descriptor, the server registers the same, and the types are those named. *)
Theorem C103_method msgs prefix f gs : gen_file msgs prefix f = Some gs -> Forall2 (same_service msgs (sf_package f)) (filter has_methods (sf_services f)) gs.
Proof. exact (file_same msgs prefix f gs). Qed.
Print Assumptions C103_method.
(** Nothing is generated when the type of a request or a response is not known. *)
Theorem C103_unknown msgs prefix f s m : In s (sf_services f) -> In m (sv_methods s) ->
  (forall full q, In (full, q) msgs -> ~ refers (mt_in m) full) \/ (forall full q, In (full, q) msgs -> ~ refers (mt_out m) full) -> gen_file msgs prefix f = None.
Proof. exact (refused msgs prefix f s m). Qed.
Print Assumptions C103_unknown.
(** Two methods of generated services, in whatever files, have the same path only if package, service and name are the same. *)
Theorem C103_paths {H} (d d' : deployed H) m m' : built d -> built d' -> d_path d m = d_path d' m' ->
  sf_package (d_file d) = sf_package (d_file d') /\ sv_name (d_service d) = sv_name (d_service d') /\ mt_name m = mt_name m'.
Proof. exact (paths_inj d d' m m'). Qed.
Print Assumptions C103_paths.
(** In a server with any number of services, no two of one package and name, the path of a method
    leads to the function of that method and no other, with its kind, or to none if it has none. *)
Theorem C103_reached {H} (ds : list (deployed H)) : Forall built ds -> NoDup (map (fun d => (sf_package (d_file d), sv_name (d_service d))) ds) ->
  forall d i m g, In d ds -> nth_error (sv_methods (d_service d)) i = Some m -> nth_error (d_methods d) i = Some g ->
  found_by (d_path d m) (registry ds) = match d_handle d g with Some h => [(rpc_type (mt_client m) (mt_server m), h)] | None => [] end.
Proof. exact (reached ds). Qed.
Print Assumptions C103_reached.
(** Other paths lead nowhere. *)
Theorem C103_unreached {H} (ds : list (deployed H)) p : Forall built ds -> (forall d m, In d ds -> In m (sv_methods (d_service d)) -> d_path d m <> p) -> found_by p (registry ds) = [].
Proof. exact (unreached ds p). Qed.
Print Assumptions C103_unreached.

(** Two services in a.b, one of them with the name of a keyword and a method with one, and one without methods *)
Definition ex_msgs : list (bytes * bytes) := [(txt "a.b.Q", txt "::a::b::Q"); (txt "R", txt "::R")].
Definition ex_echo : service := Service (txt "Echo") [Method (txt "One") (txt ".a.b.Q") (txt ".R") false false; Method (txt "delete") (txt ".R") (txt "a.b.Q") true true; Method (txt "Up") (txt ".R") (txt ".R") true false].
Definition ex_class : service := Service (txt "class") [Method (txt "One") (txt ".R") (txt ".a.b.Q") false true].
Definition ex_file : sfile := SFile (txt "a.b") [ex_echo; Service (txt "Empty") []; ex_class].
Definition ex_gen : list gservice := match gen_file ex_msgs [] ex_file with Some gs => gs | None => [] end.
Definition ex_gs (i : nat) : list gmethod := match nth_error ex_gen i with Some x => gs_methods x | None => [] end.
Example C103_ex_gen : gen_file ex_msgs [] ex_file = Some ex_gen /\ map gs_name ex_gen = [txt "Echo"; txt "class_"] /\ map (fun g => (g_id g, g_kind g, g_ordinal g, g_response g)) (ex_gs 0) =
  [(txt "One", 0, 0%nat, txt "::R"); (txt "delete_", 3, 1%nat, txt "::a::b::Q"); (txt "Up", 1, 2%nat, txt "::R")].
Proof. split; [|split]; vm_compute; reflexivity. Qed.
Definition ex_d1 : deployed nat := Deployed _ ex_file ex_echo (ex_gs 0) (fun g => if (g_ordinal g =? 2)%nat then None else Some (g_ordinal g)).
Definition ex_d2 : deployed nat := Deployed _ ex_file ex_class (ex_gs 1) (fun g => Some 9%nat).
Example C103_ex_built : Forall built [ex_d1; ex_d2] /\ NoDup (map (fun d => (sf_package (d_file d), sv_name (d_service d))) [ex_d1; ex_d2]).
Proof.
  split.
  - apply Forall_cons; [|apply Forall_cons; [|constructor]].
    + exists ex_msgs, [], ex_gen, 0%nat, (GService (txt "Echo") (ex_gs 0)). split; [vm_compute; reflexivity|]. split; [reflexivity|]. split; [vm_compute; reflexivity|reflexivity].
    + exists ex_msgs, [], ex_gen, 1%nat, (GService (txt "class_") (ex_gs 1)). split; [vm_compute; reflexivity|]. split; [reflexivity|]. split; [vm_compute; reflexivity|reflexivity].
  - cbn. constructor; [intros [X|[]]; discriminate|]. constructor; [intros []|constructor].
Qed.
Example C103_ex_found : found_by (txt "/a.b.Echo/delete") (registry [ex_d1; ex_d2]) = [(3, 1%nat)] /\ found_by (txt "/a.b.class/One") (registry [ex_d1; ex_d2]) = [(2, 9%nat)] /\
  found_by (txt "/a.b.Echo/Up") (registry [ex_d1; ex_d2]) = [] /\ gen_file [(txt "R", txt "::R")] [] ex_file = None.
Proof. split; [|split; [|split]]; vm_compute; reflexivity. Qed.
