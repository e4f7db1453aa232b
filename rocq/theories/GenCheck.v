(** Checks of small descriptor pools, for the examples. *)
Require Import List Arith Bool Lia Relations.
Require Import Verif.Archive Verif.Gen Verif.GenSpec Verif.GenBase Verif.GenDeps.
Import ListNotations.
Local Open Scope nat_scope.

Section Pool.
Variable P : pool.
Notation ms := (seq 0 (nmsgs P)).
Notation fs := (seq 0 (nflds P)).

Lemma ms_all (p : nat -> bool) : forallb p ms = true -> forall i, i < nmsgs P -> p i = true.
Proof. intros H i Hi. rewrite forallb_forall in H. apply H. apply in_seq. lia. Qed.
Lemma fs_all (p : nat -> bool) : forallb p fs = true -> forall i, i < nflds P -> p i = true.
Proof. intros H i Hi. rewrite forallb_forall in H. apply H. apply in_seq. lia. Qed.

Definition wf_check : bool :=
  forallb (fun i => forallb (fun j => negb ((fileof P i =? fileof P j) && path_eqb (pathof P i) (pathof P j)) || (i =? j)) ms) ms &&
  forallb (fun i => negb (path_eqb (pathof P i) [])) ms &&
  forallb (fun i => path_eqb (removelast (pathof P i)) [] ||
     existsb (fun p => (fileof P p =? fileof P i) && path_eqb (pathof P p) (removelast (pathof P i)) && negb (entry P p)) ms) ms &&
  forallb (fun f => match f_msg (fget P f) with Some m => m <? nmsgs P | None => true end) fs &&
  forallb (fun f => match f_type (fget P f) with TMsg t => t <? nmsgs P | TEnum (Some o) => (o <? nmsgs P) && negb (entry P o) | _ => true end) fs &&
  forallb (fun t => negb (entry P t) || match value_field P t with
     | Some v => match f_type (fget P v) with TMsg x => negb (entry P x) | _ => true end | None => true end) ms.

Lemma entry_range t : entry P t = true -> t < nmsgs P.
Proof.
  unfold entry, mget. intros H. destruct (le_lt_dec (nmsgs P) t) as [L|L]; [|exact L]. unfold nmsgs in L. rewrite nth_overflow in H by exact L. discriminate.
Qed.

Lemma wf_checked : wf_check = true -> wf P.
Proof.
  unfold wf_check. intros H. apply andb_prop in H as [H H6]. apply andb_prop in H as [H H5]. apply andb_prop in H as [H H4].
  apply andb_prop in H as [H H3]. apply andb_prop in H as [H1 H2]. split.
  - intros i j Hi Hj F Q. apply ms_all with (i := i) in H1; [|exact Hi]. apply ms_all with (i := j) in H1; [|exact Hj].
    rewrite F, Nat.eqb_refl, Q, path_eqb_refl in H1. cbn in H1. apply Nat.eqb_eq. exact H1.
  - intros i Hi C. apply ms_all with (i := i) in H2; [|exact Hi]. rewrite C in H2. discriminate.
  - intros i Hi N. apply ms_all with (i := i) in H3; [|exact Hi]. apply orb_prop in H3 as [H3|H3]; [apply path_eqb_eq in H3; contradiction|].
    apply existsb_exists in H3 as [p [Hp H3]]. apply in_seq in Hp. apply andb_prop in H3 as [H3 E]. apply andb_prop in H3 as [F Q].
    exists p. split; [lia|]. split; [apply Nat.eqb_eq; exact F|]. split; [apply path_eqb_eq; exact Q | apply negb_true_iff; exact E].
  - intros f m Hf Hm. apply fs_all with (i := f) in H4; [|exact Hf]. rewrite Hm in H4. apply Nat.ltb_lt. exact H4.
  - intros f t Hf T. apply fs_all with (i := f) in H5; [|exact Hf]. rewrite T in H5. apply Nat.ltb_lt. exact H5.
  - intros f o Hf T. apply fs_all with (i := f) in H5; [|exact Hf]. rewrite T in H5. apply andb_prop in H5 as [A B].
    split; [apply Nat.ltb_lt; exact A | apply negb_true_iff; exact B].
  - intros t v x E V T. apply ms_all with (i := t) in H6; [|apply entry_range; exact E]. rewrite E, V, T in H6. apply negb_true_iff. exact H6.
Qed.

Definition ext_check : bool :=
  forallb (fun f => match f_type (fget P f), f_msg (fget P f) with TMsg _, None => false | _, _ => true end) fs.
Lemma ext_checked : ext_check = true -> no_file_extensions P.
Proof. intros H f t Hf T C. apply fs_all with (i := f) in H; [|exact Hf]. rewrite T, C in H. discriminate. Qed.

(** needs can be read off the recorded dependencies *)
Lemma ranks (W : wf P) file rank :
  forallb (fun D => forallb (fun E => rank E <? rank D) (deps (resolve_dependencies P) D)) ms = true -> ordered_needs P file.
Proof.
  intros H. exists rank. intros D E _ N. pose proof N as [_ [_ [HD _]]]. apply ms_all with (i := D) in H; [|exact HD].
  rewrite forallb_forall in H. apply Nat.ltb_lt. apply H. apply (deps0_needs P W). exact N.
Qed.

Definition named (f : nat) (en : bool) : option nat :=
  match f_type (fget P f) with
  | TMsg t => if entry P t
              then match value_field P t with
                   | Some v => match f_type (fget P v), en with TEnum (Some x), true => Some x | TMsg x, false => Some x | _, _ => None end
                   | None => None
                   end
              else if en then None else Some t
  | TEnum o => if en then o else None
  | TScalar => None
  end.
Lemma named_names f en x : names_type P f en x -> named f en = Some x.
Proof.
  unfold names_type, named. destruct (f_type (fget P f)) as [|t|o]; [intros []| |intros [-> ->]; reflexivity].
  destruct (entry P t); [|intros [-> ->]; reflexivity]. intros [v [-> T]]. destruct en; rewrite T; reflexivity.
Qed.
Definition acyclic_check (rank : nat -> nat) : bool :=
  forallb (fun f => match f_msg (fget P f) with
    | None => true
    | Some p => match named f false with Some x => rank x <? rank p | None => true end && match named f true with Some x => rank x <? rank p | None => true end
    end) fs.
Lemma acyclic_checked rank : acyclic_check rank = true -> forall p x, mentions P p x -> rank x < rank p.
Proof.
  intros H p x [f [en [Hf [Hm [Hn _]]]]]. apply fs_all with (i := f) in H; [|exact Hf]. apply named_names in Hn. rewrite Hm in H.
  apply andb_prop in H as [H1 H2]. destruct en; [rewrite Hn in H2; apply Nat.ltb_lt; exact H2 | rewrite Hn in H1; apply Nat.ltb_lt; exact H1].
Qed.
Definition subb m t := (fileof P m =? fileof P t) && prefixb (pathof P m) (pathof P t).
Lemma subb_sub m t : subb m t = true <-> sub P m t.
Proof. unfold subb, sub. rewrite andb_true_iff, Nat.eqb_eq, prefixb_prefix. reflexivity. Qed.

Definition outward_check : bool :=
  forallb (fun f => match f_msg (fget P f), named f false with Some p, Some x => negb (subb x p) || (x =? p) | _, _ => true end) fs.
Lemma outward_checked file : outward_check = true -> no_outward P file.
Proof.
  intros H p f x _ Hf Hm _ Hn [Hs N]. apply fs_all with (i := f) in H; [|exact Hf]. apply named_names in Hn. rewrite Hm, Hn in H.
  apply subb_sub in Hs. rewrite Hs in H. cbn in H. apply Nat.eqb_eq in H. contradiction.
Qed.
Definition own_check : bool :=
  forallb (fun f => match f_msg (fget P f) with
    | None => true
    | Some p =>
      match named f false with Some x => prefixb (removelast (pathof P x)) (pathof P p) || subb p x | None => true end &&
      match named f true with Some x => subb p x || subb x p | None => true end
    end) fs.
Lemma own_checked file : own_check = true -> own_types P file.
Proof.
  intros H p f en x _ Hf Hm _ Hn _. apply fs_all with (i := f) in H; [|exact Hf]. apply named_names in Hn. rewrite Hm in H.
  apply andb_prop in H as [H1 H2]. destruct en.
  - rewrite Hn in H2. apply orb_prop in H2 as [H2|H2]; apply subb_sub in H2; [left | right]; exact H2.
  - rewrite Hn in H1. apply orb_prop in H1 as [H1|H1]; [left; apply prefixb_prefix; exact H1 | right; apply subb_sub; exact H1].
Qed.

Definition manyb m d : bool :=
  existsb (fun f => match f_msg (fget P f), f_type (fget P f) with
    | Some p, TMsg t => (t =? d) && ((p =? m) && f_rep (fget P f) || entry P p && match parent P p with Some o => o =? m | None => false end)
    | _, _ => false end) fs.
Lemma manyb_many m d : holds_many P m d -> manyb m d = true.
Proof.
  intros [[f [Hf [Hm [T R]]]]|[e [f [Hf [He [Ee [Pe [Hm T]]]]]]]]; apply existsb_exists; exists f; (split; [apply in_seq; lia|]); rewrite Hm, T, Nat.eqb_refl.
  - rewrite Nat.eqb_refl, R. reflexivity.
  - rewrite Ee, Pe, Nat.eqb_refl. cbn. apply orb_true_r.
Qed.
Definition lone_check : bool :=
  forallb (fun m => forallb (fun e => forallb (fun d => negb (manyb m d) || (e =? d) || negb (path_eqb (removelast (pathof P m)) (removelast (pathof P d)))) ms)
    (deps (resolve_dependencies P) m)) ms.
Lemma lone_checked (W : wf P) file : lone_check = true -> lone_containers P file.
Proof.
  intros H m d e _ Hs Hh N. pose proof N as [_ [_ [Hm _]]]. apply ms_all with (i := m) in H; [|exact Hm].
  rewrite forallb_forall in H. specialize (H e (proj2 (deps0_needs P W m e) N)).
  assert (Hd : d < nmsgs P).
  { destruct Hh as [[f [Hf [_ [T _]]]]|[e' [f [Hf [_ [_ [_ [_ T]]]]]]]]; exact (wf_type P W f d Hf T). }
  apply ms_all with (i := d) in H; [|exact Hd]. rewrite (manyb_many m d Hh) in H. destruct Hs as [_ [_ [_ R]]]. rewrite R, path_eqb_refl in H.
  cbn in H. rewrite orb_false_r in H. apply Nat.eqb_eq. exact H.
Qed.

(** messages without singular message fields are on no cycle *)
Definition leafb m : bool := forallb (fun f => match f_msg (fget P f), f_type (fget P f) with Some p, TMsg _ => negb (p =? m) || f_rep (fget P f) | _, _ => true end) fs.
Lemma leaf_reaches t m : leafb t = true -> clos_refl_trans nat (holds_one P) t m -> t = m.
Proof.
  intros H R. apply clos_rt_rt1n in R. destruct R as [|y z Hs _]; [reflexivity|]. exfalso. destruct Hs as [f [Hf [_ [Hm [T Hr]]]]].
  apply fs_all with (i := f) in H; [|exact Hf]. rewrite Hm, T, Nat.eqb_refl, Hr in H. discriminate.
Qed.
Definition cycles_check : bool :=
  forallb (fun f => match f_msg (fget P f), f_type (fget P f) with
    | Some m, TMsg t => f_rep (fget P f) || entry P m || leafb t && negb (t =? m) ||
       match f_oneof (fget P f) with
       | None => path_eqb (removelast (pathof P m)) (removelast (pathof P t)) && (fileof P m =? fileof P t) || subb t m || subb m t
       | Some _ => false
       end
    | _, _ => true end) fs.
Lemma cycles_checked (W : wf P) file : cycles_check = true -> plain_cycles P file.
Proof.
  intros H m t f _ Em Hf _ Hm T Hr R. apply fs_all with (i := f) in H; [|exact Hf]. rewrite Hm, T, Hr, Em in H. cbn [orb] in H.
  apply orb_prop in H as [H|H].
  - apply andb_prop in H as [L N]. apply leaf_reaches in R; [|exact L]. rewrite R, Nat.eqb_refl in N. discriminate.
  - destruct (f_oneof (fget P f)); [discriminate|]. split; [reflexivity|]. apply orb_prop in H as [H|H]; [apply orb_prop in H as [H|H]|].
    + apply andb_prop in H as [A B]. left. split; [apply Nat.eqb_eq; exact B|]. split; [apply (wf_named P W); exact (wf_field P W f m Hf Hm)|].
      split; [apply (wf_named P W); exact (wf_type P W f t Hf T) | apply path_eqb_eq; exact A].
    + right. left. apply subb_sub. exact H.
    + right. right. apply subb_sub. exact H.
Qed.
End Pool.
