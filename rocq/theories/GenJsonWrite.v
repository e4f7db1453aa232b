(** Writing JSON of generated messages is defined, and which members are written. *)
From Coq Require Import Sorted.
Require Import Verif.Bits Verif.Varint Verif.Base64 Verif.Base64Proofs Verif.TextNum Verif.Timestamp Verif.Duration Verif.FieldMask Verif.FieldMaskProofs.
Require Import Verif.Schema Verif.Archive Verif.Decode Verif.Encode Verif.WellTyped Verif.DynView Verif.DynJson Verif.DynJsonSpec Verif.DynJson1 Verif.GenJson Verif.GenJsonSpec Verif.GenJson1 Verif.GenJson2.

(** ** Specification *)
(** How deep messages are nested in a value. *)
Fixpoint height (v : val) : nat :=
  match v with
  | VMsg fs _ => S (list_max (map (fun vs => list_max (map height vs)) fs))
  | VAlt _ x => height x
  | _ => O
  end.
(** The names of the members that are written: of fields with presence those that
    are set, of others those that the binary serializer writes, or all of them. *)
Definition printed (always : bool) (f : field) (vs : list val) : bool :=
  match f with
  | Field _ _ COpt | Oneof _ => negb (omit f vs)
  | _ => always || negb (omit f vs)
  end.
Definition written_name (preserve : bool) (b : gmember) (vs : list val) : list bytes :=
  match b, vs with
  | GField jf _, _ => [primary preserve jf]
  | GOneof jfs, VAlt i _ :: _ => match nth_error jfs i with Some jf => [primary preserve jf] | None => [] end
  | _, _ => []
  end.
Fixpoint written (preserve always : bool) (bs : list gmember) (fds : list field) (fs : list (list val)) : list bytes :=
  match bs, fds, fs with
  | b :: bs', f :: fds', vs :: fs' => (if printed always f vs then written_name preserve b vs else []) ++ written preserve always bs' fds' fs'
  | _, _, _ => []
  end.

(** ** Proofs *)
Definition gsettled {T} (r : res T) : Prop := match r with Ok _ => True | Err e => e = BadMessage | _ => False end.
Lemma gsettled_bind {A B} (r : res A) (k : A -> res B) : gsettled r -> (forall x, r = Ok x -> gsettled (k x)) -> gsettled (bind r k).
Proof. intros H K. destruct r; try exact H. apply K. reflexivity. Qed.
Lemma height_in (fs : list (list val)) u vs v : In vs fs -> In v vs -> (height v < height (VMsg fs u))%nat.
Proof.
  intros H1 H2. cbn [height]. apply Nat.lt_succ_r. assert (A : (height v <= list_max (map height vs))%nat) by (apply (proj1 (Forall_forall _ _) (proj1 (list_max_le _ _) (le_n _))); apply in_map; exact H2).
  assert (B : (list_max (map height vs) <= list_max (map (fun vs => list_max (map height vs)) fs))%nat) by (apply (proj1 (Forall_forall _ _) (proj1 (list_max_le _ _) (le_n _))); apply (in_map (fun vs => list_max (map height vs))); exact H1). lia.
Qed.

Section Write.
  Context (E : env) (G : list gtype) (utf8_ok : bytes -> bool) (le : bool).
  Context (fshow : bool -> Z -> bytes) (preserve always : bool).
  Hypothesis HG : gtypes_ok E G.
  Notation wt := (wt E utf8_ok).

  Lemma gsettled_scalar q jf e v : scalar e = true -> fits e v -> gsettled (gwrite_scalar le fshow q jf e v).
  Proof.
    intros Hs Hf. destruct e as [t| |b fl|c|u vw|ty d]; destruct v as [z|b'| |]; try discriminate Hs; try contradiction; cbn [gwrite_scalar]; try exact I.
    - destruct (j_null jf); [exact I|]. destruct (name_of (j_values jf) z); exact I.
    - destruct (j_string jf); [exact I|]. rewrite b64_encode_spec by exact Hf. exact I.
  Qed.

  Section Rec.
    Variable n : nat.
    Variable rec : nat -> val -> res (list tok).
    Hypothesis R : forall ty v, wt_msg E utf8_ok ty v -> (height v < n)%nat -> gsettled (rec ty v).
    Lemma gsettled_elem q jf e v : (scalar e = true -> fits e v) -> (scalar e = false -> wt e v) -> (height v < n)%nat -> gsettled (gwrite_elem le fshow rec q jf e v).
    Proof. intros Hf Hw Hh. destruct e as [t| |b fl|c|u vw|ty d]; try (apply gsettled_scalar; [reflexivity|apply Hf; reflexivity]). cbn [gwrite_elem]. apply R; [|exact Hh]. apply (wt_delim E utf8_ok ty d). apply Hw. reflexivity. Qed.
    Lemma gsettled_elems q jf e vs : elems E utf8_ok e vs -> Forall (fun v => (height v < n)%nat) vs -> gsettled (gwrite_elems le fshow rec q jf e vs).
    Proof.
      induction vs as [|v vs IH]; intros Hw Hh; cbn [gwrite_elems]; [exact I|]. inversion Hw as [|? ? ? Wv Wvs]; subst. inversion Hh; subst.
      apply gsettled_bind; [apply gsettled_elem; [intros S; apply (wt_fits E utf8_ok); assumption|intros _; exact Wv|assumption]|]. intros x _. apply gsettled_bind; [apply IH; assumption|]. intros; exact I.
    Qed.
    Lemma gsettled_array jf e vs : elems E utf8_ok e vs -> Forall (fun v => (height v < n)%nat) vs -> gsettled (gwrite_array le fshow rec jf e vs).
    Proof. intros Hw Hh. unfold gwrite_array. apply gsettled_bind; [apply gsettled_elems; assumption|]. intros; exact I. Qed.
    Lemma gsettled_entries te n1 n2 ek ev dk dv kj ks vj vs0 vs :
      m_fields (desc_of E te) = [Field n1 ek (CPlain true dk); Field n2 ev (CPlain true dv)] -> g_members (gty G te) = [GField kj ks; GField vj vs0] -> key_kind kj ek = true ->
      elems E utf8_ok (EMsg te false) vs -> Forall (fun v => (height v <= n)%nat) vs -> gsettled (gwrite_entries E G le fshow rec te vs).
    Proof.
      intros Hfs Hbs Hk. induction vs as [|v vs IH]; intros Hw Hh; cbn [gwrite_entries]; [exact I|]. inversion Hw as [|? ? ? Wv Wvs]; subst. inversion Hh as [|? ? Hv Hvs]; subst.
      apply gsettled_bind; [|intros x _; apply gsettled_bind; [apply IH; assumption|intros; exact I]].
      unfold gwrite_entry. rewrite (entry_is E G te n1 n2 ek ev dk dv kj ks vj vs0 Hfs Hbs).
      inversion Wv as [| | | | |ty' d' fs u Hc _ _]; subst. rewrite Hfs in Hc. inversion Hc as [|f1 fd1 c1 fs1 C1 Hc1]; subst. inversion Hc1 as [|f2 fd2 c2 fs2 C2 Hc2]; subst. inversion Hc2; subst.
      inversion C1 as [? ? ? ? k Wk| | | | | |]; subst. inversion C2 as [? ? ? ? y Wy| | | | | |]; subst. rewrite loosen_true in Wk, Wy.
      apply gsettled_bind; [apply gsettled_scalar; [apply (key_scalar _ _ Hk)|apply (wt_fits E utf8_ok); [apply (key_scalar _ _ Hk)|exact Wk]]|]. intros a _. apply gsettled_bind; [|intros; exact I].
      apply gsettled_elem; [intros S; apply (wt_fits E utf8_ok); assumption|intros _; exact Wy|]. pose proof (height_in [[k]; [y]] u [y] y ltac:(right; left; reflexivity) ltac:(left; reflexivity)). lia.
    Qed.
    Lemma filter_elems {e} (p : val -> bool) vs : elems E utf8_ok e vs -> elems E utf8_ok e (filter p vs).
    Proof. induction 1; cbn; [constructor|]. destruct (p v); [constructor; assumption|assumption]. Qed.
    Lemma gsettled_map b num te a vs : member_ok E G b (Field num (EMsg te false) (CMap a)) -> elems E utf8_ok (EMsg te false) vs -> Forall (fun v => (height v <= n)%nat) vs -> gsettled (gwrite_map E G le fshow rec te vs).
    Proof.
      intros Mb Hw Hh. destruct b as [jf std|]; [|contradiction]. destruct Mb as [_ (te' & m6 & m7 & ek' & ev' & dk & dv & kj' & ks & vj' & vs0 & Et & Hte & Hbe & Hke)]. injection Et as <-.
      unfold gwrite_map. apply gsettled_bind; [eapply gsettled_entries; eauto|intros; exact I].
    Qed.
    Lemma gsettled_member b f vs : member_ok E G b f -> cell E utf8_ok f vs -> Forall (fun v => (height v < n)%nat) vs -> gsettled (gwrite_member E G le fshow preserve always rec b f vs).
    Proof.
      intros Mb Hc Hh. destruct b as [jf std|jfs], f as [num e c|alts]; try contradiction.
      - pose proof Mb as [_ Hm]. destruct c as [ex d| |pk|assoc].
        + inversion Hc as [? ? ? ? v Wv| | | | | |]; subst. inversion Hh; subst. cbn [gwrite_member]. destruct (ex || always || negb (is_default e d v)); [|exact I]. apply gsettled_bind; [|intros; exact I].
          apply gsettled_elem; [intros S; eapply wt_loose; eauto|intros S; destruct e as [| | |[?|]| |]; try discriminate S; destruct ex; exact Wv|assumption].
        + inversion Hc as [| |? ? v Wv| | | |]; subst; [exact I|]. inversion Hh; subst. cbn [gwrite_member]. apply gsettled_bind; [|intros; exact I]. apply gsettled_elem; [intros S; apply (wt_fits E utf8_ok); assumption|intros _; exact Wv|assumption].
        + inversion Hc as [| | |? ? ? ? Wv| | |]; subst. assert (A : gsettled (x <- gwrite_array le fshow rec jf e vs ;; Ok [(primary preserve jf, x)])) by (apply gsettled_bind; [apply gsettled_array; assumption|intros; exact I]).
          cbn [gwrite_member]. destruct vs; [destruct always; [exact A|exact I]|exact A].
        + destruct Hm as (te & m1 & m2 & ek & ev & dk & dv & kj & ks & vj & vs0 & -> & Hfs & Hbs & Hk). inversion Hc as [| | | |? ? ? ? Wv Sv| |]; subst.
          assert (A : gsettled (x <- gwrite_map E G le fshow rec te vs ;; Ok [(primary preserve jf, x)])) by (apply gsettled_bind; [eapply gsettled_map; [exact Mb|exact Wv|]; eapply Forall_impl; [|exact Hh]; cbn; lia|intros; exact I]).
          cbn [gwrite_member]. destruct vs; [destruct always; [exact A|exact I]|exact A].
      - destruct Mb as [Hl _]. inversion Hc as [| | | | | |? k num e v Ha Wv]; subst; [exact I|]. inversion Hh as [|? ? Hv _]; subst. cbn [gwrite_member]. rewrite Ha. cbn [height] in Hv.
        destruct (nth_error jfs k) as [jf|] eqn:Hj; [|apply nth_error_None in Hj; assert (k < length alts)%nat by (apply nth_error_Some; congruence); lia].
        apply gsettled_bind; [|intros; exact I]. apply gsettled_elem; [intros S; apply (wt_fits E utf8_ok); assumption|intros _; exact Wv|assumption].
    Qed.
    Lemma gsettled_members bs : forall fds fs, Forall2 (member_ok E G) bs fds -> cells E utf8_ok fds fs -> Forall (Forall (fun v => (height v < n)%nat)) fs -> gsettled (gwrite_members E G le fshow preserve always rec bs fds fs).
    Proof.
      induction bs as [|b bs IH]; intros fds fs Hm Hc Hh; inversion Hm as [|? f ? fds' M1 M2]; subst; inversion Hc as [|? ? vs fs' C1 C2]; subst; [exact I|]. inversion Hh; subst. cbn [gwrite_members].
      apply gsettled_bind; [apply gsettled_member; assumption|]. intros x _. apply gsettled_bind; [apply IH; assumption|]. intros; exact I.
    Qed.
    Lemma cells_low fs u : (height (VMsg fs u) <= n)%nat -> Forall (Forall (fun v => (height v < n)%nat)) fs.
    Proof. intros H. apply Forall_forall. intros vs Hvs. apply Forall_forall. intros v Hv. pose proof (height_in fs u vs v Hvs Hv). lia. Qed.

    Lemma gsettled_body ty v : wt_msg E utf8_ok ty v -> (height v <= n)%nat -> gsettled (gwrite_body E G le fshow preserve always rec ty v).
    Proof.
      intros Hw Hh. inversion Hw as [| | | | |? ? fs u Hc _ _]; subst. pose proof (cells_low fs u Hh) as Hl. unfold gwrite_body. destruct (HG ty) as (F & _ & Ko). unfold gknown_ok in Ko. destruct (gknown G ty) eqn:K.
      - apply gsettled_bind; [apply gsettled_members; assumption|intros; exact I].
      - reflexivity.
      - destruct Ko as (n1 & n2 & Hf). rewrite Hf in Hc. inversion Hc as [|? ? c1 ? C1 Hc1]; subst. inversion Hc1 as [|? ? c2 ? C2 Hc2]; subst. inversion Hc2; subst. inversion C1 as [? ? ? ? s Ws| | | | | |]; subst. inversion C2 as [? ? ? ? k Wk| | | | | |]; subst.
        cbn [loosen] in Ws, Wk. inversion Ws; subst. inversion Wk; subst. destruct (timestamp_encode z z0); [exact I|reflexivity].
      - destruct Ko as (n1 & n2 & Hf). rewrite Hf in Hc. inversion Hc as [|? ? c1 ? C1 Hc1]; subst. inversion Hc1 as [|? ? c2 ? C2 Hc2]; subst. inversion Hc2; subst. inversion C1 as [? ? ? ? s Ws| | | | | |]; subst. inversion C2 as [? ? ? ? k Wk| | | | | |]; subst.
        cbn [loosen] in Ws, Wk. inversion Ws; subst. inversion Wk; subst. destruct (duration_encode z z0); [exact I|reflexivity].
      - destruct Ko as (n1 & uu & vv & p & Hf). rewrite Hf in Hc. inversion Hc as [|? ? c1 ? C1 Hc1]; subst. inversion Hc1; subst. destruct (json_unescape _); [exact I|reflexivity].
      - destruct Ko as (alts & jn & jd & js & jb & jt & jl & c & u' & v' & st & sl & d1 & d2 & Hf & Ha & Hb & Hn & Hs & Kt & Kl). unfold gwrite_value. rewrite Hf in Hc |- *. rewrite Hb. inversion Hc as [|? ? vs ? C1 C2]; subst. inversion C2; subst.
        inversion C1 as [| | | | | |? i num e x Hi Wx]; subst; [exact I|]. destruct alts as [|[m0 e0] [|[m1 e1] [|[m2 e2] [|[m3 e3] [|[m4 e4] [|[m5 e5] [|? ?]]]]]]]; try discriminate Ha. cbn [map snd] in Ha. injection Ha as -> -> -> -> -> ->.
        inversion Hl as [|? ? Hl1 _]; subst. inversion Hl1 as [|? ? Hx _]; subst. cbn [height] in Hx.
        destruct i as [|[|[|[|[|[|i]]]]]]; cbn [nth_error] in Hi |- *; try (destruct i; discriminate Hi); injection Hi as <- <-; try (apply gsettled_scalar; [reflexivity|apply (wt_fits E utf8_ok); [reflexivity|exact Wx]]).
        + inversion Wx as [| | | | |? ? xs ux Cx _ _]; subst. destruct (HG st) as (Fs & _ & Ks). unfold gknown_ok in Ks. rewrite Kt in Ks. destruct Ks as (q1 & te & a & kj & ek & vj & tv & d & Hfs & He & Kv). rewrite Hfs in Cx, Fs |- *.
          inversion Cx as [|? ? es ? D1 D2]; subst. inversion D2; subst. inversion D1 as [| | | |? ? ? ? We Se| |]; subst. inversion Fs as [|b ? bs ? Mb Mbs E1]; subst. eapply gsettled_map; [exact Mb|exact We|].
          apply Forall_forall. intros v Hv. pose proof (height_in [es] ux es v ltac:(left; reflexivity) Hv). lia.
        + inversion Wx as [| | | | |? ? xs ux Cx _ _]; subst. destruct (HG sl) as (Fs & _ & Ks). unfold gknown_ok in Ks. rewrite Kl in Ks. destruct Ks as (q1 & tv & d & p & Hfs & Kv). rewrite Hfs in Cx, Fs |- *.
          inversion Cx as [|? ? es ? D1 D2]; subst. inversion D2; subst. inversion D1 as [| | |? ? ? ? We| | |]; subst. inversion Fs as [|b ? bs ? Mb Mbs E1]; subst. inversion Mbs; subst. destruct b as [jf std|]; [|contradiction Mb]. apply gsettled_array; [exact We|].
          apply Forall_forall. intros v Hv. pose proof (height_in [es] ux es v ltac:(left; reflexivity) Hv). lia.
      - destruct Ko as (q1 & te & a & kj & ek & vj & tv & d & Hfs & He & Kv). rewrite Hfs in Hc, F |- *. inversion Hc as [|? ? es ? D1 D2]; subst. inversion D2; subst. inversion D1 as [| | | |? ? ? ? We Se| |]; subst. inversion F as [|b ? bs ? Mb Mbs E1]; subst.
        eapply gsettled_map; [exact Mb|apply filter_elems; exact We|]. inversion Hl as [|? ? Hl1 _]; subst. apply Forall_forall. intros v Hv. apply filter_In in Hv. rewrite Forall_forall in Hl1. apply Nat.lt_le_incl, Hl1. tauto.
      - destruct Ko as (q1 & tv & d & p & Hfs & Kv). rewrite Hfs in Hc, F |- *. inversion Hc as [|? ? es ? D1 D2]; subst. inversion D2; subst. inversion D1 as [| | |? ? ? ? We| | |]; subst. inversion F as [|b ? bs ? Mb Mbs E1]; subst. inversion Mbs; subst. destruct b as [jf std|]; [|contradiction Mb].
        inversion Hl; subst. apply gsettled_array; assumption.
      - destruct Ko as (q1 & e & d & Hf & Se). rewrite Hf in Hc, F |- *. inversion F as [|b ? bs ? Mb Mbs E1]; subst. inversion Mbs; subst. destruct b as [jf std|]; [|contradiction Mb]. destruct Mb as [_ Sc]. inversion Hc as [|? ? es ? D1 D2]; subst. inversion D2; subst. inversion D1 as [? ? ? ? x Wx| | | | | |]; subst.
        apply gsettled_scalar; [exact Sc|]. eapply wt_loose; eauto.
    Qed.
  End Rec.
  Theorem gwrite_settled n : forall ty v, wt_msg E utf8_ok ty v -> (height v < n)%nat -> gsettled (gwrite E G le fshow preserve always n ty v).
  Proof. induction n as [|n IH]; intros ty v Hw Hh; [lia|]. cbn [gwrite]. apply (gsettled_body n); [exact IH|exact Hw|lia]. Qed.

  (** ** Names *)
  Lemma member_written rec b f vs ms : member_ok E G b f -> cell E utf8_ok f vs -> gwrite_member E G le fshow preserve always rec b f vs = Ok ms -> map fst ms = if printed always f vs then written_name preserve b vs else [].
  Proof.
    intros Mb Hc H. destruct b as [jf std|jfs], f as [num e c|alts]; try contradiction.
    - destruct Mb as [_ Hm]. destruct c as [ex d| |pk|assoc].
      + inversion Hc as [? ? ? ? v Wv| | | | | |]; subst. cbn [gwrite_member] in H. cbn [printed omit]. destruct ex; cbn [orb] in H; [|destruct (always || negb (is_default e d v))].
        * apply bind_ok in H. destruct H as (x & _ & H). apply res_ok_inj in H. subst ms. cbn [negb]. rewrite orb_true_r. reflexivity.
        * apply bind_ok in H. destruct H as (x & _ & H). apply res_ok_inj in H. subst ms. reflexivity.
        * apply res_ok_inj in H. subst ms. reflexivity.
      + inversion Hc as [| |? ? v Wv| | | |]; subst; cbn [gwrite_member] in H; [apply res_ok_inj in H; subst ms; reflexivity|]. apply bind_ok in H. destruct H as (x & _ & H). apply res_ok_inj in H. subst ms. reflexivity.
      + cbn [gwrite_member] in H. destruct vs; [destruct always|]; cbn in H |- *; try (apply bind_ok in H; destruct H as (x & _ & H)); apply res_ok_inj in H; subst ms; try rewrite orb_true_r; reflexivity.
      + destruct Hm as (te & m1 & m2 & ek & ev & dk & dv & kj & ks & vj & vs0 & -> & _). cbn [gwrite_member] in H. destruct vs; [destruct always|]; cbn [printed omit negb orb written_name] in *; try (apply bind_ok in H; destruct H as (x & _ & H)); apply res_ok_inj in H; subst ms; try rewrite orb_true_r; reflexivity.
    - inversion Hc as [| | | | | |? k num e v Ha Wv]; subst; cbn [gwrite_member] in H; [apply res_ok_inj in H; subst ms; reflexivity|]. destruct (nth_error jfs k) as [jf|] eqn:Hj; [|discriminate H]. rewrite Ha in H. apply bind_ok in H. destruct H as (x & _ & H). apply res_ok_inj in H. subst ms.
      cbn [printed omit negb written_name]. rewrite Hj. reflexivity.
  Qed.
  Lemma members_written rec bs : forall fds fs ms, Forall2 (member_ok E G) bs fds -> cells E utf8_ok fds fs -> gwrite_members E G le fshow preserve always rec bs fds fs = Ok ms -> map fst ms = written preserve always bs fds fs.
  Proof.
    induction bs as [|b bs IH]; intros fds fs ms Hm Hc H; inversion Hm as [|? f ? fds' M1 M2]; subst; inversion Hc as [|? ? vs fs' C1 C2]; subst; [apply res_ok_inj in H; subst; reflexivity|]. cbn [gwrite_members written] in *.
    apply bind_ok in H. destruct H as (x & Hx & H). apply bind_ok in H. destruct H as (y & Hy & H). apply res_ok_inj in H. subst ms. rewrite map_app, (member_written _ _ _ _ _ M1 C1 Hx), (IH _ _ _ M2 C2 Hy). reflexivity.
  Qed.
End Write.

Lemma primary_label preserve jf : In (primary preserve jf) (labels jf).
Proof.
  unfold primary, labels. destruct (eqb_bytes (j_json jf) (j_name jf)) eqn:Q; [apply eqb_bytes_eq in Q|]; destruct preserve; cbn [In]; auto.
Qed.
Lemma written_sub preserve always bs : forall fds fs k, In k (written preserve always bs fds fs) -> In k (flat_map labels (flat_map fields_of bs)).
Proof.
  induction bs as [|b bs IH]; intros fds fs k H; [contradiction|]. destruct fds as [|f fds], fs as [|vs fs]; try contradiction. cbn [written] in H. cbn [flat_map]. rewrite flat_map_app.
  apply in_or_app. apply in_app_or in H. destruct H as [H|H]; [left|right; exact (IH _ _ _ H)].
  destruct (printed always f vs); [|contradiction]. destruct b as [jf std|jfs]; cbn [written_name fields_of flat_map] in *.
  - destruct H as [<-|[]]. rewrite app_nil_r. apply primary_label.
  - destruct vs as [|[| | |i x] vs]; try contradiction. destruct (nth_error jfs i) as [jf|] eqn:Q; [|contradiction]. destruct H as [<-|[]]. apply in_flat_map. exists jf. split; [apply (nth_error_In _ _ Q)|apply primary_label].
Qed.
Lemma nodup_app_parts {A} (a b : list A) : NoDup (a ++ b) -> NoDup a /\ NoDup b /\ forall x, In x a -> ~ In x b.
Proof.
  induction a as [|x a IH]; cbn [app]; intros H; [repeat split; [constructor|exact H|intros ? []]|]. inversion H as [|? ? N1 N2]; subst. destruct (IH N2) as (I1 & I2 & I3). split; [|split; [exact I2|]].
  - constructor; [|exact I1]. intros K. apply N1, in_or_app. auto.
  - intros y [<-|K] L; [apply N1, in_or_app; auto|exact (I3 y K L)].
Qed.
Lemma written_nodup preserve always bs : NoDup (flat_map labels (flat_map fields_of bs)) -> forall fds fs, NoDup (written preserve always bs fds fs).
Proof.
  induction bs as [|b bs IH]; intros Hd fds fs; [constructor|]. destruct fds as [|f fds], fs as [|vs fs]; try constructor. cbn [flat_map] in Hd. rewrite flat_map_app in Hd. apply nodup_app_parts in Hd. destruct Hd as (D1 & D2 & D3).
  cbn [written]. assert (S : forall k, In k (if printed always f vs then written_name preserve b vs else []) -> In k (flat_map labels (fields_of b))).
  { intros k K. pose proof (written_sub preserve always [b] [f] [vs] k) as W. cbn [written flat_map] in W. rewrite !app_nil_r in W. exact (W K). }
  assert (N : NoDup (if printed always f vs then written_name preserve b vs else [])).
  { destruct (printed always f vs); [|constructor]. destruct b as [jf std|jfs]; cbn [written_name]; [constructor; [intros []|constructor]|]. destruct vs as [|[| | |i x] vs]; try constructor. destruct (nth_error jfs i); constructor; [intros []|constructor]. }
  pose proof (IH D2 fds fs) as N2. pose proof (written_sub preserve always bs fds fs) as S2. revert N S. generalize (if printed always f vs then written_name preserve b vs else []). intros l. induction l as [|x l IHl]; intros N S; [exact N2|].
  inversion N as [|? ? M1 M2]; subst. cbn [app]. constructor; [|apply IHl; [exact M2|intros k K; apply S; right; exact K]].
  intros K. apply in_app_or in K. destruct K as [K|K]; [exact (M1 K)|]. exact (D3 x (S x (or_introl eq_refl)) (S2 x K)).
Qed.

Section Object.
  Context (E : env) (G : list gtype) (utf8_ok : bytes -> bool) (le : bool).
  Context (fshow : bool -> Z -> bytes) (fparse : bool -> bytes -> option Z) (lenient preserve always : bool).
  Hypothesis HG : gtypes_ok E G.
  Theorem gen_object n ty fs u ts : wt_msg E utf8_ok ty (VMsg fs u) -> gprintable E G utf8_ok fshow fparse lenient n ty (VMsg fs u) -> gknown G ty = KNone ->
    gwrite E G le fshow preserve always n ty (VMsg fs u) = Ok ts ->
    exists l, ts = render (JObj l) /\ map fst l = written preserve always (g_members (gty G ty)) (m_fields (desc_of E ty)) fs /\ NoDup (map fst l).
  Proof.
    intros Hw Hp K H. destruct n as [|n]; [contradiction|]. cbn [gprintable] in Hp. unfold body_printable in Hp. cbn [gwrite gwrite_body] in H. rewrite K in Hp, H.
    inversion Hw as [| | | | |? ? ? ? Hc _ _]; subst. destruct (HG ty) as (Mo & Nd & _). apply bind_ok in H. destruct H as (ms & Hms & H). apply res_ok_inj in H. subst ts.
    destruct (gmembers_back E G utf8_ok le fshow fparse lenient preserve always false HG (gwrite E G le fshow preserve always n) (gread E G utf8_ok fparse lenient false n) _ (bare E G always n)
      (gen_back E G utf8_ok le fshow fparse lenient preserve always false HG n) (value_kind E G utf8_ok fshow fparse lenient n) ty (g_members (gty G ty)) Nd (m_fields (desc_of E ty)) fs ms [] [] []
      (S (length ms)) true [] eq_refl eq_refl eq_refl eq_refl Mo Hc Hp Hms ltac:(lia)) as [A _].
    assert (exists l, map pair_toks ms = map member l /\ map fst ms = map fst l) as (l & L & L2).
    { clear -A. induction A as [|[k t] ms (j & Hj) _ (l & L1 & L2)]; [exists []; auto|]. cbn [snd] in Hj. subst t. exists ((k, j) :: l). cbn [map]. rewrite L1, L2. auto. }
    exists l. rewrite <- L2. rewrite (members_written E G utf8_ok le fshow preserve always _ _ _ _ _ Mo Hc Hms).
    split; [|split; [reflexivity|apply written_nodup; exact Nd]]. unfold gobject. change (map (fun p : bytes * list tok => Str (fst p) :: Colon :: snd p) ms) with (map pair_toks ms). rewrite L, commas_separated. reflexivity.
  Qed.
End Object.
