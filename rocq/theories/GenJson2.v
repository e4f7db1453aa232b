(** Written messages read back the same. *)
From Coq Require Import Sorted.
Require Import Verif.Bits Verif.Varint Verif.TextNum Verif.Base64 Verif.Timestamp Verif.TimestampProofs Verif.Duration Verif.DurationProofs Verif.FieldMask Verif.FieldMaskProofs.
Require Import Verif.Schema Verif.Archive Verif.Decode Verif.Encode Verif.WellTyped Verif.DynView Verif.DynJson Verif.DynJsonSpec Verif.DynJson1 Verif.GenJson Verif.GenJsonSpec Verif.GenJson1.

Lemma nonnull {T} j r (a : list tok -> T) (b : T) : j <> JNull -> (match render j ++ r with TNull :: x => a x | _ => b end) = b.
Proof. intros H. destruct j as [| |[]| | |]; try reflexivity. contradiction. Qed.

(** ** Keys *)
Lemma named_labels key jf : named key jf = true <-> In key (labels jf).
Proof.
  unfold named, labels. rewrite orb_true_iff, !eqb_bytes_eq. destruct (eqb_bytes (j_json jf) (j_name jf)) eqn:K; cbn; [apply eqb_bytes_eq in K; rewrite <- K|]; tauto.
Qed.
Lemma primary_named p jf : named (primary p jf) jf = true.
Proof. unfold named, primary. destruct p; rewrite eqb_bytes_refl; [apply orb_true_r|reflexivity]. Qed.
Lemma nodup_app {X} (a b : list X) x : NoDup (a ++ b) -> In x a -> In x b -> False.
Proof. induction a as [|y a IH]; [contradiction|]. cbn. intros H [->|Ha] Hb; inversion H as [|? ? N H']; subst; [apply N; rewrite in_app_iff; auto|auto]. Qed.
Lemma nodup_app_r {X} (a b : list X) : NoDup (a ++ b) -> NoDup b.
Proof. induction a as [|y a IH]; [auto|]. cbn. intros H. inversion H; auto. Qed.
Lemma nodup_app_l {X} (a b : list X) : NoDup (a ++ b) -> NoDup a.
Proof. induction a as [|y a IH]; [constructor|]. cbn. intros H. inversion H as [|? ? N H']; subst. constructor; [rewrite in_app_iff in N; tauto|auto]. Qed.
Lemma alt_named_at key pre jf post : NoDup (flat_map labels (pre ++ jf :: post)) -> named key jf = true -> forall i, alt_named key (pre ++ jf :: post) i = Some (i + length pre)%nat.
Proof.
  intros H Hn. induction pre as [|a pre IH]; intros i; cbn [app alt_named length]; [rewrite Hn, Nat.add_0_r; reflexivity|].
  cbn [app flat_map] in H. replace (named key a) with false.
  - rewrite IH by (apply nodup_app_r in H; exact H). f_equal. lia.
  - symmetry. destruct (named key a) eqn:K; [|reflexivity]. exfalso. apply named_labels in K. apply (nodup_app _ _ _ H K). apply in_flat_map. exists jf. split; [rewrite in_app_iff; right; left; reflexivity|apply named_labels; exact Hn].
Qed.
Lemma alt_named_none key jfs : Forall (fun jf => named key jf = false) jfs -> forall i, alt_named key jfs i = None.
Proof. induction 1 as [|a l Ha _ IH]; intros i; cbn; [reflexivity|]. rewrite Ha. apply IH. Qed.
Lemma locate_skip key pre bs : Forall (fun b => Forall (fun jf => named key jf = false) (fields_of b)) pre -> forall i, locate key (pre ++ bs) i = locate key bs (i + length pre).
Proof.
  induction 1 as [|b pre Hb _ IH]; intros i; cbn [app locate length]; [rewrite Nat.add_0_r; reflexivity|]. destruct b as [jf s|jfs]; cbn [fields_of] in Hb.
  - inversion Hb as [|? ? H1 _]; subst. rewrite H1, IH. f_equal. lia.
  - rewrite alt_named_none by exact Hb. rewrite IH. f_equal. lia.
Qed.
Lemma unnamed_before key pre b post jf : NoDup (flat_map labels (flat_map fields_of (pre ++ b :: post))) -> In jf (fields_of b) -> named key jf = true ->
  Forall (fun b => Forall (fun jf => named key jf = false) (fields_of b)) pre.
Proof.
  intros H Hj Hn. apply Forall_forall. intros b' Hb. apply Forall_forall. intros jf' Hj'. destruct (named key jf') eqn:K; [|reflexivity]. exfalso.
  rewrite flat_map_app, flat_map_app in H. apply (nodup_app _ _ key H).
  - apply in_flat_map. exists jf'. split; [apply in_flat_map; exists b'; auto|apply named_labels; exact K].
  - cbn [flat_map]. rewrite flat_map_app, in_app_iff. left. apply in_flat_map. exists jf. split; [exact Hj|apply named_labels; exact Hn].
Qed.
Lemma locate_field key pre jf s post : NoDup (flat_map labels (flat_map fields_of (pre ++ GField jf s :: post))) -> named key jf = true -> locate key (pre ++ GField jf s :: post) 0 = Some (TField (length pre)).
Proof. intros H Hn. rewrite locate_skip by (eapply unnamed_before; [exact H|left; reflexivity|exact Hn]). cbn [locate]. rewrite Hn. reflexivity. Qed.
Lemma locate_alt key pre jfs post k jf : NoDup (flat_map labels (flat_map fields_of (pre ++ GOneof jfs :: post))) -> nth_error jfs k = Some jf -> named key jf = true -> locate key (pre ++ GOneof jfs :: post) 0 = Some (TAlt (length pre) k).
Proof.
  intros H Hk Hn. rewrite locate_skip by (eapply unnamed_before; [exact H|apply (nth_error_In _ _ Hk)|exact Hn]). cbn [locate].
  destruct (nth_error_split _ _ Hk) as (a & c & -> & <-). rewrite alt_named_at; [reflexivity| |exact Hn].
  rewrite flat_map_app, flat_map_app in H. apply nodup_app_r in H. cbn [flat_map fields_of] in H. rewrite flat_map_app in H. apply nodup_app_l in H. exact H.
Qed.

Section Back.
  Context (E : env) (G : list gtype) (utf8_ok : bytes -> bool) (le : bool).
  Context (fshow : bool -> Z -> bytes) (fparse : bool -> bytes -> option Z) (lenient preserve always strict : bool).
  Hypothesis HG : gtypes_ok E G.

  Section Rec.
    Context (recw : nat -> val -> res (list tok)) (recr : nat -> val -> list tok -> res (val * list tok)) (P : nat -> val -> Prop) (B : nat -> val -> val).
    Hypothesis RT : forall ty v ts, wt_msg E utf8_ok ty v -> P ty v -> recw ty v = Ok ts ->
      (exists j, ts = render j /\ (j = JNull -> gknown G ty = KValue /\ is_null v = true)) /\ forall r, recr ty (default_msg E ty) (ts ++ r) = Ok (B ty v, r).
    Hypothesis HP : forall ty v, P ty v -> gknown G ty = KValue -> exists i x u, v = VMsg [[VAlt i x]] u.
    Notation elem_back := (gelem_back E G utf8_ok le fshow fparse lenient recw recr P B RT).
    Notation array_back := (garray_back E G utf8_ok le fshow fparse lenient recw recr P B RT).
    Notation map_back := (gmap_back E G utf8_ok le fshow fparse lenient recw recr P B RT HG).
    Notation gwrite_member := (gwrite_member E G le fshow preserve always recw).
    Notation gread_field := (gread_field E G utf8_ok fparse lenient recr).
    Notation gread_alt := (gread_alt E utf8_ok fparse lenient recr).
    Notation member_printable := (member_printable E G utf8_ok fshow fparse lenient P).
    Notation bare_member := (bare_member E G always B).

    Lemma gfield_back jf std num e c vs ms : member_ok E G (GField jf std) (Field num e c) -> cell E utf8_ok (Field num e c) vs -> member_printable (GField jf std) (Field num e c) vs ->
      gwrite_member (GField jf std) (Field num e c) vs = Ok ms ->
      (ms = [] /\ bare_member (Field num e c) vs = field_default (Field num e c)) \/
      (exists j, ms = [(primary preserve jf, render j)] /\ forall r, gread_field jf std e c (field_default (Field num e c)) (render j ++ r) = Ok (bare_member (Field num e c) vs, r)).
    Proof.
      intros [Hn Hm] Hc Hp H. destruct c as [ex d| |pk|assoc]; cbn [GenJsonSpec.member_printable] in Hp.
      - inversion Hc as [? ? ? ? v Wv| | | | | |]; subst. cbn [gwrite_member GenJson.gwrite_member] in H. cbn [GenJsonSpec.bare_member map field_default]. inversion Hp as [|? ? Pv _]; subst.
        destruct (ex || always || negb (is_default e d v)) eqn:W; [|left; apply res_ok_inj in H; auto]. right. apply bind_ok in H. destruct H as (x & Hx & H). apply res_ok_inj in H. subst ms.
        destruct (elem_back (wide jf e) (wide jf e) (negb ex) jf e v x Hn) as [(j & -> & Hj) R]; auto.
        + intros S. eapply wt_loose; eauto.
        + intros S. destruct e as [| | |[?|]| |]; try discriminate S. destruct ex; exact Wv.
        + exists j. split; [reflexivity|]. intros r. cbn [GenJson.gread_field]. destruct ex.
          * assert (Ed : gread_elem utf8_ok fparse lenient recr false (wide jf e) jf e d (render j ++ r) = gread_elem utf8_ok fparse lenient recr false (wide jf e) jf e (elem_default E e) (render j ++ r)).
            { destruct e as [| | |?| |ty dl]; try reflexivity. cbn [gread_elem elem_default]. rewrite (Hm ty dl eq_refl). reflexivity. }
            cbn [negb]. rewrite Ed. cbn [negb] in R. rewrite R. cbn [bind]. destruct (render j ++ r) as [|[] ?]; reflexivity.
          * assert (J : j <> JNull) by (apply Hj; intros ty dl ->; discriminate Hm).
            assert (Ed : gread_elem utf8_ok fparse lenient recr true (wide jf e) jf e d (render j ++ r) = Ok (bare_elem B e v, r)) by (rewrite <- R; destruct e; try reflexivity; discriminate Hm).
            cbn [negb]. rewrite Ed. cbn [bind]. destruct j as [| |[]| | |]; try reflexivity. contradiction.
      - cbn [GenJson.gwrite_member] in H. cbn [GenJsonSpec.bare_member field_default]. inversion Hc as [|num' e' E1|num' e' v Wv E1| | | |]; subst; [left; apply res_ok_inj in H; subst; split; [reflexivity|destruct e; reflexivity]|]. right.
        apply bind_ok in H. destruct H as (x & Hx & H). apply res_ok_inj in H. subst ms. inversion Hp as [|? ? [Pv Nv] _]; subst.
        destruct (elem_back _ (negb std && wide jf e) (negb std) jf e v x Hn (fun S => wt_fits E utf8_ok e v S Wv) (fun _ => Wv) Pv Hx (or_introl eq_refl)) as [(j & -> & Hj) R].
        exists j. split; [reflexivity|]. intros r. cbn [GenJson.gread_field]. rewrite nonnull by (apply Hj; exact Nv). rewrite R. cbn [bind]. destruct e; reflexivity.
      - cbn [GenJson.gwrite_member] in H. cbn [GenJsonSpec.bare_member field_default]. inversion Hc as [| | |? ? ? ? Wv| | |]; subst.
        assert (D : (vs = [] /\ ms = []) \/ exists x, gwrite_array le fshow recw jf e vs = Ok x /\ ms = [(primary preserve jf, x)]).
        { destruct vs; [destruct always; [|left; apply res_ok_inj in H; auto]|]; right; apply bind_ok in H; destruct H as (x & Hx & H); apply res_ok_inj in H; exists x; auto. }
        assert (Eb : (match e with EMsg te _ => map (bare_elem B e) vs | _ => map (bare_elem B e) vs end) = map (bare_elem B e) vs) by (destruct e; reflexivity).
        destruct D as [[-> ->]|(x & Hx & ->)]; [left; split; [reflexivity|destruct e; reflexivity]|right].
        destruct (array_back jf e vs x Hn Wv Hp Hx) as [(js & ->) R]. exists (JArr js). split; [reflexivity|]. intros r. cbn [GenJson.gread_field]. rewrite (nonnull (JArr js)) by discriminate. rewrite R. cbn [bind app]. destruct e; reflexivity.
      - destruct Hm as (te & m1 & m2 & ek & ev & dk & dv & kj & ks & vj & vs0 & -> & Hfs & Hbs & Hk). cbn [GenJson.gwrite_member] in H. cbn [GenJsonSpec.bare_member field_default]. inversion Hc as [| | | |? ? ? ? Wv Sv| |]; subst.
        assert (D : (vs = [] /\ ms = []) \/ exists x, gwrite_map E G le fshow recw te vs = Ok x /\ ms = [(primary preserve jf, x)]).
        { destruct vs; [destruct always; [|left; apply res_ok_inj in H; auto]|]; right; apply bind_ok in H; destruct H as (x & Hx & H); apply res_ok_inj in H; exists x; auto. }
        destruct D as [[-> ->]|(x & Hx & ->)]; [left; auto|right].
        destruct (map_back te m1 m2 ek ev dk dv kj ks vj vs0 Hfs Hbs Hk assoc vs x Wv Sv Hp Hx) as [(ps & ->) R].
        exists (JObj ps). split; [reflexivity|]. intros r. cbn [GenJson.gread_field]. rewrite R. reflexivity.
    Qed.

    Lemma goneof_back jfs alts vs ms : member_ok E G (GOneof jfs) (Oneof alts) -> cell E utf8_ok (Oneof alts) vs -> member_printable (GOneof jfs) (Oneof alts) vs ->
      gwrite_member (GOneof jfs) (Oneof alts) vs = Ok ms ->
      (ms = [] /\ bare_member (Oneof alts) vs = []) \/
      (exists k jf num e j, ms = [(primary preserve jf, render j)] /\ nth_error jfs k = Some jf /\ nth_error alts k = Some (num, e) /\
         forall r, gread_alt jf k e (render j ++ r) = Ok (bare_member (Oneof alts) vs, r)).
    Proof.
      intros [Hl Hn] Hc Hp H. cbn [GenJsonSpec.member_printable] in Hp. cbn [GenJson.gwrite_member] in H. cbn [GenJsonSpec.bare_member]. inversion Hc as [| | | | | |? k num e v Ha Wv]; subst; [left; apply res_ok_inj in H; auto|]. right.
      destruct (nth_error jfs k) as [jf|] eqn:Hj; [|discriminate H]. rewrite Ha in H. apply bind_ok in H. destruct H as (x & Hx & H). apply res_ok_inj in H. subst ms.
      inversion Hp as [|? ? Pv _]; subst. destruct (Pv jf num e Hj Ha) as (Pe & Nn & Wd). rewrite Forall_forall in Hn. pose proof (Hn jf (nth_error_In _ _ Hj)) as Nj.
      assert (Q : false = wide jf e \/ (false = false /\ wide jf e = true /\ lenient = true /\ wide jf e = true)) by (destruct (wide jf e); [right; auto|left; reflexivity]).
      destruct (elem_back false (wide jf e) true jf e v x Nj (fun S => wt_fits E utf8_ok e v S Wv) (fun _ => Wv) Pe Hx Q) as [(j & -> & Jn) R].
      exists k, jf, num, e, j. split; [reflexivity|]. split; [exact Hj|]. split; [exact Ha|]. intros r. unfold gread_alt, GenJson.gread_alt. rewrite nonnull by (apply Jn; exact Nn). rewrite R. cbn [bind map]. rewrite Ha. reflexivity.
    Qed.

    Notation gread_members := (gread_members E G utf8_ok fparse lenient strict recr).
    Definition pair_toks (p : bytes * list tok) : list tok := Str (fst p) :: Colon :: snd p.
    Lemma set_nth_here (a : list (list val)) x y b : set_nth (length a) x (a ++ y :: b) = a ++ x :: b.
    Proof. induction a as [|h a IH]; [reflexivity|]. cbn. rewrite IH. reflexivity. Qed.
    Lemma nth_error_here {X} (a : list X) x b : nth_error (a ++ x :: b) (length a) = Some x.
    Proof. induction a; auto. Qed.

    Lemma gmembers_back ty bs : NoDup (flat_map labels (flat_map fields_of (g_members (gty G ty)))) -> forall fds fs ms bs0 fds0 done k first r,
      g_members (gty G ty) = bs0 ++ bs -> m_fields (desc_of E ty) = fds0 ++ fds -> length bs0 = length done -> length fds0 = length done ->
      Forall2 (member_ok E G) bs fds -> cells E utf8_ok fds fs -> members_printable E G utf8_ok fshow fparse lenient P bs fds fs ->
      gwrite_members E G le fshow preserve always recw bs fds fs = Ok ms -> (length ms < k)%nat ->
      Forall (fun p => exists j, snd p = render j) ms /\
      gread_members k first ty (done ++ map field_default fds) (rest first (map pair_toks ms) ++ RBrace :: r) = Ok (done ++ bare_members E G always B fds fs, r).
    Proof.
      intros Hd. induction bs as [|b bs IH]; intros fds fs ms bs0 fds0 done k first r Hb Hf Lb Lf Hm Hc Hp H Hk.
      { inversion Hm; subst. inversion Hc; subst. apply res_ok_inj in H. subst ms. split; [constructor|]. destruct k as [|k]; [cbn in Hk; lia|]. cbn [map bare_members GenJson.gread_members]. rewrite app_nil_r. destruct first; reflexivity. }
      inversion Hm as [|? f ? fds' Mf Mfs]; subst. inversion Hc as [|? ? vs fs' Cf Cfs]; subst. destruct Hp as [Pf Pfs].
      cbn [gwrite_members] in H. apply bind_ok in H. destruct H as (x & Hx & H). apply bind_ok in H. destruct H as (y & Hy & H). apply res_ok_inj in H. subst ms. cbn [map bare_members].
      assert (Hb' : g_members (gty G ty) = (bs0 ++ [b]) ++ bs) by (rewrite <- app_assoc; exact Hb). assert (Hf' : m_fields (desc_of E ty) = (fds0 ++ [f]) ++ fds') by (rewrite <- app_assoc; exact Hf).
      assert (IH' : forall k' first' vs', (length y < k')%nat -> Forall (fun p => exists j, snd p = render j) y /\
        gread_members k' first' ty (done ++ vs' :: map field_default fds') (rest first' (map pair_toks y) ++ RBrace :: r) = Ok (done ++ vs' :: bare_members E G always B fds' fs', r)).
      { intros k' first' vs' Hk'. destruct (IH fds' fs' y (bs0 ++ [b]) (fds0 ++ [f]) (done ++ [vs']) k' first' r Hb' Hf') as [A1 A2]; auto; try (rewrite !app_length; cbn; lia). split; [exact A1|]. rewrite <- !app_assoc in A2. exact A2. }
      assert (STEP : (x = [] /\ bare_member f vs = field_default f) \/
        (exists key t j, x = [(key, render j)] /\ locate key (g_members (gty G ty)) 0 = Some t /\
           forall tl r', length tl = length fds' -> gread_target E G utf8_ok fparse lenient recr t ty (done ++ field_default f :: tl) (render j ++ r') = Ok (done ++ bare_member f vs :: tl, r'))).
      { destruct b as [jf std|jfs], f as [num e c|alts]; try contradiction.
        - destruct (gfield_back jf std num e c vs x Mf Cf Pf Hx) as [A|(j & -> & R)]; [left; exact A|right]. exists (primary preserve jf), (TField (length bs0)), j. split; [reflexivity|].
          rewrite Hb in Hd. split; [rewrite Hb; apply locate_field; [exact Hd|apply primary_named]|]. intros tl r' Ht. cbn [gread_target]. rewrite Hb, nth_error_here, Hf. rewrite Lb, <- Lf, nth_error_here, Lf, nth_error_here. rewrite R. cbn [bind]. rewrite set_nth_here. reflexivity.
        - destruct (goneof_back jfs alts vs x Mf Cf Pf Hx) as [[A1 A2]|(q & jf & num & e & j & -> & Hq & Ha & R)]; [left; split; [exact A1|exact A2]|right]. exists (primary preserve jf), (TAlt (length bs0) q), j. split; [reflexivity|].
          rewrite Hb in Hd. split; [rewrite Hb; apply (locate_alt _ _ _ _ _ jf); [exact Hd|exact Hq|apply primary_named]|]. intros tl r' Ht. cbn [gread_target]. rewrite Hb, nth_error_here, Hf. rewrite Lb, <- Lf, nth_error_here, Lf. rewrite Hq, Ha, R. cbn [bind]. rewrite set_nth_here. reflexivity. }
      destruct STEP as [[-> Eb]|(key & t & j & -> & Hl & R)].
      - cbn [app length] in *. rewrite Eb. apply IH'. exact Hk.
      - cbn [app length] in *. destruct k as [|k]; [lia|]. destruct (IH' k false (bare_member f vs)) as [A1 A2]; [lia|]. split; [constructor; [exists j; reflexivity|exact A1]|].
        cbn [map]. rewrite rest_cons, <- !app_assoc. unfold pair_toks at 1. cbn [fst snd app].
        assert (K : forall X : list tok, X = Str key :: Colon :: render j ++ rest false (map pair_toks y) ++ RBrace :: r ->
          ('(fs1, r1) <- (match locate key (g_members (gty G ty)) 0 with Some t => gread_target E G utf8_ok fparse lenient recr t ty (done ++ field_default f :: map field_default fds') (render j ++ rest false (map pair_toks y) ++ RBrace :: r) | None => if strict then Err BadMessage else r1 <- skip_value (render j ++ rest false (map pair_toks y) ++ RBrace :: r) ;; Ok (done ++ field_default f :: map field_default fds', r1) end) ;;
            gread_members k false ty fs1 r1) = Ok (done ++ bare_member f vs :: bare_members E G always B fds' fs', r)).
        { intros X _. rewrite Hl, R by (rewrite map_length; reflexivity). cbn [bind]. exact A2. }
        destruct first; cbn [app GenJson.gread_members bind]; apply (K _ eq_refl).
    Qed.

    Notation gwrite_body := (gwrite_body E G le fshow preserve always recw).
    Notation gread_body := (gread_body E G utf8_ok fparse lenient strict recr).

    (** The members of a struct or list. *)
    Lemma struct_members st n1 te a xs : gknown G st = KStruct -> m_fields (desc_of E st) = [Field n1 (EMsg te false) (CMap a)] -> cells E utf8_ok (m_fields (desc_of E st)) xs ->
      message_printable E G utf8_ok fshow fparse lenient P st xs ->
      exists es jf std, xs = [es] /\ g_members (gty G st) = [GField jf std] /\ elems E utf8_ok (EMsg te false) es /\ (a = true -> StronglySorted key_lt (map entry_key es)) /\ Forall (entry_printable E G utf8_ok fshow fparse P te) es /\
        member_ok E G (GField jf std) (Field n1 (EMsg te false) (CMap a)).
    Proof.
      intros Hk Hf Hc Hp. rewrite Hf in Hc. inversion Hc as [|? ? es ? C1 C2]; subst. inversion C2; subst. inversion C1 as [| | | |? ? ? ? We Se| |]; subst.
      unfold message_printable in Hp. rewrite Hf in Hp. destruct (HG st) as (F & _). rewrite Hf in F. inversion F as [|b ? bs ? Mb Mbs E1]; subst. inversion Mbs; subst. rewrite <- E1 in Hp. destruct b as [jf std|]; [|contradiction Mb].
      exists es, jf, std. cbn in Hp. destruct Hp as [Hp _]. repeat split; auto.
      - destruct Mb as [[A _] _]. exact A.
      - destruct Mb as [[_ A] _]. exact A.
      - destruct Mb as [_ A]. exact A.
    Qed.
    Lemma list_members st n1 e p xs : m_fields (desc_of E st) = [Field n1 e (CRep p)] -> cells E utf8_ok (m_fields (desc_of E st)) xs ->
      message_printable E G utf8_ok fshow fparse lenient P st xs ->
      exists es jf std, xs = [es] /\ g_members (gty G st) = [GField jf std] /\ elems E utf8_ok e es /\ Forall (elem_printable utf8_ok fshow fparse P true jf e) es /\ names_ok jf.
    Proof.
      intros Hf Hc Hp. rewrite Hf in Hc. inversion Hc as [|? ? es ? C1 C2]; subst. inversion C2; subst. inversion C1 as [| | |? ? ? ? We| | |]; subst.
      unfold message_printable in Hp. rewrite Hf in Hp. destruct (HG st) as (F & _). rewrite Hf in F. inversion F as [|b ? bs ? Mb Mbs E1]; subst. inversion Mbs; subst. rewrite <- E1 in Hp. destruct b as [jf std|]; [|contradiction Mb].
      exists es, jf, std. destruct Hp as [Hp _]. split; [reflexivity|]. split; [reflexivity|]. split; [exact We|]. split; [|destruct Mb as [A _]; exact A]. cbn [GenJsonSpec.member_printable] in Hp. exact Hp.
    Qed.
    Lemma all_kinds te kj ek vj tv d es : entry_of E G te = Some (kj, ek, (vj, EMsg tv d)) -> gknown G tv = KValue -> Forall (entry_printable E G utf8_ok fshow fparse P te) es -> filter has_kind es = es.
    Proof.
      intros He Hk. induction 1 as [|v es Hv _ IH]; [reflexivity|]. cbn [filter]. rewrite IH. replace (has_kind v) with true; [reflexivity|]. symmetry. unfold entry_printable in Hv. rewrite He in Hv.
      destruct v as [| |[|[|k [|? ?]] [|[|x [|? ?]] [|? ?]]] u|]; try contradiction. destruct Hv as [_ Px]. destruct (HP tv x Px Hk) as (i & y & u' & ->). reflexivity.
    Qed.

    Lemma gvalue_back ty fs ts : gknown G ty = KValue -> cells E utf8_ok (m_fields (desc_of E ty)) fs -> kind_printable E G utf8_ok fshow fparse lenient P ty fs -> gwrite_value E G le fshow recw ty fs = Ok ts ->
      (exists j, ts = render j /\ (j = JNull -> is_null (VMsg fs []) = true)) /\ forall r, gread_value E G utf8_ok fparse lenient recr ty (ts ++ r) = Ok (bare_kind E G always B (m_fields (desc_of E ty)) fs, r).
    Proof.
      intros Hk Hc Hp H. destruct (HG ty) as (F & _ & Ko). unfold gknown_ok in Ko. rewrite Hk in Ko.
      destruct Ko as (alts & jn & jd & js & jb & jt & jl & c & u & v & st & sl & d1 & d2 & Hf & Ha & Hb & Hn & Hs & Kt & Kl).
      unfold kind_printable in Hp. unfold gwrite_value in H. rewrite Hf in *. rewrite Hb in *. inversion F as [|? ? ? ? Nm _]; subst. destruct Nm as [_ Nm]. inversion Hc as [|? ? vs ? C1 C2]; subst. inversion C2; subst.
      destruct alts as [|[m0 e0] [|[m1 e1] [|[m2 e2] [|[m3 e3] [|[m4 e4] [|[m5 e5] [|? ?]]]]]]]; try discriminate Ha. cbn [map snd] in Ha. injection Ha as -> -> -> -> -> ->.
      assert (NN : names_ok jn /\ names_ok jd /\ names_ok js /\ names_ok jb) by (inversion Nm as [|? ? N0 Nm1]; inversion Nm1 as [|? ? N1 Nm2]; inversion Nm2 as [|? ? N2 Nm3]; inversion Nm3 as [|? ? N3 Nm4]; auto).
      destruct NN as (N0 & N1 & N2 & N3). inversion C1 as [| | | | | |? i num e x Hi Wx]; subst; [contradiction|].
      unfold gread_value, gread_kind. rewrite Hf, Hb.
      destruct i as [|[|[|[|[|[|i]]]]]]; cbn [nth_error] in Hi, Hp, H |- *; try (destruct i; discriminate Hi); injection Hi as <- <-; cbn [bare_kind nth_error].
      - subst x. cbn [GenJson.gwrite_scalar] in H. rewrite Hn in H. apply res_ok_inj in H. subst ts. split; [exists JNull; split; reflexivity|]. intros r. reflexivity.
      - destruct (gscalar_back utf8_ok le fshow fparse lenient false false true jd (EFix true true) x ts N1 eq_refl (wt_fits E utf8_ok (EFix true true) x eq_refl Wx) Hp H (or_introl eq_refl)) as [(j & -> & Hj) R].
        split; [exists j; split; [reflexivity|intros ->; contradiction]|]. destruct x as [z| | |]; try discriminate H. injection H as H. intros r. specialize (R r). rewrite <- H in R |- *. cbn [app] in R |- *. rewrite R. reflexivity.
      - destruct (gscalar_back utf8_ok le fshow fparse lenient false false true js (EBytes u v) x ts N2 eq_refl (wt_fits E utf8_ok (EBytes u v) x eq_refl Wx) Hp H (or_introl eq_refl)) as [(j & -> & Hj) R].
        split; [exists j; split; [reflexivity|intros ->; contradiction]|]. destruct x as [|b| |]; try discriminate H. cbn [GenJson.gwrite_scalar] in H. rewrite Hs in H. injection H as H. intros r. specialize (R r). rewrite <- H in R |- *. cbn [app] in R |- *. rewrite R. reflexivity.
      - destruct (gscalar_back utf8_ok le fshow fparse lenient false false true jb EBool x ts N3 eq_refl (wt_fits E utf8_ok EBool x eq_refl Wx) Hp H (or_introl eq_refl)) as [(j & -> & Hj) R].
        split; [exists j; split; [reflexivity|intros ->; contradiction]|]. destruct x as [z| | |]; try discriminate H. injection H as H. intros r. specialize (R r). rewrite <- H in R |- *. cbn [app] in R |- *. rewrite R. destruct (z =? 0); reflexivity.
      - destruct x as [| |xs ux|]; try contradiction. inversion Wx as [| | | | |? ? ? ? Cx _ _]; subst. destruct (HG st) as (_ & _ & Ks). unfold gknown_ok in Ks. rewrite Kt in Ks. destruct Ks as (n1 & te & a & kj & ek & vj & tv & d & Hfs & He & Kv).
        destruct (struct_members st n1 te a xs Kt Hfs Cx Hp) as (es & jf & std & -> & Hbs & We & Se & Pe & Me). destruct Me as [_ (te' & q1 & q2 & ek' & ev' & dk & dv & kj' & ks & vj' & vs0 & Et & Hte & Hbe & Hke)]. injection Et as <-.
        rewrite Hfs in H |- *. destruct (map_back te q1 q2 ek' ev' dk dv kj' ks vj' vs0 Hte Hbe Hke a es ts We Se Pe H) as [(ps & ->) R]. split; [exists (JObj ps); split; [reflexivity|discriminate]|].
        intros r. specialize (R r). cbn [render app] in R |- *. rewrite R. reflexivity.
      - destruct x as [| |xs ux|]; try contradiction. inversion Wx as [| | | | |? ? ? ? Cx _ _]; subst. destruct (HG sl) as (_ & _ & Ks). unfold gknown_ok in Ks. rewrite Kl in Ks. destruct Ks as (n1 & tv & d & p & Hfs & Kv).
        destruct (list_members sl n1 (EMsg tv d) p xs Hfs Cx Hp) as (es & jf & std & -> & Hbs & We & Pe & Ne).
        rewrite Hfs, Hbs in H |- *. destruct (array_back jf (EMsg tv d) es ts Ne We Pe H) as [(ps & ->) R]. split; [exists (JArr ps); split; [reflexivity|discriminate]|].
        intros r. specialize (R r). cbn [render app] in R |- *. rewrite R. reflexivity.
    Qed.
  End Rec.

  (** One level: a message of which the messages within are read back. *)
  Section Body.
    Variables (wr : nat -> val -> res (list tok)) (rd : nat -> val -> list tok -> res (val * list tok)) (P : nat -> val -> Prop) (B : nat -> val -> val).
    Lemma value_shape ty fs u : gknown G ty = KValue -> body_printable E G utf8_ok fshow fparse lenient P ty fs -> exists i x u', VMsg fs u = VMsg [[VAlt i x]] u'.
    Proof.
      intros Hk H. unfold body_printable, kind_printable in H. rewrite Hk in H.
      destruct (m_fields _) as [|[|alts] [|? ?]]; try contradiction. destruct (g_members _) as [|[|jfs] [|? ?]]; try contradiction. destruct fs as [|[|[| | |i x] [|? ?]] [|? ?]]; try contradiction. exists i, x, u. reflexivity.
    Qed.
    Hypothesis RT : forall ty v ts, wt_msg E utf8_ok ty v -> P ty v -> wr ty v = Ok ts ->
      (exists j, ts = render j /\ (j = JNull -> gknown G ty = KValue /\ is_null v = true)) /\ forall r, rd ty (default_msg E ty) (ts ++ r) = Ok (B ty v, r).
    Hypothesis HP : forall ty v, P ty v -> gknown G ty = KValue -> exists i x u, v = VMsg [[VAlt i x]] u.
    Lemma body_back ty fs u ts : wt_msg E utf8_ok ty (VMsg fs u) -> body_printable E G utf8_ok fshow fparse lenient P ty fs -> gwrite_body E G le fshow preserve always wr ty (VMsg fs u) = Ok ts ->
      (exists j, ts = render j /\ (j = JNull -> gknown G ty = KValue /\ is_null (VMsg fs u) = true)) /\
      forall r, gread_body E G utf8_ok fparse lenient strict rd ty (default_msg E ty) (ts ++ r) = Ok (VMsg (bare_body E G always B ty fs) [], r).
    Proof.
    intros Hw Hp H. unfold bare_body. cbn [gwrite_body gread_body default_msg]. unfold body_printable in Hp. cbn [gwrite_body] in H.
    inversion Hw as [| | | | |? ? ? ? Hc _ _]; subst. destruct (HG ty) as (Mo & Nd & Ko). unfold gknown_ok in Ko. destruct (gknown G ty) eqn:K.
    - (* KNone *) apply bind_ok in H. destruct H as (ms & Hms & H). apply res_ok_inj in H. subst ts. unfold gobject.
      pose proof (gmembers_back wr rd _ B RT HP ty (g_members (gty G ty)) Nd (m_fields (desc_of E ty)) fs ms [] [] []) as M.
      split.
      + destruct (M (S (length ms)) true [] eq_refl eq_refl eq_refl eq_refl Mo Hc Hp Hms ltac:(lia)) as [A _]. assert (exists l, map pair_toks ms = map member l /\ map fst ms = map fst l) as (l & L & _).
        { clear -A. induction A as [|[k t] ms (j & Hj) _ (l & L1 & L2)]; [exists []; auto|]. cbn [snd] in Hj. subst t. exists ((k, j) :: l). cbn [map]. rewrite L1, L2. auto. }
        exists (JObj l). split; [|discriminate]. change (map (fun p : bytes * list tok => Str (fst p) :: Colon :: snd p) ms) with (map pair_toks ms). rewrite L, commas_separated. reflexivity.
      + intros r. cbn [app]. rewrite <- app_assoc. cbn [app]. change (map (fun p : bytes * list tok => Str (fst p) :: Colon :: snd p) ms) with (map pair_toks ms).
        set (k := S (length (commas (map pair_toks ms) ++ RBrace :: r))). destruct (M k true r eq_refl eq_refl eq_refl eq_refl Mo Hc Hp Hms) as [_ A].
        * subst k. rewrite app_length. cbn [length]. pose proof (commas_length (map pair_toks ms)) as L. rewrite map_length in L. specialize (L ltac:(apply Forall_forall; intros x Hx; apply in_map_iff in Hx; destruct Hx as (? & <- & _); discriminate)). lia.
        * cbn [app rest] in A. rewrite A. reflexivity.
    - contradiction.
    - destruct Ko as (n1 & n2 & Hf). rewrite Hf in Hc. inversion Hc as [|? ? c1 ? C1 Hc1]; subst. inversion Hc1 as [|? ? c2 ? C2 Hc2]; subst. inversion Hc2; subst. inversion C1 as [? ? ? ? s Ws| | | | | |]; subst. inversion C2 as [? ? ? ? k Wk| | | | | |]; subst.
      cbn [loosen] in Ws, Wk. inversion Ws; subst. inversion Wk; subst. destruct (timestamp_encode z z0) as [t|] eqn:T; [|discriminate H]. apply res_ok_inj in H. subst ts. split; [exists (JStr t); split; [reflexivity|discriminate]|]. intros r. cbn [app]. rewrite (timestamp_roundtrip _ _ _ T). reflexivity.
    - destruct Ko as (n1 & n2 & Hf). rewrite Hf in Hc. inversion Hc as [|? ? c1 ? C1 Hc1]; subst. inversion Hc1 as [|? ? c2 ? C2 Hc2]; subst. inversion Hc2; subst. inversion C1 as [? ? ? ? s Ws| | | | | |]; subst. inversion C2 as [? ? ? ? k Wk| | | | | |]; subst.
      cbn [loosen] in Ws, Wk. inversion Ws; subst. inversion Wk; subst. destruct (duration_encode z z0) as [t|] eqn:T; [|discriminate H]. apply res_ok_inj in H. subst ts. split; [exists (JStr t); split; [reflexivity|discriminate]|]. intros r. cbn [app]. rewrite (duration_roundtrip _ _ _ T). reflexivity.
    - destruct Ko as (n1 & uu & vv & p & Hf). rewrite Hf in Hc. inversion Hc as [|? ? c1 ? C1 Hc1]; subst. inversion Hc1; subst. inversion C1 as [| | |? ? ? ? Ws| | |]; subst.
      assert (X : exists ps, c1 = map VBytes ps /\ Forall all_bytes ps). { clear -Ws. remember (EBytes uu vv) as e eqn:Ee. induction Ws as [|? v vs Hv Hvs IH]; [exists []; split; [reflexivity|constructor]|]. destruct (IH Ee) as (ps & -> & Fp). subst e. inversion Hv; subst. exists (b :: ps). split; [reflexivity|constructor; assumption]. }
      destruct X as (ps & -> & Fp). destruct (Hp ps eq_refl) as [Cf Ne]. rewrite map_map, map_id in H. rewrite mask_encode_unescape in H by exact Fp. apply res_ok_inj in H. subst ts. split; [exists (JStr (join ps)); split; [reflexivity|discriminate]|]. intros r. cbn [app]. rewrite mask_decode_join by assumption. reflexivity.
    - destruct (gvalue_back wr rd _ B RT ty fs ts K Hc Hp H) as [(j & -> & Hj) R].
      split; [exists j; split; [reflexivity|intros ->; split; [reflexivity|exact (Hj eq_refl)]]|]. intros r. rewrite R. reflexivity.
    - destruct Ko as (n1 & te & a & kj & ek & vj & tv & d & Hf & He & Kv). destruct (struct_members P ty n1 te a fs K Hf Hc Hp) as (es & jf & std & -> & Hbs & We & Se & Pe & Me).
      destruct Me as [_ (te' & q1 & q2 & ek' & ev' & dk & dv & kj' & ks & vj' & vs0 & Et & Hte & Hbe & Hke)]. injection Et as <-. rewrite Hf in H |- *. rewrite (all_kinds _ HP te kj ek vj tv d es He Kv Pe) in H.
      destruct (gmap_back E G utf8_ok le fshow fparse lenient _ _ _ B RT HG te q1 q2 ek' ev' dk dv kj' ks vj' vs0 Hte Hbe Hke a es ts We Se Pe H) as [(ps & ->) R]. split; [exists (JObj ps); split; [reflexivity|discriminate]|].
      intros r. cbn [map field_default]. rewrite R. reflexivity.
    - destruct Ko as (n1 & tv & d & p & Hf & Kv). destruct (list_members P ty n1 (EMsg tv d) p fs Hf Hc Hp) as (es & jf & std & -> & Hbs & We & Pe & Ne). rewrite Hf, Hbs in H |- *.
      destruct (garray_back E G utf8_ok le fshow fparse lenient _ _ _ B RT jf (EMsg tv d) es ts Ne We Pe H) as [(js & ->) R]. split; [exists (JArr js); split; [reflexivity|discriminate]|].
      intros r. cbn [map field_default]. rewrite R. reflexivity.
    - destruct Ko as (n1 & e & d & Hf & Se). unfold message_printable in Hp. rewrite Hf in Hc, Hp, Mo, H |- *. inversion Mo as [|b ? bs ? Mb Mbs E1]; subst. inversion Mbs; subst. rewrite <- E1 in Hp, H. destruct b as [jf std|]; [|contradiction Mb]. destruct Mb as [Nj Sc].
      inversion Hc as [|? ? c1 ? C1 Hc1]; subst. inversion Hc1; subst. inversion C1 as [? ? ? ? x Wx| | | | | |]; subst. destruct Hp as [Hp _]. cbn [GenJsonSpec.member_printable] in Hp. inversion Hp as [|? ? Px _]; subst.
      assert (Px' : gscalar_printable utf8_ok fshow fparse true jf e x) by (destruct e; try contradiction; exact Px).
      destruct (gscalar_back utf8_ok le fshow fparse lenient (wide jf e) (wide jf e) true jf e x ts Nj Sc (wt_loose E utf8_ok _ _ _ Sc Wx) Px' H (or_introl eq_refl)) as [(j & -> & Hj) R].
      split; [exists j; split; [reflexivity|intros ->; contradiction]|]. intros r. rewrite R. reflexivity.
    Qed.
  End Body.
  Lemma value_kind n ty v : gprintable E G utf8_ok fshow fparse lenient n ty v -> gknown G ty = KValue -> exists i x u, v = VMsg [[VAlt i x]] u.
  Proof. destruct n as [|n]; [contradiction|]. intros H Hk. destruct v as [| |fs u|]; try contradiction. exact (value_shape _ ty fs u Hk H). Qed.

  Theorem gen_back n : forall ty v ts, wt_msg E utf8_ok ty v -> gprintable E G utf8_ok fshow fparse lenient n ty v -> gwrite E G le fshow preserve always n ty v = Ok ts ->
    (exists j, ts = render j /\ (j = JNull -> gknown G ty = KValue /\ is_null v = true)) /\
    forall r, gread E G utf8_ok fparse lenient strict n ty (default_msg E ty) (ts ++ r) = Ok (bare E G always n ty v, r).
  Proof.
    induction n as [|n RT]; intros ty v ts Hw Hp H; [contradiction|]. destruct v as [| |fs u|]; try contradiction.
    exact (body_back _ _ _ _ RT (value_kind n) ty fs u ts Hw Hp H).
  Qed.
End Back.
