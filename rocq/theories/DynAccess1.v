(** Proofs about the access to fields of dynamic messages by name and number. *)
Require Import Verif.Bits Verif.DynSlots Verif.DynSlotsProofs Verif.Dyn Verif.DynMain Verif.DynClone Verif.DynJson Verif.DynJson1 Verif.DynAccess Verif.DynAccessSpec.
Local Open Scope Z_scope.

(** ** Finding *)
Lemma matches_iff k f : matches k f = true <-> is_key k f.
Proof. destruct k; cbn; [apply eqb_bytes_eq|apply Z.eqb_eq]. Qed.
Lemma found_some k fs : forall i, found_at k fs = Some i <-> exists f, meant fs k i f.
Proof.
  induction fs as [|g fs IH]; intros i; cbn [found_at].
  - split; [discriminate|]. intros (f & H & _). destruct i; discriminate.
  - destruct (matches k g) eqn:M.
    + split.
      * intros [= <-]. exists g. split; [reflexivity|]. split; [apply matches_iff; exact M|]. intros j h Hj. lia.
      * intros (f & H & _ & N). destruct i as [|i]; [reflexivity|]. exfalso. apply (N O g); [lia|reflexivity|]. apply matches_iff. exact M.
    + split.
      * intros H. destruct (found_at k fs) as [j|] eqn:F; [|discriminate]. cbn in H. injection H as <-.
        destruct (proj1 (IH j) eq_refl) as (f & A & B & C). exists f. split; [exact A|]. split; [exact B|]. intros [|x] h Hx Hh.
        -- cbn in Hh. injection Hh as <-. intros K. apply matches_iff in K. congruence.
        -- cbn in Hh. apply (C x h); [lia|exact Hh].
      * intros (f & A & B & C). destruct i as [|i].
        -- cbn in A. injection A as <-. apply matches_iff in B. congruence.
        -- cbn in A. rewrite (proj2 (IH i)); [reflexivity|]. exists f. split; [exact A|]. split; [exact B|]. intros j h Hj Hh. apply (C (S j) h); [lia|exact Hh].
Qed.
Lemma found_none k fs : found_at k fs = None <-> forall f, In f fs -> ~ is_key k f.
Proof.
  induction fs as [|g fs IH]; cbn [found_at In]; [tauto|]. destruct (matches k g) eqn:M.
  - split; [discriminate|]. intros H. exfalso. apply (H g); [auto|]. apply matches_iff. exact M.
  - split.
    + intros H f [->|Hf].
      * intros K. apply matches_iff in K. congruence.
      * destruct (found_at k fs); [discriminate|]. apply (proj1 IH); auto.
    + intros H. rewrite (proj2 IH); [reflexivity|]. intros f Hf. apply H. auto.
Qed.

(** ** Tables *)
Lemma num_iff p n : num_type p n <-> is_num p n = true.
Proof.
  unfold num_type. split.
  - cbn [In]. intros H. repeat (destruct H as [H|H]; [injection H as <- <-; reflexivity|]). destruct H.
  - destruct p, n; cbn; try discriminate; intros _; tauto.
Qed.
Lemma num_not p n : is_num p n = false -> ~ num_type p n.
Proof. intros H K. apply num_iff in K. congruence. Qed.
Lemma is_num_kind f n : is_num (tf_type f) n = true -> y_kind (dynf_of f) = if tf_repeated f then KInts else KInt.
Proof. unfold dynf_of. cbn. destruct (tf_type f); cbn; try discriminate; auto. Qed.

Lemma value_of_some vs b z : value_of vs b = Some z <-> number_of vs b z.
Proof.
  unfold value_of, number_of. induction vs as [|[c y] vs IH]; cbn [find fst snd].
  - split; [discriminate|]. intros ([|] & r & H & _); discriminate.
  - destruct (eqb_bytes c b) eqn:K.
    + apply eqb_bytes_eq in K. subst c. split.
      * intros [= <-]. exists [], vs. split; [reflexivity|]. intros [].
      * intros ([|[c w] h] & r & H & N); injection H; intros.
        -- subst. reflexivity.
        -- subst. exfalso. apply N. cbn. auto.
    + apply eqb_bytes_neq in K. rewrite IH. split.
      * intros (h & r & -> & N). exists ((c, y) :: h), r. split; [reflexivity|]. cbn. intros [Q|Q]; [congruence|auto].
      * intros ([|[c' w] h] & r & H & N); injection H; intros; [congruence|]. subst. exists h, r. split; [reflexivity|]. intros Q. apply N. cbn. auto.
Qed.
Lemma value_of_none vs b : value_of vs b = None <-> ~ In b (map fst vs).
Proof.
  unfold value_of. induction vs as [|[c y] vs IH]; cbn [find fst snd map In]; [tauto|]. destruct (eqb_bytes c b) eqn:K.
  - apply eqb_bytes_eq in K. split; [discriminate|]. intros H. exfalso. auto.
  - apply eqb_bytes_neq in K. tauto.
Qed.
Lemma number_known vs b z : number_of vs b z -> In b (map fst vs).
Proof. intros (h & r & -> & _). rewrite map_app, in_app_iff. cbn. auto. Qed.
Lemma name_of_is vs z : name_is vs z (name_of vs z).
Proof.
  unfold name_of, name_is. induction vs as [|[c y] vs IH]; cbn [find fst snd]; [right; split; [reflexivity|intros []]|].
  destruct (y =? z) eqn:K.
  - apply Z.eqb_eq in K. subst y. left. exists [], vs. split; [reflexivity|]. intros [].
  - apply Z.eqb_neq in K. destruct IH as [(h & r & A & N)|[A N]].
    + left. exists ((c, y) :: h), r. split; [rewrite A at 1; reflexivity|]. cbn. intros [Q|Q]; auto.
    + right. split; [exact A|]. cbn. intros [Q|Q]; auto.
Qed.
Lemma numbers_ok vs l : forall zs, numbers_of vs l = (zs, true) <-> Forall2 (number_of vs) l zs.
Proof.
  induction l as [|b l IH]; intros zs; cbn [numbers_of].
  - split; [intros [= <-]; constructor|]. intros H. inversion H. reflexivity.
  - split.
    + destruct (value_of vs b) as [z|] eqn:V; [|discriminate]. destruct (numbers_of vs l) as [y ok]. intros [= <- ->]. constructor; [apply value_of_some; exact V|]. apply IH. reflexivity.
    + intros H. inversion H as [|b' z l' y Hz Hy]; subst. apply value_of_some in Hz. rewrite Hz. rewrite (proj2 (IH y) Hy). reflexivity.
Qed.
Lemma numbers_bad vs l : forall zs, numbers_of vs l = (zs, false) -> exists b, In b l /\ ~ In b (map fst vs).
Proof.
  induction l as [|b l IH]; intros zs; cbn [numbers_of]; [discriminate|]. destruct (value_of vs b) as [z|] eqn:V.
  - destruct (numbers_of vs l) as [y ok]. intros [= <- ->]. destruct (IH y eq_refl) as (c & A & B). exists c. cbn. auto.
  - intros _. exists b. split; [cbn; auto|]. apply value_of_none. exact V.
Qed.

(** ** Setting *)
Section Set_.
  Context (E : nat -> dtype) (fuel : nat).

  (** A call with a value that is not a message stores it or fails. *)
  Lemma stored_int f l z s : y_kind (dynf_of f) = KInt \/ y_kind (dynf_of f) = KEnum -> stored f l (IInt z) s = Some ((l_ordinal l, CInt z), None).
  Proof. unfold stored, set_slot. intros [-> | ->]; reflexivity. Qed.

  Lemma set_elements_verdict ty : forall src cur r e, length cur = length src -> set_elements E fuel ty cur src = Some (r, e) ->
    length r = length src /\ ((e = None /\ forall ty', In ty' (map fst src) -> ty' = ty) \/ (e = Some WrongMessageType /\ exists ty', In ty' (map fst src) /\ ty' <> ty)).
  Proof.
    induction src as [|[ty' m] src IH]; intros [|x cur] r e L; cbn [length] in L; try discriminate; cbn [set_elements].
    - intros [= <- <-]. split; [reflexivity|]. left. split; [reflexivity|]. intros ty' [].
    - destruct (Nat.eqb_spec ty' ty) as [->|N].
      + destruct (clone_message E fuel ty x m) as [q|]; [|discriminate]. destruct (set_elements E fuel ty cur src) as [[rs e']|] eqn:S; [|discriminate]. intros [= <- <-].
        injection L as L. destruct (IH _ _ _ L S) as [A B]. split; [cbn; auto|]. destruct B as [[-> B]|[-> (w & B & C)]].
        * left. split; [reflexivity|]. cbn. intros w [->|H]; auto.
        * right. split; [reflexivity|]. exists w. cbn. auto.
      + intros [= <- <-]. split; [cbn; auto|]. right. split; [reflexivity|]. exists ty'. cbn. auto.
  Qed.
  Lemma resized_len n new l : length (resized n new l) = n.
  Proof. unfold resized. rewrite app_length, firstn_length, repeat_length. lia. Qed.

  Lemma set_value_verdict f l v s s' e : set_value E fuel f l v s = Some (s', e) -> verdict (tf_type f) (tf_repeated f) v e.
  Proof.
    unfold set_value, stored, set_slot, dynf_of. cbn [y_kind]. destruct (tf_repeated f) eqn:R.
    - destruct v as [n z|b|b|z|b|ty m|n x|x|x|x|x|x|x]; destruct (tf_type f) as [| | | | | | | | |tm| | |vs| | | |] eqn:P; cbn [kind_of];
        try (intros [= <- <-]; cbn; unfold is_enum, is_message; solve [intros [A B]; first [discriminate A | discriminate B | (destruct B as [q B]; discriminate B) | (destruct B as [[q B]|B]; discriminate B)] | tauto]).
      all: try (destruct (is_num _ n) eqn:Q; intros [= <- <-]; cbn [verdict suits]; [split; [split; [reflexivity|apply num_iff; exact Q]|split; [intros vs' K; discriminate K|intros ty' K; discriminate K]]|intros [_ K]; exact (num_not _ _ Q K)]).
      all: try (intros [= <- <-]; cbn; solve [intros [_ K]; repeat (destruct K as [K|K]; [discriminate K|]); exact K | split; [auto|split; [intros ? K; try discriminate K; intros ? []|intros ? K; discriminate K]]]).
      + intros [= <- <-]. cbn. unfold is_enum. split; [eauto|]. split; [intros vs' _ b []|intros ty K; discriminate K].
      + destruct (numbers_of vs x) as [zs ok] eqn:N. destruct ok; intros [= <- <-]; cbn [verdict suits names_in types_in].
        * split; [split; [reflexivity|exists vs; reflexivity]|]. split; [|intros ty K; discriminate K]. intros vs' [= <-] b Hb. apply numbers_ok in N.
          clear - N Hb. induction N as [|c z x zs A N IH]; [destruct Hb|]. destruct Hb as [->|Hb]; [eapply number_known; eauto|auto].
        * split; [split; [reflexivity|exists vs; reflexivity]|]. destruct (numbers_bad _ _ _ N) as (b & A & B). exists vs, b. auto.
      + destruct (set_elements _ _ _ _ _) as [[r e']|] eqn:S; [|discriminate]. intros [= <- <-]. apply set_elements_verdict in S; [|apply resized_len].
        destruct S as [_ [[-> S]|[-> (w & A & B)]]]; cbn [verdict suits names_in types_in].
        * split; [split; [reflexivity|exists tm; reflexivity]|]. split; [intros vs' K; discriminate K|]. intros ty [= <-]. exact S.
        * split; [split; [reflexivity|exists tm; reflexivity]|]. exists tm, w. auto.
    - destruct v as [n z|b|b|z|b|ty m|n x|x|x|x|x|x|x]; destruct (tf_type f) as [| | | | | | | | |tm| | |vs| | | |] eqn:P; cbn [kind_of];
        try (intros [= <- <-]; cbn; unfold is_enum, is_message; solve [intros [A B]; first [discriminate A | discriminate B | (destruct B as [q B]; discriminate B) | (destruct B as [[q B]|B]; discriminate B)] | tauto]).
      all: try (destruct (is_num _ n) eqn:Q; intros [= <- <-]; cbn [verdict suits]; [split; [split; [reflexivity|apply num_iff; exact Q]|split; [intros vs' K; discriminate K|intros ty' K; discriminate K]]|intros [_ K]; exact (num_not _ _ Q K)]).
      all: try (intros [= <- <-]; cbn; solve [intros [_ K]; repeat (destruct K as [K|K]; [discriminate K|]); exact K | split; [auto|split; [intros ? K; try discriminate K; intros ? []|intros ? K; discriminate K]]]).
      + intros [= <- <-]. cbn. unfold is_enum. split; [eauto|]. split; [intros vs' _ b []|intros ty K; discriminate K].
      + destruct (value_of vs b) as [z|] eqn:V; intros [= <- <-]; cbn [verdict suits names_in types_in].
        * split; [split; [reflexivity|left; exists vs; reflexivity]|]. split; [|intros ty K; discriminate K]. intros vs' [= <-] c [<-|[]]. apply value_of_some in V. eapply number_known; eauto.
        * split; [split; [reflexivity|left; exists vs; reflexivity]|]. exists vs, b. split; [reflexivity|]. split; [left; reflexivity|]. apply value_of_none. exact V.
      + destruct (Nat.eqb_spec ty tm) as [->|N].
        * destruct (set_message E fuel tm l m s) as [w|]; [|discriminate]. intros [= <- <-]. cbn. split; [split; [reflexivity|exists tm; reflexivity]|]. split; [intros vs' K; discriminate K|]. intros ty [= <-] ty' [<-|[]]. reflexivity.
        * intros [= <- <-]. cbn. split; [split; [reflexivity|exists tm; reflexivity]|]. exists tm, ty. auto.
  Qed.

  Lemma set_value_stores f l v s s' : ~ is_messages v -> set_value E fuel f l v s = Some (s', None) ->
    exists i, set_slot (dynf_of f) l i s = Some s' /\ means (tf_type f) v (input_value i).
  Proof.
    intros NM. unfold set_value. destruct (tf_repeated f) eqn:R.
    - destruct v as [n z|b|b|z|b|ty m|n x|x|x|x|x|x|x]; try (exfalso; apply NM; exact Logic.I); destruct (tf_type f) as [| | | | | | | | |tm| | |vs| | | |] eqn:P;
        try discriminate; unfold stored; try (destruct (is_num _ n); [|discriminate]).
      all: try (match goal with |- context [numbers_of ?w ?y] => destruct (numbers_of w y) as [zs ok] eqn:N; destruct ok; [|discriminate] end).
      all: match goal with |- context [set_slot _ _ ?i _] => destruct (set_slot (dynf_of f) l i s) as [q|] eqn:S; intros [= <-]; try discriminate; exists i; split; [exact S|]; cbn [input_value] end.
      all: try constructor.
      apply (MENames _ vs); [reflexivity|]. apply numbers_ok. exact N.
    - destruct v as [n z|b|b|z|b|ty m|n x|x|x|x|x|x|x]; try (exfalso; apply NM; exact Logic.I); destruct (tf_type f) as [| | | | | | | | |tm| | |vs| | | |] eqn:P;
        try discriminate; unfold stored; try (destruct (is_num _ n); [|discriminate]).
      all: try (match goal with |- context [value_of ?w ?y] => destruct (value_of w y) as [z|] eqn:N; [|discriminate] end).
      all: match goal with |- context [set_slot _ _ ?i _] => destruct (set_slot (dynf_of f) l i s) as [q|] eqn:S; intros [= <-]; try discriminate; exists i; split; [exact S|]; cbn [input_value] end.
      all: try (constructor; reflexivity).
      all: try constructor.
      apply (MEName _ vs); [reflexivity|]. apply value_of_some. exact N.
  Qed.

  Lemma stored_fails f l i s s' e : stored f l i s = Some (s', Some e) -> s' = s.
  Proof. unfold stored. destruct (set_slot _ _ _ _); intros [=]; auto. Qed.
  Lemma set_value_fails f l v s s' e : ~ by_element v -> set_value E fuel f l v s = Some (s', Some e) -> s' = s.
  Proof.
    intros NB. unfold set_value. destruct (tf_repeated f) eqn:R.
    - destruct v as [n z|b|b|z|b|ty m|n x|x|x|x|x|x|x]; try (exfalso; apply NB; exact Logic.I); destruct (tf_type f) as [| | | | | | | | |tm| | |vs| | | |] eqn:P;
        try (intros [= <- _]; reflexivity); try (destruct (is_num _ n); [|intros [= <- _]; reflexivity]); apply stored_fails.
    - destruct v as [n z|b|b|z|b|ty m|n x|x|x|x|x|x|x]; try (exfalso; apply NB; exact Logic.I); destruct (tf_type f) as [| | | | | | | | |tm| | |vs| | | |] eqn:P;
        try (intros [= <- _]; reflexivity); try (destruct (is_num _ n); [|intros [= <- _]; reflexivity]); try apply stored_fails.
      + destruct (value_of vs b); [apply stored_fails|intros [= <- _]; reflexivity].
      + destruct (ty =? tm)%nat; [destruct (set_message E fuel tm l m s); discriminate|intros [= <- _]; reflexivity].
  Qed.
  (** A list of another type changes nothing either. *)
  Lemma set_value_unsuited f l v s s' : set_value E fuel f l v s = Some (s', Some InvalidType) -> s' = s.
  Proof.
    intros H. pose proof (set_value_verdict _ _ _ _ _ _ H) as V. cbn [verdict] in V. revert H. destruct v as [n z|b|b|z|b|ty m|n x|x|x|x|x|x|x]; try (apply set_value_fails; exact (fun K => K)).
    - unfold set_value. destruct (tf_repeated f) eqn:R; destruct (tf_type f) as [| | | | | | | | |tm| | |vs| | | |] eqn:P; try (intros [= <-]; reflexivity). exfalso. apply V. cbn. split; [reflexivity|exists vs; reflexivity].
    - unfold set_value. destruct (tf_repeated f) eqn:R; destruct (tf_type f) as [| | | | | | | | |tm| | |vs| | | |] eqn:P; try (intros [= <-]; reflexivity). exfalso. apply V. cbn. split; [reflexivity|exists tm; reflexivity].
  Qed.

  Lemma set_value_total f l v s : ~ is_messages v -> exists r, set_value E fuel f l v s = Some r.
  Proof.
    intros NM. unfold set_value, stored. destruct v as [n z|b|b|z|b|ty m|n x|x|x|x|x|x|x]; try (exfalso; apply NM; exact Logic.I);
      destruct (tf_repeated f), (tf_type f); try (destruct (is_num _ n)); eauto.
    - destruct (value_of vs b); eauto.
    - destruct (numbers_of vs x) as [zs ok]. destruct ok; eauto.
  Qed.

  (** Everything a call leaves in a slot is well typed. *)
  Lemma ends_typed (HE : env_single E) ty : forall src cur r e, Forall (typed E ty) cur -> Forall (fun x => fst x = ty -> typed E ty (snd x)) src -> set_elements E fuel ty cur src = Some (r, e) -> Forall (typed E ty) r.
  Proof.
    induction src as [|[ty' m] src IH]; intros [|x cur] r e Hc Hs; cbn [set_elements]; try (intros [= <- _]; assumption).
    inversion Hc; subst. inversion Hs; subst. destruct (Nat.eqb_spec ty' ty) as [->|N]; [|intros [= <- _]; assumption].
    destruct (clone_message E fuel ty x m) as [q|] eqn:C; [|discriminate]. destruct (set_elements E fuel ty cur src) as [[rs e']|] eqn:S; [|discriminate]. intros [= <- _].
    constructor; [|eapply IH; eauto]. refine (proj1 (clone_good E fuel HE ty x m q _ _ C)); [assumption|]. apply H3. reflexivity.
  Qed.
End Set_.
