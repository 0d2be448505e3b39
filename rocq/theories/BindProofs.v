(** Proofs about structured bindings of simdized structs (C58). *)
From Verif Require Import Base QualModel QualSpec QualProofs BindModel BindSpec.

Lemma all_some_map : forall X (f : nat -> option X) is qs,
  all_some (map f is) = Some qs <-> Forall2 (fun i q => f i = Some q) is qs.
Proof.
  intros X f is. induction is as [|i is IH]; cbn; intros qs.
  - split; [intros [= <-]; constructor | inversion 1; reflexivity].
  - destruct (f i) as [q|] eqn:Hf.
    + split.
      * destruct (all_some (map f is)) as [qs'|]; [|discriminate]. cbn. intros [= <-].
        constructor; [assumption|]. now apply IH.
      * inversion 1; subst. apply IH in H4. rewrite H4. cbn. congruence.
    + split; [discriminate|]. inversion 1; subst. congruence.
Qed.

Lemma Forall2_seq : forall X Y (P : X -> Y -> Prop) (l : list X) (R : nat -> Y -> Prop) k ys,
  (forall i x y, nth_error l i = Some x -> (R (k + i)%nat y <-> P x y)) ->
  (Forall2 R (seq k (length l)) ys <-> Forall2 P l ys).
Proof.
  intros X Y P l. induction l as [|x l IH]; cbn; intros R k ys H.
  - split; inversion 1; constructor.
  - specialize (IH R (S k)).
    assert (HR : forall y, R k y <-> P x y).
    { intros y. rewrite <- (H 0%nat x y eq_refl). now rewrite Nat.add_0_r. }
    assert (HS : forall ys', Forall2 R (seq (S k) (length l)) ys' <-> Forall2 P l ys').
    { intros ys'. apply IH. intros i x' y Hi. rewrite <- (H (S i) x' y Hi).
      now replace (k + S i)%nat with (S k + i)%nat by lia. }
    split; inversion 1; subst; constructor; try (apply HR; assumption); apply HS; assumption.
Qed.

(** The type of one name: the declared type, const added for a const object. *)
Lemma bind_one_plain : forall B (w : simdized B) r c i m, (length (members w) <= 50)%nat ->
  nth_error (members w) i = Some m -> plain m -> forall n,
  (bind_one w r c i = Some n <->
   names_member c m n /\ (r <> LRef -> c = false -> q_const (n_type n) = true)).
Proof.
  intros B w r c i m Hl Hm [Hr Hmu] [q o].
  assert (HT : tuple_element w i c = Some (bound c false m)).
  { destruct w as [es|ms]; cbn [members] in *; unfold tuple_element.
    - rewrite nth_error_map in Hm. destruct (nth_error es i) as [b|]; [|discriminate].
      cbn in Hm. injection Hm as <-. cbn. destruct c; reflexivity.
    - rewrite (element_unqualified B unit i (mkt NoRef (mkq false false tt)) ms m Hl eq_refl eq_refl Hm). cbn.
      unfold bound. rewrite Hr, Hmu. destruct c, (t_obj (m_type m)) as [dc dv b]; cbn; rewrite ?orb_true_r, ?orb_false_r; reflexivity. }
  assert (HG : get_type w i (entity_lvalue r) c = Some (bound (negb (entity_lvalue r && negb c)) false m)).
  { unfold get_type, chosen_get. destruct w as [es|ms]; cbn in *.
    - rewrite nth_error_map in Hm. destruct (nth_error es i) as [b|]; [|discriminate].
      cbn in Hm. injection Hm as <-. cbn. destruct (entity_lvalue r), c; reflexivity.
    - set (k := negb (entity_lvalue r && negb c)).
      assert (HO : exists q, struct_get_type i (mkarg true k false) ms = Some q
                    /\ denotes k false m q).
      { apply (struct_get_ok B i (mkarg true k false) ms m Hl Hm). right. cbn. split; [reflexivity|].
        right. split; assumption. }
      destruct HO as (q' & Hq' & Hd). apply denotes_bound in Hd as ->. exact Hq'. }
  unfold bind_one. rewrite HT, HG. unfold ref_to, bound. rewrite Hr, Hmu.
  destruct m as [[r' [dc dv b]] mu]. cbn in *. subst.
  assert (HD : forall q, denotes c false (mkmember (mkt NoRef (mkq dc dv b)) false) q
                         <-> q = mkq (dc || (c && true)) (dv || false) b).
  { intros q'. split; [intros H; apply denotes_bound in H; exact H | intros ->; apply bound_denotes]. }
  unfold names_member. cbn. rewrite HD.
  destruct r, c, dc, dv; cbn; split; intros H; try discriminate; try (injection H as <- <-);
    try (destruct H as [[-> ->] H]); try (split; [split; reflexivity|]); cbn in *; try reflexivity; try congruence;
    try (assert (X : false = true) by (apply H; congruence); discriminate).
Qed.

Lemma bind_types_iff : forall B f (w : simdized B) lvalue const names ns, (length (members w) <= 50)%nat ->
  Forall plain (members w) ->
  (bind_types f w lvalue const names = Some ns <->
   declarable f lvalue const /\ names = length (members w)
   /\ Forall2 (fun m n => names_member (names_const f const) m n
                          /\ (moves f lvalue const -> q_const (n_type n) = true)) (members w) ns).
Proof.
  intros B f w lvalue const names ns Hl Hp.
  assert (HE : forall r c, entity f lvalue const = Some (r, c) ->
               c = names_const f const /\ declarable f lvalue const
               /\ ((r <> LRef /\ c = false) <-> moves f lvalue const)).
  { unfold declarable, moves. destruct f, lvalue, const; cbn; intros r c H; try discriminate; injection H as <- <-;
      (split; [reflexivity|]); (split; [try discriminate; tauto|]); intuition congruence. }
  assert (HN : entity f lvalue const = None <-> ~ declarable f lvalue const).
  { unfold declarable. destruct f, lvalue, const; cbn; split; intros H; try discriminate; try reflexivity;
      try (exfalso; apply H; intros; try discriminate; tauto).
    intros HH. destruct (HH eq_refl); discriminate. }
  assert (HS : tuple_size w = length (members w)) by (destruct w; cbn; rewrite ?map_length; reflexivity).
  unfold bind_types. destruct (entity f lvalue const) as [[r c]|] eqn:He.
  - destruct (HE r c eq_refl) as (-> & Hd & Hmv). rewrite HS.
    destruct (Nat.eqb_spec names (length (members w))) as [->|Hne].
    + rewrite all_some_map.
      rewrite (Forall2_seq _ _ (fun m n => names_member (names_const f const) m n
                                 /\ (moves f lvalue const -> q_const (n_type n) = true))).
      * tauto.
      * intros i m q Hi. cbn. pose proof (proj1 (Forall_forall _ _) Hp m (nth_error_In _ _ Hi)) as Hpm.
        rewrite (bind_one_plain B w r (names_const f const) i m Hl Hi Hpm q).
        split; intros [H1 H2]; (split; [exact H1|]); intros H3.
        -- apply Hmv in H3. apply H2; tauto.
        -- intros H4. apply H2. apply Hmv. tauto.
    + split; [discriminate|]. tauto.
  - destruct HN as [HN _]. specialize (HN eq_refl). split; [discriminate|]. tauto.
Qed.

Lemma binds_iff : forall B f (w : simdized B) lvalue const names, (length (members w) <= 50)%nat ->
  Forall plain (members w) ->
  (binds_members f w lvalue const names <->
   declarable f lvalue const /\ names = length (members w)
   /\ (moves f lvalue const -> Forall (fun m => q_const (t_obj (m_type m)) = true) (members w))).
Proof.
  intros B f w lvalue const names Hl Hp. unfold binds_members. split.
  - intros (qs & Hq & _). apply bind_types_iff in Hq; [|assumption..]. destruct Hq as (Hd & Hn & HF).
    split; [assumption|]. split; [assumption|]. intros Hmv.
    assert (Hc : names_const f const = false).
    { unfold moves in Hmv. destruct f; cbn; intuition congruence. }
    rewrite Hc in HF. clear Hn Hl. induction HF as [|m q ms qs [ [H1 _] H2] HF IH]; constructor.
    + inversion Hp; subst. destruct H1 as [_ H1]. destruct H3 as [Hr _]. specialize (H1 Hr).
      destruct H1 as (_ & H1 & _). specialize (H2 Hmv). apply H1 in H2. destruct H2 as [H2|[H2 _]]; [assumption|discriminate].
    + apply IH. now inversion Hp.
  - intros (Hd & Hn & HF). set (qs := map (fun m => mkname (bound (names_const f const) false m) (q_base (t_obj (m_type m)))) (members w)).
    assert (HQ : Forall2 (names_member (names_const f const)) (members w) qs).
    { unfold qs. clear. induction (members w); cbn; constructor; [split; [apply bound_denotes|reflexivity]|assumption]. }
    exists qs. split; [|exact HQ]. apply bind_types_iff; [assumption..|]. split; [assumption|]. split; [assumption|].
    clear Hn Hl Hd. unfold qs in *. clear qs.
    induction (members w) as [|m ms IH]; cbn in *; constructor.
    + split; [split; [apply bound_denotes|reflexivity]|]. intros Hmv. specialize (HF Hmv). inversion HF; subst. inversion Hp; subst.
      destruct H3 as [Hr _]. unfold bound. rewrite Hr. cbn. now rewrite H1.
    + apply IH; [now inversion Hp | intros Hmv; specialize (HF Hmv); now inversion HF | now inversion HQ].
Qed.

Lemma binds_ok : forall B f (w : simdized B) lvalue const, (length (members w) <= 50)%nat ->
  Forall plain (members w) -> declarable f lvalue const -> ~ moves f lvalue const ->
  binds_members f w lvalue const (length (members w)).
Proof. intros. apply binds_iff; [assumption..|]. tauto. Qed.
