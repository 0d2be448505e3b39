(** Proofs about the operators of constexpr_wrapper. *)
From Verif Require Import Base BaseFacts CwOpModel.
Ltac Zify.zify_post_hook ::= idtac.

Lemma weq_iff a b : weq a b = true <-> a = b.
Proof.
  destruct a as [a1 a2 a3], b as [b1 b2 b3]. unfold weq. cbn. rewrite !andb_true_iff, !Z.eqb_eq.
  split; [intros [ [-> ->] ->]; reflexivity|intros E; injection E; auto].
Qed.

Lemma weq_refl a : weq a a = true.
Proof. now apply weq_iff. Qed.

(** The operand says of itself that it is a wrapper of its value: it is cw<value> or derived from it. *)
Definition canonical (o : operand) : Prop := o_base o = Some (wrap (o_value o)).

Lemma any_wrapper_iff o : any_wrapper o = true <-> canonical o.
Proof.
  unfold any_wrapper, derived_from, canonical. destruct (o_base o) as [w|]; [|split; discriminate].
  rewrite weq_iff. split; [now intros ->|congruence].
Qed.

Lemma single_candidate a b : (o_base a = None \/ canonical a) -> ~ (o_base a = None /\ o_base b = None) ->
  exists w, filter (lhs_wrapper a) (candidates a b) = [w].
Proof.
  unfold lhs_wrapper. intros Ha Hab. pose proof (any_wrapper_iff a) as C. unfold candidates.
  destruct (o_base a) as [v|] eqn:Ea.
  - destruct Ha as [Ha|Ha]; [discriminate|]. rewrite (proj2 C Ha).
    assert (D : forall w, derived_from a w = weq v w) by (intros w; unfold derived_from; now rewrite Ea).
    destruct (o_base b) as [w|].
    + destruct (weq v w) eqn:E; cbn [filter]; rewrite !D, weq_refl; cbn; [now exists v|]. rewrite E. now exists v.
    + cbn [filter]. rewrite D, weq_refl. now exists v.
  - assert (N : any_wrapper a = false) by (unfold any_wrapper, derived_from; now rewrite Ea).
    rewrite N. destruct (o_base b) as [w|]; [|now destruct Hab].
    cbn [filter negb]. rewrite orb_true_r. now exists w.
Qed.

Theorem binary_wrapped op a b c : (o_base a = None \/ canonical a) -> ~ (o_base a = None /\ o_base b = None) ->
  op (o_value a) (o_value b) = Some c -> binary op a b = Wrapped (wrap c).
Proof. intros Ha Hab E. unfold binary. rewrite E. destruct (single_candidate a b Ha Hab) as [w ->]. reflexivity. Qed.

Theorem binary_ambiguous_iff op a b c : op (o_value a) (o_value b) = Some c ->
  (binary op a b = Ambiguous <-> exists v w, o_base a = Some v /\ o_base b = Some w /\ v <> w /\ ~ canonical a).
Proof.
  intros E. unfold binary. rewrite E. split.
  - intros H. unfold candidates in H. destruct (o_base a) as [v|] eqn:Ea; destruct (o_base b) as [w|] eqn:Eb;
      cbn [filter] in H; try (destruct (lhs_wrapper _ _); discriminate); [|discriminate].
    destruct (weq v w) eqn:Ew; cbn [filter] in H; [destruct (lhs_wrapper _ _); discriminate|].
    exists v, w. split; [reflexivity|]. split; [reflexivity|]. split; [intros ->; rewrite weq_refl in Ew; discriminate|].
    intros C. apply any_wrapper_iff in C. unfold lhs_wrapper in H. rewrite C in H. unfold derived_from in H.
    rewrite Ea, weq_refl, Ew in H. discriminate.
  - intros (v & w & Ea & Eb & Hn & C). unfold candidates. rewrite Ea, Eb.
    assert (N : any_wrapper a = false) by (destruct (any_wrapper a) eqn:Q; [apply any_wrapper_iff in Q; contradiction|reflexivity]).
    destruct (weq v w) eqn:Ew; [apply weq_iff in Ew; contradiction|].
    cbn [filter]. unfold lhs_wrapper. rewrite N. cbn [negb]. now rewrite !orb_true_r.
Qed.

Theorem binary_cases op a b :
  (forall w, binary op a b = Wrapped w -> exists c, op (o_value a) (o_value b) = Some c /\ w = wrap c)
  /\ (forall r, binary op a b = Plain r -> r = match op (o_value a) (o_value b) with Some c => Ok c | None => Stop SUB end).
Proof.
  unfold binary. destruct (op (o_value a) (o_value b)) as [c|]; destruct (filter (lhs_wrapper a) (candidates a b)) as [|x [|y l]];
    split; intros ? E; try discriminate; try congruence; injection E as <-; eauto.
Qed.

Lemma explicit_refuted : exists op a b, o_base a <> None /\ o_base b <> None
  /\ (exists c, op (o_value a) (o_value b) = Some c) /\ binary op a b = Ambiguous.
Proof.
  exists (fun x y => Some (Z.max (fst x) (fst y), snd x + snd y)), (explicit_wrapper (mkw 4 5 8)), (cw (4, 1)).
  repeat split; try discriminate. eexists. reflexivity.
Qed.

(** Division of ints *)
Definition int_div (x y : constant) : option constant :=
  if snd y =? 0 then None else Some (4, Z.quot (snd x) (snd y)).

Lemma undefined_refuted : exists a b, canonical a /\ canonical b /\ binary int_div a b = Plain (Stop SUB).
Proof. exists (cw (4, 1)), (cw (4, 0)). repeat split. Qed.
