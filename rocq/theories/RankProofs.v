(** Proofs for C22: the implicit conversions between simds on the usual platforms. *)
From Verif Require Import Base LaneModel IntModel ShapeModel ValueModel ValueProofs ValueExact AcceptModel RankSpec.

Lemma dm_preserving d e f : is_value_preserving (mklang 32 true) false (p_aty (dm_platform d) e) (p_aty (dm_platform d) f) = true
  <-> (forall m x, has_value (p_aty (dm_platform d) e) m x -> has_value (p_aty (dm_platform d) f) m x).
Proof.
  rewrite (value_preserving_exact (mklang 32 true) false).
  - split; [|auto]. intros [H|(p & emax & t & E1 & E2 & _ & H)]; [exact H|]. exfalso.
    destruct d as [c l ld]. destruct l, ld, e; try discriminate E1; destruct f; try discriminate E2;
      cbn in E1, E2; injection E1 as <- <-; injection E2 as <-; cbn in H; lia.
  - cbv; repeat split; discriminate.
  - destruct d as [c l ld]. destruct e, l, ld; cbn; lia.
  - destruct d as [c l ld]. destruct f, l, ld; cbn; lia.
  - discriminate.
  - destruct d as [c l ld]. destruct e, ld; discriminate.
Qed.

Definition all_elts : list elt :=
  [Char; SChar; UChar; Short; UShort; Int; UInt; Long; ULong; LLong; ULLong; Float; Double; LDouble].
Definition all_dms : list data_model :=
  flat_map (fun l => [mkdm true true l; mkdm true false l; mkdm false true l; mkdm false false l])
    [Binary64; X87_12; X87_16; Binary128].
Definition ranks_ok (e f : elt) : bool := match rank e, rank f with Some r, Some s => r <? s | _, _ => true end.

Definition rank_caseb (d : data_model) (e f : elt) : bool :=
  if elt_eqb e f then true
  else if Bool.eqb (is_higher_integer_rank false (p_size (dm_platform d) f) (p_size (dm_platform d) e)
                      (elt_eqb (p_sum (dm_platform d) f e) f))
                   (ranks_ok e f && negb (elt_eqb e LDouble && elt_eqb f Double)) then true
  else negb (is_value_preserving (mklang 32 true) false (p_aty (dm_platform d) e) (p_aty (dm_platform d) f)).

Lemma rank_cases : forall d e f, rank_caseb d e f = true.
Proof.
  assert (E : forallb (fun d => forallb (fun e => forallb (rank_caseb d e) all_elts) all_elts) all_dms = true)
    by (vm_compute; reflexivity).
  intros d e f. rewrite forallb_forall in E. specialize (E d). rewrite forallb_forall in E.
  specialize (E ltac:(destruct d as [[] [] []]; cbn; tauto) e). rewrite forallb_forall in E.
  apply E; [destruct e|destruct f]; cbn; tauto.
Qed.

Lemma rank_case d e f : e <> f ->
  is_value_preserving (mklang 32 true) false (p_aty (dm_platform d) e) (p_aty (dm_platform d) f) = true ->
  is_higher_integer_rank false (p_size (dm_platform d) f) (p_size (dm_platform d) e) (elt_eqb (p_sum (dm_platform d) f e) f)
  = ranks_ok e f && negb (elt_eqb e LDouble && elt_eqb f Double).
Proof.
  intros N H. pose proof (rank_cases d e f) as E. unfold rank_caseb in E. rewrite H in E.
  assert (Ee : elt_eqb e f = true -> e = f) by (clear; destruct e, f; (discriminate || reflexivity)).
  destruct (elt_eqb e f); [now destruct N; apply Ee|].
  match type of E with (if ?b then _ else _) = _ => destruct b eqn:Eb; [|discriminate E] end.
  now apply Bool.eqb_prop.
Qed.

Lemma ts_rule d e f n : n <> 1%nat ->
  converts (dm_platform d) (Simd e n) (Simd f n) = true
  <-> e = f \/ (ts_implicit (dm_platform d) e f /\ ~ (e = LDouble /\ f = Double)).
Proof.
  intros Hn. cbn [converts]. rewrite Nat.eqb_refl. cbn [andb]. rewrite (proj2 (Nat.eqb_neq n 1) Hn). cbn [negb andb].
  assert (Ee : elt_eqb e f = true <-> e = f) by (destruct e, f; split; (discriminate || reflexivity)).
  rewrite orb_true_iff, Ee, andb_true_iff. change (p_lang (dm_platform d)) with (mklang 32 true). rewrite dm_preserving.
  unfold ts_implicit.
  assert (Er : (forall r s, rank e = Some r -> rank f = Some s -> r < s) <-> ranks_ok e f = true).
  { unfold ranks_ok. destruct (rank e) as [r|], (rank f) as [s|]; try (split; [reflexivity|discriminate]).
    rewrite Z.ltb_lt. split; [intros H; now apply H|intros H r' s' [= <-] [= <-]; exact H]. }
  rewrite Er. clear Er.
  assert (K := rank_case d e f).
  split.
  - intros [H|[H1 H2] ]; [now left|]. destruct (elt_eqb e f) eqn:E; [left; now apply Ee|]. right.
    assert (N : e <> f) by (intros X; apply Ee in X; congruence).
    rewrite (K N (proj2 (dm_preserving d e f) H1)) in H2. apply andb_true_iff in H2. destruct H2 as [R X].
    repeat split; try assumption. intros [-> ->]. discriminate X.
  - intros [H|[(N & H & R) X] ]; [now left|]. right. split; [exact H|].
    rewrite (K N (proj2 (dm_preserving d e f) H)), R. cbn [andb]. destruct e; try reflexivity. destruct f; try reflexivity.
    destruct X. now split.
Qed.

Lemma long_double_refuted : exists d, ts_implicit (dm_platform d) LDouble Double
  /\ forall n, n <> 1%nat -> converts (dm_platform d) (Simd LDouble n) (Simd Double n) = false.
Proof.
  exists (mkdm true true Binary64). split.
  - split; [discriminate|]. split; [auto|]. intros r s H. discriminate H.
  - intros n Hn. cbn [converts]. rewrite Nat.eqb_refl, (proj2 (Nat.eqb_neq n 1) Hn). reflexivity.
Qed.
