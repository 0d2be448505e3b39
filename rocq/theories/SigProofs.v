(** Proofs for C59. *)
From Verif Require Import Base SigModel SigSpec.

Lemma nat_eqb_refl n : Nat.eqb n n = true.
Proof. apply Nat.eqb_refl. Qed.

Lemma ty_eqb_refl t : ty_eqb t t = true.
Proof.
  destruct t as [e | e n | k c]; cbn; rewrite ?Nat.eqb_refl; try reflexivity.
  destruct k as [| [] | |]; reflexivity.
Qed.

Lemma ty_eqb_eq s t : ty_eqb s t = true -> s = t.
Proof.
  destruct s as [e | e n | k c], t as [f | f m | j d]; cbn; try discriminate.
  - intros H. apply Nat.eqb_eq in H. congruence.
  - intros H. apply andb_prop in H. destruct H as [H1 H2]. apply Nat.eqb_eq in H1, H2. congruence.
  - intros H. apply andb_prop in H. destruct H as [H1 H2]. apply Nat.eqb_eq in H2. subst d.
    destruct k as [| [] | |], j as [| [] | |]; cbn in H1; congruence.
Qed.

Ltac open_arg a := let t := fresh "t" in let b := fresh "b" in destruct a as [t b]; cbn [arg_ty arg_lvalue] in *.

Ltac kinds :=
  unfold an_output, an_iterator, a_range, a_value, a_zip, iterator_type, range_type, value_type, array_of in *;
  repeat match goal with
         | H : _ /\ _ |- _ => destruct H
         | H : _ \/ _ |- _ => destruct H
         | H : exists _, _ |- _ => destruct H
         | a : arg |- _ => open_arg a
         end; subst.

(** Decide every comparison left in a resolution. *)
Ltac decide_all :=
  repeat (cbn; rewrite ?Nat.eqb_refl;
          match goal with
          | |- context [Nat.eqb ?x ?y] =>
              lazymatch x with y => fail | _ => destruct (Nat.eqb_spec x y); subst end
          | b : bool |- _ => destruct b
          | k : kind |- _ => destruct k
          end); cbn; rewrite ?Nat.eqb_refl; cbn.

Lemma documented_decided a args o :
  documented a args o ->
  resolve a args = Chosen o \/ exists o', array_clash a args o' /\ resolve a args = Chosen o' /\ o' <> o.
Proof.
  intros H; destruct H; kinds; unfold resolve, viable, more_specialized; decide_all; try (left; reflexivity).
  all: right; eexists; split; [|split; [reflexivity|discriminate]]; econstructor; eexists; reflexivity.
Qed.

Lemma clash_resolution a args o : array_clash a args o -> resolve a args = Chosen o.
Proof.
  intros H. destruct H as [e e' [tr lr] [ts ls] [td ld] op Hr Hs Hd | e [tr lr] [ts ls] init red tra Hr Hs];
    unfold array_of in *; cbn [arg_ty] in *.
  - destruct Hr as [n ->], Hs as [m ->], Hd as [k ->].
    unfold resolve, viable. destruct ld, ls; cbn; rewrite Nat.eqb_refl, ?andb_false_r; reflexivity.
  - destruct Hr as [n ->], Hs as [m ->].
    unfold resolve, viable. cbn. rewrite Nat.eqb_refl, ?andb_false_r. reflexivity.
Qed.

Lemma deducible_length ps : forall args env, deducible ps args env = true -> length args = length ps.
Proof.
  induction ps as [|p ps IH]; intros [|a args] env H; cbn in *; try discriminate; try reflexivity.
  - destruct p; discriminate.
  - f_equal. destruct p as [f v c|].
    + destruct (deduced f a); [|discriminate].
      apply andb_prop in H. destruct H as [_ H].
      destruct (lookup v env).
      * apply andb_prop in H. destruct H as [_ H]. exact (IH _ _ H).
      * exact (IH _ _ H).
    + destruct (arg_ty a) as [| |[]]; try discriminate. exact (IH _ _ H).
Qed.

Lemma viable_length args o : viable args o = true -> length args = length (signature o).
Proof. apply deducible_length. Qed.

Lemma never_ambiguous a args : resolve a args <> Ambiguous.
Proof.
  unfold resolve. destruct a; cbn [overloads filter];
  repeat match goal with
         | |- context [if viable args ?o then _ else _] =>
             let E := fresh "V" in destruct (viable args o) eqn:E;
               [let L := fresh "L" in pose proof (viable_length _ _ E) as L; cbn [signature length] in L|]
         end; try congruence;
  try (intros H; vm_compute in H; discriminate H).
Qed.

Lemma overload_iff a args o :
  documented a args o -> (resolve a args = Chosen o <-> ~ exists o', array_clash a args o').
Proof.
  intros H. destruct (documented_decided a args o H) as [E | (o' & C & E & N)].
  - split; [|intros _; exact E]. intros _ [o' C].
    pose proof (clash_resolution _ _ _ C) as E'. rewrite E in E'. injection E' as ->.
    destruct C; inversion H; subst; kinds; congruence.
  - split; [rewrite E; congruence|]. intros H'. exfalso. apply H'. eauto.
Qed.

(** Which calls of two overload sets clash: none with iterators. *)
Lemma no_clash_iterators a args o o' :
  documented a args o -> iterator_task o <> None -> ~ array_clash a args o'.
Proof. intros H T C. destruct C; inversion H; subst; cbn in T; kinds; congruence. Qed.

Lemma iterators_resolved a args o :
  documented a args o -> iterator_task o <> None -> resolve a args = Chosen o.
Proof.
  intros H T. apply (overload_iff _ _ _ H). intros [o' C]. exact (no_clash_iterators _ _ _ _ H T C).
Qed.

Lemma iterator_bodies o t :
  iterator_task o = Some t -> exists c, body o = Some c /\ std_body o = Some c /\ task_of c = Some t.
Proof. destruct o; cbn; intros [= <-]; eexists; repeat split. Qed.

Lemma range_bodies o o' s : as_iterators o = Some (o', s) -> same_call (body o) (body o') s.
Proof. destruct o; cbn; intros [= <- <-]; do 3 eexists; repeat split. Qed.

Lemma body_common a args o :
  documented a args o -> o <> TZip ->
  (body_deducible args o = true <-> (forall r, nth_error args 0 = Some r -> is_common r)).
Proof.
  intros H Z. unfold is_common.
  destruct H; kinds; unfold body_deducible; cbn; rewrite ?Nat.eqb_refl; try congruence.
  all: try (split; [intros _ r [= <-] b' c'; discriminate | reflexivity]).
  all: split; [intros -> r [= <-] b' c' [= <- _]; reflexivity | intros E; eapply E; reflexivity].
Qed.

Lemma resolve_viable a args o : resolve a args = Chosen o -> In o (overloads a) /\ viable args o = true.
Proof.
  unfold resolve. intros H. apply filter_In.
  destruct (filter (viable args) (overloads a)) as [|x [|y os] ] eqn:E; [discriminate| |].
  - injection H as ->. now left.
  - set (l := x :: y :: os) in *.
    match type of H with match filter ?f l with _ => _ end = _ => destruct (filter f l) as [|z [|w r] ] eqn:F end;
      try discriminate.
    injection H as ->. assert (K : In o [o]) by now left. rewrite <- F in K. apply filter_In in K. apply K.
Qed.

Lemma iterator_plays t l : simd_execution_iterator (decay t) = true -> iterator_or_array (mkarg t l).
Proof.
  unfold iterator_or_array, an_iterator, iterator_type, array_of.
  destruct t as [e | e n | [] c]; cbn; try discriminate; eauto 8.
Qed.

Lemma range_plays t l : simd_execution_range t = true -> a_range (mkarg t l).
Proof.
  unfold a_range, range_type. destruct t as [e | e n | [] c]; cbn; try discriminate; eauto 8.
Qed.

Lemma selected_takes a args o : resolve a args = Chosen o ->
  In o (overloads a) /\ Forall2 plays (roles o) args /\ pair_of_iterators o args.
Proof.
  intros H. apply resolve_viable in H. destruct H as [I V]. split; [exact I|]. clear I a.
  unfold viable, pair_of_iterators in *.
  destruct o; cbn [signature] in V;
  repeat match goal with
         | V : deducible (_ :: _) ?l _ = true |- _ =>
             destruct l as [|[? ?] ?]; [discriminate V|]; cbn in V
         | V : match ?l with [] => _ | _ :: _ => _ end = true |- _ =>
             is_var l; destruct l as [|[? ?] ?]; try discriminate V; cbn in V
         | V : (_ && _)%bool = true |- _ => apply andb_prop in V; destruct V
         | V : match (if ?b then _ else _) with _ => _ end = true |- _ => destruct b eqn:?; [|discriminate V]
         | V : match ?t with Class _ _ => _ | _ => _ end = true |- _ =>
             destruct t as [| |[]] eqn:?; try discriminate V
         end;
  (split; [cbn [roles]; repeat (apply Forall2_cons || apply Forall2_nil); cbn [plays];
           auto using iterator_plays, range_plays; try (split; [apply range_plays; assumption|assumption]);
           try (eexists; reflexivity)
          | cbn; intros f la E0 E1 E2; try discriminate E0; injection E1 as <-; injection E2 as <-; cbn;
            now apply ty_eqb_eq]).
Qed.
