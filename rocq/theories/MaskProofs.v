(** Facts about masks and mask reductions. *)
From Verif Require Import Base BaseFacts MaskModel.
From Coq Require Import ZifyBool ZifyNat.
Ltac Zify.zify_post_hook ::= idtac.

(** Specification: lane [i] of a mask is set. *)
Definition set_at (k : list bool) (i : Z) : Prop := 0 <= i /\ nth_error k (Z.to_nat i) = Some true.
Definition unset_at (k : list bool) (i : Z) : Prop := 0 <= i /\ nth_error k (Z.to_nat i) = Some false.
(** The number of set lanes. *)
Definition count_set (k : list bool) : Z := Z.of_nat (count_occ bool_dec k true).

Lemma mask_at_nth k i b : nth_error k i = Some b -> mask_at k (Z.of_nat i) = Ok b.
Proof.
  intros H. assert (i < length k)%nat by (apply nth_error_Some; congruence).
  unfold mask_at, precondition. rewrite Nat2Z.id, H.
  destruct (Z.leb_spec 0 (Z.of_nat i)), (Z.ltb_spec (Z.of_nat i) (Z.of_nat (length k))); try lia. reflexivity.
Qed.

(** A loop over the lanes of [post], which follow [pre]. *)
Lemma for_up_lanes {A} (g : Z -> bool -> option A) fall : forall post pre,
  for_up (Z.of_nat (length pre)) (length post)
    (fun i => bindR (mask_at (pre ++ post) i) (fun b => Ok (g i b))) fall
  = match find (fun '(i, b) => match g i b with Some _ => true | None => false end)
               (combine (map Z.of_nat (seq (length pre) (length post))) post) with
    | Some (i, b) => match g i b with Some r => Ok r | None => fall end
    | None => fall end.
Proof.
  induction post as [|b post IH]; intros pre; [reflexivity|]. cbn [length for_up seq map combine find].
  rewrite (mask_at_nth (pre ++ b :: post) (length pre) b)
    by (rewrite nth_error_app2, Nat.sub_diag by lia; reflexivity).
  cbn [bindR]. destruct (g (Z.of_nat (length pre)) b) eqn:Eg; [now rewrite Eg|].
  specialize (IH (pre ++ [b])). rewrite app_length in IH. cbn [length] in IH. rewrite <- app_assoc in IH.
  cbn [app] in IH. replace (Z.of_nat (length pre + 1)) with (Z.of_nat (length pre) + 1) in IH by lia.
  replace (length pre + 1)%nat with (S (length pre)) in IH by lia. exact IH.
Qed.

Lemma all_of_correct k : all_of k = Ok (forallb (fun b => b) k).
Proof.
  unfold all_of. pose proof (for_up_lanes (fun _ b => if negb b then Some false else None) (Ok true) k []) as H.
  cbn [length app] in H. change (Z.of_nat 0) with 0 in H. rewrite H. clear H. generalize 0%nat as s.
  induction k as [|b k IH]; intros s; [reflexivity|]. cbn [length seq map combine find forallb].
  destruct b; cbn [negb andb]; [apply IH|reflexivity].
Qed.

Lemma any_of_correct k : any_of k = Ok (existsb (fun b => b) k).
Proof.
  unfold any_of. pose proof (for_up_lanes (fun _ b => if b then Some true else None) (Ok false) k []) as H.
  cbn [length app] in H. change (Z.of_nat 0) with 0 in H. rewrite H. clear H. generalize 0%nat as s.
  induction k as [|b k IH]; intros s; [reflexivity|]. cbn [length seq map combine find existsb].
  destruct b; cbn [orb]; [reflexivity|apply IH].
Qed.

Lemma none_of_correct k : none_of k = Ok (negb (existsb (fun b => b) k)).
Proof.
  unfold none_of. pose proof (for_up_lanes (fun _ b => if b then Some false else None) (Ok true) k []) as H.
  cbn [length app] in H. change (Z.of_nat 0) with 0 in H. rewrite H. clear H. generalize 0%nat as s.
  induction k as [|b k IH]; intros s; [reflexivity|]. cbn [length seq map combine find existsb].
  destruct b; cbn [orb]; [reflexivity|apply IH].
Qed.

Lemma some_of_correct k : k <> [] ->
  some_of k = Ok (existsb (fun b => b) k && negb (forallb (fun b => b) k)).
Proof.
  intros Hk. destruct k as [|b0 k]; [congruence|]. unfold some_of.
  rewrite (mask_at_nth (b0 :: k) 0 b0 eq_refl : mask_at (b0 :: k) 0 = Ok b0). cbn [bindR].
  replace (length (b0 :: k) - 1)%nat with (length k) by (cbn [length]; lia).
  pose proof (for_up_lanes (fun _ b => if negb (Bool.eqb b0 b) then Some true else None) (Ok false) k [b0]) as H.
  cbn [length app] in H. change (Z.of_nat 1) with 1 in H. rewrite H. clear H. generalize 1%nat as s.
  cbn [existsb forallb]. clear Hk. induction k as [|b k IH]; intros s.
  - destruct b0; reflexivity.
  - cbn [length seq map combine find existsb forallb].
    destruct b0, b; cbn [Bool.eqb negb orb andb] in *; try reflexivity; exact (IH (S s)).
Qed.

Lemma popcount_loop_correct : forall post pre cnt,
  popcount_loop (pre ++ post) (Z.of_nat (length pre)) (length post) cnt = Ok (cnt + count_set post).
Proof.
  induction post as [|b post IH]; intros pre cnt; cbn [length popcount_loop].
  - unfold count_set. cbn. f_equal. lia.
  - rewrite (mask_at_nth (pre ++ b :: post) (length pre) b)
      by (rewrite nth_error_app2, Nat.sub_diag by lia; reflexivity).
    cbn [bindR]. specialize (IH (pre ++ [b]) (cnt + if b then 1 else 0)).
    rewrite app_length, <- app_assoc in IH. cbn [length app] in IH.
    replace (Z.of_nat (length pre) + 1) with (Z.of_nat (length pre + 1)) by lia.
    rewrite IH. f_equal. unfold count_set. cbn [count_occ]. destruct b.
    + destruct (bool_dec true true); [lia|congruence].
    + destruct (bool_dec false true); [discriminate|lia].
Qed.

Lemma popcount_correct k : k <> [] -> popcount k = Ok (count_set k).
Proof.
  intros Hk. destruct k as [|b0 k]; [congruence|]. unfold popcount.
  rewrite (mask_at_nth (b0 :: k) 0 b0 eq_refl : mask_at (b0 :: k) 0 = Ok b0). cbn [bindR].
  replace (length (b0 :: k) - 1)%nat with (length k) by (cbn [length]; lia).
  pose proof (popcount_loop_correct k [b0] (if b0 then 1 else 0)) as H. cbn [length app] in H.
  change (Z.of_nat 1) with 1 in H. rewrite H. f_equal. unfold count_set. cbn [count_occ]. destruct b0.
  - destruct (bool_dec true true); [lia|congruence].
  - destruct (bool_dec false true); [discriminate|lia].
Qed.

Lemma existsb_set k : existsb (fun b => b) k = true -> exists i, set_at k i.
Proof.
  intros H. apply existsb_exists in H. destruct H as (b & Hin & Hb). destruct b; [|discriminate].
  apply In_nth_error in Hin. destruct Hin as [i Hi]. exists (Z.of_nat i). split; [lia|]. now rewrite Nat2Z.id.
Qed.

Lemma set_existsb k i : set_at k i -> existsb (fun b => b) k = true.
Proof. intros [_ H]. apply existsb_exists. exists true. split; [|reflexivity]. now apply nth_error_In in H. Qed.

(** The loop of find_first_set: the first set lane of the rest. *)
Lemma find_first_loop : forall post pre, existsb (fun b => b) post = true ->
  exists i, for_up (Z.of_nat (length pre)) (length post)
      (fun i => bindR (mask_at (pre ++ post) i) (fun b => Ok (if b then Some i else None))) (Stop SUB)
      = Ok (Z.of_nat (length pre + i)) /\ nth_error post i = Some true
    /\ forall j, (j < i)%nat -> nth_error post j = Some false.
Proof.
  induction post as [|b post IH]; intros pre H; [discriminate|]. cbn [length for_up].
  rewrite (mask_at_nth (pre ++ b :: post) (length pre) b)
    by (rewrite nth_error_app2, Nat.sub_diag by lia; reflexivity).
  cbn [bindR]. destruct b.
  - exists 0%nat. rewrite Nat.add_0_r. split; [reflexivity|]. split; [reflexivity|]. intros j Hj. lia.
  - destruct (IH (pre ++ [false]) H) as (i & E & Hi & Hlt). exists (S i).
    rewrite app_length in E. cbn [length] in E. rewrite <- app_assoc in E. cbn [app] in E.
    replace (Z.of_nat (length pre) + 1) with (Z.of_nat (length pre + 1)) by lia. rewrite E.
    split; [do 2 f_equal; lia|]. split; [assumption|]. intros [|j] Hj; [reflexivity|]. apply Hlt. lia.
Qed.

Lemma find_first_set_correct k : (exists i, set_at k i) ->
  exists i, find_first_set k = Ok i /\ set_at k i /\ forall j, 0 <= j < i -> unset_at k j.
Proof.
  intros [i0 H0]. apply set_existsb in H0. unfold find_first_set. rewrite any_of_correct, H0. cbn [bindR precondition].
  destruct (find_first_loop k [] H0) as (i & E & Hi & Hlt). cbn [length app Nat.add] in E.
  change (Z.of_nat 0) with 0 in E. exists (Z.of_nat i). split; [exact E|].
  split; [split; [lia|now rewrite Nat2Z.id]|]. intros j Hj. split; [lia|]. apply Hlt. lia.
Qed.

Lemma find_last_loop k : forall n, (n <= length k)%nat -> existsb (fun b => b) (firstn n k) = true ->
  exists i, for_down n (fun i => bindR (mask_at k i) (fun b => Ok (if b then Some i else None))) (Stop SUB)
      = Ok (Z.of_nat i) /\ nth_error k i = Some true
    /\ forall j, (i < j < n)%nat -> nth_error k j = Some false.
Proof.
  induction n as [|n IH]; intros Hn H; [discriminate|]. cbn [for_down].
  destruct (nth_error k n) as [b|] eqn:En; [|apply nth_error_None in En; lia].
  rewrite (mask_at_nth k n b En). cbn [bindR]. destruct b.
  - exists n. split; [reflexivity|]. split; [assumption|]. intros j Hj. lia.
  - destruct IH as (i & E & Hi & Hlt); [lia| |].
    + assert (Hf : firstn (S n) k = firstn n k ++ [false]).
      { clear - En. revert k En. induction n as [|n IH]; intros [|x k] En; try discriminate.
        - cbn in En. injection En as ->. reflexivity.
        - cbn [firstn app] in *. cbn [nth_error] in En. now rewrite (IH k En). }
      rewrite Hf, existsb_app in H. cbn [existsb] in H. rewrite !orb_false_r in H. exact H.
    + exists i. split; [exact E|]. split; [assumption|]. intros j Hj.
      destruct (Nat.eq_dec j n) as [->|]; [assumption|]. apply Hlt. lia.
Qed.

Lemma find_last_set_correct k : (exists i, set_at k i) ->
  exists i, find_last_set k = Ok i /\ set_at k i /\ forall j, i < j < Z.of_nat (length k) -> unset_at k j.
Proof.
  intros [i0 H0]. apply set_existsb in H0. unfold find_last_set. rewrite any_of_correct, H0. cbn [bindR precondition].
  destruct (find_last_loop k (length k)) as (i & E & Hi & Hlt); [lia|now rewrite firstn_all|].
  exists (Z.of_nat i). split; [exact E|]. split; [split; [lia|now rewrite Nat2Z.id]|].
  intros j Hj. split; [lia|]. apply Hlt. lia.
Qed.

Lemma find_set_empty k : (forall i, ~ set_at k i) -> find_first_set k = Stop STrap /\ find_last_set k = Stop STrap.
Proof.
  intros H. assert (E : existsb (fun b => b) k = false).
  { destruct (existsb (fun b => b) k) eqn:E; [|reflexivity]. apply existsb_set in E. destruct E as [i Hi]. now apply H in Hi. }
  unfold find_first_set, find_last_set. rewrite any_of_correct, E. split; reflexivity.
Qed.

(** Logical meaning. *)
Lemma forallb_meaning k : forallb (fun b => b) k = true <-> forall i, 0 <= i < Z.of_nat (length k) -> set_at k i.
Proof.
  split.
  - intros H i Hi. rewrite forallb_forall in H. split; [lia|].
    destruct (nth_error k (Z.to_nat i)) as [b|] eqn:E; [|apply nth_error_None in E; lia].
    apply nth_error_In in E. apply H in E. now rewrite E.
  - intros H. apply forallb_forall. intros b Hb. apply In_nth_error in Hb. destruct Hb as [i Hi].
    assert (i < length k)%nat by (apply nth_error_Some; congruence).
    destruct (H (Z.of_nat i) ltac:(lia)) as [_ Hs]. rewrite Nat2Z.id in Hs. congruence.
Qed.

Lemma existsb_meaning k : existsb (fun b => b) k = true <-> exists i, set_at k i.
Proof. split; [apply existsb_set|]. intros [i Hi]. now apply set_existsb in Hi. Qed.

Lemma all_of_meaning k : exists b, all_of k = Ok b /\
  (b = true <-> forall i, 0 <= i < Z.of_nat (length k) -> set_at k i).
Proof. eexists. split; [apply all_of_correct|apply forallb_meaning]. Qed.

Lemma any_of_meaning k : exists b, any_of k = Ok b /\ (b = true <-> exists i, set_at k i).
Proof. eexists. split; [apply any_of_correct|apply existsb_meaning]. Qed.

Lemma none_of_meaning k : exists b, none_of k = Ok b /\ (b = true <-> forall i, ~ set_at k i).
Proof.
  eexists. split; [apply none_of_correct|]. rewrite negb_true_iff, <- not_true_iff_false, existsb_meaning.
  split; [intros H i Hi; apply H; eauto|]. intros H [i Hi]. now apply (H i).
Qed.

Lemma some_of_meaning k : k <> [] -> exists b, some_of k = Ok b /\
  (b = true <-> (exists i, set_at k i) /\ exists i, unset_at k i).
Proof.
  intros Hk. eexists. split; [now apply some_of_correct|]. rewrite andb_true_iff, existsb_meaning.
  assert (E : negb (forallb (fun b => b) k) = true <-> exists i, unset_at k i).
  { rewrite negb_true_iff. split.
    - intros H. clear Hk. induction k as [|b k IH]; [discriminate|]. cbn [forallb] in H. destruct b.
      + cbn [andb] in H. destruct (IH H) as (i & Hi & Hn). exists (i + 1). split; [lia|].
        replace (Z.to_nat (i + 1)) with (S (Z.to_nat i)) by lia. exact Hn.
      + exists 0. split; [lia|reflexivity].
    - intros (i & Hi & Hn). apply not_true_iff_false. intros Hf. rewrite forallb_forall in Hf.
      apply nth_error_In in Hn. apply Hf in Hn. discriminate. }
  rewrite E. reflexivity.
Qed.

(** Relations between the reductions. *)
Lemma all_none k : all_of k = none_of (mask_not k).
Proof.
  rewrite all_of_correct, none_of_correct. f_equal. unfold mask_not.
  induction k as [|b k IH]; [reflexivity|]. cbn [map forallb existsb]. rewrite IH. destruct b; reflexivity.
Qed.

Lemma count_set_bounds k : 0 <= count_set k <= Z.of_nat (length k).
Proof.
  unfold count_set. induction k as [|b k IH]; cbn [count_occ length]; [lia|].
  destruct (bool_dec b true); lia.
Qed.

Lemma popcount_all k : k <> [] -> exists c a, popcount k = Ok c /\ all_of k = Ok a
  /\ 0 <= c <= Z.of_nat (length k) /\ (c = Z.of_nat (length k) <-> a = true).
Proof.
  intros Hk. do 2 eexists. split; [now apply popcount_correct|]. split; [apply all_of_correct|].
  split; [apply count_set_bounds|]. unfold count_set.
  clear Hk. induction k as [|b k IH]; [split; reflexivity|]. cbn [count_occ length forallb].
  pose proof (count_set_bounds k) as Hb. unfold count_set in Hb.
  destruct b.
  - destruct (bool_dec true true); [|congruence]. cbn [andb]. rewrite <- IH. lia.
  - destruct (bool_dec false true); [discriminate|]. split; [lia|discriminate].
Qed.

Lemma popcount_any k : k <> [] -> exists c a, popcount k = Ok c /\ any_of k = Ok a /\ (0 < c <-> a = true).
Proof.
  intros Hk. do 2 eexists. split; [now apply popcount_correct|]. split; [apply any_of_correct|].
  unfold count_set. clear Hk. induction k as [|b k IH]; [split; [cbn; lia|discriminate]|]. cbn [count_occ existsb].
  destruct b.
  - destruct (bool_dec true true); [|congruence]. cbn [orb]. split; [reflexivity|lia].
  - destruct (bool_dec false true); [discriminate|]. cbn [orb]. exact IH.
Qed.

Lemma popcount_not k : k <> [] -> exists c d, popcount k = Ok c /\ popcount (mask_not k) = Ok d
  /\ c + d = Z.of_nat (length k).
Proof.
  intros Hk. do 2 eexists. split; [now apply popcount_correct|]. split.
  - apply popcount_correct. destruct k; [congruence|discriminate].
  - unfold count_set, mask_not. clear Hk. induction k as [|b k IH]; [reflexivity|]. cbn [map count_occ length].
    destruct b; cbn [negb]; destruct (bool_dec true true), (bool_dec false true); try congruence; lia.
Qed.

(** One lane: the scalar mask overloads. *)
Lemma scalar_reductions b :
  all_of [b] = Ok (s_all_of b) /\ any_of [b] = Ok (s_any_of b) /\ none_of [b] = Ok (s_none_of b)
  /\ some_of [b] = Ok (s_some_of b) /\ popcount [b] = Ok (s_popcount b)
  /\ find_first_set [b] = s_find_first_set b /\ find_last_set [b] = s_find_last_set b.
Proof. destruct b; repeat split. Qed.

Lemma bool_reductions b :
  all_of [b] = Ok (b_all_of b) /\ any_of [b] = Ok (b_any_of b) /\ none_of [b] = Ok (b_none_of b)
  /\ some_of [b] = Ok (b_some_of b) /\ popcount [b] = Ok (b_popcount b)
  /\ (b = true -> find_first_set [b] = b_find_first_set b /\ find_last_set [b] = b_find_last_set b)
  /\ b_find_first_set b = Ok 0 /\ b_find_last_set b = Ok 0.
Proof. destruct b; repeat split; discriminate. Qed.

(** Lane-wise operators. *)
Lemma mask_bin_lanes o : forall x y i, length x = length y ->
  nth_error (mask_bin o x y) i
  = match nth_error x i, nth_error y i with Some a, Some b => Some (mask_op1 o a b) | _, _ => None end.
Proof.
  induction x as [|a x IH]; intros [|b y] i H; try discriminate; [now destruct i|].
  destruct i as [|i]; [reflexivity|]. cbn [mask_bin nth_error]. apply IH. cbn in H. lia.
Qed.

Lemma mask_not_meaning k : length (mask_not k) = length k
  /\ forall i, 0 <= i < Z.of_nat (length k) -> (set_at (mask_not k) i <-> ~ set_at k i).
Proof.
  split; [apply map_length|]. intros i Hi. unfold set_at, mask_not.
  destruct (nth_error k (Z.to_nat i)) as [b|] eqn:E.
  - rewrite (map_nth_error negb _ _ E). destruct b; cbn; split.
    + intros [_ H]. discriminate.
    + intros H. exfalso. apply H. split; [lia|reflexivity].
    + intros _ [_ H]. discriminate.
    + intros _. split; [lia|reflexivity].
  - apply nth_error_None in E. lia.
Qed.

Lemma mask_bin_length o : forall x y, length x = length y -> length (mask_bin o x y) = length x.
Proof.
  induction x as [|a x IH]; intros [|b y] H; try discriminate; [reflexivity|].
  cbn [mask_bin length]. rewrite IH; cbn in H; lia.
Qed.

Lemma mask_bin_meaning x y i : length x = length y -> 0 <= i < Z.of_nat (length x) ->
  (forall o, length (mask_bin o x y) = length x)
  /\ (set_at (mask_bin MAndAnd x y) i <-> set_at x i /\ set_at y i)
  /\ (set_at (mask_bin MAnd x y) i <-> set_at x i /\ set_at y i)
  /\ (set_at (mask_bin MOrOr x y) i <-> set_at x i \/ set_at y i)
  /\ (set_at (mask_bin MOr x y) i <-> set_at x i \/ set_at y i)
  /\ (set_at (mask_bin MXor x y) i <-> (set_at x i /\ ~ set_at y i) \/ (~ set_at x i /\ set_at y i))
  /\ (set_at (mask_bin MEq x y) i <-> (set_at x i <-> set_at y i))
  /\ (set_at (mask_bin MNe x y) i <-> ~ (set_at x i <-> set_at y i)).
Proof.
  intros L Hi. split; [intros o; now apply mask_bin_length|].
  unfold set_at. rewrite !mask_bin_lanes by assumption.
  destruct (nth_error x (Z.to_nat i)) as [a|] eqn:E; [|apply nth_error_None in E; lia].
  destruct (nth_error y (Z.to_nat i)) as [b|] eqn:E'; [|apply nth_error_None in E'; lia].
  assert (P : forall c, (0 <= i /\ Some c = Some true) <-> c = true).
  { intros c. split; [intros [_ H]; now injection H|intros ->; split; [lia|reflexivity] ]. }
  rewrite !P. destruct a, b; cbn; intuition (try discriminate; try reflexivity).
Qed.
