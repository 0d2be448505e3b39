(** Facts about simd_permute. *)
From Verif Require Import Base BaseFacts PermuteModel PermuteSpec.
From Coq Require Import ZifyBool ZifyNat.
Ltac Zify.zify_post_hook ::= idtac.

Lemma lanes_of_in n i : In i (lanes_of n) <-> 0 <= i < n.
Proof.
  unfold lanes_of. rewrite in_map_iff. split.
  - intros (k & <- & Hk). apply in_seq in Hk. lia.
  - intros Hi. exists (Z.to_nat i). split; [lia|]. apply in_seq. lia.
Qed.

Lemma lanes_of_length n : length (lanes_of n) = Z.to_nat n.
Proof. unfold lanes_of. now rewrite map_length, seq_length. Qed.

Lemma lanes_of_nth n i : 0 <= i < n -> nth_error (lanes_of n) (Z.to_nat i) = Some i.
Proof.
  intros Hi. unfold lanes_of. rewrite nth_error_map.
  rewrite (nth_error_nth' _ 0%nat) by (rewrite seq_length; lia).
  rewrite seq_nth by lia. cbn. f_equal. lia.
Qed.

Lemma mapR_ok {A B} (f : A -> res B) (g : A -> B) l :
  (forall x, In x l -> f x = Ok (g x)) -> mapR f l = Ok (map g l).
Proof.
  induction l as [|x l IH]; intros H; [reflexivity|]. cbn [mapR map].
  rewrite H by (left; reflexivity). cbn [bindR]. rewrite IH; [reflexivity|]. intros y Hy. apply H. now right.
Qed.

Lemma mapR_ext {A B} (f g : A -> res B) l : (forall x, In x l -> f x = g x) -> mapR f l = mapR g l.
Proof.
  induction l as [|x l IH]; intros H; [reflexivity|]. cbn [mapR].
  rewrite H by (left; reflexivity). rewrite IH; [reflexivity|]. intros y Hy. apply H. now right.
Qed.

Lemma mapR_stop {A B} (f : A -> res B) s l :
  (forall x, In x l -> (exists y, f x = Ok y) \/ f x = Stop s) ->
  (exists x, In x l /\ f x = Stop s) -> mapR f l = Stop s.
Proof.
  induction l as [|x l IH]; intros H [y [Hy Ey]]; [contradiction|]. cbn [mapR].
  destruct (H x (or_introl eq_refl)) as [[z Ez]|Es].
  - rewrite Ez. cbn [bindR]. rewrite IH; [reflexivity| |].
    + intros a Ha. apply H. now right.
    + exists y. destruct Hy as [->|Hy]; [congruence|]. auto.
  - rewrite Es. reflexivity.
Qed.

Lemma mapR_length {A B} (f : A -> res B) l : forall r, mapR f l = Ok r -> length r = length l.
Proof.
  induction l as [|x l IH]; intros r H; cbn [mapR] in H; [now injection H as <-|].
  destruct (f x); [|discriminate]. cbn [bindR] in H. destruct (mapR f l); [|discriminate].
  cbn [bindR] in H. injection H as <-. cbn. f_equal. now apply IH.
Qed.

Lemma mapR_nth {A B} (f : A -> res B) l : forall r i x, mapR f l = Ok r -> nth_error l i = Some x ->
  exists y, f x = Ok y /\ nth_error r i = Some y.
Proof.
  induction l as [|a l IH]; intros r i x H Hi; [now destruct i|]. cbn [mapR] in H.
  destruct (f a) eqn:Ea; [|discriminate]. cbn [bindR] in H. destruct (mapR f l) eqn:El; [|discriminate].
  cbn [bindR] in H. injection H as <-. destruct i as [|i]; cbn in Hi |- *.
  - injection Hi as ->. eauto.
  - now apply (IH _ i x eq_refl).
Qed.

Section Facts.
  Context {T : Type} (zero : T).

  Lemma nth_error_at v i : 0 <= i < Z.of_nat (length v) ->
    nth_error v (Z.to_nat i) = Some (@nth T (Z.to_nat i) v zero).
  Proof. intros H. apply nth_error_nth'. lia. Qed.

  Definition pick (v : list T) (j : Z) : lane T :=
    if j =? permute_zero then Val zero else if j =? permute_uninit then Any
    else if j <? 0 then Val (nth (Z.to_nat (Z.of_nat (length v) + j)) v zero)
    else Val (nth (Z.to_nat j) v zero).

  Lemma pick_selects v j : size_ok v -> valid_index (Z.of_nat (length v)) j -> selects zero v j (pick v j).
  Proof.
    unfold size_ok, valid_index. intros Hs Hj. unfold selects, pick.
    change permute_uninit with 2147483646. change permute_zero with 2147483647.
    repeat split; intros H; destruct (Z.eqb_spec j 2147483647); try lia; try reflexivity;
      destruct (Z.eqb_spec j 2147483646); try lia; destruct (Z.ltb_spec j 0); try lia; reflexivity.
  Qed.

  Lemma int_ce_ok x : - 2147483648 <= x <= 2147483647 -> int_ce x = Ok x.
  Proof.
    intros H. unfold int_ce, int_ok, int_min. change (2 ^ 31) with 2147483648.
    destruct (Z.leb_spec (- (2147483648)) x), (Z.ltb_spec x 2147483648); try lia. reflexivity.
  Qed.

  Lemma generic_lane_pick f v i j : size_ok v -> call_idx f (Z.of_nat (length v)) i = Ok j ->
    valid_index (Z.of_nat (length v)) j -> generic_lane zero f v i = Ok (pick v j).
  Proof.
    unfold size_ok, valid_index. intros Hs Hc Hj. unfold generic_lane, pick. rewrite Hc. cbn [bindR].
    change permute_uninit with 2147483646. change permute_zero with 2147483647.
    destruct (Z.eqb_spec j 2147483647); [reflexivity|]. destruct (Z.eqb_spec j 2147483646); [reflexivity|].
    destruct (Z.ltb_spec j 0).
    - rewrite int_ce_ok by lia. cbn [bindR]. destruct (Z.leb_spec (- j) (Z.of_nat (length v))); [|lia].
      rewrite nth_error_at by lia. reflexivity.
    - destruct (Z.ltb_spec j (Z.of_nat (length v))); [|lia]. rewrite nth_error_at by lia. reflexivity.
  Qed.

  Lemma generic_lane_bad f v i j : size_ok v -> call_idx f (Z.of_nat (length v)) i = Ok j ->
    ~ valid_index (Z.of_nat (length v)) j -> generic_lane zero f v i = Stop SIllFormed.
  Proof.
    unfold size_ok, valid_index. intros Hs Hc Hj. unfold generic_lane. rewrite Hc. cbn [bindR].
    change permute_uninit with 2147483646. change permute_zero with 2147483647.
    destruct (Z.eqb_spec j 2147483647); [lia|]. destruct (Z.eqb_spec j 2147483646); [lia|].
    destruct (Z.ltb_spec j 0).
    - unfold int_ce. destruct (int_ok (- j)); [|reflexivity]. cbn [bindR].
      destruct (Z.leb_spec (- j) (Z.of_nat (length v))); [lia|reflexivity].
    - destruct (Z.ltb_spec j (Z.of_nat (length v))); [lia|reflexivity].
  Qed.

  (** Both paths do the same thing for every index function. *)
  Lemma shuffle_is_generic f v n : size_ok v -> permute_shuffle zero f v n = permute_generic zero f v n.
  Proof.
    unfold size_ok. intros Hs. unfold permute_shuffle, permute_generic. apply mapR_ext. intros i _.
    unfold generic_lane. destruct (call_idx f _ i) as [j|s]; [|reflexivity]. cbn [bindR].
    unfold adj_idx. set (size := Z.of_nat (length v)) in *.
    assert (Hlen : length (repeat zero (length v)) = length v) by apply repeat_length.
    assert (Hin : forall k, 0 <= k < size ->
      shuffle_lane v (repeat zero (length v)) k
      = match nth_error v (Z.to_nat k) with Some x => Ok (Val x) | None => Stop SUB end).
    { intros k Hk. unfold shuffle_lane. destruct (Z.eqb_spec k (-1)); [lia|].
      rewrite Hlen. destruct (Z.leb_spec 0 k); [|lia].
      destruct (Z.ltb_spec k (Z.of_nat (length v + length v))); [|lia]. cbn [andb].
      rewrite nth_error_app1 by lia. reflexivity. }
    destruct (Z.eqb_spec j permute_zero) as [E|N].
    - cbn [bindR]. unfold shuffle_lane. destruct (Z.eqb_spec size (-1)); [lia|].
      rewrite Hlen. destruct (Z.leb_spec 0 size); [|lia].
      destruct (Z.ltb_spec size (Z.of_nat (length v + length v))); [|lia]. cbn [andb].
      rewrite nth_error_app2 by lia. replace (Z.to_nat size - length v)%nat with 0%nat by lia.
      destruct (length v); [lia|]. reflexivity.
    - destruct (Z.eqb_spec j permute_uninit) as [E2|N2]; [reflexivity|].
      destruct (Z.ltb_spec j 0).
      + destruct (int_ce (- j)) as [mj|s] eqn:Ei; [|reflexivity]. cbn [bindR].
        assert (mj = - j) by (unfold int_ce in Ei; destruct (int_ok (- j)); congruence). subst mj.
        destruct (Z.leb_spec (- j) size); [|reflexivity]. cbn [bindR]. apply Hin. lia.
      + destruct (Z.ltb_spec j size); [|reflexivity]. cbn [bindR]. apply Hin. lia.
  Qed.

  Definition no_avx2 (e : penv) (f : pfun) (v : list T) : Prop :=
    match pf_rot f with Some (true, _) => ~ is_avx2_case e v | _ => True end.

  Lemma permute_any_path e f v n : size_ok v -> no_avx2 e f v ->
    simd_permute zero e f v n = permute_generic zero f v n.
  Proof.
    intros Hs Hna. unfold simd_permute. destruct (e_gnuc e && _ && _ && _); [|reflexivity].
    assert (E : e_avx2 e && e_float e && (Z.of_nat (length v) * e_sizeof e =? 32)
                && match pf_rot f with Some (even, _) => even | None => false end = false).
    { unfold no_avx2, is_avx2_case in Hna. destruct (pf_rot f) as [[[|] o]|]; rewrite ?andb_false_r; try reflexivity.
      rewrite andb_true_r. destruct (e_avx2 e); [|reflexivity]. destruct (e_float e); [|reflexivity].
      cbn [andb]. destruct (Z.eqb_spec (Z.of_nat (length v) * e_sizeof e) 32); [|reflexivity]. tauto. }
    rewrite E. destruct (e_shuffle e && has_single_bit (n * e_sizeof e)); [now apply shuffle_is_generic|reflexivity].
  Qed.

  Lemma generic_picks f v n idx : size_ok v ->
    (forall i, 0 <= i < n -> call_idx f (Z.of_nat (length v)) i = Ok (idx i)
                             /\ valid_index (Z.of_nat (length v)) (idx i)) ->
    permute_generic zero f v n = Ok (map (fun i => pick v (idx i)) (lanes_of n)).
  Proof.
    intros Hs H. unfold permute_generic. apply mapR_ok. intros i Hi. apply lanes_of_in in Hi.
    destruct (H i Hi). now apply generic_lane_pick.
  Qed.

  Lemma simd_permute_picks e f v n : size_ok v -> no_avx2 e f v -> 0 <= n ->
    (forall i, 0 <= i < n -> exists j, call_idx f (Z.of_nat (length v)) i = Ok j
                                       /\ valid_index (Z.of_nat (length v)) j) ->
    exists r, simd_permute zero e f v n = Ok r /\ Z.of_nat (length r) = n /\
      forall i, 0 <= i < n -> exists j l, call_idx f (Z.of_nat (length v)) i = Ok j
        /\ nth_error r (Z.to_nat i) = Some l /\ selects zero v j l.
  Proof.
    intros Hs Hna Hn H. rewrite permute_any_path by assumption.
    set (idx := fun i => match call_idx f (Z.of_nat (length v)) i with Ok j => j | Stop _ => 0 end).
    assert (Hidx : forall i, 0 <= i < n -> call_idx f (Z.of_nat (length v)) i = Ok (idx i)
                     /\ valid_index (Z.of_nat (length v)) (idx i)).
    { intros i Hi. destruct (H i Hi) as (j & E & V). unfold idx. rewrite E. auto. }
    rewrite (generic_picks f v n idx Hs Hidx). eexists. split; [reflexivity|].
    split; [rewrite map_length, lanes_of_length; lia|]. intros i Hi.
    exists (idx i), (pick v (idx i)). destruct (Hidx i Hi). split; [assumption|].
    split; [|now apply pick_selects]. rewrite nth_error_map, lanes_of_nth by assumption. reflexivity.
  Qed.

  Lemma simd_permute_rejects e f v n : size_ok v -> no_avx2 e f v ->
    (forall i, 0 <= i < n -> call_idx f (Z.of_nat (length v)) i <> Stop SUB
               /\ call_idx f (Z.of_nat (length v)) i <> Stop STrap
               /\ call_idx f (Z.of_nat (length v)) i <> Stop SDiverge) ->
    (exists i, 0 <= i < n /\ forall j, call_idx f (Z.of_nat (length v)) i = Ok j ->
                                       ~ valid_index (Z.of_nat (length v)) j) ->
    simd_permute zero e f v n = Stop SIllFormed.
  Proof.
    intros Hs Hna H (i & Hi & Hbad). rewrite permute_any_path by assumption.
    assert (Hd : forall j, valid_index (Z.of_nat (length v)) j \/ ~ valid_index (Z.of_nat (length v)) j).
    { intros j. unfold valid_index. lia. }
    apply mapR_stop.
    - intros k Hk. apply lanes_of_in in Hk. destruct (call_idx f (Z.of_nat (length v)) k) as [j|s] eqn:E.
      + destruct (Hd j) as [V|V]; [left; eexists; now apply generic_lane_pick with (1 := Hs) (2 := E)|].
        right. now apply generic_lane_bad with (1 := Hs) (2 := E).
      + right. unfold generic_lane. rewrite E. destruct (H k Hk) as (H1 & H2 & H3).
        destruct s; try reflexivity; congruence.
    - exists i. split; [now apply lanes_of_in|].
      destruct (call_idx f (Z.of_nat (length v)) i) as [j|s] eqn:E.
      + apply generic_lane_bad with (1 := Hs) (2 := E). now apply Hbad.
      + unfold generic_lane. rewrite E. destruct (H i Hi) as (H1 & H2 & H3).
        destruct s; try reflexivity; congruence.
  Qed.

  (** Lane formula from an index formula. *)
  Lemma permute_lanes e f v n (idx g : Z -> Z) : size_ok v -> no_avx2 e f v -> 0 <= n ->
    (forall i, 0 <= i < n -> call_idx f (Z.of_nat (length v)) i = Ok (idx i)) ->
    (forall i, 0 <= i < n -> 0 <= g i < Z.of_nat (length v)
               /\ (idx i = g i \/ idx i = g i - Z.of_nat (length v))) ->
    exists r, simd_permute zero e f v n = Ok r /\ lanes_are n (fun i => at_lane zero v (g i)) r.
  Proof.
    intros Hs Hna Hn Hc Hg. rewrite permute_any_path by assumption. unfold size_ok in Hs.
    rewrite (generic_picks f v n idx Hs).
    2:{ intros i Hi. split; [now apply Hc|]. unfold valid_index. destruct (Hg i Hi). lia. }
    eexists. split; [reflexivity|]. split; [rewrite map_length, lanes_of_length; lia|].
    intros i Hi. rewrite nth_error_map, lanes_of_nth by assumption. cbn. f_equal.
    destruct (Hg i Hi) as [H1 H2]. unfold pick. change permute_uninit with 2147483646.
    change permute_zero with 2147483647. destruct (Z.eqb_spec (idx i) 2147483647); [lia|].
    destruct (Z.eqb_spec (idx i) 2147483646); [lia|]. unfold at_lane.
    destruct (Z.ltb_spec (idx i) 0); do 3 f_equal; lia.
  Qed.

  Lemma lanes_are_unique n g (r1 r2 : list (lane T)) : lanes_are n g r1 -> lanes_are n g r2 -> r1 = r2.
  Proof.
    intros [L1 H1] [L2 H2]. apply nth_error_ext. intros k. destruct (lt_dec k (length r1)).
    - replace k with (Z.to_nat (Z.of_nat k)) by lia. rewrite H1, H2 by lia. reflexivity.
    - transitivity (@None (lane T)); [|symmetry]; apply nth_error_None; lia.
  Qed.

  Lemma lanes_are_ext n g h (r : list (lane T)) : lanes_are n g r -> (forall i, 0 <= i < n -> g i = h i) ->
    lanes_are n h r.
  Proof. intros [L H] E. split; [assumption|]. intros i Hi. rewrite H, E by assumption. reflexivity. Qed.

  (** ** Predefined permutations *)
  Lemma i32_small x : 0 <= x < 2 ^ 31 -> i32 x = x.
  Proof.
    intros H. unfold i32. rewrite Z.mod_small; [lia|]. change (2 ^ 32) with (2 ^ 31 + 2 ^ 31). lia.
  Qed.
  Lemma u32_small x : 0 <= x < 2 ^ 32 -> u32 x = x.
  Proof. intros H. unfold u32. apply Z.mod_small. lia. Qed.

  Notation size v := (Z.of_nat (length v)).

  Lemma reverse_lanes e v : size_ok v ->
    exists r, simd_permute zero e reverse v (size v) = Ok r
              /\ lanes_are (size v) (fun i => at_lane zero v (size v - 1 - i)) r.
  Proof.
    intros Hs. pose proof Hs as Hs'. unfold size_ok in Hs'.
    apply (permute_lanes e reverse v (size v) (fun i => -1 - i)); [assumption|exact I|lia| |].
    - intros i Hi. cbn [call_idx pf_one reverse]. apply int_ce_ok. lia.
    - intros i Hi. lia.
  Qed.

  Lemma broadcast_lanes e v p n : size_ok v -> 0 <= n -> - size v <= p < size v ->
    exists r, simd_permute zero e (broadcast p) v n = Ok r
              /\ lanes_are n (fun _ => at_lane zero v (if p <? 0 then size v + p else p)) r.
  Proof.
    intros Hs Hn Hp.
    apply (permute_lanes e (broadcast p) v n (fun _ => p)); [assumption|exact I|lia|reflexivity|].
    intros i Hi. destruct (Z.ltb_spec p 0); lia.
  Qed.

  Lemma land_not1 x : 0 <= x < 2 ^ 32 -> Z.land x (u32 (Z.lnot 1)) = x - x mod 2.
  Proof.
    intros H. replace (u32 (Z.lnot 1)) with (Z.ldiff (Z.ones 32) 1) by reflexivity.
    assert (E : Z.land x (Z.ldiff (Z.ones 32) 1) = Z.ldiff x 1).
    { apply Z.bits_inj. intros k. rewrite Z.land_spec, !Z.ldiff_spec.
      destruct (Z.testbit x k) eqn:Ek; [|reflexivity]. cbn [andb].
      destruct (Z_lt_le_dec k 0) as [Hk|Hk]; [rewrite (Z.testbit_neg_r x) in Ek by assumption; discriminate|].
      destruct (Z_lt_le_dec k 32) as [Hk2|Hk2]; [rewrite Z.ones_spec_low by lia; reflexivity|].
      exfalso. rewrite Z.bits_above_log2 in Ek; [discriminate|lia|].
      destruct (Z.eq_dec x 0) as [->|]; [cbn; lia|]. apply Z.log2_lt_pow2; [lia|].
      apply Z.lt_le_trans with (2 ^ 32); [lia|]. apply Z.pow_le_mono_r; lia. }
    rewrite E. change 1 with (Z.ones 1) at 1. rewrite Z.ldiff_ones_r by lia.
    rewrite Z.shiftl_mul_pow2, Z.shiftr_div_pow2 by lia. change (2 ^ 1) with 2.
    pose proof (Z.div_mod x 2). lia.
  Qed.

  Lemma lor_1 x : Z.lor x 1 = x - x mod 2 + 1.
  Proof.
    rewrite Zmod_odd. destruct (Z.odd x) eqn:Eo.
    - apply Z.odd_spec in Eo. destruct Eo as [q ->]. replace (Z.lor (2 * q + 1) 1) with (2 * q + 1); [lia|].
      symmetry. apply Z.bits_inj. intros k. rewrite Z.lor_spec.
      destruct (Z_lt_le_dec k 0) as [Hk|Hk]; [now rewrite !Z.testbit_neg_r by assumption|].
      destruct (Z.eq_dec k 0) as [->|Hk0]; [rewrite !Z.testbit_odd_0; reflexivity|].
      replace (Z.testbit 1 k) with false; [apply orb_false_r|].
      symmetry. apply (Z.bits_above_log2 1 k); cbn; lia.
    - assert (He : Z.even x = true) by (rewrite <- Z.negb_odd, Eo; reflexivity).
      apply Z.even_spec in He. destruct He as [q ->].
      replace (2 * q - 0 + 1) with (2 * q + 1) by lia. apply Z.bits_inj. intros k. rewrite Z.lor_spec.
      destruct (Z_lt_le_dec k 0) as [Hk|Hk]; [now rewrite !Z.testbit_neg_r by assumption|].
      destruct (Z.eq_dec k 0) as [->|Hk0]; [rewrite Z.testbit_odd_0, Z.testbit_even_0; reflexivity|].
      replace k with (Z.succ (k - 1)) by lia.
      rewrite Z.testbit_odd_succ, Z.testbit_even_succ by lia.
      replace (Z.testbit 1 (Z.succ (k - 1))) with false; [apply orb_false_r|].
      symmetry. apply (Z.bits_above_log2 1); cbn; lia.
  Qed.

  Lemma duplicate_even_lanes e v : size_ok v ->
    exists r, simd_permute zero e duplicate_even v (size v) = Ok r
              /\ lanes_are (size v) (fun i => at_lane zero v (i - i mod 2)) r.
  Proof.
    intros Hs. pose proof Hs as Hs'. unfold size_ok in Hs'.
    apply (permute_lanes e duplicate_even v (size v) (fun i => i - i mod 2)); [assumption|exact I|lia| |].
    - intros i Hi. assert (0 <= i mod 2 <= i) by (split; [apply Z.mod_pos_bound; lia|apply Z.mod_le; lia]).
      cbn [call_idx pf_one duplicate_even]. f_equal. change (2 ^ 32) with 4294967296 in *.
      rewrite (u32_small i) by (change (2 ^ 32) with 4294967296; lia).
      rewrite land_not1 by (change (2 ^ 32) with 4294967296; lia). apply i32_small.
      change (2 ^ 31) with 2147483648. lia.
    - intros i Hi. assert (0 <= i mod 2 <= i) by (split; [apply Z.mod_pos_bound; lia|apply Z.mod_le; lia]). lia.
  Qed.

  Lemma duplicate_odd_call i : 0 <= i < 2147483646 ->
    call_idx duplicate_odd 0 i = Ok (i - i mod 2 + 1).
  Proof.
    intros Hi. assert (0 <= i mod 2 < 2) by (apply Z.mod_pos_bound; lia).
    assert (i mod 2 <= i) by (apply Z.mod_le; lia).
    cbn [call_idx pf_one duplicate_odd]. f_equal.
    rewrite (u32_small i) by (change (2 ^ 32) with 4294967296; lia).
    rewrite lor_1. apply i32_small. change (2 ^ 31) with 2147483648. lia.
  Qed.

  Lemma duplicate_odd_lanes e v : size_ok v -> size v mod 2 = 0 ->
    exists r, simd_permute zero e duplicate_odd v (size v) = Ok r
              /\ lanes_are (size v) (fun i => at_lane zero v (i - i mod 2 + 1)) r.
  Proof.
    intros Hs He. pose proof Hs as Hs'. unfold size_ok in Hs'.
    apply (permute_lanes e duplicate_odd v (size v) (fun i => i - i mod 2 + 1)); [assumption|exact I|lia| |].
    - intros i Hi. apply (duplicate_odd_call i). lia.
    - intros i Hi. assert (0 <= i mod 2 < 2) by (apply Z.mod_pos_bound; lia).
      assert (i mod 2 <= i) by (apply Z.mod_le; lia). split; [|lia]. split; [lia|].
      pose proof (Z.div_mod i 2 ltac:(lia)). pose proof (Z.div_mod (size v) 2 ltac:(lia)). lia.
  Qed.

  Lemma duplicate_odd_rejects e v : size_ok v -> size v mod 2 = 1 ->
    simd_permute zero e duplicate_odd v (size v) = Stop SIllFormed.
  Proof.
    intros Hs Ho. pose proof Hs as Hs'. unfold size_ok in Hs'.
    apply simd_permute_rejects; [assumption|exact I| |].
    - intros i Hi. change (call_idx duplicate_odd (size v) i) with (call_idx duplicate_odd 0 i).
      rewrite duplicate_odd_call by lia. repeat split; discriminate.
    - exists (size v - 1). split; [lia|].
      change (call_idx duplicate_odd (size v) (size v - 1)) with (call_idx duplicate_odd 0 (size v - 1)).
      rewrite duplicate_odd_call by lia. intros j E. injection E as <-.
      replace ((size v - 1) mod 2) with 0.
      2:{ pose proof (Z.div_mod (size v) 2 ltac:(lia)). apply (Z.mod_unique _ _ (size v / 2)); lia. }
      unfold valid_index. lia.
  Qed.

  Lemma lxor_pow2 i k : 0 <= i -> 0 <= k ->
    Z.lxor i (2 ^ k) = if i mod (2 * 2 ^ k) <? 2 ^ k then i + 2 ^ k else i - 2 ^ k.
  Proof.
    intros Hi Hk. pose proof (pow2_pos k Hk).
    assert (Hmod : i mod (2 * 2 ^ k) = (if Z.testbit i k then 2 ^ k else 0) + i mod 2 ^ k).
    { rewrite Z.mul_comm. rewrite Z.rem_mul_r by lia.
      rewrite (Z.testbit_odd i k), Z.shiftr_div_pow2 by lia. rewrite Zmod_odd.
      destruct (Z.odd (i / 2 ^ k)); lia. }
    assert (Hmb : 0 <= i mod 2 ^ k < 2 ^ k) by (apply Z.mod_pos_bound; lia).
    destruct (Z.testbit i k) eqn:Eb.
    - destruct (Z.ltb_spec (i mod (2 * 2 ^ k)) (2 ^ k)); [lia|].
      (* i - 2^k *) rewrite Z.sub_nocarry_ldiff.
      + apply Z.bits_inj. intros n. rewrite Z.lxor_spec, Z.ldiff_spec, Z.pow2_bits_eqb by lia.
        destruct (Z.eqb_spec k n) as [<-|Hn]; [now rewrite Eb|]. destruct (Z.testbit i n); reflexivity.
      + apply Z.bits_inj. intros n. rewrite Z.ldiff_spec, Z.pow2_bits_eqb, Z.bits_0 by lia.
        destruct (Z.eqb_spec k n) as [<-|Hn]; [now rewrite Eb|reflexivity].
    - destruct (Z.ltb_spec (i mod (2 * 2 ^ k)) (2 ^ k)); [|lia].
      rewrite Z.add_nocarry_lxor; [reflexivity|].
      apply Z.bits_inj. intros n. rewrite Z.land_spec, Z.pow2_bits_eqb, Z.bits_0 by lia.
      destruct (Z.eqb_spec k n) as [<-|Hn]; [now rewrite Eb|apply andb_false_r].
  Qed.

  Lemma swap_index N s i : 0 < N -> (2 * N | s) -> 0 <= i < s ->
    0 <= (if i mod (2 * N) <? N then i + N else i - N) < s.
  Proof.
    intros HN [q Hq] Hi. assert (Hmb : 0 <= i mod (2 * N) < 2 * N) by (apply Z.mod_pos_bound; lia).
    pose proof (Z.div_mod i (2 * N) ltac:(lia)). set (d := i / (2 * N)) in *.
    assert (0 <= d) by (apply Z.div_pos; lia).
    assert (d < q) by (apply Z.div_lt_upper_bound; lia).
    destruct (Z.ltb_spec (i mod (2 * N)) N); nia.
  Qed.

  Lemma swap_lanes e v N : size_ok v -> 0 < N -> (2 * N | size v) ->
    exists r, simd_permute zero e (swap_neighbors N) v (size v) = Ok r
              /\ lanes_are (size v) (fun i => at_lane zero v (if i mod (2 * N) <? N then i + N else i - N)) r.
  Proof.
    intros Hs HN Hd. pose proof Hs as Hs'. unfold size_ok in Hs'.
    assert (H2N : 2 * N <= size v) by (apply Z.divide_pos_le; [lia|assumption]).
    apply (permute_lanes e (swap_neighbors N) v (size v) (fun i => if i mod (2 * N) <? N then i + N else i - N));
      [assumption|exact I|lia| |].
    - intros i Hi. pose proof (swap_index N (size v) i HN Hd Hi) as Hb.
      assert (P32 : 2 ^ 32 = 4294967296) by reflexivity. assert (P31 : 2 ^ 31 = 2147483648) by reflexivity.
      cbn [call_idx pf_one pf_two swap_neighbors].
      rewrite (u32_small (2 * N)) by lia. destruct (Z.eqb_spec (2 * N) 0); [lia|]. cbn [orb].
      assert (E0 : size v mod (2 * N) = 0) by (apply Z.mod_divide; [lia|assumption]).
      rewrite E0. change (0 =? 0) with true. cbn [negb]. rewrite (u32_small i) by lia.
      destruct (has_single_bit N) eqn:Esb.
      + apply has_single_bit_spec in Esb. destruct Esb as (k & Hk & Ek).
        pose proof (lxor_pow2 i k ltac:(lia) Hk) as Hx. rewrite <- Ek in Hx. rewrite Hx.
        f_equal. apply i32_small. lia.
      + destruct (Z.ltb_spec (i mod (2 * N)) N), (Z.leb_spec N (i mod (2 * N))); try lia; f_equal.
        * rewrite u32_small by lia. apply i32_small. lia.
        * rewrite u32_small by lia. apply i32_small. lia.
    - intros i Hi. pose proof (swap_index N (size v) i HN Hd Hi) as Hb. lia.
  Qed.

  Lemma swap_rejects e v N : size_ok v -> 0 < N < 2 ^ 31 -> ~ (2 * N | size v) ->
    simd_permute zero e (swap_neighbors N) v (size v) = Stop SIllFormed.
  Proof.
    intros Hs HN Hd. pose proof Hs as Hs'. unfold size_ok in Hs'.
    assert (E : forall i, call_idx (swap_neighbors N) (size v) i = Stop SIllFormed).
    { intros i. cbn [call_idx pf_one pf_two swap_neighbors].
      rewrite (u32_small (2 * N)) by (change (2 ^ 32) with (2 * 2 ^ 31); lia).
      destruct (Z.eqb_spec (size v mod (2 * N)) 0) as [E0|N0]; [|now rewrite orb_true_r].
      exfalso. apply Hd. apply Z.mod_divide; [lia|assumption]. }
    apply simd_permute_rejects; [assumption|exact I| |].
    - intros i Hi. rewrite E. repeat split; discriminate.
    - exists 0. split; [lia|]. intros j Ej. rewrite E in Ej. discriminate.
  Qed.

  (** Rotation. *)
  Definition rot_range (v : list T) (ofs : Z) : Prop :=
    -2147483648 <= ofs /\ ofs + size v <= 2147483648.

  Lemma rotate_call v ofs i : size_ok v -> rot_range v ofs -> (0 <= ofs \/ pow2_size v) -> 0 <= i < size v ->
    call_idx (rotate ofs) (size v) i = Ok ((i + ofs) mod size v).
  Proof.
    unfold size_ok, rot_range. intros Hs Hr Hcase Hi. cbn [call_idx pf_one pf_two rotate].
    rewrite int_ce_ok by lia. cbn [bindR]. destruct (Z.eqb_spec (size v) 0); [lia|]. f_equal.
    assert (Hmb : 0 <= (i + ofs) mod size v < size v) by (apply Z.mod_pos_bound; lia).
    assert (E : ((i + ofs) mod two64) mod size v = (i + ofs) mod size v).
    { destruct Hcase as [H0|(k & Hk & Ek)].
      - rewrite (Z.mod_small (i + ofs) two64); [reflexivity|].
        change two64 with 18446744073709551616. lia.
      - assert (Hd : exists q, two64 = q * size v).
        { rewrite Ek. assert (k <= 64).
          { assert (k < 31); [|lia]. apply pow2_lt_inv; [lia|]. change (2 ^ 31) with 2147483648. lia. }
          exists (2 ^ (64 - k)). unfold two64. rewrite <- Z.pow_add_r by lia. f_equal. lia. }
        destruct Hd as [q Hq]. rewrite (Z.mod_eq (i + ofs) two64) by discriminate.
        rewrite Hq at 1. replace (i + ofs - q * size v * ((i + ofs) / two64))
          with (i + ofs + (- (q * ((i + ofs) / two64))) * size v) by lia.
        apply Z.mod_add. lia. }
    rewrite E. apply i32_small. change (2 ^ 31) with 2147483648. lia.
  Qed.

  Lemma rotate_lanes_generic e v ofs : size_ok v -> rot_range v ofs -> (0 <= ofs \/ pow2_size v) ->
    (Z.rem ofs 2 = 0 -> ~ is_avx2_case e v) ->
    exists r, simd_permute zero e (rotate ofs) v (size v) = Ok r
              /\ lanes_are (size v) (fun i => at_lane zero v ((i + ofs) mod size v)) r.
  Proof.
    intros Hs Hr Hcase Hna. pose proof Hs as Hs'. unfold size_ok in Hs'.
    apply (permute_lanes e (rotate ofs) v (size v) (fun i => (i + ofs) mod size v)); [assumption| |lia| |].
    - unfold no_avx2. cbn [pf_rot rotate]. destruct (Z.eqb_spec (Z.rem ofs 2) 0); [now apply Hna|exact I].
    - intros i Hi. now apply rotate_call.
    - intros i Hi. split; [apply Z.mod_pos_bound; lia|now left].
  Qed.

  (** The 8-float AVX2 path, offsets 0, 2, 4, 6, 8. *)
  Lemma rotate_lanes_avx2 e v ofs : is_avx2_case e v -> e_sizeof e = 4 -> 0 <= ofs <= 8 ->
    Z.rem ofs 2 = 0 ->
    exists r, simd_permute zero e (rotate ofs) v (size v) = Ok r
              /\ lanes_are (size v) (fun i => at_lane zero v ((i + ofs) mod size v)) r.
  Proof.
    intros (H1 & H2 & H3) H4 Hofs Hev. rewrite H4 in H3. assert (H8 : length v = 8%nat) by lia.
    destruct (e_gnuc e && negb (e_ce e) && has_single_bit (size v * e_sizeof e) && (size v <=? e_native e)) eqn:Ec.
    - unfold simd_permute. rewrite Ec, H1, H2, H4. cbn [pf_rot rotate]. rewrite H8, Hev.
      change (Z.of_nat 8 * 4 =? 32) with true. cbn [andb Z.eqb].
      do 9 (destruct v as [|? v]; try discriminate H8). clear H8 H3 Ec.
      assert (Hc : ofs = 0 \/ ofs = 2 \/ ofs = 4 \/ ofs = 6 \/ ofs = 8).
      { assert (Hq := Z.quot_rem' ofs 2). lia. }
      assert (Hl : forall (g : Z -> T) a0 a1 a2 a3 a4 a5 a6 a7,
        g 0 = a0 -> g 1 = a1 -> g 2 = a2 -> g 3 = a3 -> g 4 = a4 -> g 5 = a5 -> g 6 = a6 -> g 7 = a7 ->
        lanes_are 8 g [Val a0; Val a1; Val a2; Val a3; Val a4; Val a5; Val a6; Val a7]).
      { clear. intros g a0 a1 a2 a3 a4 a5 a6 a7 <- <- <- <- <- <- <- <-. split; [reflexivity|].
        intros i Hi. assert (Hi2 : i = 0 \/ i = 1 \/ i = 2 \/ i = 3 \/ i = 4 \/ i = 5 \/ i = 6 \/ i = 7) by lia.
        destruct Hi2 as [->|[->|[->|[->|[->|[->|[->| ->]]]]]]]; reflexivity. }
      destruct Hc as [->|[->|[->|[->| ->]]]]; (eexists; split; [vm_compute; reflexivity|]; apply Hl; reflexivity).
    - assert (Hg : simd_permute zero e (rotate ofs) v (size v) = permute_generic zero (rotate ofs) v (size v)).
      { unfold simd_permute. rewrite Ec. reflexivity. }
      assert (Hs : size_ok v) by (unfold size_ok; lia).
      destruct (rotate_lanes_generic (mkpenv false false false false false 0 0) v ofs) as (r & Er & Lr).
      + assumption.
      + unfold rot_range. lia.
      + left. lia.
      + intros _ (X & _). discriminate.
      + exists r. split; [|assumption]. rewrite Hg. exact Er.
  Qed.

  (** Shift. *)
  Lemma shift_lanes e v ofs : size_ok v -> rot_range v ofs ->
    exists r, simd_permute zero e (shift ofs) v (size v) = Ok r
      /\ lanes_are (size v) (fun i => if (0 <=? i + ofs) && (i + ofs <? size v)
                                      then at_lane zero v (i + ofs) else zero) r.
  Proof.
    intros Hs Hr. pose proof Hs as Hs'. unfold size_ok, rot_range in *.
    rewrite permute_any_path by (assumption || exact I).
    set (idx := fun i => if (0 <=? i + ofs) && (i + ofs <? size v) then i + ofs else permute_zero).
    rewrite (generic_picks (shift ofs) v (size v) idx Hs).
    - eexists. split; [reflexivity|]. split; [rewrite map_length, lanes_of_length; lia|].
      intros i Hi. rewrite nth_error_map, lanes_of_nth by assumption. cbn. f_equal.
      unfold idx, pick. destruct ((0 <=? i + ofs) && (i + ofs <? size v)) eqn:E; [|reflexivity].
      change permute_uninit with 2147483646. change permute_zero with 2147483647.
      destruct (Z.eqb_spec (i + ofs) 2147483647); [lia|]. destruct (Z.eqb_spec (i + ofs) 2147483646); [lia|].
      destruct (Z.ltb_spec (i + ofs) 0); [lia|]. reflexivity.
    - intros i Hi. cbn [call_idx pf_one pf_two shift]. rewrite int_ce_ok by lia. cbn [bindR]. split.
      + f_equal. unfold idx. destruct (Z.leb_spec 0 ofs).
        * destruct (Z.leb_spec 0 (i + ofs)); [|lia]. destruct (Z.leb_spec (size v) (i + ofs)),
            (Z.ltb_spec (i + ofs) (size v)); try lia; reflexivity.
        * destruct (Z.ltb_spec (i + ofs) (size v)); [|lia]. rewrite andb_true_r.
          destruct (Z.ltb_spec (i + ofs) 0), (Z.leb_spec 0 (i + ofs)); try lia; reflexivity.
      + unfold idx, valid_index. change permute_zero with 2147483647.
        destruct ((0 <=? i + ofs) && (i + ofs <? size v)) eqn:E; lia.
  Qed.

  (** shift_in *)
  Lemma nth_concat_uniform w : forall (vs : list (list T)) q k, 0 < w ->
    Forall (fun u => Z.of_nat (length u) = w) vs -> 0 <= k < w -> 0 <= q < Z.of_nat (length vs) ->
    exists u, nth_error vs (Z.to_nat q) = Some u /\ Z.of_nat (length u) = w
              /\ nth (Z.to_nat (q * w + k)) (concat vs) zero = nth (Z.to_nat k) u zero.
  Proof.
    induction vs as [|u vs IH]; intros q k Hw HF Hk Hq; [cbn in Hq; lia|].
    apply Forall_cons_iff in HF. destruct HF as [Hu HF']. destruct (Z.eq_dec q 0) as [->|Hq0].
    - exists u. split; [reflexivity|]. split; [assumption|]. cbn [concat]. rewrite app_nth1 by lia. f_equal.
    - destruct (IH (q - 1) k Hw HF' Hk) as (u' & E & L & Hn); [cbn in Hq; lia|].
      exists u'. split.
      + replace (Z.to_nat q) with (S (Z.to_nat (q - 1))) by lia. exact E.
      + split; [assumption|]. cbn [concat]. rewrite app_nth2 by nia. rewrite <- Hn. f_equal. nia.
  Qed.

  Lemma shift_in_lanes ofs a more : size_ok a -> 0 <= ofs ->
    Forall (fun u => length u = length a) more ->
    ofs + size a <= 2147483648 -> size a * (1 + Z.of_nat (length more)) < 2147483648 ->
    exists r, shift_in zero ofs a more = Ok r /\ length r = length a
      /\ forall i, 0 <= i < size a -> nth_error r (Z.to_nat i) = Some (at_lane zero (concat (a :: more)) (i + ofs)).
  Proof.
    unfold size_ok. intros Hs Hofs HF H1 H2.
    assert (E : shift_in zero ofs a more
              = Ok (map (fun i => at_lane zero (concat (a :: more)) (i + ofs)) (lanes_of (size a)))).
    { unfold shift_in. apply mapR_ok. intros i Hi. apply lanes_of_in in Hi. unfold shift_in_lane.
      rewrite !int_ce_ok by nia. cbn [bindR].
      assert (HF' : Forall (fun u => Z.of_nat (length u) = size a) (a :: more)).
      { constructor; [reflexivity|]. eapply Forall_impl; [|exact HF]. cbn. intros u Hu. lia. }
      assert (Hlen : Z.of_nat (length (concat (a :: more))) = size a * (1 + Z.of_nat (length more))).
      { clear - HF. cbn [concat]. rewrite app_length. induction HF as [|u l Hu HF IH]; cbn [concat length]; [lia|].
        rewrite app_length. lia. }
      replace (ofs + i) with (i + ofs) by lia.
      destruct (Z.leb_spec (size a * (1 + Z.of_nat (length more))) (i + ofs)) as [Hge|Hlt].
      - f_equal. unfold at_lane. rewrite nth_overflow by lia. reflexivity.
      - destruct (Z.leb_spec 0 (i + ofs)); [|lia].
        assert (Hmb : 0 <= (i + ofs) mod size a < size a) by (apply Z.mod_pos_bound; lia).
        destruct (nth_concat_uniform (size a) (a :: more) ((i + ofs) / size a) ((i + ofs) mod size a))
          as (u & Eu & Lu & Hn); [lia|assumption|assumption| |].
        { split; [apply Z.div_pos; lia|]. apply Z.div_lt_upper_bound; [lia|]. cbn [length]. lia. }
        rewrite Eu. rewrite nth_error_at by lia. f_equal. unfold at_lane. rewrite <- Hn. f_equal.
        f_equal. pose proof (Z.div_mod (i + ofs) (size a) ltac:(lia)). lia. }
    rewrite E. eexists. split; [reflexivity|]. split; [rewrite map_length, lanes_of_length; lia|].
    intros i Hi. rewrite nth_error_map, lanes_of_nth by assumption. reflexivity.
  Qed.
End Facts.
