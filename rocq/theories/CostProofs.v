(** The number of chunks of a schedule (C81). *)
From Verif Require Import Base BaseFacts ExecModel ExecSpec ScheduleSpec ScheduleProofs ScheduleThm ScheduleMore CostSpec.
From Coq Require Import ZifyBool ZifyNat Sorted.
Ltac Zify.zify_post_hook ::= idtac.

(** Digits 1 among the lowest [m]. *)
Definition cnt (m : nat) (x : Z) : Z := Z.of_nat (length (filter (fun i => Z.testbit x (Z.of_nat i)) (seq 0 m))).

Lemma bit0 x : Z.b2z (Z.testbit x 0) = x mod 2.
Proof. rewrite Z.bit0_mod. reflexivity. Qed.

Lemma cnt_S m x : cnt (S m) x = x mod 2 + cnt m (x / 2).
Proof.
  unfold cnt. change (seq 0 (S m)) with (0%nat :: seq 1 m). rewrite <- seq_shift.
  assert (E : forall l, length (filter (fun i => Z.testbit x (Z.of_nat i)) (map S l))
                        = length (filter (fun i => Z.testbit (x / 2) (Z.of_nat i)) l)).
  { induction l as [|i l IH]; [reflexivity|]. cbn [map filter].
    rewrite Nat2Z.inj_succ, <- Z.div2_bits by lia.
    destruct (Z.testbit (x / 2) (Z.of_nat i)); cbn [length]; [f_equal|]; exact IH. }
  cbn [filter]. change (Z.of_nat 0) with 0. rewrite <- bit0.
  destruct (Z.testbit x 0); cbn [length Z.b2z]; rewrite E; lia.
Qed.

Lemma cnt_nonneg m x : 0 <= cnt m x.
Proof. unfold cnt. lia. Qed.

Lemma cnt_0 m : cnt m 0 = 0.
Proof. induction m; [reflexivity|]. rewrite cnt_S. change (0 mod 2) with 0. change (0 / 2) with 0. rewrite IHm. reflexivity. Qed.

Lemma half_lt x k : 0 <= x < 2 ^ Z.of_nat (S k) -> 0 <= x / 2 < 2 ^ Z.of_nat k.
Proof.
  intros H. rewrite Nat2Z.inj_succ, Z.pow_succ_r in H by lia.
  split; [apply Z.div_pos; lia|]. apply Z.div_lt_upper_bound; lia.
Qed.

Lemma cnt_le k : forall m x, 0 <= x < 2 ^ Z.of_nat k -> cnt m x <= Z.of_nat k.
Proof.
  induction k as [|k IH]; intros m x Hx.
  - change (2 ^ Z.of_nat 0) with 1 in Hx. replace x with 0 by lia. rewrite cnt_0. lia.
  - destruct m as [|m]; [unfold cnt; cbn [seq filter length]; lia|]. rewrite cnt_S.
    specialize (IH m (x / 2) (half_lt x k Hx)). pose proof (Z.mod_pos_bound x 2 ltac:(lia)). lia.
Qed.

Lemma cnt_compl k : forall m x, (k <= m)%nat -> 0 <= x < 2 ^ Z.of_nat k ->
  cnt m x + cnt m (2 ^ Z.of_nat k - 1 - x) = Z.of_nat k.
Proof.
  induction k as [|k IH]; intros m x Hk Hx.
  - change (2 ^ Z.of_nat 0) with 1 in *. replace x with 0 by lia. change (1 - 1 - 0) with 0. rewrite cnt_0. lia.
  - destruct m as [|m]; [lia|]. rewrite !cnt_S. specialize (IH m (x / 2) ltac:(lia) (half_lt x k Hx)).
    rewrite Nat2Z.inj_succ, Z.pow_succ_r in * by lia.
    pose proof (Z.div_mod x 2 ltac:(lia)). pose proof (Z.mod_pos_bound x 2 ltac:(lia)).
    set (p := 2 ^ Z.of_nat k) in *. set (y := 2 * p - 1 - x) in *.
    assert (E1 : y / 2 = p - 1 - x / 2) by (symmetry; apply (Z.div_unique_pos y 2 _ (1 - x mod 2)); unfold y; lia).
    assert (E2 : y mod 2 = 1 - x mod 2) by (symmetry; apply (Z.mod_unique_pos y 2 (p - 1 - x / 2)); unfold y; lia).
    rewrite E1, E2. lia.
Qed.

Lemma cnt_neg k : forall m x, (k <= m)%nat -> 0 < x < 2 ^ Z.of_nat k ->
  cnt m x + cnt m (2 ^ Z.of_nat k - x) <= Z.of_nat k + 1.
Proof.
  induction k as [|k IH]; intros m x Hk Hx.
  - change (2 ^ Z.of_nat 0) with 1 in *. lia.
  - destruct m as [|m]; [lia|]. rewrite !cnt_S.
    pose proof (half_lt x k ltac:(lia)) as Hh.
    rewrite Nat2Z.inj_succ, Z.pow_succ_r in * by lia.
    pose proof (Z.div_mod x 2 ltac:(lia)). pose proof (Z.mod_pos_bound x 2 ltac:(lia)).
    set (p := 2 ^ Z.of_nat k) in *. set (y := 2 * p - x) in *.
    destruct (Z.eq_dec (x mod 2) 0) as [E0|E0].
    + assert (E1 : y / 2 = p - x / 2) by (symmetry; apply (Z.div_unique_pos y 2 _ 0); unfold y; lia).
      assert (E2 : y mod 2 = 0) by (symmetry; apply (Z.mod_unique_pos y 2 (p - x / 2)); unfold y; lia).
      rewrite E1, E2, E0. specialize (IH m (x / 2) ltac:(lia) ltac:(lia)). lia.
    + assert (E1 : y / 2 = p - 1 - x / 2) by (symmetry; apply (Z.div_unique_pos y 2 _ 1); unfold y; lia).
      assert (E2 : y mod 2 = 1) by (symmetry; apply (Z.mod_unique_pos y 2 (p - 1 - x / 2)); unfold y; lia).
      rewrite E1, E2. pose proof (cnt_compl k m (x / 2) ltac:(lia) Hh) as Hc. fold p in Hc. lia.
Qed.

(** Chunks of 2^k and one for each digit of the remainder. *)
Fixpoint fc (k : nat) (x : Z) : Z := match k with O => x | S k' => x mod 2 + fc k' (x / 2) end.

Lemma fc_is k : forall m x, (k <= m)%nat -> 0 <= x ->
  fc k x = x / 2 ^ Z.of_nat k + cnt m (x mod 2 ^ Z.of_nat k).
Proof.
  induction k as [|k IH]; intros m x Hk Hx.
  - change (2 ^ Z.of_nat 0) with 1. rewrite Z.div_1_r, Z.mod_1_r, cnt_0. cbn [fc]. lia.
  - destruct m as [|m]; [lia|]. cbn [fc]. rewrite (IH m) by (try lia; apply Z.div_pos; lia).
    rewrite cnt_S. rewrite Nat2Z.inj_succ, Z.pow_succ_r by lia. set (p := 2 ^ Z.of_nat k).
    assert (0 < p) by (apply Z.pow_pos_nonneg; lia).
    rewrite Z.div_div by lia. rewrite Z.rem_mul_r by lia.
    rewrite (Z.mul_comm 2 (x / 2 mod p)), Z.mod_add, Z.div_add by lia.
    rewrite Zmod_mod. rewrite (Z.div_small (x mod 2) 2), Z.add_0_l by (apply Z.mod_pos_bound; lia). lia.
Qed.

Lemma fc_step k : forall j x, (j <= k)%nat -> 0 <= x -> fc k (x + 2 ^ Z.of_nat j) <= fc k x + 1.
Proof.
  induction k as [|k IH]; intros j x Hj Hx.
  - replace j with 0%nat by lia. cbn [fc]. change (2 ^ Z.of_nat 0) with 1. lia.
  - cbn [fc]. pose proof (Z.div_pos x 2 Hx ltac:(lia)).
    pose proof (Z.div_mod x 2 ltac:(lia)). pose proof (Z.mod_pos_bound x 2 ltac:(lia)).
    destruct j as [|j].
    + change (2 ^ Z.of_nat 0) with 1. destruct (Z.eq_dec (x mod 2) 0) as [E0|E0].
      * replace ((x + 1) mod 2) with 1 by (apply (Z.mod_unique_pos _ _ (x / 2)); lia).
        replace ((x + 1) / 2) with (x / 2) by (apply (Z.div_unique_pos _ _ _ 1); lia). lia.
      * replace ((x + 1) mod 2) with 0 by (apply (Z.mod_unique_pos _ _ (x / 2 + 1)); lia).
        replace ((x + 1) / 2) with (x / 2 + 2 ^ Z.of_nat 0)
          by (change (2 ^ Z.of_nat 0) with 1; apply (Z.div_unique_pos _ _ _ 0); lia).
        specialize (IH 0%nat (x / 2) ltac:(lia) ltac:(lia)). lia.
    + rewrite Nat2Z.inj_succ, Z.pow_succ_r by lia. rewrite (Z.mul_comm 2), Z.mod_add, Z.div_add by lia.
      specialize (IH j (x / 2) ltac:(lia) ltac:(lia)). lia.
Qed.

Lemma pow_nat i : Z.of_nat (Nat.pow 2 i) = 2 ^ Z.of_nat i.
Proof. rewrite Nat2Z.inj_pow. reflexivity. Qed.

(** No cover has fewer. *)
Lemma fc_least k sizes : forall n, covers (2 ^ Z.of_nat k) n sizes -> fc k n <= Z.of_nat (length sizes).
Proof.
  induction sizes as [|s sizes IH]; intros n (HF & Hn).
  - cbn in Hn. subst n. rewrite (fc_is k k) by lia. rewrite Z.div_0_l, Z.mod_0_l, cnt_0 by lia. cbn [length]. lia.
  - inversion HF as [|? ? Hs HF' E1]; subst. cbn [list_sum fold_right length].
    change (fold_right Nat.add 0%nat sizes) with (list_sum sizes).
    assert (exists j, (j <= k)%nat /\ Z.of_nat s = 2 ^ Z.of_nat j) as (j & Hj & Ej).
    { destruct Hs as [Hs|(Hlt & i & ->)]; [exists k; auto|]. exists i. rewrite pow_nat in *. split; [|reflexivity].
      apply Z.pow_lt_mono_r_iff in Hlt; lia. }
    specialize (IH (Z.of_nat (list_sum sizes)) (conj HF' eq_refl)).
    pose proof (fc_step k j (Z.of_nat (list_sum sizes)) Hj ltac:(lia)).
    rewrite Nat2Z.inj_add, Ej, Z.add_comm. lia.
Qed.

(** ** Schedules *)
Definition ones (x : Z) : Z := Z.of_nat (length (digits x)).

Lemma ones_cnt x : ones x = cnt 64 x.
Proof. unfold ones, cnt, digits. reflexivity. Qed.

Lemma ones_le k x : 0 <= x < 2 ^ Z.of_nat k -> ones x <= Z.of_nat k.
Proof. rewrite ones_cnt. apply cnt_le. Qed.

Lemma ones_0 : ones 0 = 0.
Proof. rewrite ones_cnt. apply cnt_0. Qed.

Lemma filter_powers m : forall x, powers (filter (fun i => Z.testbit x (Z.of_nat i)) (seq 0 m)) = x mod 2 ^ Z.of_nat m.
Proof.
  induction m as [|m IH]; intros x.
  - change (2 ^ Z.of_nat 0) with 1. rewrite Z.mod_1_r. reflexivity.
  - change (seq 0 (S m)) with (0%nat :: seq 1 m). rewrite <- seq_shift.
    assert (E : forall l, powers (filter (fun i => Z.testbit x (Z.of_nat i)) (map S l))
                          = 2 * powers (filter (fun i => Z.testbit (x / 2) (Z.of_nat i)) l)).
    { induction l as [|i l IHl]; [reflexivity|]. cbn [map filter].
      rewrite Nat2Z.inj_succ, <- Z.div2_bits by lia.
      destruct (Z.testbit (x / 2) (Z.of_nat i)); [|exact IHl]. cbn [powers].
      rewrite IHl, Nat2Z.inj_succ, Z.pow_succ_r by lia. lia. }
    assert (0 < 2 ^ Z.of_nat m) by (apply Z.pow_pos_nonneg; lia).
    rewrite Nat2Z.inj_succ, Z.pow_succ_r, Z.rem_mul_r, <- (IH (x / 2)), <- E, <- bit0 by lia.
    cbn [filter]. change (Z.of_nat 0) with 0. destruct (Z.testbit x 0); cbn [powers Z.b2z]; [|lia].
    change (2 ^ Z.of_nat 0) with 1. lia.
Qed.

Lemma powers_digits x : 0 <= x < 2 ^ 64 -> powers (digits x) = x.
Proof. intros H. unfold digits. rewrite filter_powers. apply Z.mod_small. exact H. Qed.

Lemma digit_below x i : 0 <= x -> In i (digits x) -> 2 ^ Z.of_nat i <= x.
Proof.
  intros Hx. unfold digits. rewrite filter_In. intros [_ H].
  destruct (Z_le_gt_dec (2 ^ Z.of_nat i) x) as [|Hgt]; [assumption|exfalso].
  rewrite <- (Z.mod_small x (2 ^ Z.of_nat i)) in H by lia. rewrite Z.mod_pow2_bits_high in H by lia. discriminate.
Qed.
Opaque digits.

Lemma sum_powers l : Z.of_nat (list_sum (map (fun i => Nat.pow 2 i) l)) = powers l.
Proof.
  induction l as [|i l IH]; [reflexivity|]. cbn [map list_sum fold_right powers].
  change (fold_right Nat.add 0%nat (map (fun i => Nat.pow 2 i) l)) with (list_sum (map (fun i => Nat.pow 2 i) l)).
  rewrite Nat2Z.inj_add, IH, pow_nat. reflexivity.
Qed.

Lemma sum_repeat k n : list_sum (repeat k n) = (n * k)%nat.
Proof. induction n as [|n IH]; [reflexivity|]. cbn [repeat list_sum fold_right]. fold (list_sum (repeat k n)). lia. Qed.

(** Below [w], the powers of two of the digits of a smaller number. *)
Lemma powers_cover w x : 0 <= x < w -> w < 2 ^ 64 ->
  Forall (fun k => Z.of_nat k = w \/ Z.of_nat k < w /\ exists i, k = Nat.pow 2 i) (map (fun i => Nat.pow 2 i) (digits x))
  /\ Z.of_nat (list_sum (map (fun i => Nat.pow 2 i) (digits x))) = x.
Proof.
  intros Hx Hw. split; [|rewrite sum_powers; apply powers_digits; lia].
  rewrite Forall_map, Forall_forall. intros i Hi. right.
  rewrite pow_nat. pose proof (digit_below x i ltac:(lia) Hi). split; [lia|]. exists i. reflexivity.
Qed.

Lemma schedule_covers w u d n : width_ok w -> 0 <= d < w -> d <= n -> covers w n (concat (schedule w u d n)).
Proof.
  unfold width_ok. intros Hw Hd Hn. rewrite schedule_chunks by lia. rewrite map_rev.
  pose proof (Z.mod_pos_bound (n - d) w ltac:(lia)) as Hm.
  destruct (powers_cover w d Hd ltac:(lia)) as [F1 S1].
  destruct (powers_cover w ((n - d) mod w) Hm ltac:(lia)) as [F2 S2].
  pose proof (Z.div_pos (n - d) w ltac:(lia) ltac:(lia)).
  split.
  - rewrite !Forall_app. split; [exact F1|]. split; [|apply Forall_rev; exact F2].
    apply Forall_forall. intros k Hk. apply repeat_spec in Hk. left. subst k. lia.
  - rewrite !list_sum_app, sum_repeat.
    assert (E : forall l, list_sum (rev l) = list_sum l).
    { induction l as [|x l IH]; [reflexivity|]. cbn [rev]. rewrite list_sum_app, IH.
      cbn [list_sum fold_right]. fold (list_sum l). lia. }
    rewrite E, !Nat2Z.inj_add, Nat2Z.inj_mul, S1, S2, !Z2Nat.id by lia.
    pose proof (Z.div_mod (n - d) w ltac:(lia)). lia.
Qed.

Lemma chunk_count w u d n : 1 <= w -> 0 <= d <= n ->
  Z.of_nat (length (concat (schedule w u d n))) = ones d + (n - d) / w + ones ((n - d) mod w).
Proof.
  intros Hw Hd. rewrite schedule_chunks by lia. rewrite !app_length, !map_length, rev_length, repeat_length.
  pose proof (Z.div_pos (n - d) w ltac:(lia) ltac:(lia)). unfold ones. lia.
Qed.

(** Without a prologue: as few as possible. *)
Lemma schedule_fewest k w u n : w = 2 ^ Z.of_nat k -> width_ok w -> 0 <= n ->
  fewest w n (length (concat (schedule w u 0 n))).
Proof.
  intros Ew Hw Hn. unfold width_ok in *. split.
  - exists (concat (schedule w u 0 n)). split; [|reflexivity]. apply schedule_covers; unfold width_ok; lia.
  - intros sizes Hs. apply Nat2Z.inj_le. rewrite chunk_count, Z.sub_0_r, ones_0 by lia.
    assert (Hk : (k <= 64)%nat).
    { destruct (Nat.le_gt_cases k 64); [assumption|]. pose proof (Z.pow_le_mono_r 2 64 (Z.of_nat k) ltac:(lia) ltac:(lia)). lia. }
    subst w. pose proof (fc_least k sizes n Hs) as H. rewrite (fc_is k 64) in H by lia.
    rewrite ones_cnt. lia.
Qed.

(** With one: at most log2 w more. *)
Lemma schedule_price k w u d n j : w = 2 ^ Z.of_nat k -> width_ok w -> 0 <= d < w -> d <= n ->
  fewest w n j -> (length (concat (schedule w u d n)) <= j + k)%nat.
Proof.
  intros Ew Hw Hd Hn Hj. unfold width_ok in *.
  assert (Hk : (k <= 64)%nat).
  { destruct (Nat.le_gt_cases k 64); [assumption|]. pose proof (Z.pow_le_mono_r 2 64 (Z.of_nat k) ltac:(lia) ltac:(lia)). lia. }
  apply Nat2Z.inj_le. rewrite chunk_count by lia.
  assert (Hc : fc k n <= Z.of_nat j).
  { destruct Hj as [(sizes & Hs & <-) _]. subst w. apply fc_least. assumption. }
  destruct (Z.eq_dec d 0) as [->|Hd0].
  - rewrite Z.sub_0_r, ones_0, ones_cnt. rewrite (fc_is k 64), <- Ew in Hc by lia. lia.
  - assert (E : (n - d) / w + ones ((n - d) mod w) = fc k (n - d)) by (rewrite (fc_is k 64), <- Ew, ones_cnt by lia; reflexivity).
    (* n - d + w = n + (w - d) *)
    assert (E2 : fc k (n + (w - d)) = fc k (n - d) + 1).
    { replace (n + (w - d)) with (n - d + 1 * w) by lia. rewrite !(fc_is k 64), <- Ew by lia.
      rewrite Z.div_add, Z.mod_add by lia. lia. }
    assert (H : forall x, 0 <= x < w -> fc k (n + x) <= fc k n + ones x).
    { intros x Hx. rewrite <- (powers_digits x) at 1 by lia. unfold ones.
      assert (HF : Forall (fun i => i <= k)%nat (digits x)).
      { apply Forall_forall. intros i Hi. pose proof (digit_below x i ltac:(lia) Hi).
        assert (2 ^ Z.of_nat i < 2 ^ Z.of_nat k) as Hlt by lia. apply Z.pow_lt_mono_r_iff in Hlt; lia. }
      induction HF as [|i l Hi HF IH]; [cbn [powers length]; rewrite Z.add_0_r; lia|].
      cbn [powers length]. pose proof (powers_nonneg l).
      pose proof (fc_step k i (n + powers l) Hi ltac:(lia)).
      replace (n + (2 ^ Z.of_nat i + powers l)) with (n + powers l + 2 ^ Z.of_nat i) by lia. lia. }
    specialize (H (w - d) ltac:(lia)). pose proof (cnt_neg k 64 d Hk ltac:(lia)) as Hn2.
    rewrite <- Ew in Hn2.
    rewrite (ones_cnt (w - d)) in H. rewrite (ones_cnt d). lia.
Qed.
