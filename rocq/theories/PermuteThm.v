(** Lane formulas of the predefined permutations, and their algebra. *)
From Verif Require Import Base BaseFacts PermuteModel PermuteSpec PermuteProofs.
From Coq Require Import ZifyBool ZifyNat.
Ltac Zify.zify_post_hook ::= idtac.

Section Thm.
  Context {T : Type} (zero : T).
  Notation size v := (Z.of_nat (length v)).

  Lemma lanes_are_values n g (r : list (lane T)) : lanes_are n g r ->
    r = map Val (map g (lanes_of n)).
  Proof.
    intros H. apply (lanes_are_unique n g); [assumption|]. destruct H as [L _]. split.
    - rewrite !map_length, lanes_of_length. lia.
    - intros i Hi. rewrite !nth_error_map, lanes_of_nth by assumption. reflexivity.
  Qed.

  Lemma Val_inj (a b : list T) : map Val a = map Val b -> a = b.
  Proof.
    revert b. induction a as [|x a IH]; intros [|y b] H; try discriminate; [reflexivity|].
    cbn in H. injection H as -> H. f_equal. now apply IH.
  Qed.

  Lemma at_lane_map g n i : 0 <= i < n -> at_lane zero (map g (lanes_of n)) i = g i.
  Proof.
    intros Hi. unfold at_lane. apply nth_error_nth. rewrite nth_error_map, lanes_of_nth by assumption. reflexivity.
  Qed.

  Lemma list_as_lanes (v : list T) : v = map (at_lane zero v) (lanes_of (size v)).
  Proof.
    apply nth_error_ext. intros k. rewrite nth_error_map. destruct (lt_dec k (length v)).
    - replace k with (Z.to_nat (Z.of_nat k)) by lia. rewrite lanes_of_nth by lia.
      rewrite (nth_error_at zero) by lia. reflexivity.
    - rewrite (proj2 (nth_error_None v k)) by lia.
      rewrite (proj2 (nth_error_None (lanes_of (size v)) k)) by (rewrite lanes_of_length; lia). reflexivity.
  Qed.

  Lemma lanes_are_list v (r : list (lane T)) : lanes_are (size v) (at_lane zero v) r -> r = map Val v.
  Proof. intros H. apply lanes_are_values in H. rewrite <- list_as_lanes in H. exact H. Qed.

  Lemma rotate_lanes e v ofs : size_ok v -> rotation_supported e v ofs ->
    exists r, simd_permute zero e (rotate ofs) v (size v) = Ok r
              /\ lanes_are (size v) (fun i => at_lane zero v ((i + ofs) mod size v)) r.
  Proof.
    intros Hs (H1 & H2 & H3 & H4).
    assert (D : (Z.rem ofs 2 = 0 /\ is_avx2_case e v) \/ (Z.rem ofs 2 = 0 -> ~ is_avx2_case e v)).
    { unfold is_avx2_case. destruct (e_avx2 e), (e_float e); try (right; intuition discriminate).
      destruct (Z.eq_dec (Z.rem ofs 2) 0), (Z.eq_dec (size v * e_sizeof e) 32); intuition. }
    destruct D as [[Hr Ha]|D].
    - destruct (H4 Hr Ha). now apply rotate_lanes_avx2.
    - apply rotate_lanes_generic; try assumption. split; assumption.
  Qed.

  Lemma rotate_compose e1 e2 e3 v w a b : size_ok v ->
    rotation_supported e1 v a -> rotation_supported e2 v b -> rotation_supported e3 v (a + b) ->
    simd_permute zero e1 (rotate a) v (size v) = Ok (map Val w) ->
    simd_permute zero e2 (rotate b) w (size w) = simd_permute zero e3 (rotate (a + b)) v (size v).
  Proof.
    intros Hs Ha Hb Hab E. destruct (rotate_lanes e1 v a Hs Ha) as (r & Er & Lr).
    rewrite Er in E. injection E as ->. apply lanes_are_values in Lr. apply Val_inj in Lr.
    assert (Hw : length w = length v) by (rewrite Lr, map_length, lanes_of_length; lia).
    assert (Hsw : size_ok w) by (unfold size_ok in *; lia).
    assert (Hbw : rotation_supported e2 w b).
    { unfold rotation_supported, is_avx2_case, pow2_size in *. rewrite Hw. exact Hb. }
    destruct (rotate_lanes e2 w b Hsw Hbw) as (r2 & -> & L2).
    destruct (rotate_lanes e3 v (a + b) Hs Hab) as (r3 & -> & L3).
    f_equal. rewrite Hw in L2. apply (lanes_are_unique _ _ _ _ L2). apply (lanes_are_ext _ _ _ _ L3).
    intros i Hi. unfold size_ok in Hs. assert (0 <= (i + b) mod size v < size v) by (apply Z.mod_pos_bound; lia).
    rewrite Lr, at_lane_map by assumption. f_equal. rewrite Z.add_mod_idemp_l by lia. f_equal. lia.
  Qed.

  Lemma rotate_zero e v : size_ok v -> rotation_supported e v 0 ->
    simd_permute zero e (rotate 0) v (size v) = Ok (map Val v).
  Proof.
    intros Hs H. destruct (rotate_lanes e v 0 Hs H) as (r & -> & L). f_equal.
    apply lanes_are_list.
    apply (lanes_are_ext _ _ _ _ L). intros i Hi. rewrite Z.add_0_r, Z.mod_small by assumption. reflexivity.
  Qed.

  Lemma rotate_inverse e1 e2 v w a : size_ok v ->
    rotation_supported e1 v a -> rotation_supported e2 v (- a) ->
    simd_permute zero e1 (rotate a) v (size v) = Ok (map Val w) ->
    simd_permute zero e2 (rotate (- a)) w (size w) = Ok (map Val v).
  Proof.
    intros Hs Ha Hb E.
    set (e3 := mkpenv false false false false false 0 0).
    assert (H0 : rotation_supported e3 v 0).
    { unfold rotation_supported, size_ok in *. repeat split; try lia. all: destruct H0 as [X _]; discriminate. }
    rewrite (rotate_compose e1 e2 e3 v w a (- a) Hs Ha Hb); [|now rewrite Z.add_opp_diag_r|assumption].
    rewrite Z.add_opp_diag_r. now apply rotate_zero.
  Qed.

  Lemma reverse_involution e1 e2 v w : size_ok v ->
    simd_permute zero e1 reverse v (size v) = Ok (map Val w) ->
    simd_permute zero e2 reverse w (size w) = Ok (map Val v).
  Proof.
    intros Hs E. destruct (reverse_lanes zero e1 v Hs) as (r & Er & Lr).
    rewrite Er in E. injection E as ->. apply lanes_are_values in Lr. apply Val_inj in Lr.
    assert (Hw : length w = length v) by (rewrite Lr, map_length, lanes_of_length; lia).
    assert (Hsw : size_ok w) by (unfold size_ok in *; lia).
    destruct (reverse_lanes zero e2 w Hsw) as (r2 & -> & L2). f_equal. rewrite Hw in L2.
    apply lanes_are_list.
    apply (lanes_are_ext _ _ _ _ L2). intros i Hi. rewrite Lr, at_lane_map by lia. f_equal. lia.
  Qed.

  Lemma swap_twice N i : 0 < N ->
    let s := fun i => if i mod (2 * N) <? N then i + N else i - N in s (s i) = i.
  Proof.
    intros HN s. unfold s. assert (Hmb : 0 <= i mod (2 * N) < 2 * N) by (apply Z.mod_pos_bound; lia).
    pose proof (Z.div_mod i (2 * N) ltac:(lia)) as Hd.
    destruct (Z.ltb_spec (i mod (2 * N)) N).
    - replace ((i + N) mod (2 * N)) with (i mod (2 * N) + N).
      2:{ apply (Z.mod_unique _ _ (i / (2 * N))); lia. }
      destruct (Z.ltb_spec (i mod (2 * N) + N) N); lia.
    - replace ((i - N) mod (2 * N)) with (i mod (2 * N) - N).
      2:{ apply (Z.mod_unique _ _ (i / (2 * N))); lia. }
      destruct (Z.ltb_spec (i mod (2 * N) - N) N); lia.
  Qed.

  Lemma swap_involution e1 e2 v w N : size_ok v -> 0 < N -> (2 * N | size v) ->
    simd_permute zero e1 (swap_neighbors N) v (size v) = Ok (map Val w) ->
    simd_permute zero e2 (swap_neighbors N) w (size w) = Ok (map Val v).
  Proof.
    intros Hs HN Hd E. destruct (swap_lanes zero e1 v N Hs HN Hd) as (r & Er & Lr).
    rewrite Er in E. injection E as ->. apply lanes_are_values in Lr. apply Val_inj in Lr.
    assert (Hw : length w = length v) by (rewrite Lr, map_length, lanes_of_length; lia).
    assert (Hsw : size_ok w) by (unfold size_ok in *; lia).
    destruct (swap_lanes zero e2 w N Hsw HN) as (r2 & -> & L2); [now rewrite Hw|]. f_equal. rewrite Hw in L2.
    apply lanes_are_list.
    apply (lanes_are_ext _ _ _ _ L2). intros i Hi.
    pose proof (swap_index N (size v) i HN Hd Hi) as Hb. rewrite Lr, at_lane_map by assumption. f_equal.
    exact (swap_twice N i HN).
  Qed.

  Lemma duplicate_even_idem e1 e2 v w : size_ok v ->
    simd_permute zero e1 duplicate_even v (size v) = Ok (map Val w) ->
    simd_permute zero e2 duplicate_even w (size w) = Ok (map Val w).
  Proof.
    intros Hs E. destruct (duplicate_even_lanes zero e1 v Hs) as (r & Er & Lr).
    rewrite Er in E. injection E as ->. pose proof Lr as Lr'. apply lanes_are_values in Lr. apply Val_inj in Lr.
    assert (Hw : length w = length v) by (rewrite Lr, map_length, lanes_of_length; lia).
    assert (Hsw : size_ok w) by (unfold size_ok in *; lia).
    destruct (duplicate_even_lanes zero e2 w Hsw) as (r2 & -> & L2). f_equal. rewrite Hw in L2.
    apply (lanes_are_unique _ _ _ _ L2). apply (lanes_are_ext _ _ _ _ Lr'). intros i Hi.
    assert (0 <= i mod 2 <= i) by (split; [apply Z.mod_pos_bound; lia|apply Z.mod_le; lia]).
    rewrite Lr, at_lane_map by lia. f_equal. pose proof (Z.div_mod i 2 ltac:(lia)).
    replace ((i - i mod 2) mod 2) with 0; [lia|]. apply (Z.mod_unique _ _ (i / 2)); lia.
  Qed.

  Lemma duplicate_odd_idem e1 e2 v w : size_ok v -> size v mod 2 = 0 ->
    simd_permute zero e1 duplicate_odd v (size v) = Ok (map Val w) ->
    simd_permute zero e2 duplicate_odd w (size w) = Ok (map Val w).
  Proof.
    intros Hs Hev E. destruct (duplicate_odd_lanes zero e1 v Hs Hev) as (r & Er & Lr).
    rewrite Er in E. injection E as ->. pose proof Lr as Lr'. apply lanes_are_values in Lr. apply Val_inj in Lr.
    assert (Hw : length w = length v) by (rewrite Lr, map_length, lanes_of_length; lia).
    assert (Hsw : size_ok w) by (unfold size_ok in *; lia).
    destruct (duplicate_odd_lanes zero e2 w Hsw) as (r2 & -> & L2); [now rewrite Hw|]. f_equal. rewrite Hw in L2.
    apply (lanes_are_unique _ _ _ _ L2). apply (lanes_are_ext _ _ _ _ Lr'). intros i Hi.
    assert (0 <= i mod 2 < 2) by (apply Z.mod_pos_bound; lia).
    assert (i mod 2 <= i) by (apply Z.mod_le; lia).
    pose proof (Z.div_mod i 2 ltac:(lia)). pose proof (Z.div_mod (size v) 2 ltac:(lia)).
    rewrite Lr, at_lane_map by lia. f_equal.
    replace ((i - i mod 2 + 1) mod 2) with 1; [lia|]. apply (Z.mod_unique _ _ (i / 2)); lia.
  Qed.

  (** simd_permute behaves the same however it was compiled, AVX2 rotations excepted. *)
  Lemma paths_agree e1 e2 f v n : size_ok v -> no_avx2 e1 f v -> no_avx2 e2 f v ->
    simd_permute zero e1 f v n = simd_permute zero e2 f v n.
  Proof. intros Hs H1 H2. now rewrite !permute_any_path. Qed.

  (** The scalar overload is the one-lane case. *)
  Lemma scalar_is_one_lane e f x : pf_rot f = None ->
    simd_permute zero e f [x] 1 = bindR (permute_scalar zero f x) (fun l => Ok [l]).
  Proof.
    intros Hr. rewrite permute_any_path; [|unfold size_ok; cbn; lia|unfold no_avx2; now rewrite Hr].
    unfold permute_generic, permute_scalar. change (lanes_of 1) with [0]. cbn [mapR]. unfold generic_lane.
    change (size [x]) with 1. destruct (call_idx f 1 0) as [j|s]; [|reflexivity]. cbn [bindR].
    destruct (j =? permute_zero); [reflexivity|]. destruct (j =? permute_uninit); [reflexivity|].
    destruct (Z.ltb_spec j 0) as [Hj|Hj].
    - unfold int_ce. destruct (int_ok (- j)) eqn:Eok; cbn [bindR].
      + destruct (Z.leb_spec (- j) 1).
        * replace j with (-1) by lia. reflexivity.
        * destruct (Z.eqb_spec j 0), (Z.eqb_spec j (-1)); try lia. reflexivity.
      + destruct (Z.eqb_spec j (-1)) as [->|]; [discriminate Eok|].
        destruct (Z.eqb_spec j 0); [lia|]. reflexivity.
    - destruct (Z.ltb_spec j 1).
      + replace j with 0 by lia. reflexivity.
      + destruct (Z.eqb_spec j 0), (Z.eqb_spec j (-1)); try lia. reflexivity.
  Qed.

  (** shift_in of one vector is shift, for non-negative offsets. *)
  Lemma shift_in_is_shift e v ofs : size_ok v -> 0 <= ofs -> ofs + size v <= 2147483648 ->
    exists w, shift_in zero ofs v [] = Ok w /\ simd_permute zero e (shift ofs) v (size v) = Ok (map Val w).
  Proof.
    intros Hs H0 H1. pose proof Hs as Hs'. unfold size_ok in Hs'.
    destruct (shift_in_lanes zero ofs v [] Hs H0 (Forall_nil _) H1) as (w & Ew & Lw & Hw); [cbn [length]; lia|].
    destruct (shift_lanes zero e v ofs Hs) as (r & Er & Lr); [unfold rot_range; lia|].
    exists w. split; [assumption|]. rewrite Er. f_equal. apply (lanes_are_unique _ _ _ _ Lr).
    split; [rewrite map_length; lia|]. intros i Hi. rewrite nth_error_map, Hw by assumption. cbn [option_map].
    do 2 f_equal. cbn [concat]. rewrite app_nil_r. destruct (Z.leb_spec 0 (i + ofs)); [|lia].
    destruct (Z.ltb_spec (i + ofs) (size v)); [reflexivity|]. unfold at_lane. rewrite nth_overflow by lia. reflexivity.
  Qed.
End Thm.

(** ** Findings *)

(** A machine with AVX2; vectors of 8 floats use vpermpd. *)
Definition env_avx2 : penv := mkpenv true false true true true 8 4.
Definition env_plain : penv := mkpenv true false false true true 8 4.

Definition ex_v (n : nat) : list Z := map (fun i => 100 + Z.of_nat i) (seq 0 n).

Lemma rotate_negative_refuted :
  exists v ofs r, size_ok v /\ -2147483648 <= ofs <= 2147483647 /\
    simd_permute 0 env_plain (rotate ofs) v (Z.of_nat (length v)) = Ok r /\
    exists i, 0 <= i < Z.of_nat (length v) /\
      nth_error r (Z.to_nat i) <> Some (Val (at_lane 0 v ((i + ofs) mod Z.of_nat (length v)))).
Proof.
  exists (ex_v 3), (-1), [Val 100; Val 100; Val 101]. split; [split; vm_compute; reflexivity|].
  split; [lia|]. split; [vm_compute; reflexivity|]. exists 0. split; [split; [discriminate|reflexivity]|].
  vm_compute. discriminate.
Qed.

Lemma rotate_avx2_large_refuted :
  exists v ofs r, size_ok v /\ 0 <= ofs <= 2147483647 /\
    simd_permute 0 env_avx2 (rotate ofs) v (Z.of_nat (length v)) = Ok r /\
    exists i, 0 <= i < Z.of_nat (length v) /\
      nth_error r (Z.to_nat i) <> Some (Val (at_lane 0 v ((i + ofs) mod Z.of_nat (length v)))).
Proof.
  exists (ex_v 8), 10.
  eexists. split; [split; vm_compute; reflexivity|].
  split; [lia|]. split; [vm_compute; reflexivity|]. exists 2. split; [split; [discriminate|reflexivity]|].
  vm_compute. discriminate.
Qed.

Lemma rotate_avx2_negative_refuted :
  exists v ofs, size_ok v /\ pow2_size v /\ -2147483648 <= ofs < 0 /\
    simd_permute 0 env_avx2 (rotate ofs) v (Z.of_nat (length v)) = Stop SIllFormed.
Proof.
  exists (ex_v 8), (-2). split; [split; vm_compute; reflexivity|]. split; [exists 3; split; [lia|reflexivity]|].
  split; [lia|]. vm_compute. reflexivity.
Qed.

(** A rotation that also drops lanes is well-formed, except where the AVX2 path is taken. *)
Lemma rotate_avx2_resize_refuted :
  exists v n r, size_ok v /\ simd_permute 0 env_plain (rotate 2) v n = Ok r
    /\ simd_permute 0 env_avx2 (rotate 2) v n = Stop SIllFormed.
Proof.
  exists (ex_v 8), 4. eexists. split; [split; vm_compute; reflexivity|].
  split; vm_compute; reflexivity.
Qed.

Lemma shift_in_negative_refuted :
  exists v ofs w, size_ok v /\ -2147483648 <= ofs < 0 /\ shift_in 0 ofs v [] = Ok w /\
    simd_permute 0 env_plain (shift ofs) v (Z.of_nat (length v)) = Ok [Val 0; Val 100; Val 101; Val 102] /\
    w = [103; 100; 101; 102].
Proof.
  exists (ex_v 4), (-1). eexists. split; [split; vm_compute; reflexivity|].
  split; [lia|]. split; [vm_compute; reflexivity|]. split; vm_compute; reflexivity.
Qed.

(** ** In terms of [index_is] *)
Lemma index_is_call f s i j : index_is f s i j <-> call_idx f s i = Ok j.
Proof.
  unfold index_is, call_idx. destruct (pf_one f) as [g|] eqn:E1.
  - split; [intros [ (g' & E & H)|[H _] ]; [now injection E as <-|discriminate]|]. intros H. left. eauto.
  - destruct (pf_two f) as [g|] eqn:E2.
    + split; [intros [ (g' & E & H)|(_ & g' & E & H)]; [discriminate|now injection E as <-]|]. intros H. right. eauto.
    + split; [intros [ (g' & E & H)|(_ & g' & E & H)]; discriminate|discriminate].
Qed.

Theorem permute_obeys_index {T} (zero : T) e f v n : size_ok v -> no_avx2 e f v -> 0 <= n ->
  (forall i, 0 <= i < n -> exists j, index_is f (Z.of_nat (length v)) i j /\ valid_index (Z.of_nat (length v)) j) ->
  exists r, simd_permute zero e f v n = Ok r /\ Z.of_nat (length r) = n /\
    forall i j, 0 <= i < n -> index_is f (Z.of_nat (length v)) i j ->
      exists l, nth_error r (Z.to_nat i) = Some l /\ selects zero v j l.
Proof.
  intros Hs Ha Hn H. destruct (simd_permute_picks zero e f v n Hs Ha Hn) as (r & E & L & P).
  - intros i Hi. destruct (H i Hi) as (j & J & V). exists j. split; [now apply index_is_call|assumption].
  - exists r. split; [assumption|]. split; [assumption|]. intros i j Hi J. apply index_is_call in J.
    destruct (P i Hi) as (j' & l & J' & R & S). exists l. split; [assumption|]. congruence.
Qed.

Theorem permute_rejects_bad_index {T} (zero : T) e f v n : size_ok v -> no_avx2 e f v ->
  (forall i, 0 <= i < n -> constant_index f (Z.of_nat (length v)) i) ->
  (exists i, 0 <= i < n /\ forall j, index_is f (Z.of_nat (length v)) i j -> ~ valid_index (Z.of_nat (length v)) j) ->
  simd_permute zero e f v n = Stop SIllFormed.
Proof.
  intros Hs Ha HC (i & Hi & HB). apply simd_permute_rejects; try assumption.
  - intros k Hk. destruct (HC k Hk) as [A B].
    assert (Q : forall s, call_idx f (Z.of_nat (length v)) k = Stop s -> s = SIllFormed).
    { intros s. unfold call_idx. destruct (pf_one f) as [g|]; [now apply A|].
      destruct (pf_two f) as [g|]; [now apply B|]. intros X. now injection X. }
    repeat split; intros X; apply Q in X; discriminate.
  - exists i. split; [assumption|]. intros j J. apply HB. now apply index_is_call.
Qed.
