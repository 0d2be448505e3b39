(** How many simd objects and invocations the algorithms need (C81). *)
From Verif Require Import Base BaseFacts ExecModel ExecProofs ExecForEach ExecRun ExecSpec ExecThm
  ScheduleSpec ScheduleProofs ScheduleThm ScheduleMore TransformModel CostSpec CostProofs.
From Coq Require Import ZifyBool ZifyNat.
Ltac Zify.zify_post_hook ::= idtac.
Opaque digits.

Lemma prologue_below c pol w first n d : 1 <= w -> prologue_length c pol w first n d -> 0 <= d < w.
Proof.
  intros Hw [(Hca & Hn & _)|(-> & _)]; [|lia]. pose proof (next_aligned_below c w first d Hca Hn).
  destruct Hn as (H0 & _). lia.
Qed.

(** A prologue on a short range: its digits are taken from the epilogue. *)
Lemma short_prologue c pol w first n d u :
  target_ok c -> policy_ok pol -> width_ok w -> 0 <= n < 2 ^ 64 ->
  plain pol \/ (p_auto pol = true /\ n * c_sz c <= 4000) ->
  prologue_length c pol w first n d ->
  d <= n /\ length (concat (schedule w u d n)) = length (concat (schedule w u 0 n)).
Proof.
  intros Hc Hp Hw Hn Hshort Hd. unfold width_ok in Hw. assert (Hsz : 0 < c_sz c) by exact (proj1 Hc).
  assert (Hbits : d = 0 \/ (can_align c w /\ next_aligned c w first d
                            /\ forall i, Z.testbit d i = true -> Z.testbit n i = true)).
  { destruct Hd as [(H1 & H2 & [H3|(Ha & H3)])|(H1 & _)]; [| |left; assumption].
    - destruct Hshort as [[Hx _]|[Hx _]]; [congruence|].
      destruct Hp as (Hp1 & _). rewrite Hp1 in Hx by assumption. discriminate.
    - destruct Hshort as [[_ Hx]|[_ Hx]]; [congruence|]. destruct H3 as [H3|H3]; [|right; auto].
      exfalso. rewrite Z.mod_small in H3 by nia. lia. }
  destruct Hbits as [->|(Hca & Hna & Hb)]; [split; [lia|reflexivity]|].
  assert (Hdn : d <= n).
  { pose proof (proj2 (land_bits d n) Hb) as Hl. rewrite <- Hl, Z.land_comm. apply land_le. lia. }
  split; [assumption|].
  assert (HP := proj1 (can_align_possible c w (target_cfg c Hc) (proj1 Hw)) Hca).
  destruct (target_cfg c Hc) as [Hstd|Hfb]; [|rewrite fallback_impossible in HP by assumption; discriminate].
  destruct (possible_std c w Hstd HP) as (J & _ & HJ & _ & EJ & _).
  pose proof (next_aligned_below c w first d Hca Hna) as Hlt. destruct Hna as (Hd0 & _).
  apply Nat2Z.inj. rewrite !chunk_count by lia. rewrite Z.sub_0_r, ones_0.
  assert (Hdiv : (n - d) / w = n / w) by (rewrite EJ; apply div_sub_bits; try assumption; lia).
  assert (Hl := digits_split J d n ltac:(lia) ltac:(lia) Hb). rewrite <- EJ in Hl. rewrite Hdiv. unfold ones. lia.
Qed.

Section Bounds.
  Variables w u d n : Z.
  Hypothesis Hw : width_ok w.
  Hypothesis Hd : 0 <= d < w.
  Hypothesis Hn : d <= n.

  Lemma ones_log x : 0 <= x < w -> ones x <= Z.log2_up w.
  Proof using Hw Hd.
    intros Hx. pose proof (Z.log2_up_nonneg w) as H0. rewrite <- (Z2Nat.id (Z.log2_up w)) by assumption.
    apply ones_le. rewrite Z2Nat.id by assumption. pose proof (Z.log2_up_le_pow2 w (Z.log2_up w) ltac:(lia)). lia.
  Qed.

  Lemma calls_at_most :
    Z.of_nat (length (schedule w u d n))
    <= n / (w * Z.max 1 u) + (Z.max 1 u - 1) + ones d + Z.log2_up w.
  Proof using Hw Hd Hn.
    unfold width_ok in Hw. rewrite schedule_length.
    pose proof (ones_log ((n - d) mod w) (Z.mod_pos_bound (n - d) w ltac:(lia))).
    assert (Z.of_nat (groups w u (n - d)) + Z.of_nat (singles w u (n - d)) <= n / (w * Z.max 1 u) + (Z.max 1 u - 1)).
    { unfold groups, singles. destruct (Z.ltb_spec 1 u).
      - rewrite Z.max_r by lia. assert (0 < w * u) by nia.
        pose proof (Z.div_pos (n - d) (w * u) ltac:(lia) ltac:(lia)).
        pose proof (Z.mod_pos_bound (n - d) (w * u) ltac:(lia)).
        pose proof (Z.div_pos ((n - d) mod (w * u)) w ltac:(lia) ltac:(lia)).
        assert ((n - d) mod (w * u) / w < u) by (apply Z.div_lt_upper_bound; lia).
        assert ((n - d) / (w * u) <= n / (w * u)) by (apply Z.div_le_mono; lia). lia.
      - rewrite Z.max_l, Z.mul_1_r by lia. pose proof (Z.div_pos (n - d) w ltac:(lia) ltac:(lia)).
        assert ((n - d) / w <= n / w) by (apply Z.div_le_mono; lia). lia. }
    unfold ones in *. lia.
  Qed.

  Lemma concat_at_most {A} (l : list (list A)) (k : nat) :
    Forall (fun x => length x <= k)%nat l -> (length (concat l) <= k * length l)%nat.
  Proof using. induction 1 as [|x l Hx _ IH]; [cbn; lia|]. cbn [concat length]. rewrite app_length. lia. Qed.

  Lemma sum_at_most sizes : Forall (fun k => Z.of_nat k <= w) sizes -> Z.of_nat (list_sum sizes) <= w * Z.of_nat (length sizes).
  Proof using.
    induction 1 as [|k sizes Hk _ IH]; [cbn; lia|]. cbn [list_sum fold_right length]. fold (list_sum sizes). lia.
  Qed.

  Lemma calls_at_least : n <= w * Z.max 1 u * Z.of_nat (length (schedule w u d n)).
  Proof using Hw Hd Hn.
    destruct (schedule_covers w u d n Hw Hd Hn) as [HF HS].
    assert (H1 : n <= w * Z.of_nat (length (concat (schedule w u d n)))).
    { rewrite <- HS at 1. apply sum_at_most. eapply Forall_impl; [|exact HF]. cbn. intros k [->|[? _]]; lia. }
    unfold width_ok in Hw.
    assert (H2 : (length (concat (schedule w u d n)) <= Z.to_nat (Z.max 1 u) * length (schedule w u d n))%nat).
    { apply concat_at_most. unfold schedule. rewrite !Forall_app. repeat split.
      - apply Forall_map, Forall_forall. intros i _. cbn [power_chunk length]. lia.
      - apply Forall_forall. intros x Hx. unfold groups in Hx. destruct (Z.ltb_spec 1 u); [|contradiction].
        apply repeat_spec in Hx. subst x. rewrite repeat_length. lia.
      - apply Forall_forall. intros x Hx. apply repeat_spec in Hx. subst x. cbn [length]. lia.
      - apply Forall_map, Forall_forall. intros i _. cbn [power_chunk length]. lia. }
    nia.
  Qed.

  Lemma sum_filter p sizes : (list_sum (filter p sizes) <= list_sum sizes)%nat.
  Proof using.
    induction sizes as [|k sizes IH]; [reflexivity|]. cbn [filter].
    change (list_sum (k :: sizes)) with (k + list_sum sizes)%nat. destruct (p k); [|lia].
    change (list_sum (k :: filter p sizes)) with (k + list_sum (filter p sizes))%nat. lia.
  Qed.

  Lemma narrow_at_most :
    Z.of_nat (list_sum (filter (fun k => Z.of_nat k <? w) (concat (schedule w u d n)))) <= d + (w - 1).
  Proof using Hw Hd Hn.
    unfold width_ok in Hw. rewrite schedule_chunks by lia. rewrite !filter_app, !list_sum_app, map_rev.
    assert (E : filter (fun k => Z.of_nat k <? w) (repeat (Z.to_nat w) (Z.to_nat ((n - d) / w))) = []).
    { induction (Z.to_nat ((n - d) / w)) as [|k IH]; [reflexivity|]. cbn [repeat filter].
      destruct (Z.ltb_spec (Z.of_nat (Z.to_nat w)) w); [lia|assumption]. }
    rewrite E. pose proof (Z.mod_pos_bound (n - d) w ltac:(lia)) as Hm.
    destruct (powers_cover w d Hd ltac:(lia)) as [_ S1].
    destruct (powers_cover w ((n - d) mod w) Hm ltac:(lia)) as [_ S2].
    assert (Er : forall l, list_sum (rev l) = list_sum l).
    { induction l as [|x l IH]; [reflexivity|]. cbn [rev]. rewrite list_sum_app, IH.
      cbn [list_sum fold_right]. fold (list_sum l). lia. }
    set (a := map (fun i => Nat.pow 2 i) (digits d)) in *. set (b := map (fun i => Nat.pow 2 i) (digits ((n - d) mod w))) in *.
    pose proof (sum_filter (fun k => Z.of_nat k <? w) a). pose proof (sum_filter (fun k => Z.of_nat k <? w) (rev b)).
    rewrite Er in *. cbn [list_sum fold_right]. lia.
  Qed.
End Bounds.

(** ** for_each *)
Section ForEach.
  Context {T St : Type} (f : St -> list (list T) -> St * list (list T)).

  Lemma for_each_fewest c pol w wb first last (m : mem T) st k :
    target_ok c -> c_ce c = false -> policy_ok pol -> width_ok w -> w = 2 ^ Z.of_nat k -> range_ok first last ->
    size_matches pol w first last ->
    plain pol \/ (p_auto pol = true /\ (last - first) * c_sz c <= 4000) ->
    keeps_lanes f -> mapped m first last ->
    exists s, run_for_each f c pol w wb first last m st = Ok s
      /\ fewest w (last - first) (length (concat (s_trace s))).
  Proof.
    intros Hc Hce Hp Hw Ew Hr Hs Hsh Hk Hm. pose proof Hr as Hr'. unfold range_ok in Hr'. unfold width_ok in Hw.
    destruct (run_scheduled f c pol w wb first last m st) as (s & d & E & Hd & Hl & _); try assumption.
    { intros d Hd. refine (proj1 (short_prologue c pol w first (last - first) d 0 Hc Hp Hw _ Hsh Hd)). lia. }
    exists s. split; [assumption|].
    rewrite <- (map_length (@length T)), concat_map, Hl.
    rewrite (proj2 (short_prologue c pol w first (last - first) d (p_unroll pol) Hc Hp Hw ltac:(lia) Hsh Hd)).
    apply (schedule_fewest k); try assumption. lia.
  Qed.

  Lemma for_each_ce_fewest c pol w wb first last (m : mem T) st k :
    c_ce c = true -> width_ok w -> w = 2 ^ Z.of_nat k -> range_ok first last -> size_matches pol w first last ->
    (w = 2 -> first = last \/ (last - first) mod 2 <> 0) ->
    keeps_lanes f -> mapped m first last ->
    exists s, run_for_each f c pol w wb first last m st = Ok s
      /\ fewest w (last - first) (length (concat (s_trace s))).
  Proof.
    intros Hce Hw Ew Hr Hs H2 Hk Hm. pose proof Hr as Hr'. unfold range_ok in Hr'.
    destruct (for_each_ce_schedule f c pol w wb first last m st Hce Hw Hr Hs H2 Hk Hm) as (s & E & Hl & _).
    exists s. split; [assumption|].
    rewrite <- (map_length (@length T)), concat_map, Hl. apply (schedule_fewest k); try assumption. lia.
  Qed.

  Lemma for_each_price c pol w wb first last (m : mem T) st k j :
    target_ok c -> c_ce c = false -> policy_ok pol -> width_ok w -> w = 2 ^ Z.of_nat k -> range_ok first last ->
    size_matches pol w first last -> reaches_alignment c pol w first last ->
    keeps_lanes f -> mapped m first last -> fewest w (last - first) j ->
    exists s, run_for_each f c pol w wb first last m st = Ok s
      /\ (length (concat (s_trace s)) <= j + k)%nat.
  Proof.
    intros Hc Hce Hp Hw Ew Hr Hs Hra Hk Hm Hj. pose proof (reaches_length c pol w first last Hc Hw Hr Hra) as Hfit.
    destruct (run_scheduled f c pol w wb first last m st) as (s & d & E & Hd & Hl & _); try assumption.
    exists s. split; [assumption|].
    rewrite <- (map_length (@length T)), concat_map, Hl.
    pose proof (prologue_below c pol w first _ d (proj1 Hw) Hd).
    apply schedule_price; try assumption. apply Hfit, Hd.
  Qed.

  Lemma for_each_calls c pol w wb first last (m : mem T) st :
    target_ok c -> c_ce c = false -> policy_ok pol -> width_ok w -> range_ok first last ->
    size_matches pol w first last -> reaches_alignment c pol w first last ->
    keeps_lanes f -> mapped m first last ->
    let n := last - first in
    let u := Z.max 1 (p_unroll pol) in
    exists s, run_for_each f c pol w wb first last m st = Ok s
      /\ let calls := Z.of_nat (length (s_trace s)) in
         n <= w * u * calls
         /\ calls <= n / (w * u) + (u - 1) + 2 * Z.log2_up w
         /\ (plain pol -> calls <= n / (w * u) + (u - 1) + Z.log2_up w).
  Proof.
    intros Hc Hce Hp Hw Hr Hs Hra Hk Hm n u. pose proof (reaches_length c pol w first last Hc Hw Hr Hra) as Hfit.
    destruct (run_scheduled f c pol w wb first last m st) as (s & d & E & Hd & Hl & _); try assumption.
    exists s. split; [assumption|]. cbv zeta. rewrite <- (map_length (map (@length T))), Hl.
    pose proof (prologue_below c pol w first _ d (proj1 Hw) Hd) as Hb. specialize (Hfit d Hd).
    pose proof (calls_at_most w (p_unroll pol) d n Hw Hb Hfit). pose proof (ones_log w d Hw Hb d Hb).
    split; [apply calls_at_least; assumption|]. split; [subst n u; lia|].
    intros [Ha Hu]. destruct Hd as [(_ & _ & [Hx|[Hx _]])|(-> & _)]; [congruence|congruence|].
    rewrite ones_0 in *. subst n u. lia.
  Qed.

  Lemma for_each_narrow c pol w wb first last (m : mem T) st :
    target_ok c -> c_ce c = false -> policy_ok pol -> width_ok w -> range_ok first last ->
    size_matches pol w first last -> reaches_alignment c pol w first last ->
    keeps_lanes f -> mapped m first last ->
    exists s, run_for_each f c pol w wb first last m st = Ok s
      /\ let narrow := Z.of_nat (list_sum (filter (fun k => Z.of_nat k <? w) (map (@length T) (concat (s_trace s))))) in
         narrow <= 2 * (w - 1) /\ (plain pol -> narrow <= w - 1).
  Proof.
    intros Hc Hce Hp Hw Hr Hs Hra Hk Hm. pose proof (reaches_length c pol w first last Hc Hw Hr Hra) as Hfit.
    destruct (run_scheduled f c pol w wb first last m st) as (s & d & E & Hd & Hl & _); try assumption.
    exists s. split; [assumption|]. cbv zeta. rewrite concat_map, Hl.
    pose proof (prologue_below c pol w first _ d (proj1 Hw) Hd) as Hb. specialize (Hfit d Hd).
    pose proof (narrow_at_most w (p_unroll pol) d (last - first) Hw Hb Hfit).
    split; [lia|]. intros [Ha Hu]. destruct Hd as [(_ & _ & [Hx|[Hx _]])|(-> & _)]; [congruence|congruence|]. lia.
  Qed.
End ForEach.

(** ** transform *)
Lemma steps_count l : list_sum (map t_n l) = length (concat (map step_lanes l)).
Proof.
  induction l as [|x l IH]; [reflexivity|].
  cbn [map concat]. change (list_sum (t_n x :: map t_n l)) with (t_n x + list_sum (map t_n l))%nat.
  rewrite app_length, IH. f_equal. unfold step_lanes. now rewrite repeat_length.
Qed.

Lemma transform_fewest c pol w first last dst srcs2 k :
  target_ok c -> c_ce c = false -> policy_ok pol -> width_ok w -> w = 2 ^ Z.of_nat k -> range_ok first last ->
  size_matches pol w first last ->
  plain pol \/ (p_auto pol = true /\ (last - first) * c_sz c <= 4000) ->
  fewest w (last - first) (list_sum (map t_n (fst (transform c pol w first last dst srcs2)))).
Proof.
  intros Hc Hce Hp Hw Ew Hr Hs Hsh. pose proof Hr as Hr'. unfold range_ok in Hr'.
  destruct (transform_schedule_fits c pol w first last dst srcs2) as (d & Hd & _ & Hl); try assumption.
  { intros d Hd. refine (proj1 (short_prologue c pol w dst (last - first) d 0 Hc Hp Hw _ Hsh Hd)). lia. }
  rewrite steps_count, Hl.
  rewrite (proj2 (short_prologue c pol w dst (last - first) d (p_unroll pol) Hc Hp Hw ltac:(lia) Hsh Hd)).
  apply (schedule_fewest k); try assumption. lia.
Qed.

Lemma transform_price c pol w first last dst srcs2 k j :
  target_ok c -> c_ce c = false -> policy_ok pol -> width_ok w -> w = 2 ^ Z.of_nat k -> range_ok first last ->
  size_matches pol w first last -> reaches_alignment c pol w dst (dst + (last - first)) ->
  fewest w (last - first) j ->
  (list_sum (map t_n (fst (transform c pol w first last dst srcs2))) <= j + k)%nat.
Proof.
  intros Hc Hce Hp Hw Ew Hr Hs Hra Hj. pose proof Hr as Hr'. unfold range_ok in Hr'.
  destruct (transform_schedule c pol w first last dst srcs2) as (d & Hd & _ & Hl); try assumption.
  rewrite steps_count, Hl. pose proof (prologue_below c pol w dst _ d (proj1 Hw) Hd).
  apply schedule_price; try assumption.
  pose proof (reaches_length c pol w dst (dst + (last - first)) Hc Hw) as Hx.
  replace (dst + (last - first) - dst) with (last - first) in Hx by lia. apply Hx; try assumption. split; lia.
Qed.
