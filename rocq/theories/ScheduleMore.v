(** Consequences of the schedule: unrolling, the price of auto_prologue, transform. *)
From Verif Require Import Base BaseFacts ExecModel ExecProofs ExecForEach ExecRun ExecSpec ExecThm
  ScheduleSpec ScheduleProofs ScheduleThm TransformModel TransformSpec TransformProofs TransformThm
  TransformExact.
From Coq Require Import ZifyBool ZifyNat Sorted.
Ltac Zify.zify_post_hook ::= idtac.
Opaque digits.

Lemma prologue_length_pol c pol pol' w first n d :
  p_aligned pol = p_aligned pol' -> p_auto pol = p_auto pol' ->
  prologue_length c pol w first n d -> prologue_length c pol' w first n d.
Proof. intros Ha Hu. unfold prologue_length. rewrite Ha, Hu. tauto. Qed.

Section Unroll.
  Context {T St : Type} (f : St -> list (list T) -> St * list (list T)).

  (** A policy that differs only in the unroll factor. *)
  Lemma for_each_unroll_groups c pol pol' w wb first last (m : mem T) st :
    p_aligned pol = p_aligned pol' -> p_auto pol = p_auto pol' -> p_match pol = p_match pol' ->
    target_ok c -> c_ce c = false -> policy_ok pol -> width_ok w -> range_ok first last ->
    size_matches pol w first last -> reaches_alignment c pol w first last ->
    keeps_lanes f -> mapped m first last ->
    exists s s', run_for_each f c pol w wb first last m st = Ok s
      /\ run_for_each f c pol' w wb first last m st = Ok s'
      /\ concat (s_trace s) = concat (s_trace s').
  Proof.
    intros Ha Hu Hmt Hc Hce Hp Hw Hr Hs Hra Hk Hm.
    assert (Hp' : policy_ok pol') by (unfold policy_ok in *; now rewrite <- Ha, <- Hu, <- Hmt).
    assert (Hs' : size_matches pol' w first last) by (unfold size_matches in *; now rewrite <- Hmt).
    assert (Hfit := reaches_length c pol w first last Hc Hw Hr Hra).
    destruct (run_scheduled f c pol w wb first last m st) as (s & d & E & Hd & Hl & HS); try assumption.
    destruct (run_scheduled f c pol' w wb first last m st) as (s' & d' & E' & Hd' & Hl' & HS');
      try assumption.
    { intros d' Hd'. apply Hfit. eapply prologue_length_pol; [| |exact Hd']; congruence. }
    assert (d = d').
    { eapply prologue_length_unique; [exact Hd|]. eapply prologue_length_pol; [| |exact Hd']; congruence. }
    subst d'. exists s, s'. split; [assumption|]. split; [assumption|].
    unfold width_ok in Hw. specialize (Hfit d Hd).
    destruct HS as (s0 & E0 & A1 & _). destruct HS' as (s1 & E1 & B1 & _).
    injection E0 as <-. injection E1 as <-.
    apply chunks_eq.
    - rewrite !concat_lengths, Hl, Hl', !schedule_chunks by lia. reflexivity.
    - eapply range_is_unique; [exact A1|exact B1].
  Qed.
End Unroll.

(** ** auto_prologue on short ranges costs nothing *)
Transparent digits.
Lemma filter_split {A} (p q r : A -> bool) l :
  (forall x, In x l -> p x = orb (q x) (r x) /\ andb (q x) (r x) = false) ->
  length (filter p l) = (length (filter q l) + length (filter r l))%nat.
Proof.
  induction l as [|x l IH]; intros H; [reflexivity|]. cbn [filter].
  destruct (H x (or_introl eq_refl)) as [-> Hd]. specialize (IH (fun y Hy => H y (or_intror Hy))).
  destruct (q x), (r x); cbn [orb andb length] in *; try discriminate; lia.
Qed.

Lemma mod_bit a J i : 0 <= J -> Z.testbit (a mod 2 ^ J) i = (i <? J) && Z.testbit a i.
Proof.
  intros HJ. destruct (Z.ltb_spec i J).
  - now rewrite Z.mod_pow2_bits_low.
  - now rewrite Z.mod_pow2_bits_high by lia.
Qed.

Lemma digits_split J d n : 0 <= J -> 0 <= d < 2 ^ J ->
  (forall i, Z.testbit d i = true -> Z.testbit n i = true) ->
  length (digits (n mod 2 ^ J)) = (length (digits d) + length (digits ((n - d) mod 2 ^ J)))%nat.
Proof.
  intros HJ Hd Hsub. unfold digits. apply filter_split. intros i _.
  assert (Ed : n - d = Z.ldiff n d).
  { apply Z.sub_nocarry_ldiff. apply Z.bits_inj. intros j. rewrite Z.ldiff_spec, Z.testbit_0_l.
    destruct (Z.testbit d j) eqn:E; [|reflexivity]. rewrite (Hsub j E). reflexivity. }
  assert (Hb : Z.testbit d (Z.of_nat i) = (Z.of_nat i <? J) && Z.testbit d (Z.of_nat i)).
  { rewrite <- mod_bit by assumption. now rewrite Z.mod_small by lia. }
  rewrite Ed, !mod_bit, Z.ldiff_spec by assumption.
  specialize (Hsub (Z.of_nat i)).
  destruct (Z.of_nat i <? J), (Z.testbit d (Z.of_nat i)), (Z.testbit n (Z.of_nat i));
    cbn [andb orb negb] in *; try (split; reflexivity); try discriminate; intuition discriminate.
Qed.

Lemma div_sub_bits J d n : 0 <= J -> 0 <= d < 2 ^ J -> 0 <= n ->
  (forall i, Z.testbit d i = true -> Z.testbit n i = true) -> (n - d) / 2 ^ J = n / 2 ^ J.
Proof.
  intros HJ Hd Hn Hsub.
  assert (Hle : d <= n mod 2 ^ J).
  { assert (E : Z.land (n mod 2 ^ J) d = d).
    { apply Z.bits_inj. intros i. rewrite Z.land_spec, mod_bit by assumption.
      assert (Hb : Z.testbit d i = (i <? J) && Z.testbit d i).
      { rewrite <- mod_bit by assumption. now rewrite Z.mod_small by lia. }
      specialize (Hsub i).
      destruct (i <? J), (Z.testbit d i), (Z.testbit n i); cbn [andb] in *; intuition congruence. }
    rewrite <- E. apply land_le. apply Z.mod_pos_bound. lia. }
  symmetry. pose proof (Z.div_mod n (2 ^ J) ltac:(lia)).
  pose proof (Z.mod_pos_bound n (2 ^ J) ltac:(lia)).
  apply Z.div_unique_pos with (n mod 2 ^ J - d); lia.
Qed.
Opaque digits.

Lemma schedule_length w u d n :
  length (schedule w u d n)
  = (length (digits d) + groups w u (n - d) + singles w u (n - d) + length (digits ((n - d) mod w)))%nat.
Proof.
  unfold schedule. rewrite !app_length, !map_length, !repeat_length, rev_length. lia.
Qed.

Lemma groups_div w u m m' : 1 <= w -> 0 <= m -> 0 <= m' -> m / w = m' / w ->
  groups w u m = groups w u m' /\ singles w u m = singles w u m'.
Proof.
  intros Hw Hm Hm' E. unfold groups, singles. destruct (Z.ltb_spec 1 u) as [Hu|Hu].
  - rewrite <- !Z.div_div by lia. rewrite E. split; [reflexivity|]. f_equal.
    rewrite !Z.rem_mul_r by lia. rewrite E.
    rewrite !(Z.mul_comm w), !Z.div_add by lia.
    rewrite (Z.div_small (m mod w) w), (Z.div_small (m' mod w) w) by (apply Z.mod_pos_bound; lia).
    reflexivity.
  - split; [reflexivity|]. now rewrite E.
Qed.

Lemma free_prologue w u d n e : w = 2 ^ e -> 0 <= e -> 0 <= d < w -> 0 <= n -> d <= n ->
  (forall i, Z.testbit d i = true -> Z.testbit n i = true) ->
  length (schedule w u d n) = length (schedule w u 0 n).
Proof.
  intros Ew He Hd Hn Hdn Hsub. rewrite !schedule_length, Z.sub_0_r.
  assert (Hdiv : (n - d) / w = n / w) by (subst w; now apply div_sub_bits).
  destruct (groups_div w u (n - d) n ltac:(lia) ltac:(lia) Hn Hdiv) as [-> ->].
  assert (Hl := digits_split e d n He ltac:(lia) Hsub). rewrite <- Ew in Hl. rewrite Hl.
  assert (E0 : length (digits 0) = 0%nat) by (rewrite <- (map_length power_chunk), digits_0; reflexivity).
  lia.
Qed.

Lemma next_aligned_below c w first d : can_align c w -> next_aligned c w first d -> d < w.
Proof.
  intros (Hw1 & _ & Hm) (Hd0 & Hda & Hleast).
  destruct (Z_lt_le_dec d w) as [|Hge]; [assumption|exfalso].
  specialize (Hleast (d - w) ltac:(lia)).
  assert (is_aligned c (first + (d - w)) w); [|specialize (Hleast H); lia].
  unfold is_aligned, address in *. rewrite Hm in *.
  replace (c_base c + (first + (d - w)) * c_sz c)
    with (c_base c + (first + d) * c_sz c - w * c_sz c) by ring.
  apply Z.divide_sub_r; [assumption|apply Z.divide_refl].
Qed.

Lemma for_each_auto_free {T St} (f : St -> list (list T) -> St * list (list T))
      c pol w wb first last (m : mem T) st :
  target_ok c -> c_ce c = false -> policy_ok pol -> p_auto pol = true -> width_ok w ->
  range_ok first last -> (last - first) * c_sz c <= 4000 -> keeps_lanes f -> mapped m first last ->
  exists s, run_for_each f c pol w wb first last m st = Ok s
    /\ length (s_trace s) = length (schedule w (p_unroll pol) 0 (last - first)).
Proof.
  intros Hc Hce Hp Ha Hw Hr Hsh Hk Hm.
  assert (Hal : p_aligned pol = false).
  { destruct Hp as (Hp1 & _). destruct (p_aligned pol); [|reflexivity]. rewrite Hp1 in Ha; congruence. }
  assert (Hsz : 0 < c_sz c) by exact (proj1 Hc).
  assert (Hbits : forall d, prologue_length c pol w first (last - first) d ->
            d = 0 \/ (can_align c w /\ next_aligned c w first d
                      /\ forall i, Z.testbit d i = true -> Z.testbit (last - first) i = true)).
  { intros d [(H1 & H2 & [H3|[_ [H3|H3]]])|(H1 & _)]; [congruence| |right; auto|left; assumption].
    exfalso. destruct Hr as [Hr1 Hr2]. rewrite Z.mod_small in H3 by nia. lia. }
  destruct (run_scheduled f c pol w wb first last m st) as (s & d & E & Hd & Hl & _); try assumption.
  { intros Em. destruct Hp as (_ & _ & Hp3). rewrite Hp3 in Em by assumption. discriminate. }
  { intros d Hd. destruct Hr as [Hr1 Hr2]. destruct (Hbits d Hd) as [->|(_ & _ & Hb)]; [lia|].
    apply land_bits in Hb. rewrite <- Hb, Z.land_comm. apply land_le. lia. }
  exists s. split; [assumption|]. rewrite <- (map_length (map (@length T))), Hl.
  destruct (Hbits d Hd) as [->|(Hca & Hn & Hb)]; [reflexivity|]. destruct Hr as [Hr1 Hr2].
  unfold width_ok in Hw.
  assert (HP := proj1 (can_align_possible c w (target_cfg c Hc) (proj1 Hw)) Hca).
  destruct (target_cfg c Hc) as [Hstd|Hfb]; [|rewrite fallback_impossible in HP by assumption; discriminate].
  destruct (possible_std c w Hstd HP) as (J & _ & HJ & _ & EJ & _).
  pose proof (next_aligned_below c w first d Hca Hn). destruct Hn as (Hd0 & _).
  apply (free_prologue w (p_unroll pol) d (last - first) J); try assumption; try lia.
  apply land_bits in Hb. rewrite <- Hb, Z.land_comm. apply land_le. lia.
Qed.

(** ** transform *)
Definition step_lanes (s : step) : list nat := repeat (Z.to_nat (t_k s)) (t_n s).

Lemma ev_lanes F D S2 l : map step_lanes (map (ev F D S2) l) = lanes_of l.
Proof. unfold lanes_of. rewrite map_map. reflexivity. Qed.

(** transform makes the steps of for_each on the output range. *)
Lemma transform_rt_calls c pol w first last dst S2 l :
  cfg_ok c -> pol_ok pol -> 1 <= w < two64 -> first <= last -> last - first < two64 ->
  (p_match pol = true -> (w | last - first)) ->
  (forall maxe tp, prologue_args c pol w (last - first) dst = Some (maxe, tp) -> tp <= last - first) ->
  for_each_rt (shift_cfg first dst c) pol w first last = (l, Ok tt) ->
  transform_rt c pol w first last dst S2 = (map (ev first dst S2) l, Ok (dst + (last - first))).
Proof.
  intros Hc Hpol Hw Hle H64 Hmatch Hfit E. set (c' := shift_cfg first dst c) in *.
  unfold transform_rt. rewrite <- shift_prologue_args with (F := first) in Hfit |- *.
  fold c' in Hfit |- *. unfold for_each_rt in E.
  destruct (prologue_args c' pol w (last - first) first) as [[maxe tp]|] eqn:Epa.
  - assert (Htple := Hfit maxe tp eq_refl).
    destruct (prologue_some_length c' pol w (last - first) first maxe tp) as (_ & _ & Htp & -> & Hpos);
      [now apply shift_cfg_ok|assumption|assumption|].
    assert (HPS := prologue_steps first dst S2 c' w tp 64 1 first eq_refl ltac:(lia)).
    rewrite Z.sub_diag, Z.add_0_r, adv_0 in HPS. rewrite HPS. rewrite <- (at_pos_start first dst S2).
    destruct (transform_body_steps first dst S2 c c' pol w (first + tp) last
                ((last - first - tp) mod two64)) as (l' & E' & Et);
      [reflexivity|reflexivity|assumption|lia| | |].
    { rewrite (Z.mod_small (last - first - tp) two64) by lia. f_equal. lia. }
    { intros Em. exfalso. destruct Hpol as (Hp1 & Hp2 & _).
      unfold prologue_args, use_aligned_loadstore, maybe_prologue in Epa.
      destruct (p_aligned pol); [rewrite Hp1 in Em by reflexivity; discriminate|].
      destruct (p_auto pol); [rewrite Hp2 in Em by reflexivity; discriminate|].
      cbn in Epa. discriminate. }
    rewrite advance_at. rewrite Et. rewrite E' in E.
    destruct (for_each_prologue 64 c' 1 w first tp) as [lp [[]|s]]; unfold bindW in E; cbn beta iota in E.
    + injection E as <-. unfold mapWT, bindT. cbn [fst snd map_res]. now rewrite map_app.
    + discriminate.
  - rewrite <- (at_pos_start first dst S2).
    destruct (transform_body_steps first dst S2 c c' pol w first last (last - first)) as (l' & E' & Et);
      try assumption; try reflexivity.
    rewrite Et. rewrite E' in E. injection E as <-. reflexivity.
Qed.

Lemma shift_length first dst c pol w n d :
  prologue_length (shift_cfg first dst c) pol w first n d <-> prologue_length c pol w dst n d.
Proof.
  assert (Hn : forall e, next_aligned (shift_cfg first dst c) w first e <-> next_aligned c w dst e).
  { intros e. unfold next_aligned, is_aligned, address. cbn [shift_cfg c_base c_sz c_malign].
    assert (Ha : forall x, c_base c + (dst - first) * c_sz c + (first + x) * c_sz c
                           = c_base c + (dst + x) * c_sz c) by (intros; ring).
    split; intros (H1 & H2 & H3); (split; [assumption|]; split).
    - now rewrite <- Ha.
    - intros x Hx Hd. apply (H3 x Hx). now rewrite Ha.
    - now rewrite Ha.
    - intros x Hx Hd. apply (H3 x Hx). now rewrite <- Ha. }
  unfold prologue_length. rewrite Hn.
  assert (Hw : forall e, worth (shift_cfg first dst c) n e <-> worth c n e) by (intros; reflexivity).
  assert (Hca : can_align (shift_cfg first dst c) w <-> can_align c w) by reflexivity.
  rewrite Hw, Hca. split; (intros [H|(H & [H'|(H' & H'')])]; [left; exact H|right; auto|right]);
    (split; [assumption|]; right; split; [assumption|]; intros Ha e He Hwo;
     apply (H'' Ha e); [now apply Hn|now apply Hw]).
Qed.

Lemma transform_schedule_fits c pol w first last dst srcs2 :
  target_ok c -> c_ce c = false -> policy_ok pol -> width_ok w -> range_ok first last ->
  size_matches pol w first last ->
  (forall d, prologue_length c pol w dst (last - first) d -> d <= last - first) ->
  exists d, prologue_length c pol w dst (last - first) d
    /\ snd (transform c pol w first last dst srcs2) = Ok (dst + (last - first))
    /\ map step_lanes (fst (transform c pol w first last dst srcs2))
        = schedule w (p_unroll pol) d (last - first).
Proof.
  intros Hc Hce Hp Hw [Hr1 Hr2] Hs Hfit.
  assert (Hmatch : p_match pol = true -> (w | last - first)).
  { intros Em. destruct (Hs Em) as [n Hn]. exists n. exact Hn. }
  assert (Hcfg := target_cfg c Hc). assert (Hpol := policy_pol pol Hp).
  assert (Hfit' : forall maxe tp, prologue_args c pol w (last - first) dst = Some (maxe, tp) ->
                  tp <= last - first).
  { intros maxe tp E. apply Hfit. eapply prologue_some_length; eassumption. }
  destruct (for_each_rt_lanes (shift_cfg first dst c) pol w first last) as (l & d & E & Hd & Hl);
    try assumption; [now apply shift_cfg_ok|intros maxe tp; rewrite shift_prologue_args; apply Hfit'|].
  apply shift_length in Hd. exists d. split; [assumption|]. unfold transform. rewrite Hce.
  destruct (Z.eqb_spec first last) as [<-|Hne].
  - rewrite Z.sub_diag in *. cbn [fst snd retT map]. split; [f_equal; lia|].
    assert (d = 0).
    { specialize (Hfit d Hd). destruct Hd as [(_ & (H & _) & _)|(H & _)]; lia. }
    subst d. rewrite schedule_nil; [reflexivity|exact (proj1 Hw)].
  - assert (Etrap : p_match pol && negb ((last - first) mod w =? 0) = false).
    { destruct (p_match pol); [|reflexivity]. cbn [andb]. unfold width_ok in Hw.
      assert ((last - first) mod w = 0) by (apply Z.mod_divide; [lia|]; now apply Hmatch). lia. }
    rewrite Etrap, (transform_rt_calls c pol w first last dst srcs2 l) by assumption.
    cbn [fst snd]. split; [reflexivity|]. rewrite ev_lanes. exact Hl.
Qed.

Lemma transform_schedule c pol w first last dst srcs2 :
  target_ok c -> c_ce c = false -> policy_ok pol -> width_ok w -> range_ok first last ->
  size_matches pol w first last -> reaches_alignment c pol w dst (dst + (last - first)) ->
  exists d, prologue_length c pol w dst (last - first) d
    /\ snd (transform c pol w first last dst srcs2) = Ok (dst + (last - first))
    /\ map step_lanes (fst (transform c pol w first last dst srcs2))
        = schedule w (p_unroll pol) d (last - first).
Proof.
  intros Hc Hce Hp Hw [Hr1 Hr2] Hs Hra. apply transform_schedule_fits; try assumption; [split; assumption|].
  assert (Hx := reaches_length c pol w dst (dst + (last - first)) Hc Hw).
  replace (dst + (last - first) - dst) with (last - first) in Hx by lia. apply Hx; [|assumption].
  split; lia.
Qed.

(** Constant evaluation: full chunks, then single elements (simd_execution.h:739-754). *)
Lemma transform_ce_schedule c pol w first last dst srcs2 :
  c_ce c = true -> width_ok w -> range_ok first last -> size_matches pol w first last ->
  snd (transform c pol w first last dst srcs2) = Ok (dst + (last - first))
  /\ map step_lanes (fst (transform c pol w first last dst srcs2))
     = repeat [Z.to_nat w] (Z.to_nat ((last - first) / w))
       ++ repeat [1%nat] (Z.to_nat ((last - first) mod w)).
Proof.
  intros Hce Hw [Hle Hr2] Hs. unfold width_ok in Hw. unfold transform. rewrite Hce.
  destruct (Z.eqb_spec first last) as [<-|Hne].
  { rewrite Z.sub_diag, Z.div_0_l, Z.mod_0_l by lia. cbn [fst snd retT map]. split; [f_equal; lia|reflexivity]. }
  assert (Etrap : p_match pol && negb ((last - first) mod w =? 0) = false).
  { destruct (p_match pol) eqn:Em; [|reflexivity]. cbn [andb]. destruct (Hs Em) as [n Hn].
    rewrite Hn, Z.mod_mul by lia. reflexivity. }
  rewrite Etrap.
  destruct (const_loop_ok w (loop_fuel first last) last first) as [E Hu];
    [lia|lia|unfold loop_fuel; lia|].
  set (l1 := fst (const_loop (loop_fuel first last) w last first)) in *.
  set (b := last - (last - first) mod w) in *.
  assert (Hmb : 0 <= (last - first) mod w < w) by (apply Z.mod_pos_bound; lia).
  assert (HT1 : tiles first b l1) by (eapply uniform_tiles; [| |exact Hu]; lia).
  pose proof (tiles_le _ _ _ HT1) as Hb.
  assert (E2 := const_loop_steps first dst srcs2 1 last (loop_fuel first last) b).
  destruct (const_loop_ok 1 (loop_fuel first last) last b) as [E1 Hu1];
    [lia|lia|unfold loop_fuel; lia|].
  set (l2 := fst (const_loop (loop_fuel first last) 1 last b)) in *.
  rewrite Z.mod_1_r, Z.sub_0_r in *.
  assert (Hext : forall fuel p,
    transform_loop fuel (fun f => f <? last) 1 1 false p
    = transform_loop fuel (fun f => f + (1 - 1) <? last) 1 1 false p).
  { induction fuel as [|fuel IH]; intros p; [reflexivity|]. cbn [transform_loop].
    rewrite Z.add_0_r. destruct (fst (fst p) <? last); [|reflexivity]. now rewrite IH. }
  assert (ET : transform_ce w first last dst srcs2
               = (map (ev first dst srcs2) (l1 ++ l2), Ok (dst + (last - first)))).
  { unfold transform_ce. rewrite <- (at_pos_start first dst srcs2).
    rewrite const_loop_steps, E. unfold mapWT, bindT at 1. cbn [fst snd map_res].
    rewrite Hext, E2, E1. unfold mapWT, bindT, retT. cbn [fst snd map_res at_pos].
    rewrite app_nil_r, <- map_app. reflexivity. }
  rewrite ET. cbn [fst snd]. rewrite ev_lanes. split; [reflexivity|].
  destruct (uniform_lanes _ _ _ _ _ _ Hu) as [S1 L1].
  destruct (uniform_lanes _ _ _ _ _ _ Hu1) as [S2 L2].
  rewrite lanes_app, S1, S2, !repeat_once. change (Z.to_nat 1) with 1%nat.
  assert (length l1 = Z.to_nat ((last - first) / w)).
  { replace (w * Z.of_nat 1) with w in L1 by lia.
    assert ((last - first) / w = Z.of_nat (length l1))
      by (symmetry; apply Z.div_unique_pos with ((last - first) mod w); unfold b in *; lia).
    lia. }
  assert (length l2 = Z.to_nat ((last - first) mod w)) by (unfold b in *; lia).
  congruence.
Qed.
