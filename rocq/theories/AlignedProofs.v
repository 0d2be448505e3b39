(** Every access with vector_aligned is aligned: for_each and transform for every range, also when
    the prologue of prefer_aligned or auto_prologue leaves it. *)
From Verif Require Import Base BaseFacts ExecModel ExecProofs ExecForEach ExecRun ExecSpec ExecThm
  TransformModel TransformSpec TransformProofs TransformThm TransformExact.
From Coq Require Import ZifyBool ZifyNat.
Ltac Zify.zify_post_hook ::= idtac.

(** A prologue only happens where one is possible, and never with assume_matching_size. *)
Lemma prologue_args_possible c pol w n p maxe tp : policy_ok pol ->
  prologue_args c pol w n p = Some (maxe, tp) ->
  prologue_is_possible c w = true /\ p_match pol = false.
Proof.
  intros (_ & Hp1 & Hp2) E. unfold prologue_args, use_aligned_loadstore, maybe_prologue in E. split.
  - destruct (prologue_is_possible c w); [reflexivity|]. rewrite !andb_false_r in E. discriminate.
  - destruct (p_aligned pol); [auto|]. destruct (p_auto pol); [auto|discriminate].
Qed.

Lemma size_or_trap (A : Type) (x y : A) pol w first last (P : A -> Prop) : width_ok w -> P x ->
  (size_matches pol w first last -> P y) ->
  P (if p_match pol && negb ((last - first) mod w =? 0) then x else y).
Proof.
  intros Hw Hx Hy. destruct (p_match pol && negb ((last - first) mod w =? 0)) eqn:E; [assumption|].
  apply Hy. intros Em. rewrite Em in E. cbn [andb] in E. unfold width_ok in Hw.
  destruct (Z.eqb_spec ((last - first) mod w) 0) as [E0|]; [|discriminate].
  apply Z.mod_divide in E0; [|lia]. destruct E0 as [q Hq]. now exists q.
Qed.

Lemma for_each_rt_aligned_any c pol w first last :
  target_ok c -> policy_ok pol -> width_ok w -> range_ok first last -> size_matches pol w first last ->
  Forall (call_aligned c) (fst (for_each_rt c pol w first last)).
Proof.
  intros Hc Hp Hw [Hr1 Hr2] Hs. assert (Hc' := target_cfg c Hc).
  assert (Hfit : (forall maxe tp, prologue_args c pol w (last - first) first = Some (maxe, tp) -> tp <= last - first) ->
            Forall (call_aligned c) (fst (for_each_rt c pol w first last))).
  { intros Hfit. destruct (for_each_rt_calls_fit c pol w first last) as (l & E & _ & HA & _);
      try assumption; [now apply policy_pol|]. rewrite E. exact HA. }
  destruct (prologue_args c pol w (last - first) first) as [[maxe tp]|] eqn:Epa; [|apply Hfit; discriminate].
  destruct (Z_le_gt_dec tp (last - first)) as [Hle|Hgt].
  { apply Hfit. intros ? ? [= _ <-]. assumption. }
  clear Hfit. destruct (prologue_args_possible _ _ _ _ _ _ _ Hp Epa) as [Epos Em].
  destruct Hc' as [Hstd|Hfb]; [|rewrite fallback_impossible in Epos by assumption; discriminate].
  destruct (possible_std c w Hstd Epos) as (J & s & HJ & Hs' & EJ & Es & Hm).
  destruct (prologue_args_std _ _ _ _ _ _ _ Hstd (proj2 Hw) Epa) as (_ & -> & Htp & Hal & Hleast).
  unfold for_each_rt. rewrite Epa. unfold width_ok in Hw. fold two64 in Hw, Hr2.
  assert (HJ64 : J < 64).
  { apply pow2_lt_inv; [lia|]. rewrite <- EJ. exact (proj2 Hw). }
  destruct (for_each_prologue_ok c J 64 0 first tp) as (lp & Ep & Hasc); [lia|lia|lia|lia|].
  change (2^0) with 1 in Ep, Hasc. rewrite Z.div_1_r, Z.mul_1_l in Hasc. rewrite <- EJ in Ep.
  rewrite Ep. unfold bindW at 1.
  destruct (for_each_aligned_short c pol w (first + tp) last J) with (d := (last - first - tp) mod two64)
    as (l & El & HA); try assumption; [lia|lia|lia| |].
  { replace (last - (first + tp)) with (last - first - tp) by lia.
    rewrite EJ. change two64 with (2^64). symmetry. apply Znumtheory.Zmod_div_mod;
      [apply pow2_pos; lia|lia|apply pow2_divide; lia]. }
  rewrite El. cbn [fst]. rewrite Forall_app. split; [|assumption].
  destruct (asc_pos _ _ _ _ _ Hasc ltac:(lia)) as [_ HP].
  eapply Forall_impl; [|exact HP]. intros k (i & Hi & Ek & En & _ & Hk) _ i' Hi'.
  rewrite En in Hi'. assert (i' = 0) by lia. subst i'. rewrite Z.mul_0_r, Z.add_0_r, Ek.
  apply (aligned_at_iff c i _ (first + tp)); try assumption; [lia|apply Hm; lia| |].
  + apply (aligned_at_smaller c i J); try assumption; [lia|]. rewrite <- EJ. exact Hal.
  + replace (k_pos k - (first + tp)) with (- (first + tp - k_pos k)) by lia.
    now apply Z.divide_opp_r.
Qed.

Lemma for_each_aligned_any c pol w first last :
  target_ok c -> c_ce c = false -> policy_ok pol -> width_ok w -> range_ok first last ->
  forall k i, In k (fst (for_each c pol w first last)) -> k_al k = true ->
  (i < k_n k)%nat -> 0 < k_k k -> is_aligned c (k_pos k + k_k k * Z.of_nat i) (k_k k).
Proof.
  intros Hc Hce Hp Hw Hr k i Hin Hal Hi Hk.
  apply is_aligned_at; [apply malign_pos; [now apply target_cfg|assumption]|].
  assert (HF : Forall (call_aligned c) (fst (for_each c pol w first last))).
  { unfold for_each. destruct (Z.eqb_spec first last); [constructor|]. rewrite Hce.
    apply (size_or_trap _ _ _ _ _ _ _ (fun r => Forall (call_aligned c) (fst r)) Hw); [constructor|].
    intros Hs. now apply for_each_rt_aligned_any. }
  rewrite Forall_forall in HF. apply (HF k Hin Hal). lia.
Qed.

Lemma transform_rt_aligned_any c pol w first last dst S2 :
  target_ok c -> policy_ok pol -> width_ok w -> range_ok first last -> size_matches pol w first last ->
  Forall (store_aligned c) (fst (transform_rt c pol w first last dst S2)).
Proof.
  intros Hc Hp Hw [Hr1 Hr2] Hs.
  assert (Hmd : p_match pol = true -> (w | last - first)).
  { intros Em. destruct (Hs Em) as [n Hn]. exists n. exact Hn. }
  assert (Hfit : (forall maxe tp, prologue_args c pol w (last - first) dst = Some (maxe, tp) -> tp <= last - first) ->
            Forall (store_aligned c) (fst (transform_rt c pol w first last dst S2))).
  { intros Hf. destruct (transform_rt_steps_fit c pol w first last dst S2) as (l & E & HT & HA);
      try assumption; [now apply target_cfg|now apply policy_pol|].
    rewrite E. cbn [fst]. apply Forall_map. eapply Forall_impl; [|exact HA].
    intros k Hk. now apply store_aligned_ev. }
  destruct (prologue_args c pol w (last - first) dst) as [[maxe tp]|] eqn:Epa; [|apply Hfit; discriminate].
  destruct (Z_le_gt_dec tp (last - first)) as [Hle|Hgt].
  { apply Hfit. intros ? ? [= _ <-]. assumption. }
  clear Hfit. set (c' := shift_cfg first dst c).
  assert (Hc' : cfg_ok c') by now apply shift_cfg_ok, target_cfg.
  rewrite <- shift_prologue_args with (F := first) in Epa. fold c' in Epa.
  destruct (prologue_args_possible _ _ _ _ _ _ _ Hp Epa) as [Epos Em].
  destruct Hc' as [Hstd|Hfb]; [|rewrite fallback_impossible in Epos by assumption; discriminate].
  destruct (possible_std c' w Hstd Epos) as (J & s & HJ & Hs' & EJ & Es & Hm).
  destruct (prologue_args_std _ _ _ _ _ _ _ Hstd (proj2 Hw) Epa) as (_ & -> & Htp & Hal & Hleast).
  unfold transform_rt. rewrite <- shift_prologue_args with (F := first). fold c'. rewrite Epa.
  assert (HPS := prologue_steps first dst S2 c' w tp 64 1 first eq_refl ltac:(lia)).
  rewrite Z.sub_diag, Z.add_0_r, adv_0 in HPS. rewrite HPS.
  assert (HJ64 : J < 64).
  { apply pow2_lt_inv; [lia|]. rewrite <- EJ. exact (proj2 Hw). }
  destruct (for_each_prologue_ok c' J 64 0 first tp) as (lp & Ep & Hasc); [lia|lia|lia|lia|].
  change (2^0) with 1 in Ep, Hasc. rewrite Z.div_1_r, Z.mul_1_l in Hasc. rewrite <- EJ in Ep.
  rewrite Ep. unfold mapWT. cbn [fst snd map_res].
  assert (Hlp : Forall (store_aligned c) (map (ev first dst S2) lp)).
  { destruct (asc_pos _ _ _ _ _ Hasc ltac:(lia)) as [_ HP].
    apply Forall_map. eapply Forall_impl; [|exact HP]. intros k (i & Hi & Ek & En & _ & Hk).
    apply store_aligned_ev. intros _ i' Hi'.
    rewrite En in Hi'. assert (i' = 0) by lia. subst i'. rewrite Z.mul_0_r, Z.add_0_r, Ek.
    apply (aligned_at_iff c' i _ (first + tp)); try assumption; [lia|apply Hm; lia| |].
    + apply (aligned_at_smaller c' i J); try assumption; [lia|]. rewrite <- EJ. exact Hal.
    + replace (k_pos k - (first + tp)) with (- (first + tp - k_pos k)) by lia.
      now apply Z.divide_opp_r. }
  assert (Hbody := transform_body_short c pol w last ((last - first - tp) mod two64)
                     (advance tp (first, dst, S2)) J).
  cbn [advance fst snd] in Hbody.
  unfold bindT. cbn [advance].
  destruct (transform_body c pol w last ((last - first - tp) mod two64)
              (first + tp, dst + tp, adv tp S2)) as [lb rb] eqn:Eb.
  cbn [fst] in *. rewrite Forall_app. split; [exact Hlp|]. unfold width_ok in Hw.
  assert (Hstd0 : cfg_std c).
  { destruct (target_cfg c Hc) as [H|H]; [exact H|]. exfalso.
    assert (cfg_fallback c') by (destruct H; split; assumption).
    rewrite fallback_impossible in Epos by assumption. discriminate. }
  apply Hbody; try assumption; [unfold two64; lia|lia|lia|].
  unfold c' in Hal. rewrite shift_aligned in Hal. rewrite <- Hal. f_equal. lia.
Qed.

Lemma transform_aligned_any c pol w first last dst srcs2 :
  target_ok c -> policy_ok pol -> width_ok w -> range_ok first last ->
  forall s i, In s (fst (transform c pol w first last dst srcs2)) -> t_al s = true ->
  (i < t_n s)%nat -> 0 < t_k s -> is_aligned c (t_dst s + t_k s * Z.of_nat i) (t_k s).
Proof.
  intros Hc Hp Hw Hr s i Hin Hal Hi Hk.
  apply is_aligned_at; [apply malign_pos; [now apply target_cfg|assumption]|].
  assert (HF : Forall (store_aligned c) (fst (transform c pol w first last dst srcs2))).
  { unfold transform. destruct (Z.eqb_spec first last); [constructor|].
    apply (size_or_trap _ _ _ _ _ _ _ (fun r => Forall (store_aligned c) (fst r)) Hw); [constructor|].
    intros Hs. destruct (c_ce c) eqn:Ece; [|now apply transform_rt_aligned_any].
    destruct Hr as [Hr1 Hr2].
    destruct (transform_ce_steps w first last dst srcs2 Hw Hr1) as (l & E & _ & HA & _).
    rewrite E. apply Forall_map. eapply Forall_impl; [|exact HA]. intros k Ek Ek'. cbn in Ek'. congruence. }
  rewrite Forall_forall in HF. apply (HF s Hin Hal). lia.
Qed.
