(** transform_reduce never looks at what a misaligned vector_aligned load would do, for every range,
    also when the prologue leaves it. *)
From Verif Require Import Base BaseFacts ExecModel ExecProofs ExecForEach ExecRun ExecSpec ExecThm
  TransformModel ReduceModel TReduceModel TReduceProofs AlignedProofs.
From Coq Require Import ZifyBool ZifyNat.
Ltac Zify.zify_post_hook ::= idtac.

Lemma bindR_eq {A B} (a b : res A) (f g : A -> res B) :
  a = b -> (forall x, f x = g x) -> bindR a f = bindR b g.
Proof. intros -> H. destruct b; cbn; auto. Qed.

Section Agree.
  Context {A : Type} (op : A -> A -> A) (ld1 ld2 : bool -> list Z -> Z -> res (list A)).
  Variable okp : Z -> Z -> Prop.
  Hypothesis agree : forall al p ps k, (al = true -> okp p k) -> ld1 al (p :: ps) k = ld2 al (p :: ps) k.
  (** Chunks of a power of two up to [w] are fine at multiples of their size from [s0]. *)
  Variables w s0 J : Z.
  Variable al : bool.
  Hypothesis HJ : al = true -> 0 <= J /\ w = 2 ^ J.
  Hypothesis fine : al = true -> forall i q, 0 <= i <= J -> (2 ^ i | q - s0) -> okp q (2 ^ i).

  Lemma fine_w p : (al = true -> (w | p - s0)) -> al = true -> okp p w.
  Proof.
    intros H E. destruct (HJ E) as [H0 EJ]. rewrite EJ. apply fine; [assumption|lia|].
    rewrite <- EJ. now apply H.
  Qed.

  Definition lined (s p : Z) : Prop :=
    al = true -> exists i, 0 <= i < J /\ s = 2 ^ i /\ (2 ^ (i + 1) | p - s0).

  Lemma lined_ok s p : lined s p -> al = true -> okp p s.
  Proof.
    intros H E. destruct (H E) as (i & Hi & -> & Hd). apply fine; [assumption|lia|].
    eapply Z.divide_trans; [|exact Hd]. apply pow2_divide; lia.
  Qed.

  Lemma lined_half s p q : lined s p -> (q = p \/ q = p + s) -> 1 < s -> lined (s / 2) q.
  Proof.
    intros H Hq H1 E. destruct (H E) as (i & Hi & Es & Hd). exists (i - 1).
    assert (1 <= i) by (destruct (Z.eq_dec i 0) as [->|]; [cbn in Es; lia|lia]).
    split; [lia|]. destruct (pow2_half i ltac:(lia)) as [Eh _]. rewrite Es. split; [exact Eh|].
    replace (i - 1 + 1) with i by lia.
    assert (Hd' : (2 ^ i | p - s0)) by (eapply Z.divide_trans; [|exact Hd]; apply pow2_divide; lia).
    destruct Hq as [->| ->]; [assumption|]. rewrite Es.
    replace (p + 2 ^ i - s0) with (p - s0 + 2 ^ i) by lia. apply Z.divide_add_r; [assumption|apply Z.divide_refl].
  Qed.

  Lemma single_bit_two s : has_single_bit s = true -> s <> 1 -> 1 < s.
  Proof. unfold has_single_bit. intros H Hs. lia. Qed.

  Lemma tr_epilogue_acc_agree fuel : forall s acc1 acc p ps lo, lined s p ->
    tr_epilogue_acc op ld1 fuel s acc1 acc (p :: ps) lo al = tr_epilogue_acc op ld2 fuel s acc1 acc (p :: ps) lo al.
  Proof.
    induction fuel as [|fuel IH]; intros s acc1 acc p ps lo H; [reflexivity|]. cbn [tr_epilogue_acc].
    destruct (has_single_bit s) eqn:Es; cbn [negb]; [|reflexivity].
    destruct (Z.land lo s =? 0); cbn [negb].
    - destruct (Z.land lo (s - 1) =? 0); [reflexivity|]. destruct (Z.ltb_spec 1 s); [|reflexivity].
      apply bindR_eq; [reflexivity|]. intros lh. apply bindR_eq; [reflexivity|]. intros acc2.
      apply IH. eapply lined_half; [exact H|now left|assumption].
    - apply bindR_eq; [apply agree, lined_ok, H|]. intros v. apply bindR_eq; [reflexivity|]. intros acc'.
      destruct (Z.eqb_spec s 1) as [|N1]; [reflexivity|]. destruct (Z.land lo (s - 1) =? 0); [reflexivity|].
      apply bindR_eq; [reflexivity|]. intros lh. apply bindR_eq; [reflexivity|]. intros acc2.
      cbn [adv map]. apply IH. eapply lined_half; [exact H|now right|now apply single_bit_two].
  Qed.

  Lemma tr_epilogue_agree fuel : forall s acc1 p ps lo, lined s p ->
    tr_epilogue op ld1 fuel s acc1 (p :: ps) lo al = tr_epilogue op ld2 fuel s acc1 (p :: ps) lo al.
  Proof.
    induction fuel as [|fuel IH]; intros s acc1 p ps lo H; [reflexivity|]. cbn [tr_epilogue].
    destruct (has_single_bit s) eqn:Es; cbn [negb]; [|reflexivity].
    destruct (Z.land lo s =? 0); cbn [negb].
    - destruct (Z.land lo (s - 1) =? 0); [reflexivity|]. destruct (Z.ltb_spec 1 s); [|reflexivity].
      apply IH. eapply lined_half; [exact H|now left|assumption].
    - apply bindR_eq; [apply agree, lined_ok, H|]. intros acc'.
      destruct (Z.eqb_spec s 1) as [|N1]; [reflexivity|]. destruct (Z.land lo (s - 1) =? 0); [reflexivity|].
      apply bindR_eq; [reflexivity|]. intros lh. apply bindR_eq; [reflexivity|]. intros acc2.
      cbn [adv map]. apply tr_epilogue_acc_agree.
      eapply lined_half; [exact H|now right|now apply single_bit_two].
  Qed.

  Definition at_w (p : Z) : Prop := al = true -> (w | p - s0).

  Lemma at_w_step p k : at_w p -> at_w (p + w * k).
  Proof.
    intros H E. replace (p + w * k - s0) with (p - s0 + w * k) by lia.
    apply Z.divide_add_r; [now apply H|apply Z.divide_factor_l].
  Qed.

  Lemma at_w_next p : at_w p -> at_w (p + w).
  Proof. intros H. rewrite <- (Z.mul_1_r w). now apply at_w_step. Qed.

  Lemma ld_n_agree n : forall p ps, at_w p -> ld_n ld1 al (p :: ps) w n = ld_n ld2 al (p :: ps) w n.
  Proof.
    induction n as [|n IH]; intros p ps H; [reflexivity|]. cbn [ld_n].
    apply bindR_eq; [apply agree, fine_w, H|]. intros v. cbn [adv map].
    rewrite IH; [reflexivity|]. now apply at_w_next.
  Qed.

  Lemma tr_unrolled_agree n fuel : forall ul f p ps accs, at_w p ->
    tr_unrolled op ld1 fuel w n al ul f (p :: ps) accs = tr_unrolled op ld2 fuel w n al ul f (p :: ps) accs.
  Proof.
    induction fuel as [|fuel IH]; intros ul f p ps accs H; [reflexivity|]. cbn [tr_unrolled].
    apply bindR_eq; [now apply ld_n_agree|]. intros vs. apply bindR_eq; [reflexivity|]. intros accs'.
    cbn [adv map]. rewrite IH; [reflexivity|]. now apply at_w_step.
  Qed.

  (** The pointers a computation ends with are aligned as those it started with. *)
  Lemma tr_unrolled_ptrs ld n fuel : forall ul f p ps accs a f' ps', at_w p ->
    tr_unrolled op ld fuel w n al ul f (p :: ps) accs = Ok (a, f', ps') ->
    exists q qs, ps' = q :: qs /\ at_w q.
  Proof.
    induction fuel as [|fuel IH]; intros ul f p ps accs a f' ps' H E; [discriminate|]. cbn [tr_unrolled] in E.
    destruct (ld_n ld al (p :: ps) w n) as [vs|]; [|discriminate]. cbn [bindR] in E.
    destruct (vop_n op accs vs) as [accs'|]; [|discriminate]. cbn [bindR] in E.
    destruct (f + w * Z.of_nat n <=? ul).
    - cbn [adv map] in E. apply IH in E; [assumption|]. now apply at_w_step.
    - injection E as <- <- <-. cbn [adv map]. eexists _, _. split; [reflexivity|]. now apply at_w_step.
  Qed.

  Lemma tr_first_agree pol f l p ps : at_w p ->
    tr_first op ld1 pol w al f l (p :: ps) = tr_first op ld2 pol w al f l (p :: ps).
  Proof.
    intros H. unfold tr_first. cbv zeta.
    assert (E1 : bindR (ld1 al (p :: ps) w) (fun v => Ok (v, f + w, adv w (p :: ps)))
                 = bindR (ld2 al (p :: ps) w) (fun v => Ok (v, f + w, adv w (p :: ps)))).
    { apply bindR_eq; [apply agree, fine_w, H|reflexivity]. }
    destruct (1 <? p_unroll pol); [|exact E1].
    destruct (f + w * p_unroll pol <=? l - w * p_unroll pol); [|exact E1].
    apply bindR_eq; [now apply ld_n_agree|]. intros accs. apply bindR_eq; [|reflexivity].
    cbn [adv map]. apply tr_unrolled_agree. now apply at_w_step.
  Qed.

  Lemma tr_first_ptrs ld pol f l p ps a f' ps' : at_w p ->
    tr_first op ld pol w al f l (p :: ps) = Ok (a, f', ps') -> exists q qs, ps' = q :: qs /\ at_w q.
  Proof.
    intros H E. unfold tr_first in E. cbv zeta in E.
    assert (E1 : bindR (ld al (p :: ps) w) (fun v => Ok (v, f + w, adv w (p :: ps))) = Ok (a, f', ps') ->
                 exists q qs, ps' = q :: qs /\ at_w q).
    { destruct (ld al (p :: ps) w); [|discriminate]. cbn [bindR]. intros [= <- <- <-]. cbn [adv map].
      eexists _, _. split; [reflexivity|]. now apply at_w_next. }
    destruct (1 <? p_unroll pol); [|exact (E1 E)].
    destruct (f + w * p_unroll pol <=? l - w * p_unroll pol); [|exact (E1 E)].
    destruct (ld_n ld al (p :: ps) w (Z.to_nat (p_unroll pol))) as [accs|]; [|discriminate]. cbn [bindR] in E.
    destruct (tr_unrolled op ld (loop_fuel f l) w (Z.to_nat (p_unroll pol)) al (l - w * p_unroll pol)
                (f + w * p_unroll pol) (adv (w * p_unroll pol) (p :: ps)) accs) as [[[accs' f1] ps1]|] eqn:Eu;
      [|discriminate]. cbn [bindR] in E.
    destruct (tree op (Z.to_nat (p_unroll pol)) accs'); [|discriminate]. cbn [bindR] in E.
    injection E as <- <- <-. cbn [adv map] in Eu. apply tr_unrolled_ptrs in Eu; [exact Eu|]. now apply at_w_step.
  Qed.

  Lemma tr_loop_agree mt fuel : forall l f p ps acc, at_w p ->
    tr_loop op ld1 fuel mt w al l f (p :: ps) acc = tr_loop op ld2 fuel mt w al l f (p :: ps) acc.
  Proof.
    induction fuel as [|fuel IH]; intros l f p ps acc H; [reflexivity|]. cbn [tr_loop].
    destruct (if mt then negb (f =? l) else f <=? l - w); [|reflexivity].
    apply bindR_eq; [apply agree, fine_w, H|]. intros v. apply bindR_eq; [reflexivity|]. intros acc'.
    cbn [adv map]. apply IH. now apply at_w_next.
  Qed.

  Lemma tr_loop_ptrs ld mt fuel : forall l f p ps acc a ps', at_w p ->
    tr_loop op ld fuel mt w al l f (p :: ps) acc = Ok (a, ps') -> exists q qs, ps' = q :: qs /\ at_w q.
  Proof.
    induction fuel as [|fuel IH]; intros l f p ps acc a ps' H E; [discriminate|]. cbn [tr_loop] in E.
    destruct (if mt then negb (f =? l) else f <=? l - w).
    - destruct (ld al (p :: ps) w) as [v|]; [|discriminate]. cbn [bindR] in E.
      destruct (vop op acc v) as [acc'|]; [|discriminate]. cbn [bindR adv map] in E.
      apply IH in E; [assumption|]. now apply at_w_next.
    - injection E as <- <-. eexists _, _. split; [reflexivity|assumption].
  Qed.

  Lemma bit_ceil_lined p : 1 < w -> at_w p -> lined (bit_ceil w / 2) p.
  Proof.
    intros Hw H E. destruct (HJ E) as [H0 EJ]. exists (J - 1).
    assert (1 <= J) by (destruct (Z.eq_dec J 0) as [E0|]; [rewrite E0 in EJ; cbn in EJ; lia|lia]).
    split; [lia|]. destruct (pow2_half J ltac:(lia)) as [Eh _].
    split; [|replace (J - 1 + 1) with J by lia; rewrite <- EJ; now apply H].
    rewrite EJ at 1. unfold bit_ceil. rewrite Z.log2_up_pow2 by lia. exact Eh.
  Qed.

  Lemma tr_body_agree pol acc1 f l d p ps : (al = true -> 1 < w) -> at_w p ->
    tr_body op ld1 pol w al acc1 f l d (p :: ps) = tr_body op ld2 pol w al acc1 f l d (p :: ps).
  Proof.
    intros Hw H. unfold tr_body. cbv zeta.
    assert (Hlin : forall q, at_w q -> lined (bit_ceil w / 2) q).
    { intros q Hq E. exact (bit_ceil_lined q (Hw E) Hq E). }
    destruct (p_match pol || (f <=? l - w)).
    - rewrite <- (tr_first_agree pol f l p ps H).
      destruct (tr_first op ld1 pol w al f l (p :: ps)) as [[[acc0 f1] ps1]|] eqn:E1; cbn [bindR]; [|reflexivity].
      destruct (tr_first_ptrs _ _ _ _ _ _ _ _ _ H E1) as (q & qs & -> & Hq).
      rewrite <- (tr_loop_agree _ _ l f1 q qs acc0 Hq).
      destruct (tr_loop op ld1 (loop_fuel f l) (p_match pol) w al l f1 (q :: qs) acc0) as [[acc ps2]|] eqn:E2;
        cbn [bindR]; [|reflexivity].
      destruct (tr_loop_ptrs _ _ _ _ _ _ _ _ _ _ Hq E2) as (r & rs & -> & Hr).
      destruct (w =? 1); [reflexivity|]. destruct (p_match pol || (d mod w =? 0)); [reflexivity|].
      apply bindR_eq; [reflexivity|]. intros lh. destruct (bit_ceil w / 2 =? w - bit_ceil w / 2).
      + apply bindR_eq; [reflexivity|]. intros acc2. apply tr_epilogue_acc_agree. now apply Hlin.
      + apply bindR_eq; [reflexivity|]. intros x. apply tr_epilogue_acc_agree. now apply Hlin.
    - destruct (0 <? bit_ceil w / 2); [|reflexivity]. apply tr_epilogue_agree. now apply Hlin.
  Qed.
End Agree.

Section Whole.
  Context {A : Type} (op : A -> A -> A) (ld1 ld2 : bool -> list Z -> Z -> res (list A)).

  Lemma tr_prologue_agree okp J first tp srcs2 :
    (forall al p ps k, (al = true -> okp p k) -> ld1 al (p :: ps) k = ld2 al (p :: ps) k) ->
    (forall i q, 0 <= i <= J -> (2 ^ i | q - (first + tp)) -> okp q (2 ^ i)) ->
    forall fuel i acc1, 0 <= i <= J ->
    tr_prologue op ld1 fuel (2 ^ i) (2 ^ J) acc1 (first :: srcs2) tp
    = tr_prologue op ld2 fuel (2 ^ i) (2 ^ J) acc1 (first :: srcs2) tp.
  Proof.
    intros agree fine. induction fuel as [|fuel IH]; intros i acc1 Hi; [reflexivity|]. cbn [tr_prologue].
    destruct (negb (has_single_bit (2 ^ i) && has_single_bit (2 ^ J))); [reflexivity|].
    apply bindR_eq.
    - destruct (Z.land tp (2 ^ i) =? 0); [reflexivity|]. apply bindR_eq; [|reflexivity].
      cbn [adv map]. apply agree. intros _. apply fine; [assumption|].
      rewrite land_pred_pow2 by lia. exists (- (tp / 2 ^ i)).
      pose proof (pow2_pos i ltac:(lia)). pose proof (Z.div_mod tp (2 ^ i) ltac:(lia)). lia.
    - intros acc1'. destruct (Z.ltb_spec (2 ^ i) (2 ^ J)) as [Hlt|]; [|reflexivity].
      apply Z.pow_lt_mono_r_iff in Hlt; [|lia|lia].
      replace (2 ^ i * 2) with (2 ^ (i + 1)) by (rewrite Z.pow_add_r; lia). apply IH. lia.
  Qed.

  Lemma transform_reduce_agree c pol w first last srcs2 init :
    target_ok c -> policy_ok pol -> width_ok w -> range_ok first last ->
    (forall al p ps k, (al = true -> is_aligned c p k) -> ld1 al (p :: ps) k = ld2 al (p :: ps) k) ->
    transform_reduce_on op ld1 c pol w first last srcs2 init
    = transform_reduce_on op ld2 c pol w first last srcs2 init.
  Proof.
    intros Hc Hp Hw [Hr1 Hr2] Hag0. assert (Hc' := target_cfg c Hc). unfold width_ok in Hw.
    assert (Hag : forall al p ps k, (al = true -> is_aligned c p k) ->
                  ld1 al (p :: ps) k = ld2 al (p :: ps) k) by exact Hag0.
    assert (Hok : forall J, cfg_std c -> (forall i, 0 <= i -> c_malign c (2 ^ i) = 2 ^ i * c_sz c) ->
              w = 2 ^ J -> forall s, aligned_at c s w = true ->
              forall i q, 0 <= i <= J -> (2 ^ i | q - s) -> is_aligned c q (2 ^ i)).
    { intros J Hstd Hmal EJ s Hs i q Hi Hd. pose proof (pow2_pos i ltac:(lia)).
      apply is_aligned_at; [apply malign_pos; [now left|lia]|].
      rewrite EJ in Hs. apply (aligned_at_iff c i q s Hstd ltac:(lia) (Hmal i ltac:(lia))); [|assumption].
      apply (aligned_at_smaller c i J); try assumption. }
    unfold transform_reduce_on. destruct (first =? last); [reflexivity|].
    destruct (p_match pol && negb ((last - first) mod w =? 0)); [reflexivity|].
    destruct (c_ce c).
    { generalize (loop_fuel first last). intros fuel. generalize init. generalize srcs2. generalize first at 1 3.
      clear - Hag. revert first. induction fuel as [|fuel IH]; intros first f srcs acc; [reflexivity|].
      cbn [tr_const]. destruct (f <? last); [|reflexivity].
      apply bindR_eq; [apply Hag; discriminate|]. intros r. apply bindR_eq; [reflexivity|]. intros x.
      cbn [adv map]. apply IH. }
    destruct (prologue_args c pol w (last - first) first) as [[maxe tp]|] eqn:Epa.
    - destruct (prologue_args_possible _ _ _ _ _ _ _ Hp Epa) as [Epos Em].
      destruct Hc' as [Hstd|Hfb]; [|rewrite fallback_impossible in Epos by assumption; discriminate].
      destruct (possible_std c w Hstd Epos) as (J & s & HJ & Hs' & EJ & Es & Hm).
      destruct (prologue_args_std _ _ _ _ _ _ _ Hstd (proj2 Hw) Epa) as (_ & -> & Htp & Hal & Hleast).
      specialize (Hok J Hstd Hm EJ (first + tp) Hal).
      apply bindR_eq.
      + rewrite EJ. change 1 with (2 ^ 0). apply (tr_prologue_agree (is_aligned c) J); try assumption. lia.
      + intros acc1. cbn [adv map].
        apply (tr_body_agree op ld1 ld2 (is_aligned c) Hag w (first + tp) J).
        * intros _. split; [lia|assumption].
        * intros _. exact Hok.
        * intros _. unfold prologue_is_possible in Epos. lia.
        * intros _. rewrite Z.sub_diag. apply Z.divide_0_r.
    - set (al := use_aligned_loadstore c pol w). destruct al eqn:Eal.
      + unfold al in Eal. pose proof (prologue_args_none_aligned c pol w _ first Eal Epa) as Hal.
        unfold use_aligned_loadstore in Eal. apply andb_prop in Eal. destruct Eal as [_ Epos].
        destruct Hc' as [Hstd|Hfb]; [|rewrite fallback_impossible in Epos by assumption; discriminate].
        destruct (possible_std c w Hstd Epos) as (J & s & HJ & Hs' & EJ & Es & Hm).
        specialize (Hok J Hstd Hm EJ first Hal).
        apply (tr_body_agree op ld1 ld2 (is_aligned c) Hag w first J).
        * intros _. split; [lia|assumption].
        * intros _. exact Hok.
        * intros _. unfold prologue_is_possible in Epos. lia.
        * intros _. rewrite Z.sub_diag. apply Z.divide_0_r.
      + apply (tr_body_agree op ld1 ld2 (is_aligned c) Hag w first 0); discriminate.
  Qed.
End Whole.
