(** assume_matching_size makes the same calls as the policy without it; the shapes of the calls of
    for_each for every range. *)
From Verif Require Import Base BaseFacts ExecModel ExecProofs ExecForEach ExecRun ExecSpec ExecThm
  TransformModel ReduceModel TReduceModel CountModel AlignedProofs.
From Coq Require Import ZifyBool ZifyNat Sorted.
Ltac Zify.zify_post_hook ::= idtac.

Notation unmatched pol := (mkpol (p_aligned pol) (p_auto pol) false (p_unroll pol) (p_size pol)).

Lemma matching_plain pol : policy_ok pol -> p_match pol = true -> p_aligned pol = false /\ p_auto pol = false.
Proof.
  intros (_ & H1 & H2) Em. split.
  - destruct (p_aligned pol); [rewrite H1 in Em by reflexivity; discriminate|reflexivity].
  - destruct (p_auto pol); [rewrite H2 in Em by reflexivity; discriminate|reflexivity].
Qed.

Lemma plain_no_prologue c pol w n p : p_aligned pol = false -> p_auto pol = false ->
  prologue_args c pol w n p = None.
Proof. intros H1 H2. unfold prologue_args, use_aligned_loadstore, maybe_prologue. now rewrite H1, H2. Qed.

Lemma bindW_ext {A B} (x : W A) (f g : A -> W B) :
  (forall l a, x = (l, Ok a) -> f a = g a) -> bindW x f = bindW x g.
Proof. intros H. destruct x as [l [a|s]]; [|reflexivity]. cbn. now rewrite (H l a eq_refl). Qed.

Lemma bindT_ext {A B} (x : WT A) (f g : A -> WT B) :
  (forall l a, x = (l, Ok a) -> f a = g a) -> bindT x f = bindT x g.
Proof. intros H. destruct x as [l [a|s]]; [|reflexivity]. cbn. now rewrite (H l a eq_refl). Qed.

(** ** for_each *)
Lemma match_loop_main w al last fuel : 1 <= w -> forall f, f <= last -> (w | last - f) ->
  match_loop fuel w al last f = main_loop fuel w 1 al (last - w) f.
Proof.
  intros Hw. induction fuel as [|fuel IH]; intros f Hf Hd; [reflexivity|]. cbn [match_loop main_loop].
  destruct (Z.eqb_spec f last) as [->|N]; [destruct (Z.leb_spec last (last - w)); [lia|reflexivity]|].
  assert (w <= last - f) by (apply Z.divide_pos_le; [lia|assumption]).
  destruct (Z.leb_spec f (last - w)); [|lia]. change (Z.of_nat 1) with 1. rewrite Z.mul_1_r.
  rewrite IH; [reflexivity|lia|].
  replace (last - (f + w)) with (last - f - w) by lia. apply Z.divide_sub_r; [assumption|apply Z.divide_refl].
Qed.

Lemma main_loop_end w n al last fuel : 1 <= w -> forall f l f',
  main_loop fuel w n al (last - w * Z.of_nat n) f = (l, Ok f') ->
  (w | f' - f) /\ (f <= last -> f' <= last).
Proof.
  intros Hw. induction fuel as [|fuel IH]; intros f l f' E; [discriminate|]. cbn [main_loop] in E.
  destruct (Z.leb_spec f (last - w * Z.of_nat n)).
  - destruct (main_loop fuel w n al (last - w * Z.of_nat n) (f + w * Z.of_nat n)) as [l1 [f1|]] eqn:E1;
      cbn in E; [|discriminate]. injection E as <- <-. destruct (IH _ _ _ E1) as [Hd Hle].
    split; [|intros; apply Hle; lia].
    replace (f1 - f) with (f1 - (f + w * Z.of_nat n) + w * Z.of_nat n) by lia.
    apply Z.divide_add_r; [assumption|apply Z.divide_factor_l].
  - injection E as _ <-. rewrite Z.sub_diag. split; [apply Z.divide_0_r|auto].
Qed.

Lemma for_each_matching_same c pol w first last :
  policy_ok pol -> width_ok w -> first <= last -> size_matches pol w first last ->
  for_each c pol w first last = for_each c (unmatched pol) w first last.
Proof.
  intros Hp Hw Hr Hs. unfold width_ok in Hw. destruct (p_match pol) eqn:Em.
  2:{ destruct pol as [a b m u s]. cbn in Em. subst m. reflexivity. }
  destruct (matching_plain pol Hp Em) as [H1 H2]. destruct (Hs Em) as [q Hq].
  unfold for_each. destruct (first =? last); [reflexivity|]. rewrite Em. cbn [p_match andb].
  rewrite Hq, Z.mod_mul, Z.eqb_refl by lia. cbn [negb]. destruct (c_ce c); [reflexivity|].
  unfold for_each_rt. rewrite (plain_no_prologue c pol) by assumption.
  rewrite (plain_no_prologue c (unmatched pol)) by assumption.
  unfold for_each_body. rewrite Em. cbn [p_match p_unroll negb andb].
  assert (Eal : use_aligned_loadstore c (unmatched pol) w = use_aligned_loadstore c pol w) by reflexivity.
  rewrite Eal. apply bindW_ext. intros l f1 E.
  assert (Hf1 : (w | last - f1) /\ f1 <= last).
  { destruct (Z.ltb_spec 1 (p_unroll pol)) as [Hu|_].
    - replace (p_unroll pol) with (Z.of_nat (Z.to_nat (p_unroll pol))) in E at 2 by lia.
      apply main_loop_end in E; [|lia]. destruct E as [Hd Hle]. split; [|now apply Hle].
      replace (last - f1) with (last - first - (f1 - first)) by lia. apply Z.divide_sub_r; [|assumption].
      rewrite Hq. apply Z.divide_factor_r.
    - injection E as _ <-. rewrite Hq. split; [apply Z.divide_factor_r|assumption]. }
  destruct Hf1 as [Hd Hle]. rewrite match_loop_main by (assumption || lia).
  apply bindW_ext. intros _ _ _. rewrite Hq, Z.mod_mul, Z.eqb_refl by lia. cbn [negb].
  now rewrite andb_false_r.
Qed.

Lemma run_for_each_matching_same {T St} (f : St -> list (list T) -> St * list (list T))
      c pol w wb first last m st :
  policy_ok pol -> width_ok w -> first <= last -> size_matches pol w first last ->
  run_for_each f c pol w wb first last m st = run_for_each f c (unmatched pol) w wb first last m st.
Proof. intros Hp Hw Hr Hs. unfold run_for_each. now rewrite (for_each_matching_same c pol) by assumption. Qed.

Lemma for_each_uniform_calls c pol w first last :
  target_ok c -> c_ce c = false -> policy_ok pol -> width_ok w -> range_ok first last ->
  p_match pol = true -> Forall (fun k => k_k k = w) (fst (for_each c pol w first last)).
Proof.
  intros Hc Hce Hp Hw Hr Em. unfold for_each. destruct (Z.eqb_spec first last); [constructor|]. rewrite Hce.
  apply (size_or_trap _ _ _ _ _ _ _ (fun r => Forall (fun k => k_k k = w) (fst r)) Hw); [constructor|].
  intros Hs. destruct (matching_plain pol Hp Em) as [H1 H2]. destruct Hr as [Hr1 Hr2].
  destruct (for_each_rt_calls_fit c pol w first last) as (l & E & _ & _ & _ & HS); try assumption.
  { now apply target_cfg. }
  { now apply policy_pol. }
  { rewrite (plain_no_prologue c pol) by assumption. discriminate. }
  rewrite E. cbn [fst]. destruct HS as (ies & a & b & des & Es & _ & _ & _ & _ & Hm).
  destruct (Hm Em) as [-> ->]. cbn [map app] in Es. rewrite app_nil_r in Es.
  apply Forall_forall. intros k Hk. apply (in_map size_of) in Hk. rewrite Es in Hk.
  apply in_app_or in Hk. destruct Hk as [Hk|Hk]; apply repeat_spec in Hk; unfold size_of in Hk;
    now injection Hk.
Qed.

(** ** transform *)
Lemma transform_loop_match w al last fuel : 1 <= w -> forall p, fst (fst p) <= last -> (w | last - fst (fst p)) ->
  transform_loop fuel (fun f => negb (f =? last)) w 1 al p = transform_loop fuel (fun f => f <=? last - w) w 1 al p.
Proof.
  intros Hw. induction fuel as [|fuel IH]; intros [[f d] s] Hf Hd; [reflexivity|]. cbn [fst] in Hf, Hd.
  cbn [transform_loop fst].
  destruct (Z.eqb_spec f last) as [->|N]; cbn [negb]; [destruct (Z.leb_spec last (last - w)); [lia|reflexivity]|].
  assert (w <= last - f) by (apply Z.divide_pos_le; [lia|assumption]).
  destruct (Z.leb_spec f (last - w)); [|lia]. change (Z.of_nat 1) with 1. rewrite Z.mul_1_r.
  apply bindT_ext. intros _ _ _. cbn [advance]. apply IH; cbn [fst]; [lia|].
  replace (last - (f + w)) with (last - f - w) by lia. apply Z.divide_sub_r; [assumption|apply Z.divide_refl].
Qed.

Lemma transform_loop_end w n al last fuel : 1 <= w -> forall p l p',
  transform_loop fuel (fun f => f <=? last - w * Z.of_nat n) w n al p = (l, Ok p') ->
  (w | fst (fst p') - fst (fst p)) /\ (fst (fst p) <= last -> fst (fst p') <= last).
Proof.
  intros Hw. induction fuel as [|fuel IH]; intros [[f d] s] l p' E; [discriminate|]. cbn [transform_loop fst] in E.
  destruct (Z.leb_spec f (last - w * Z.of_nat n)).
  - destruct (transform_loop fuel (fun f => f <=? last - w * Z.of_nat n) w n al (advance (w * Z.of_nat n) (f, d, s)))
      as [l1 [f1|]] eqn:E1; cbn in E; [|discriminate].
    injection E as <- <-. destruct (IH _ _ _ E1) as [Hd Hle]. cbn [advance fst] in Hd, Hle |- *.
    split; [|intros; apply Hle; lia].
    replace (fst (fst f1) - f) with (fst (fst f1) - (f + w * Z.of_nat n) + w * Z.of_nat n) by lia.
    apply Z.divide_add_r; [assumption|apply Z.divide_factor_l].
  - injection E as _ <-. cbn [fst]. rewrite Z.sub_diag. split; [apply Z.divide_0_r|auto].
Qed.

Lemma transform_matching_same c pol w first last dst srcs2 :
  policy_ok pol -> width_ok w -> first <= last -> size_matches pol w first last ->
  transform c pol w first last dst srcs2 = transform c (unmatched pol) w first last dst srcs2.
Proof.
  intros Hp Hw Hr Hs. unfold width_ok in Hw. destruct (p_match pol) eqn:Em.
  2:{ destruct pol as [a b m u s]. cbn in Em. subst m. reflexivity. }
  destruct (matching_plain pol Hp Em) as [H1 H2]. destruct (Hs Em) as [q Hq].
  unfold transform. destruct (first =? last); [reflexivity|]. rewrite Em. cbn [p_match andb].
  rewrite Hq, Z.mod_mul, Z.eqb_refl by lia. cbn [negb]. destruct (c_ce c); [reflexivity|].
  unfold transform_rt. rewrite (plain_no_prologue c pol) by assumption.
  rewrite (plain_no_prologue c (unmatched pol)) by assumption.
  unfold transform_body. cbv zeta. rewrite Em. cbn [p_match p_unroll negb fst].
  assert (Eal : use_aligned_loadstore c (unmatched pol) w = use_aligned_loadstore c pol w) by reflexivity.
  rewrite Eal. apply bindT_ext. intros l p1 E.
  assert (Hf1 : (w | last - fst (fst p1)) /\ fst (fst p1) <= last).
  { destruct (Z.ltb_spec 1 (p_unroll pol)) as [Hu|_].
    - assert (EU : p_unroll pol = Z.of_nat (Z.to_nat (p_unroll pol))) by lia.
      set (n := Z.to_nat (p_unroll pol)) in *. rewrite EU in E.
      apply transform_loop_end in E; [|lia]. cbn [fst] in E. destruct E as [Hd Hle]. split; [|now apply Hle].
      replace (last - fst (fst p1)) with (last - first - (fst (fst p1) - first)) by lia.
      apply Z.divide_sub_r; [|assumption]. rewrite Hq. apply Z.divide_factor_r.
    - injection E as _ <-. cbn [fst]. rewrite Hq. split; [apply Z.divide_factor_r|assumption]. }
  destruct Hf1 as [Hd Hle]. rewrite transform_loop_match by (assumption || lia).
  apply bindT_ext. intros _ [[f2 d2] s2] _. rewrite Hq, Z.mod_mul, Z.eqb_refl by lia.
  now destruct (1 <? w).
Qed.

Lemma run_transform_matching_same {T} (opv : list (list T) -> list T) c pol w first last dst srcs2 m :
  policy_ok pol -> width_ok w -> first <= last -> size_matches pol w first last ->
  run_transform opv c pol w first last dst srcs2 m = run_transform opv c (unmatched pol) w first last dst srcs2 m.
Proof. intros Hp Hw Hr Hs. unfold run_transform. now rewrite (transform_matching_same c pol) by assumption. Qed.

(** ** transform_reduce *)
Section TR.
  Context {A : Type} (op : A -> A -> A) (ldf : bool -> list Z -> Z -> res (list A)).

  Lemma tr_loop_match w al last fuel : 1 <= w -> forall f ps acc, f <= last -> (w | last - f) ->
    tr_loop op ldf fuel true w al last f ps acc = tr_loop op ldf fuel false w al last f ps acc.
  Proof.
    intros Hw. induction fuel as [|fuel IH]; intros f ps acc Hf Hd; [reflexivity|]. cbn [tr_loop].
    destruct (Z.eqb_spec f last) as [->|N]; cbn [negb]; [destruct (Z.leb_spec last (last - w)); [lia|reflexivity]|].
    assert (w <= last - f) by (apply Z.divide_pos_le; [lia|assumption]).
    destruct (Z.leb_spec f (last - w)); [|lia].
    destruct (ldf al ps w); [|reflexivity]. cbn [bindR]. destruct (vop op acc _); [|reflexivity]. cbn [bindR].
    apply IH; [lia|].
    replace (last - (f + w)) with (last - f - w) by lia. apply Z.divide_sub_r; [assumption|apply Z.divide_refl].
  Qed.

  Lemma tr_unrolled_end w n al last fuel : forall f ps accs a f' ps',
    tr_unrolled op ldf fuel w n al (last - w * Z.of_nat n) f ps accs = Ok (a, f', ps') ->
    f <= last - w * Z.of_nat n -> (w | f' - f) /\ f' <= last.
  Proof.
    induction fuel as [|fuel IH]; intros f ps accs a f' ps' E Hle; [discriminate|]. cbn [tr_unrolled] in E.
    destruct (ld_n ldf al ps w n); [|discriminate]. cbn [bindR] in E.
    destruct (vop_n op accs _); [|discriminate]. cbn [bindR] in E.
    destruct (Z.leb_spec (f + w * Z.of_nat n) (last - w * Z.of_nat n)) as [H|H].
    - destruct (IH _ _ _ _ _ _ E H) as [Hd Hl]. split; [|assumption].
      replace (f' - f) with (f' - (f + w * Z.of_nat n) + w * Z.of_nat n) by lia.
      apply Z.divide_add_r; [assumption|apply Z.divide_factor_l].
    - injection E as _ <- _. split; [|lia]. replace (f + w * Z.of_nat n - f) with (w * Z.of_nat n) by lia.
      apply Z.divide_factor_l.
  Qed.

  Lemma tr_first_end pol w al first last ps a f ps' : first <= last - w ->
    tr_first op ldf pol w al first last ps = Ok (a, f, ps') -> (w | f - first) /\ f <= last.
  Proof.
    intros Hle E. unfold tr_first in E. cbv zeta in E.
    assert (E1 : bindR (ldf al ps w) (fun v => Ok (v, first + w, adv w ps)) = Ok (a, f, ps') ->
                 (w | f - first) /\ f <= last).
    { destruct (ldf al ps w); [|discriminate]. cbn [bindR]. intros [= _ <- _].
      split; [|lia]. replace (first + w - first) with w by lia. apply Z.divide_refl. }
    destruct (Z.ltb_spec 1 (p_unroll pol)) as [Hu|_]; [|exact (E1 E)].
    destruct (Z.leb_spec (first + w * p_unroll pol) (last - w * p_unroll pol)) as [H|_]; [|exact (E1 E)].
    destruct (ld_n ldf al ps w _); [|discriminate]. cbn [bindR] in E.
    destruct (tr_unrolled _ _ _ _ _ _ _ _ _ _) as [[[accs' f1] ps1]|] eqn:Eu in E; [|discriminate]. cbn [bindR] in E.
    destruct (tree op _ accs'); [|discriminate]. cbn [bindR] in E. injection E as _ <- _.
    assert (EU : p_unroll pol = Z.of_nat (Z.to_nat (p_unroll pol))) by lia.
    set (n := Z.to_nat (p_unroll pol)) in *. rewrite EU in Eu, H. apply tr_unrolled_end in Eu; [|exact H].
    destruct Eu as [Hd Hl]. split; [|assumption].
    replace (f1 - first) with (f1 - (first + w * Z.of_nat n) + w * Z.of_nat n) by lia.
    apply Z.divide_add_r; [assumption|apply Z.divide_factor_l].
  Qed.

  Lemma transform_reduce_matching_same c pol w first last srcs2 init :
    policy_ok pol -> width_ok w -> first <= last -> size_matches pol w first last ->
    transform_reduce_on op ldf c pol w first last srcs2 init
    = transform_reduce_on op ldf c (unmatched pol) w first last srcs2 init.
  Proof.
    intros Hp Hw Hr Hs. unfold width_ok in Hw. destruct (p_match pol) eqn:Em.
    2:{ destruct pol as [a b m u s]. cbn in Em. subst m. reflexivity. }
    destruct (matching_plain pol Hp Em) as [H1 H2]. destruct (Hs Em) as [q Hq].
    unfold transform_reduce_on. destruct (Z.eqb_spec first last) as [|Hne]; [reflexivity|].
    rewrite Em. cbn [p_match andb]. rewrite Hq, Z.mod_mul, Z.eqb_refl by lia. cbn [negb].
    destruct (c_ce c); [reflexivity|]. rewrite (plain_no_prologue c pol) by assumption.
    rewrite (plain_no_prologue c (unmatched pol)) by assumption.
    assert (Eal : use_aligned_loadstore c (unmatched pol) w = use_aligned_loadstore c pol w) by reflexivity.
    rewrite Eal. unfold tr_body. cbv zeta. rewrite Em. cbn [p_match orb].
    assert (Hd0 : (w | last - first)) by (rewrite Hq; apply Z.divide_factor_r).
    assert (w <= last - first) by (apply Z.divide_pos_le; [lia|assumption]).
    destruct (Z.leb_spec first (last - w)) as [Hle|]; [|lia].
    assert (Ef : forall al ps, tr_first op ldf (unmatched pol) w al first last ps = tr_first op ldf pol w al first last ps)
      by reflexivity.
    rewrite Ef. destruct (tr_first op ldf pol w _ first last _) as [[[acc0 f] ps1]|] eqn:E; cbn [bindR]; [|reflexivity].
    destruct (tr_first_end _ _ _ _ _ _ _ _ _ Hle E) as [Hd Hl].
    rewrite tr_loop_match; [|lia|assumption|].
    2:{ replace (last - f) with (last - first - (f - first)) by lia. now apply Z.divide_sub_r. }
    rewrite Z.mod_mul, Z.eqb_refl by lia. reflexivity.
  Qed.
End TR.

(** ** count_if *)
Lemma count_if_trap {T} (pred : list T -> list bool) c lib pol w first last m :
  p_match pol = true -> width_ok w -> first <= last -> (forall n, last - first <> n * w) ->
  count_if pred c lib pol w first last m = Stop STrap.
Proof.
  intros Em Hw Hle Hn. unfold count_if.
  destruct (for_each_trap (count_fun pred (c_ce c) lib w) c pol w false first last m
              (mkcnt (Ok 0) (repeat (Ok 0) (Z.to_nat w))) Em Hw Hle Hn) as [E _].
  now rewrite E.
Qed.

Lemma count_if_matching_same {T} (pred : list T -> list bool) c lib pol w first last m :
  policy_ok pol -> width_ok w -> first <= last -> size_matches pol w first last ->
  count_if pred c lib pol w first last m = count_if pred c lib (unmatched pol) w first last m.
Proof. intros. unfold count_if. now rewrite (run_for_each_matching_same _ c pol) by assumption. Qed.

(** ** Shapes of the calls of for_each, also when the prologue leaves the range *)
Lemma for_each_body_past c pol w first last d :
  1 < w < two64 -> last < first -> p_match pol = false ->
  exists l, for_each_body c pol w first last d = (l, Ok tt) /\ exists a b, desc (use_aligned_loadstore c pol w) (exponent w) a b l.
Proof.
  intros Hw Hlt Hm. unfold for_each_body. rewrite Hm. cbn [negb andb].
  assert (E1 : (if 1 <? p_unroll pol
     then main_loop (loop_fuel first last) w (Z.to_nat (p_unroll pol)) (use_aligned_loadstore c pol w)
            (last - w * p_unroll pol) first else retW first) = ([], Ok first)).
  { unfold loop_fuel. destruct (Z.ltb_spec 1 (p_unroll pol)); [|reflexivity].
    apply main_loop_past. nia. }
  rewrite E1. unfold bindW. cbn beta iota. unfold loop_fuel.
  rewrite main_loop_past by lia. cbn [app].
  destruct (Z.ltb_spec 1 w); [|lia]. cbn [andb].
  destruct (Z.eqb_spec (d mod w) 0) as [E0|N0]; cbn [negb].
  - exists []. split; [reflexivity|]. exists 0, 0. constructor.
  - assert (Hmb : 0 <= d mod w < w) by (apply Z.mod_pos_bound; lia).
    destruct (for_each_epilogue_ok c (use_aligned_loadstore c pol w) 64 w (exponent w) (d mod w) last)
      as (l & El & D).
    + split; [lia|]. apply Z.log2_up_spec. lia.
    + split; [apply Z.log2_up_nonneg|]. apply Z.log2_up_le_pow2; [lia|].
      unfold two64 in Hw. change (Z.of_nat 64) with 64. lia.
    + lia.
    + rewrite El. exists l. split; [reflexivity|]. eauto.
Qed.

Lemma for_each_rt_shape_any c pol w first last :
  target_ok c -> policy_ok pol -> width_ok w -> range_ok first last -> size_matches pol w first last ->
  call_shape pol w (fst (for_each_rt c pol w first last)).
Proof.
  intros Hc Hp Hw [Hr1 Hr2] Hs. assert (Hc' := target_cfg c Hc).
  assert (Hfit : (forall maxe tp, prologue_args c pol w (last - first) first = Some (maxe, tp) -> tp <= last - first) ->
            call_shape pol w (fst (for_each_rt c pol w first last))).
  { intros Hfit. destruct (for_each_rt_calls_fit c pol w first last) as (l & E & _ & _ & _ & HS);
      try assumption; [now apply policy_pol|]. rewrite E. exact HS. }
  destruct (prologue_args c pol w (last - first) first) as [[maxe tp]|] eqn:Epa; [|apply Hfit; discriminate].
  destruct (Z_le_gt_dec tp (last - first)) as [Hle|Hgt].
  { apply Hfit. intros ? ? [= _ <-]. assumption. }
  clear Hfit. destruct (prologue_args_possible _ _ _ _ _ _ _ Hp Epa) as [Epos Em].
  destruct Hc' as [Hstd|Hfb]; [|rewrite fallback_impossible in Epos by assumption; discriminate].
  destruct (possible_std c w Hstd Epos) as (J & s & HJ & Hs' & EJ & Es & Hm).
  destruct (prologue_args_std _ _ _ _ _ _ _ Hstd (proj2 Hw) Epa) as (_ & -> & Htp & Hal & Hleast).
  unfold for_each_rt. rewrite Epa. unfold width_ok in Hw. fold two64 in Hw, Hr2.
  assert (HJ64 : J < 64).
  { apply pow2_lt_inv; [lia|]. rewrite <- EJ. exact (proj2 Hw). }
  destruct (for_each_prologue_ok c J 64 0 first tp) as (lp & Ep & Hasc); [lia|lia|lia|lia|].
  change (2^0) with 1 in Ep, Hasc. rewrite Z.div_1_r, Z.mul_1_l in Hasc. rewrite <- EJ in Ep.
  rewrite Ep. unfold bindW at 1.
  destruct (for_each_body_past c pol w (first + tp) last ((last - first - tp) mod two64)) as (l & El & a & b & D);
    [lia|lia|assumption|].
  rewrite El. cbn [fst].
  destruct (desc_shape _ _ _ _ _ D) as (des & E' & Hs3 & Hf3).
  destruct (asc_shape _ _ _ _ _ Hasc) as (ies & Ei & Hsi & Hfi & Hfp).
  exists ies, 0%nat, 0%nat, des. cbn [repeat app]. rewrite map_app, Ei, E'.
  split; [reflexivity|]. split; [assumption|]. split; [assumption|]. split; [|split; [reflexivity|congruence] ].
  rewrite Forall_app. split.
  - eapply Forall_impl; [|exact Hfi]. cbn. intros i Hi. split; [lia|].
    rewrite EJ. apply Z.pow_lt_mono_r; lia.
  - eapply Forall_impl; [|exact Hf3]. cbn. intros i Hi. split; [lia|].
    apply exponent_bound; lia.
Qed.

Lemma empty_shape pol w : call_shape pol w [].
Proof. exists [], 0%nat, 0%nat, []. repeat split; constructor. Qed.

Lemma for_each_shape_any c pol w first last :
  target_ok c -> c_ce c = false -> policy_ok pol -> width_ok w -> range_ok first last ->
  call_shape pol w (fst (for_each c pol w first last)).
Proof.
  intros Hc Hce Hp Hw Hr. unfold for_each. destruct (Z.eqb_spec first last); [apply empty_shape|]. rewrite Hce.
  apply (size_or_trap _ _ _ _ _ _ _ (fun r => call_shape pol w (fst r)) Hw); [apply empty_shape|].
  intros Hs. now apply for_each_rt_shape_any.
Qed.

Section Trace.
  Context {T St : Type} (f : St -> list (list T) -> St * list (list T)).

  Lemma load_chunks_sizes c (m : mem T) al k n : forall p ch, load_chunks c m al p k n = Ok ch ->
    map (@length T) ch = repeat (Z.to_nat k) n.
  Proof.
    induction n as [|n IH]; intros p ch E; cbn [load_chunks] in E.
    - injection E as <-. reflexivity.
    - destruct (load_chunk c m al p k) as [v|] eqn:Ev; [|discriminate]. cbn [bindR] in E.
      destruct (load_chunks c m al (p + k) k n) as [vs|] eqn:Evs; [|discriminate]. cbn [bindR] in E.
      injection E as <-. cbn. f_equal; [|exact (IH _ _ Evs)].
      unfold load_chunk in Ev. destruct (al && negb (aligned_at c p k)); [discriminate|].
      unfold of_option in Ev. destruct (load m p (Z.to_nat k)) eqn:El; [|discriminate]. injection Ev as <-.
      now apply load_length in El.
  Qed.

  Lemma run_calls_sizes c wb l : forall s s', run_calls f c wb l s = Ok s' ->
    map (map (@length T)) (s_trace s')
    = map (map (@length T)) (s_trace s) ++ map (fun k => repeat (Z.to_nat (k_k k)) (k_n k)) l.
  Proof.
    induction l as [|k l IH]; intros s s' E; cbn [run_calls] in E.
    - injection E as <-. now rewrite app_nil_r.
    - destruct (load_and_invoke f c wb s k) as [s1|] eqn:E1; [|discriminate]. cbn [bindR] in E.
      rewrite (IH _ _ E). unfold load_and_invoke in E1.
      destruct (load_chunks c (s_mem s) (k_al k) (k_pos k) (k_k k) (k_n k)) as [ch|] eqn:Ech; [|discriminate].
      cbn [bindR] in E1. destruct (f (s_st s) ch) as [st' out].
      destruct (if wb then _ else _); [|discriminate]. cbn [bindR] in E1. injection E1 as <-.
      cbn [s_trace]. rewrite map_app, <- app_assoc. cbn [map app].
      now rewrite (load_chunks_sizes _ _ _ _ _ _ _ Ech).
  Qed.

  Lemma for_each_shapes_any c pol w wb first last m st s :
    target_ok c -> c_ce c = false -> policy_ok pol -> width_ok w -> range_ok first last ->
    run_for_each f c pol w wb first last m st = Ok s ->
    shapes_ok (Z.to_nat w) (Z.to_nat (p_unroll pol)) (s_trace s).
  Proof.
    intros Hc Hce Hp Hw Hr E. assert (HS := for_each_shape_any c pol w first last Hc Hce Hp Hw Hr).
    unfold run_for_each in E. destruct (for_each c pol w first last) as [l r]. cbn [fst] in HS.
    destruct (run_calls f c wb l (mkst m st [])) as [s1|] eqn:E1; [|discriminate]. cbn [bindR] in E.
    destruct r; [|discriminate]. cbn [bindR] in E. injection E as <-.
    apply run_calls_sizes in E1. cbn [s_trace map app] in E1.
    exact (proj1 (shapes_of_calls pol w l (s_trace s1) Hw HS E1)).
  Qed.
End Trace.
