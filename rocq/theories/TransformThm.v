(** The property-level lemmas about transform. *)
From Verif Require Import Base BaseFacts ExecModel ExecProofs ExecForEach ExecRun ExecSpec ExecThm
  TransformModel TransformSpec TransformProofs ExecExamples.
From Coq Require Import ZifyBool ZifyNat.
Ltac Zify.zify_post_hook ::= idtac.

Lemma shift_target first dst c : target_ok c -> target_ok (shift_cfg first dst c).
Proof.
  intros [H0 [[H1 H2]|H]]; (split; [exact H0|]); [left|right; exact H].
  split; [|exact H2]. unfold address, shift_cfg in *. cbn [c_sz c_base c_malign].
  replace (c_base c + (dst - first) * c_sz c + 0 * c_sz c)
    with (c_base c + 0 * c_sz c + (dst - first) * c_sz c) by lia.
  rewrite Z.mod_add by lia. exact H1.
Qed.

Lemma shift_reaches c pol w first last dst :
  reaches_alignment c pol w dst (dst + (last - first)) ->
  reaches_alignment (shift_cfg first dst c) pol w first last.
Proof.
  intros [H1 H2]. split; [|exact H2]. intros Ha Hw He. destruct (H1 Ha Hw He) as (a & Hle & Hal).
  exists (first + (a - dst)). split; [lia|]. unfold is_aligned, address, shift_cfg in *.
  cbn [c_sz c_base c_malign] in *. destruct Hal as [q Hq]. exists q. rewrite <- Hq. lia.
Qed.

Section Thm.
  Context {T : Type} (op : list T -> T) (opv : list (list T) -> list T).

  Lemma run_all c w pol first last dst srcs2 (m : mem T) l :
    lanewise_op op opv -> first <= last ->
    transform c pol w first last dst srcs2 = (map (ev first dst srcs2) l, Ok (dst + (last - first))) ->
    tiles first last l -> Forall (call_aligned (shift_cfg first dst c)) l ->
    Forall (fun p => mapped m p (p + (last - first))) (dst :: first :: srcs2) ->
    no_clobber dst (last - first) (first :: srcs2) ->
    exists m', run_transform opv c pol w first last dst srcs2 m = Ok (m', dst + (last - first))
               /\ transformed op (first :: srcs2) dst (last - first) m m'.
  Proof.
    intros Hop Hle E HT HA Hm Hnc. unfold run_transform. rewrite E.
    inversion Hm as [|? ? Hmd Hm']; subst. inversion Hm' as [|? ? Hm1 Hm2]; subst.
    destruct (run_steps_ok op opv c first dst srcs2 Hop first last l HT HA ltac:(lia) m)
      as (m' & Er & Hv & Ho & _).
    - intros i Hi. eapply mapped_some; [exact Hmd|lia].
    - intros i Hi. eapply mapped_some; [exact Hm1|lia].
    - eapply Forall_impl; [|exact Hm2]. cbn. intros p Hp i Hi. eapply mapped_some; [exact Hp|lia].
    - exact Hnc.
    - rewrite Er. cbn [bindR]. exists m'. split; [reflexivity|]. split.
      + intros i args Hi Hargs. replace (dst + i) with (dst + (first + i - first)) by lia.
        apply Hv; [lia|]. replace (first + i - first) with i by lia. exact Hargs.
      + intros a Ha. apply Ho. lia.
  Qed.

  Lemma run_empty c pol w first dst srcs2 (m : mem T) :
    exists m', run_transform opv c pol w first first dst srcs2 m = Ok (m', dst + (first - first))
               /\ transformed op (first :: srcs2) dst (first - first) m m'.
  Proof.
    unfold run_transform, transform. rewrite Z.eqb_refl. cbn. exists m.
    rewrite Z.sub_diag, Z.add_0_r. split; [reflexivity|]. split; [lia|reflexivity].
  Qed.

  Lemma transform_runtime c pol w first last dst srcs2 (m : mem T) :
    target_ok c -> c_ce c = false -> policy_ok pol -> width_ok w -> range_ok first last ->
    size_matches pol w first last -> reaches_alignment c pol w dst (dst + (last - first)) ->
    lanewise_op op opv ->
    Forall (fun p => mapped m p (p + (last - first))) (dst :: first :: srcs2) ->
    no_clobber dst (last - first) (first :: srcs2) ->
    exists m', run_transform opv c pol w first last dst srcs2 m = Ok (m', dst + (last - first))
               /\ transformed op (first :: srcs2) dst (last - first) m m'.
  Proof.
    intros Hc Hce Hp Hw Hr Hs Hra Hop Hm Hnc. destruct Hr as [Hr1 Hr2].
    destruct (Z.eq_dec first last) as [<-|Hne]; [apply run_empty|].
    destruct (reaches_fits (shift_cfg first dst c) pol w first last) as [Hf Hsm];
      [now apply shift_target|assumption|now apply shift_reaches|].
    assert (Hmd : p_match pol = true -> (w | last - first)).
    { intros Em. destruct (Hs Em) as [n Hn]. exists n. exact Hn. }
    destruct (transform_rt_steps c pol w first last dst srcs2) as (l & E & HT & HA & _);
      try assumption; [now apply target_cfg|now apply policy_pol|].
    apply (run_all c w pol first last dst srcs2 m l); try assumption.
    unfold transform. rewrite Hce. destruct (Z.eqb_spec first last) as [|_]; [contradiction|].
    destruct (p_match pol) eqn:Em; cbn [andb]; [|exact E].
    unfold width_ok in Hw. rewrite (proj2 (Z.mod_divide (last - first) w ltac:(lia))) by (now apply Hmd).
    exact E.
  Qed.

  Lemma transform_consteval c pol w first last dst srcs2 (m : mem T) :
    c_ce c = true -> width_ok w -> range_ok first last -> size_matches pol w first last ->
    lanewise_op op opv ->
    Forall (fun p => mapped m p (p + (last - first))) (dst :: first :: srcs2) ->
    no_clobber dst (last - first) (first :: srcs2) ->
    exists m', run_transform opv c pol w first last dst srcs2 m = Ok (m', dst + (last - first))
               /\ transformed op (first :: srcs2) dst (last - first) m m'.
  Proof.
    intros Hce Hw Hr Hs Hop Hm Hnc. unfold range_ok in Hr. unfold width_ok in Hw.
    destruct (Z.eq_dec first last) as [<-|Hne]; [apply run_empty|].
    destruct (transform_ce_steps w first last dst srcs2) as (l & E & HT & HA & _);
      [unfold two64; lia|lia|].
    apply (run_all c w pol first last dst srcs2 m l); try assumption; [lia| |].
    - unfold transform. rewrite Hce. destruct (Z.eqb_spec first last) as [|_]; [contradiction|].
      destruct (p_match pol) eqn:Em; cbn [andb]; [|exact E].
      destruct (Hs Em) as [n Hn]. replace ((last - first) mod w) with 0 by (rewrite Hn, Z.mod_mul; lia).
      exact E.
    - eapply Forall_impl; [|exact HA]. intros k Hk Hk'. congruence.
  Qed.
End Thm.

(** The two results agree pointwise. *)
Lemma transformed_unique {T} (op : list T -> T) srcs dst n (m m1 m2 : mem T) :
  Forall (fun p => mapped m p (p + n)) srcs ->
  transformed op srcs dst n m m1 -> transformed op srcs dst n m m2 -> forall a, m1 a = m2 a.
Proof.
  intros Hm [H1 O1] [H2 O2] a. destruct (Z_le_dec dst a); [|now rewrite O1, O2 by lia].
  destruct (Z_lt_dec a (dst + n)); [|now rewrite O1, O2 by lia].
  assert (Hargs : exists args, Forall2 (fun p x => m (p + (a - dst)) = Some x) srcs args).
  { clear - Hm l l0. induction Hm as [|p srcs Hp Hm IH]; [exists []; constructor|].
    destruct IH as [args IH]. destruct (Hp (p + (a - dst))) as [x Hx]; [lia|].
    exists (x :: args). now constructor. }
  destruct Hargs as [args Hargs]. replace a with (dst + (a - dst)) by lia.
  rewrite (H1 (a - dst) args), (H2 (a - dst) args) by (try assumption; lia). reflexivity.
Qed.

Lemma transform_trap {T} (opv : list (list T) -> list T) c pol w first last dst srcs2 (m : mem T) :
  p_match pol = true -> width_ok w -> first <= last -> (forall n, last - first <> n * w) ->
  run_transform opv c pol w first last dst srcs2 m = Stop STrap
  /\ fst (transform c pol w first last dst srcs2) = [].
Proof.
  intros Em Hw Hle Hno. unfold width_ok in Hw. unfold run_transform, transform.
  destruct (Z.eqb_spec first last) as [->|Hne]; [destruct (Hno 0); lia|]. rewrite Em. cbn [andb].
  destruct (Z.eqb_spec ((last - first) mod w) 0) as [E|_].
  - apply Z.mod_divide in E; [|lia]. destruct E as [n Hn]. now destruct (Hno n).
  - split; reflexivity.
Qed.

(** Uniform chunks under assume_matching_size. *)
Lemma shape_match pol w l : p_match pol = true -> call_shape pol w l -> Forall (fun k => k_k k = w) l.
Proof.
  intros Em (ies & a & b & des & E & _ & _ & _ & _ & Hm). destruct (Hm Em) as [-> ->].
  cbn [map app] in E. rewrite app_nil_r in E.
  assert (HF : Forall (fun x => fst x = w) (map size_of l)).
  { rewrite E, Forall_app. split; apply Forall_forall; intros x Hx; apply repeat_spec in Hx; now subst. }
  rewrite Forall_map in HF. exact HF.
Qed.

Lemma transform_match_uniform {T} (op : list T -> T) opv c pol w first last dst srcs2 (m : mem T) :
  target_ok c -> policy_ok pol -> width_ok w -> range_ok first last ->
  p_match pol = true -> (exists n, last - first = n * w) -> lanewise_op op opv ->
  Forall (fun p => mapped m p (p + (last - first))) (dst :: first :: srcs2) ->
  no_clobber dst (last - first) (first :: srcs2) ->
  Forall (fun s => t_k s = w) (fst (transform c pol w first last dst srcs2)) /\
  exists m' m'',
    run_transform opv c pol w first last dst srcs2 m = Ok (m', dst + (last - first))
    /\ run_transform opv c (mkpol (p_aligned pol) (p_auto pol) false (p_unroll pol) (p_size pol))
                     w first last dst srcs2 m = Ok (m'', dst + (last - first))
    /\ forall a, m' a = m'' a.
Proof.
  intros Hc Hp Hw Hr Em Hn Hop Hm Hnc. set (pol' := mkpol _ _ _ _ _).
  assert (Hpl : plain pol).
  { destruct Hp as (_ & H1 & H2). split; [destruct (p_aligned pol)|destruct (p_auto pol)]; try reflexivity.
    - now rewrite H1 in Em. - now rewrite H2 in Em. }
  assert (Hpl' : plain pol') by (destruct Hpl; now split).
  assert (Hp' : policy_ok pol') by (unfold pol', policy_ok; cbn; destruct Hpl; repeat split; congruence).
  assert (Hs : size_matches pol w first last) by (intros _; exact Hn).
  assert (Hs' : size_matches pol' w first last) by discriminate.
  assert (Hinp : Forall (fun p => mapped m p (p + (last - first))) (first :: srcs2))
    by (inversion Hm; assumption).
  split.
  - unfold transform. destruct (Z.eqb_spec first last) as [|Hne]; [constructor|]. rewrite Em. cbn [andb].
    destruct Hn as [n Hn]. destruct Hr as [Hr1 Hr2]. unfold width_ok in *.
    replace ((last - first) mod w) with 0 by (rewrite Hn, Z.mod_mul; lia). cbn [Z.eqb negb].
    destruct (c_ce c) eqn:Ece.
    + unfold transform_ce. rewrite <- (at_pos_start first dst srcs2), const_loop_steps.
      destruct (const_loop_ok w (loop_fuel first last) last first) as [E Hu];
        [lia|lia|unfold loop_fuel; lia|].
      set (l1 := fst (const_loop (loop_fuel first last) w last first)) in *.
      rewrite Hn, Z.mod_mul in E by lia. rewrite Hn, Z.mod_mul in Hu by lia.
      rewrite E. unfold mapWT, bindT at 1. cbn [fst snd map_res].
      assert (E2 : transform_loop (loop_fuel first last) (fun f => f <? last) 1 1 false
                     (at_pos first dst srcs2 (last - 0)) = retT (at_pos first dst srcs2 (last - 0))).
      { unfold loop_fuel. cbn [transform_loop at_pos fst].
        destruct (Z.ltb_spec (last - 0) last); [lia|reflexivity]. }
      rewrite E2. unfold bindT, retT. cbn [at_pos fst]. rewrite app_nil_r.
      pose proof (uniform_pos _ _ _ _ _ _ Hu first ltac:(rewrite Z.sub_diag; apply Z.divide_0_r)) as P1.
      apply Forall_map. eapply Forall_impl; [|exact P1]. intros k (H1 & _). exact H1.
    + destruct (reaches_fits (shift_cfg first dst c) pol w first last) as [Hf Hsm];
        [now apply shift_target|exact Hw|now apply plain_reaches|].
      destruct (transform_rt_steps c pol w first last dst srcs2) as (l' & E' & HT' & HA' & HS');
        try assumption; [now apply target_cfg|now apply policy_pol|].
      rewrite E'. cbn [fst]. apply Forall_map. apply (shape_match pol); assumption.
  - destruct (c_ce c) eqn:Ece.
    + destruct (transform_consteval op opv c pol w first last dst srcs2 m) as (m' & E1 & T1); try assumption.
      destruct (transform_consteval op opv c pol' w first last dst srcs2 m) as (m'' & E2 & T2); try assumption.
      exists m', m''. split; [assumption|]. split; [assumption|].
      exact (transformed_unique op (first :: srcs2) dst (last - first) m m' m'' Hinp T1 T2).
    + destruct (transform_runtime op opv c pol w first last dst srcs2 m) as (m' & E1 & T1);
        try assumption; [now apply plain_reaches|].
      destruct (transform_runtime op opv c pol' w first last dst srcs2 m) as (m'' & E2 & T2);
        try assumption; [now apply plain_reaches|].
      exists m', m''. split; [assumption|]. split; [assumption|].
      exact (transformed_unique op (first :: srcs2) dst (last - first) m m' m'' Hinp T1 T2).
Qed.

(** ** Alignment of the stores, also when the prologue leaves the range *)
Definition stores (s : step) : Z * Z * nat * bool := (t_dst s, t_k s, t_n s, t_al s).

Lemma epilogue_stores fuel : forall vs0 lo last last' dst ptrs ptrs' al,
  map stores (fst (transform_epilogue fuel vs0 lo last dst ptrs al))
  = map stores (fst (transform_epilogue fuel vs0 lo last' dst ptrs' al)).
Proof.
  induction fuel as [|fuel IH]; intros vs0 lo last last' dst ptrs ptrs' al; [reflexivity|].
  cbn [transform_epilogue]. destruct (1 <? vs0); cbn [negb]; [|reflexivity].
  destruct (vs0 =? 2); [reflexivity|].
  destruct (negb (Z.land lo (bit_ceil vs0 / 2) =? 0)).
  - unfold bindT, tellT. cbn beta iota.
    destruct ((1 <? bit_ceil vs0 / 2) && _); [|reflexivity].
    specialize (IH (bit_ceil vs0 / 2) (lo - bit_ceil vs0 / 2) last last' (dst + bit_ceil vs0 / 2)
                   (adv (bit_ceil vs0 / 2) ptrs) (adv (bit_ceil vs0 / 2) ptrs') al).
    destruct (transform_epilogue fuel _ _ last _ _ _) as [l r].
    destruct (transform_epilogue fuel _ _ last' _ _ _) as [l' r']. cbn [fst] in *.
    rewrite !map_app. cbn [map]. f_equal. exact IH.
  - unfold bindT, retT. cbn beta iota.
    destruct ((1 <? bit_ceil vs0 / 2) && _); [|reflexivity].
    specialize (IH (bit_ceil vs0 / 2) lo last last' dst ptrs ptrs' al).
    destruct (transform_epilogue fuel _ _ last _ _ _) as [l r].
    destruct (transform_epilogue fuel _ _ last' _ _ _) as [l' r']. exact IH.
Qed.

Definition store_aligned (c : cfg) (s : step) : Prop :=
  t_al s = true -> forall i, 0 <= i < Z.of_nat (t_n s) -> aligned_at c (t_dst s + t_k s * i) (t_k s) = true.

Lemma store_aligned_ev c F D S2 k :
  call_aligned (shift_cfg F D c) k -> store_aligned c (ev F D S2 k).
Proof.
  intros H E i Hi. cbn [ev t_al t_n t_dst t_k] in *. specialize (H E i Hi).
  rewrite shift_aligned in H. rewrite <- H. f_equal. lia.
Qed.

Lemma store_aligned_stores c l l' : map stores l = map stores l' ->
  Forall (store_aligned c) l' -> Forall (store_aligned c) l.
Proof.
  revert l'. induction l as [|s l IH]; intros [|s' l'] E H; try discriminate; [constructor|].
  cbn in E. injection E as E1 E2 E3 E4 E5. inversion H as [|? ? H1 H2]; subst.
  constructor; [|now apply (IH l')]. unfold store_aligned in *. now rewrite E1, E2, E3, E4.
Qed.

Lemma transform_loop_past fuel limit w n al p :
  limit < fst (fst p) -> transform_loop (S fuel) (fun f => f <=? limit) w n al p = ([], Ok p).
Proof. intros H. cbn [transform_loop]. destruct (Z.leb_spec (fst (fst p)) limit); [lia|reflexivity]. Qed.

Lemma transform_body_short c pol w last d p J :
  1 < w < two64 -> last < fst (fst p) -> p_match pol = false -> cfg_std c -> 0 <= J -> w = 2 ^ J ->
  (forall i, 0 <= i -> c_malign c (2 ^ i) = 2 ^ i * c_sz c) ->
  aligned_at c (snd (fst p)) w = true ->
  Forall (store_aligned c) (fst (transform_body c pol w last d p)).
Proof.
  destruct p as [[f D] s]. cbn [fst snd].
  intros Hw Hlt Hm Hstd HJ EJ Hmal Hal. unfold transform_body. cbv zeta. rewrite Hm. cbn [negb fst snd].
  assert (E1 : (if 1 <? p_unroll pol
     then transform_loop (loop_fuel f last) (fun f => f <=? last - w * p_unroll pol) w
            (Z.to_nat (p_unroll pol)) (use_aligned_loadstore c pol w) (f, D, s)
     else @retT ptrs3 (f, D, s)) = ([], Ok (f, D, s))).
  { unfold loop_fuel. destruct (Z.ltb_spec 1 (p_unroll pol)); [|reflexivity].
    apply transform_loop_past. cbn [fst]. nia. }
  rewrite E1. unfold bindT. cbn beta iota. unfold loop_fuel.
  rewrite transform_loop_past by (cbn [fst]; lia). cbn [app].
  destruct (Z.ltb_spec 1 w); [|lia]. cbn [andb].
  assert (Hmb : 0 <= d mod w < w) by (apply Z.mod_pos_bound; lia).
  destruct (Z.eqb_spec (d mod w) 0) as [E0|N0]; [constructor|].
  set (al := use_aligned_loadstore c pol w). set (lo := d mod w) in *.
  assert (HS := epilogue_stores 64 w lo last lo D s [] al).
  assert (HE := epilogue_steps 0 D [] (shift_cfg 0 D c) lo al 64 w lo eq_refl ltac:(lia)).
  replace (lo - lo - 0) with 0 in HE by lia. rewrite Z.add_0_r in HE. cbn [adv map] in HE.
  destruct (for_each_epilogue_ok (shift_cfg 0 D c) al 64 w (exponent w) lo lo) as (l3 & E3 & D3).
  { split; [lia|]. apply Z.log2_up_spec. lia. }
  { split; [apply Z.log2_up_nonneg|]. apply Z.log2_up_le_pow2; [lia|].
    unfold two64 in Hw. change (Z.of_nat 64) with 64. lia. }
  { lia. }
  rewrite E3 in HE. unfold mapWT in HE. cbn [fst snd map_res] in HE. unfold id in HE.
  rewrite HE in HS. cbn [fst] in HS.
  assert (G : Forall (store_aligned c) (map (ev 0 D []) l3)).
  { assert (EE : exponent w = J) by (unfold exponent; rewrite EJ; apply Z.log2_up_pow2; lia).
    rewrite Z.sub_diag in D3.
    pose proof (desc_pos _ _ _ _ _ D3 (Z.log2_up_nonneg _) 0
                  ltac:(rewrite Z.sub_diag; apply Z.divide_0_r)) as P3.
    apply Forall_map. eapply Forall_impl; [|exact P3]. intros k (i & Hi & Ek & En & _ & Hk).
    apply store_aligned_ev. intros _ i' Hi'.
    rewrite En in Hi'. assert (i' = 0) by lia. subst i'. rewrite Z.mul_0_r, Z.add_0_r.
    rewrite shift_aligned. rewrite Ek. apply (aligned_at_iff c i _ D); try assumption; [lia|apply Hmal; lia| |].
    - apply (aligned_at_smaller c i J); try assumption; [lia|]. congruence.
    - replace (D + (k_pos k - 0) - D) with (k_pos k - 0) by lia. exact Hk. }
  apply (store_aligned_stores _ _ _ HS) in G.
  destruct (transform_epilogue 64 w lo last D s al) as [l [u|x]]; cbn [fst] in *.
  - unfold retT. rewrite app_nil_r. exact G.
  - exact G.
Qed.

Lemma transform_rt_aligned c pol w first last dst S2 :
  target_ok c -> policy_ok pol -> width_ok w -> range_ok first last ->
  size_matches pol w first last -> (p_auto pol = true -> w * c_sz c <= 4000) ->
  Forall (store_aligned c) (fst (transform_rt c pol w first last dst S2)).
Proof.
  intros Hc Hp Hw [Hr1 Hr2] Hs Hauto. set (c' := shift_cfg first dst c).
  assert (Hc' : cfg_ok c') by now apply shift_cfg_ok, target_cfg.
  assert (Hmd : p_match pol = true -> (w | last - first)).
  { intros Em. destruct (Hs Em) as [n Hn]. exists n. exact Hn. }
  assert (Hfit : prologue_fits c' pol w first last ->
            Forall (store_aligned c) (fst (transform_rt c pol w first last dst S2))).
  { intros Hf. destruct (transform_rt_steps c pol w first last dst S2) as (l & E & HT & HA & _);
      try assumption; [now apply target_cfg|now apply policy_pol|].
    rewrite E. cbn [fst]. apply Forall_map. eapply Forall_impl; [|exact HA].
    intros k Hk. now apply store_aligned_ev. }
  destruct (p_aligned pol && prologue_is_possible c' w) eqn:Eu.
  2:{ apply Hfit. intros E1 E2. rewrite E1, E2 in Eu. discriminate. }
  rewrite andb_true_iff in Eu. destruct Eu as [Ea Epos].
  destruct Hc' as [Hstd|Hfb]; [|rewrite fallback_impossible in Epos by assumption; discriminate].
  destruct (possible_std c' w Hstd Epos) as (J & s & HJ & Hs' & EJ & Es & Hm).
  destruct (prologue_args c' pol w (last - first) first) as [[maxe tp]|] eqn:Epa.
  2:{ apply Hfit. intros _ _. exists first. split; [lia|].
      eapply prologue_args_none_aligned; [|exact Epa].
      unfold use_aligned_loadstore. now rewrite Ea, Epos. }
  destruct (prologue_args_std _ _ _ _ _ _ _ Hstd (proj2 Hw) Epa) as (_ & -> & Htp & Hal & Hleast).
  destruct (Z_le_gt_dec tp (last - first)) as [Hle|Hgt].
  { apply Hfit. intros _ _. exists (first + tp). split; [lia|assumption]. }
  assert (Em : p_match pol = false) by (destruct Hp as (_ & H & _); now apply H).
  unfold transform_rt. rewrite <- shift_prologue_args with (F := first). fold c'. rewrite Epa.
  assert (HPS := prologue_steps first dst S2 c' w tp 64 1 first eq_refl ltac:(lia)).
  rewrite Z.sub_diag, Z.add_0_r in HPS.
  replace (adv 0 S2) with S2 in HPS.
  2:{ unfold adv. rewrite <- (map_id S2) at 1. apply map_ext. intros; lia. }
  rewrite HPS.
  assert (HJ64 : J < 64).
  { apply pow2_lt_inv; [lia|]. rewrite <- EJ. exact (proj2 Hw). }
  destruct (for_each_prologue_ok c' J 64 0 first tp) as (lp & Ep & Hasc); [lia|lia|lia|lia|].
  change (2^0) with 1 in Ep, Hasc. rewrite Z.div_1_r, Z.mul_1_l in Hasc. rewrite <- EJ in Ep.
  rewrite Ep. unfold mapWT. cbn [fst snd map_res].
  assert (Hlp : Forall (store_aligned c) (map (ev first dst S2) lp)).
  { destruct (asc_pos _ _ _ _ _ Hasc ltac:(lia)) as [_ HP].
    apply Forall_map. eapply Forall_impl; [|exact HP]. intros k (i & Hi & Ek & En & _ & Hk).
    apply store_aligned_ev. intros _ i' Hi'.
    rewrite En in Hi'. assert (i' = 0) by lia. subst i'. rewrite Z.mul_0_r, Z.add_0_r, Ek.
    apply (aligned_at_iff c' i _ (first + tp)); try assumption; [lia|apply Hm; lia| |].
    + apply (aligned_at_smaller c' i J); try assumption; [lia|]. rewrite <- EJ. exact Hal.
    + replace (k_pos k - (first + tp)) with (- (first + tp - k_pos k)) by lia.
      now apply Z.divide_opp_r. }
  assert (Hbody := transform_body_short c pol w last ((last - first - tp) mod two64)
                     (advance tp (first, dst, S2)) J).
  cbn [advance fst snd] in Hbody.
  unfold bindT. cbn [advance].
  destruct (transform_body c pol w last ((last - first - tp) mod two64)
              (first + tp, dst + tp, adv tp S2)) as [lb rb] eqn:Eb.
  cbn [fst] in *. rewrite Forall_app. split; [exact Hlp|]. unfold width_ok in Hw.
  assert (Hstd0 : cfg_std c).
  { destruct (target_cfg c Hc) as [H|H]; [exact H|]. exfalso.
    assert (cfg_fallback c') by (destruct H; split; assumption).
    rewrite fallback_impossible in Epos by assumption. discriminate. }
  apply Hbody; try assumption; [unfold two64; lia|lia|lia|].
  unfold c' in Hal. rewrite shift_aligned in Hal. rewrite <- Hal. f_equal. lia.
Qed.

Lemma transform_aligned_spec c pol w first last dst srcs2 :
  target_ok c -> policy_ok pol -> width_ok w -> range_ok first last ->
  size_matches pol w first last -> (p_auto pol = true -> w * c_sz c <= 4000) ->
  forall s i, In s (fst (transform c pol w first last dst srcs2)) -> t_al s = true ->
  (i < t_n s)%nat -> 0 < t_k s -> is_aligned c (t_dst s + t_k s * Z.of_nat i) (t_k s).
Proof.
  intros Hc Hp Hw Hr Hs Hauto s i Hin Hal Hi Hk.
  apply is_aligned_at; [apply malign_pos; [now apply target_cfg|assumption]|].
  assert (HF : Forall (store_aligned c) (fst (transform c pol w first last dst srcs2))).
  { unfold transform. destruct (Z.eqb_spec first last); [constructor|].
    destruct (p_match pol && _); [constructor|].
    destruct (c_ce c) eqn:Ece; [|now apply transform_rt_aligned].
    destruct Hr as [Hr1 Hr2].
    destruct (transform_ce_steps w first last dst srcs2 Hw Hr1) as (l & E & _ & HA & _).
    rewrite E. apply Forall_map. eapply Forall_impl; [|exact HA]. intros k Ek Ek'. cbn in Ek'. congruence. }
  rewrite Forall_forall in HF. apply (HF s Hin Hal). lia.
Qed.
