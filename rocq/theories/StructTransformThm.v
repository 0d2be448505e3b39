(** Theorems on transform over structs (C52). *)
From Verif Require Import Base BaseFacts PermuteModel SimdizeModel SimdizeSpec SimdizeProofs
  ExecModel ExecSpec ExecProofs ExecForEach ExecRun ExecThm StructRunModel StructRunSpec StructRunProofs
  TransformModel TransformProofs TransformThm StructTransformModel StructTransformSpec StructTransformProofs.
From Coq Require Import ZifyBool ZifyNat.
Ltac Zify.zify_post_hook ::= idtac.

Lemma shape_small pol w l : call_shape pol w l -> Forall (fun c => k_k c <= w) l.
Proof.
  intros (ies & a & b & des & E & _ & _ & HF & _).
  assert (H : Forall (fun x => fst x <= w) (map size_of l)).
  { rewrite E, !Forall_app, !Forall_map. rewrite Forall_app in HF. destruct HF as [H1 H2].
    split; [eapply Forall_impl; [|exact H1]; cbn; intros; lia|].
    split; [apply Forall_forall; intros x Hx; apply repeat_spec in Hx; subst; cbn; lia|].
    split; [apply Forall_forall; intros x Hx; apply repeat_spec in Hx; subst; cbn; lia|].
    eapply Forall_impl; [|exact H2]; cbn; intros; lia. }
  rewrite Forall_map in H. exact H.
Qed.

Definition no_prologue (c : cfg) (pol : policy) (w : Z) : Prop := plain pol \/ prologue_is_possible c w = false.

Lemma no_prologue_args c pol w n pos : no_prologue c pol w -> prologue_args c pol w n pos = None.
Proof.
  intros [ [H1 H2] | H]; unfold prologue_args, use_aligned_loadstore, maybe_prologue.
  - now rewrite H1, H2.
  - now rewrite H, !andb_false_r.
Qed.

Lemma no_prologue_aligned c pol w : no_prologue c pol w -> use_aligned_loadstore c pol w = false.
Proof.
  intros [ [H1 H2] | H]; unfold use_aligned_loadstore; [now rewrite H1|now rewrite H, !andb_false_r].
Qed.

Lemma plain_steps c pol w first last dst S2 : cfg_ok c -> no_prologue c pol w -> width_ok w -> range_ok first last ->
  size_matches pol w first last ->
  exists l, transform_rt c pol w first last dst S2 = (map (ev first dst S2) l, Ok (dst + (last - first)))
    /\ tiles first last l /\ Forall (call_aligned (shift_cfg first dst c)) l /\ plain_shape w first last l.
Proof.
  intros Hc Hno Hw [Hr1 Hr2] Hmatch. unfold width_ok in Hw. set (c' := shift_cfg first dst c).
  unfold transform_rt. rewrite (no_prologue_args c pol w _ _ Hno).
  assert (Hm : p_match pol = true -> (w | last - first)).
  { intros E. destruct (Hmatch E) as [n Hn]. now exists n. }
  destruct (transform_body_steps first dst S2 c c' pol w first last (last - first)) as (l & E & Et);
    [reflexivity|reflexivity|unfold two64; lia|exact Hr1|reflexivity|exact Hm|].
  rewrite at_pos_start in Et. rewrite Et. exists l. split; [reflexivity|].
  destruct (for_each_body_ok c' pol w first last (last - first))
    as (l1 & l2 & l3 & a & b & Eb & Hu1 & Hl1 & Hu2 & Hdb & Hda & Hd3 & Hm3);
    [assumption|assumption|reflexivity|exact Hm|].
  rewrite Eb in E. injection E as <-.
  destruct (body_facts c' pol w first last l1 l2 l3 a b) as (HT & HA & _); try assumption; try lia.
  { now apply shift_cfg_ok. }
  { intros Eu. change (use_aligned_loadstore c' pol w) with (use_aligned_loadstore c pol w) in Eu.
    rewrite (no_prologue_aligned _ _ _ Hno) in Eu. discriminate. }
  split; [exact HT|]. split; [exact HA|]. exists (l1 ++ l2), l3, b. split; [apply app_assoc|].
  assert (HT1 : tiles first a l1).
  { destruct (Z_le_gt_dec (p_unroll pol) 1) as [Hu|Hu].
    - rewrite (Hl1 Hu) in *. inversion Hu1; subst. constructor.
    - eapply uniform_tiles; [| |exact Hu1]; lia. }
  split; [eapply tiles_app; [exact HT1|eapply uniform_tiles; [| |exact Hu2]; lia]|].
  split.
  { apply Forall_app. split.
    - eapply Forall_impl; [|exact (uniform_pos _ _ _ _ _ _ Hu1 first ltac:(rewrite Z.sub_diag; apply Z.divide_0_r))]. now intros q [H _].
    - eapply Forall_impl; [|exact (uniform_pos _ _ _ _ _ _ Hu2 a ltac:(rewrite Z.sub_diag; apply Z.divide_0_r))]. now intros q [H _]. }
  split; [exact Hdb|]. split; [eapply desc_tiles; exact Hd3|].
  split; [|eapply desc_span; [exact Hd3|apply Z.log2_up_nonneg] ].
  pose proof (desc_pos _ _ _ _ _ Hd3 (Z.log2_up_nonneg _) b ltac:(rewrite Z.sub_diag; apply Z.divide_0_r)) as P3.
  eapply Forall_impl; [|exact P3]. intros q (i & Hi & -> & _).
  pose proof (exponent_bound w i ltac:(lia) Hi). pose proof (Z.pow_pos_nonneg 2 i). lia.
Qed.

Lemma plain_small w first last l : 1 <= w -> plain_shape w first last l -> Forall (fun c => k_k c <= w) l.
Proof.
  intros Hw (lu & l3 & b & -> & _ & Hu & _ & _ & H3 & _). apply Forall_app.
  split; [eapply Forall_impl; [|exact Hu]|eapply Forall_impl; [|exact H3] ]; cbn; intros; lia.
Qed.

Lemma stransform_calls c pol w first last dst kd ko S2 : stransform_runs c pol w first last dst kd ko ->
  exists l, transform c pol w first last dst S2 = (map (ev first dst S2) l, Ok (dst + (last - first)))
    /\ tiles first last l /\ (kd = RScalar -> Forall (call_aligned (shift_cfg first dst c)) l)
    /\ Forall (fun c => k_k c <= w) l
    /\ (c_ce c = false -> plain pol \/ kd <> RScalar -> plain_shape w first last l).
Proof.
  intros (Hc & Hk & Hp & Hw & Hr & Hs & Hra). pose proof Hw as Hw'. unfold width_ok in Hw'. pose proof Hr as [Hr1 Hr2].
  unfold transform. destruct (Z.eqb_spec first last) as [<-|Hne].
  { exists []. rewrite Z.sub_diag, Z.add_0_r. split; [reflexivity|]. split; [constructor|]. split; [constructor|]. split; [constructor|].
    intros _ _. exists [], [], first. split; [reflexivity|]. rewrite Z.sub_diag. repeat split; try constructor; try apply Z.divide_0_r.
    apply Z.pow_pos_nonneg; [lia|apply Z.log2_up_nonneg]. }
  assert (Etrap : p_match pol && negb ((last - first) mod w =? 0) = false).
  { destruct (p_match pol) eqn:E; [|reflexivity]. cbn [andb].
    assert ((last - first) mod w = 0); [|lia]. apply Z.mod_divide; [lia|]. destruct (Hs E) as [n Hn]. now exists n. }
  rewrite Etrap. destruct (c_ce c) eqn:Ece.
  - destruct (transform_ce_steps w first last dst S2) as (l & E & HT & HA & HS); [unfold two64; lia|lia|].
    exists l. split; [exact E|]. split; [exact HT|]. split.
    { intros _. eapply Forall_impl; [|exact HA]. intros q Hq Hq'. congruence. }
    split; [|discriminate]. eapply Forall_impl; [|exact HS]. cbn. intros q [ [H|H] _]; lia.
  - assert (HA : no_prologue c pol w \/ kd = RScalar).
    { destruct kd; [now right|]. left. right. apply fallback_impossible. exact Hc. }
    assert (Hcfg : cfg_ok c) by (apply target_cfg; destruct kd; [exact Hc|now apply struct_target_ok]).
    destruct kd as [|sk].
    + destruct (reaches_fits (shift_cfg first dst c) pol w first last) as [Hf Hsm];
        [now apply shift_target|assumption|apply shift_reaches; auto|].
      assert (Hmd : p_match pol = true -> (w | last - first)).
      { intros Em. destruct (Hs Em) as [n Hn]. exists n. exact Hn. }
      destruct (p_aligned pol) eqn:Ea; [|destruct (p_auto pol) eqn:Eu].
      1, 2: destruct (transform_rt_steps c pol w first last dst S2) as (l & E & HT & HAl & HS);
        try assumption; [now apply policy_pol|];
        exists l; split; [exact E|]; split; [exact HT|]; split; [auto|]; split; [now apply shape_small in HS|];
        intros _ [ [H1 H2] |H]; congruence.
      destruct (plain_steps c pol w first last dst S2) as (l & E & HT & HAl & HS); try assumption; [left; now split|].
      exists l. split; [exact E|]. split; [exact HT|]. split; [auto|]. split; [now apply plain_small in HS|auto].
    + destruct HA as [HA|HA]; [|discriminate].
      destruct (plain_steps c pol w first last dst S2) as (l & E & HT & HAl & HS); try assumption.
      exists l. split; [exact E|]. split; [exact HT|]. split; [discriminate|]. split; [now apply plain_small in HS|auto].
Qed.

Section Thm.
  Context {W : Type} (zero : W).
  Variable (op : list (list W) -> list W) (opv : list (list (list W)) -> list (list W)).

  Lemma tiles_small a b l : tiles a b l -> Forall (fun c => k_k c <= b - a) l.
  Proof.
    induction 1 as [a|a b n u al l Hn Hu HT IH]; constructor.
    - cbn. pose proof (tiles_le _ _ _ HT). nia.
    - pose proof (tiles_le _ _ _ HT). eapply Forall_impl; [|exact IH]. cbn. intros. nia.
  Qed.

  Lemma stransform_all c pol w rs kd ko first last dst srcs2 m :
    stransform_runs c pol w first last dst kd ko -> lanewise_structs (map r_k rs) ko op opv ->
    Forall (fun r => kind_ok (r_kind r) (r_k r)) rs -> length rs = S (length srcs2) ->
    structs_mapped m ko dst (dst + (last - first)) ->
    Forall (fun rp => range_mapped m (fst rp) (snd rp) (last - first)) (combine rs (first :: srcs2)) ->
    Forall (not_overwritten ko dst (last - first)) (combine rs (first :: srcs2)) ->
    exists m' order, run_stransform zero opv c pol w rs kd ko first last dst srcs2 m = Ok (m', dst + (last - first))
      /\ rearranges (last - first) order
      /\ stransformed order op (combine rs (first :: srcs2)) ko dst (last - first) m m'
      /\ (w < 8 \/ last - first < 8 -> forall i, 0 <= i < last - first -> order i = i)
      /\ (w = 8 -> c_ce c = false -> plain pol \/ kd <> RScalar ->
          forall i, 0 <= i < last - first -> order i = shuffle_index (last - first) i).
  Proof.
    intros Hrun Hop Hks HL Hd Hm Hnc. destruct (stransform_calls c pol w first last dst kd ko srcs2 Hrun) as (l & E & HT & HA & HS & HP).
    destruct Hrun as (Hc & Hk & Hp & Hw & Hr & Hs & Hra).
    destruct (srun_steps_ok zero op opv c rs kd ko first dst srcs2 Hop Hk Hks HL first last l HT HA ltac:(lia) m) as (m' & Er & V & O).
    { now rewrite Z.sub_diag, Z.add_0_r. }
    { eapply Forall_impl; [|exact Hm]. cbn. intros rp. now rewrite Z.sub_diag, Z.add_0_r. }
    { exact Hnc. }
    exists m', (fun i => call_order l (first + i) - first). unfold run_stransform. rewrite E, Er. cbn [bindR].
    split; [reflexivity|]. split; [|split; [|split] ].
    - split.
      + intros i Hi. pose proof (call_order_range _ _ _ HT (first + i) ltac:(lia)). lia.
      + intros i j Hi Hj Eij. pose proof (call_order_inj _ _ _ HT (first + i) (first + j) ltac:(lia) ltac:(lia) ltac:(lia)). lia.
    - rewrite Z.sub_diag, Z.add_0_r in O. split; [|exact O]. intros i args Hi Hargs.
      specialize (V (first + i) args ltac:(lia)). replace (first + i - first) with i in V by lia. apply V.
      eapply Forall2_impl_in; [|exact Hargs]. intros rp x _ H. unfold picked.
      replace (first + i - first) with i by lia. exact H.
    - intros H8 i Hi. rewrite call_order_id; [lia|]. pose proof (tiles_small _ _ _ HT) as HT'.
      rewrite Forall_forall in *. intros q Hq. specialize (HS q Hq). specialize (HT' q Hq). cbn in *. lia.
    - intros -> Hce Hpl i Hi. apply plain_order; auto.
  Qed.

  (** When 8-lane objects do not occur or no input is of the unordered type, transform is std::transform. *)
  Lemma stransform_ordered c pol w rs kd ko first last dst srcs2 m :
    stransform_runs c pol w first last dst kd ko -> lanewise_structs (map r_k rs) ko op opv ->
    Forall (fun r => kind_ok (r_kind r) (r_k r)) rs -> length rs = S (length srcs2) ->
    structs_mapped m ko dst (dst + (last - first)) ->
    Forall (fun rp => range_mapped m (fst rp) (snd rp) (last - first)) (combine rs (first :: srcs2)) ->
    Forall (not_overwritten ko dst (last - first)) (combine rs (first :: srcs2)) ->
    ranges_in_order rs w (last - first) ->
    exists m', run_stransform zero opv c pol w rs kd ko first last dst srcs2 m = Ok (m', dst + (last - first))
      /\ stransformed_in_order op (combine rs (first :: srcs2)) ko dst (last - first) m m'.
  Proof.
    intros Hrun Hop Hks HL Hd Hm Hnc Ho.
    destruct (stransform_all c pol w rs kd ko first last dst srcs2 m Hrun Hop Hks HL Hd Hm Hnc) as (m' & order & E & _ & [V O] & I & _).
    exists m'. split; [exact E|]. split; [|exact O]. intros i args Hi Hargs. apply V; [exact Hi|].
    eapply Forall2_impl_in; [|exact Hargs]. intros [r p] x Hin Ex. cbn [fst snd] in *.
    destruct (unordered_range_dec r) as [U|U]; [left|right]; (split; [exact U|]); [|exact Ex].
    destruct Ho as [Ho|[Ho|Ho] ]; [rewrite I by auto; exact Ex..|].
    rewrite Forall_forall in Ho. destruct (Ho r); [|exact U]. now apply in_combine_l in Hin.
  Qed.
End Thm.
