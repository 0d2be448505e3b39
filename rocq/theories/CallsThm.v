(** C73: the calls transform makes, and that a stateless callable cannot tell in which order. *)
From Verif Require Import Base BaseFacts ExecModel ExecProofs ExecForEach ExecRun ExecSpec ExecThm TransformModel
  TransformSpec TransformProofs TransformThm ScheduleSpec ScheduleProofs ScheduleThm ScheduleMore ThrowModel CallsModel
  CallsSpec CallsProofs.
From Coq Require Import Permutation ZifyBool ZifyNat.
Ltac Zify.zify_post_hook ::= idtac.

Lemma place_group_app l l' : forall i, place_group i (l ++ l') = place_group i l ++ place_group (i + Z.of_nat (list_sum l)) l'.
Proof.
  induction l as [|k l IH]; intros i; [cbn; now rewrite Z.add_0_r|]. cbn [app place_group]. rewrite IH. do 2 f_equal.
  change (list_sum (k :: l)) with (k + list_sum l)%nat. f_equal. lia.
Qed.
Lemma concat_places gs : forall i, concat (places i gs) = place_group i (concat gs).
Proof. induction gs as [|g gs IH]; intros i; [reflexivity|]. cbn. now rewrite place_group_app, IH. Qed.

Section Thm.
  Context {T St : Type}.
  Variable op : St -> list (list T) -> St * option (list T).

  Definition transform_post order c pol w first last dst srcs2 (m : mem T) (st : St) (ps : list (list (Z * Z))) : Prop :=
    exists e, run_transform_in op order c pol w first last dst srcs2 m st
        = Ok (e, returned_iterator (dst + (last - first)) e)
      /\ account op m (first :: srcs2) dst st ps e.

  Lemma run_post order c pol w first last dst srcs2 (m : mem T) st l :
    keeps_count op -> any_order order -> first <= last ->
    transform c pol w first last dst srcs2 = (map (ev first dst srcs2) l, Ok (dst + (last - first))) ->
    tiles first last l -> Forall (call_aligned (shift_cfg first dst c)) l ->
    Forall (fun p => mapped m p (p + (last - first))) (dst :: first :: srcs2) ->
    no_clobber dst (last - first) (first :: srcs2) ->
    transform_post order c pol w first last dst srcs2 m st (places 0 (lanes_of l)).
  Proof.
    intros Hop Hor Hle E HT HA Hm Hnc. unfold transform_post, run_transform_in. rewrite E.
    inversion Hm as [|? ? Hmd Hm']; subst.
    destruct (run_steps_in_ok op order c first dst srcs2 Hop Hor first last l HT HA ltac:(lia) (mkst m st []))
      as (e & Er & He).
    - cbn [s_mem]. intros i Hi. eapply mapped_some; [exact Hmd|lia].
    - cbn [s_mem]. eapply Forall_impl; [|exact Hm']. cbn. intros p Hp i Hi. eapply mapped_some; [exact Hp|lia].
    - exact Hnc.
    - rewrite Er. cbn [bindR]. rewrite Z.sub_diag in He. cbn [s_mem s_st s_trace app] in He. destruct e as [s|s ch].
      + exists (Returned s). split; [reflexivity|]. exact He.
      + exists (Threw s ch). split; [reflexivity|]. exact He.
  Qed.

  Lemma transform_calls order c pol w first last dst srcs2 (m : mem T) st d :
    target_ok c -> c_ce c = false -> policy_ok pol -> width_ok w -> range_ok first last ->
    size_matches pol w first last -> reaches_alignment c pol w dst (dst + (last - first)) ->
    prologue_length c pol w dst (last - first) d ->
    keeps_count op -> any_order order ->
    Forall (fun p => mapped m p (p + (last - first))) (dst :: first :: srcs2) ->
    no_clobber dst (last - first) (first :: srcs2) ->
    transform_post order c pol w first last dst srcs2 m st (places 0 (schedule w (p_unroll pol) d (last - first))).
  Proof.
    intros Hc Hce Hp Hw Hr Hs Hra Hd Hop Hor Hm Hnc.
    destruct (transform_schedule c pol w first last dst srcs2 Hc Hce Hp Hw Hr Hs Hra) as (d' & Hd' & _ & Hl).
    rewrite (prologue_length_unique _ _ _ _ _ _ _ Hd Hd'), <- Hl. clear d Hd d' Hd' Hl. destruct Hr as [Hr1 Hr2].
    destruct (Z.eq_dec first last) as [<-|Hne].
    { replace (fst (transform c pol w first first dst srcs2)) with (map (ev first dst srcs2) [])
        by (unfold transform; now rewrite Z.eqb_refl). rewrite ev_lanes.
      apply run_post; try assumption; try constructor. unfold transform. rewrite Z.eqb_refl. unfold retT. cbn. f_equal. f_equal. lia. }
    destruct (reaches_fits (shift_cfg first dst c) pol w first last) as [Hf Hsm];
      [now apply shift_target|assumption|now apply shift_reaches|].
    assert (Hmd : p_match pol = true -> (w | last - first)).
    { intros Em. destruct (Hs Em) as [n Hn]. exists n. exact Hn. }
    destruct (transform_rt_steps c pol w first last dst srcs2) as (l & E & HT & HA & HS);
      try assumption; [now apply target_cfg|now apply policy_pol|].
    assert (E' : transform c pol w first last dst srcs2
                 = (map (ev first dst srcs2) l, Ok (dst + (last - first)))).
    { unfold transform. rewrite Hce. destruct (Z.eqb_spec first last) as [|_]; [contradiction|].
      destruct (p_match pol) eqn:Em; cbn [andb]; [|exact E].
      unfold width_ok in Hw. rewrite (proj2 (Z.mod_divide (last - first) w ltac:(lia))) by (now apply Hmd).
      exact E. }
    rewrite E'. cbn [fst]. rewrite ev_lanes. apply run_post; assumption.
  Qed.

  Lemma transform_calls_consteval order c pol w first last dst srcs2 (m : mem T) st :
    c_ce c = true -> width_ok w -> range_ok first last -> size_matches pol w first last ->
    keeps_count op -> any_order order ->
    Forall (fun p => mapped m p (p + (last - first))) (dst :: first :: srcs2) ->
    no_clobber dst (last - first) (first :: srcs2) ->
    transform_post order c pol w first last dst srcs2 m st
      (places 0 (repeat [Z.to_nat w] (Z.to_nat ((last - first) / w)) ++ repeat [1%nat] (Z.to_nat ((last - first) mod w)))).
  Proof.
    intros Hce Hw Hr Hs Hop Hor Hm Hnc.
    destruct (transform_ce_schedule c pol w first last dst srcs2 Hce Hw Hr Hs) as [_ Hl].
    rewrite <- Hl. clear Hl. destruct Hr as [Hr1 Hr2].
    destruct (Z.eq_dec first last) as [<-|Hne].
    { replace (fst (transform c pol w first first dst srcs2)) with (map (ev first dst srcs2) [])
        by (unfold transform; now rewrite Z.eqb_refl). rewrite ev_lanes.
      apply run_post; try assumption; try constructor. unfold transform. rewrite Z.eqb_refl. unfold retT. cbn. f_equal. f_equal. lia. }
    destruct (transform_ce_steps w first last dst srcs2) as (l & E & HT & HA & HS); [exact Hw|lia|].
    assert (E' : transform c pol w first last dst srcs2
                 = (map (ev first dst srcs2) l, Ok (dst + (last - first)))).
    { unfold transform. rewrite Hce. destruct (Z.eqb_spec first last) as [|_]; [contradiction|].
      destruct (p_match pol) eqn:Em; cbn [andb]; [|exact E]. destruct (Hs Em) as [n Hn].
      unfold width_ok in Hw. rewrite (proj2 (Z.mod_divide (last - first) w ltac:(lia))) by (exists n; exact Hn).
      exact E. }
    rewrite E'. cbn [fst]. rewrite ev_lanes. apply run_post; try assumption.
    eapply Forall_impl; [|exact HA]. intros k Hk. unfold call_aligned. rewrite Hk. discriminate.
  Qed.

  (** ** A callable that does not look at its state *)
  Lemma given_unique (m : mem T) srcs i k ch ch' : given m srcs i k ch -> given m srcs i k ch' -> ch = ch'.
  Proof.
    unfold given. intros G. revert ch'. induction G as [|p c srcs chs R G IH]; intros ch' G'; inversion G'; subst; [reflexivity|].
    f_equal; [eapply range_is_unique; eassumption|auto].
  Qed.

  Definition tells (m : mem T) srcs (st : St) (at_ : Z * Z) (r : option (list T)) : Prop :=
    exists ch, given m srcs (fst at_) (snd at_) ch /\ snd (op st ch) = r.

  Lemma tells_unique (m : mem T) srcs st at_ r r' : tells m srcs st at_ r -> tells m srcs st at_ r' -> r = r'.
  Proof. intros (ch & G & <-) (ch' & G' & <-). now rewrite (given_unique m srcs _ _ _ _ G' G). Qed.

  Lemma answers_tell (m : mem T) srcs s0 : stateless op -> forall st qs st', answers op st qs st' -> faithful m srcs qs ->
    Forall (fun q => tells m srcs s0 (fst q) (Some (snd (snd q)))) qs.
  Proof.
    intros Hst. induction 1 as [|st st1 st' at_ ch r qs E A IH]; intros Hf; [constructor|]. inversion Hf as [|? ? [G _] Hf']; subst.
    constructor; [|now apply IH]. exists ch. split; [exact G|]. rewrite (Hst s0 st), E. reflexivity.
  Qed.

  Definition groups_of (ps : list (list (Z * Z))) (css : list (list (answer T))) : Prop :=
    Forall2 (fun g qs => Permutation (map fst qs) g) ps css.

  Lemma groups_concat ps css : groups_of ps css -> Permutation (map fst (concat css)) (concat ps).
  Proof. induction 1; [constructor|]. cbn. rewrite map_app. now apply Permutation_app. Qed.

  (** Two accounts of the same groups write the same. *)
  Lemma same_written (m m1 m2 : mem T) srcs s0 dst before css css' :
    groups_of before css -> groups_of before css' ->
    Forall (fun q => tells m srcs s0 (fst q) (Some (snd (snd q)))) (concat css) ->
    Forall (fun q => tells m srcs s0 (fst q) (Some (snd (snd q)))) (concat css') ->
    written m m1 dst (concat css) -> written m m2 dst (concat css') -> forall a, m1 a = m2 a.
  Proof.
    intros F F' H H' [W1 W2] [V1 V2] a.
    assert (P := Permutation_trans (groups_concat _ _ F) (Permutation_sym (groups_concat _ _ F'))).
    rewrite Forall_forall in H, H', W1, V1.
    destruct (Exists_dec (fun q : answer T => dst + fst (fst q) <= a < dst + fst (fst q) + snd (fst q)) (concat css)) as [X|X].
    { intros q. destruct (Z_le_gt_dec (dst + fst (fst q)) a); [|right; lia].
      destruct (Z_lt_le_dec a (dst + fst (fst q) + snd (fst q))); [left|right]; lia. }
    - apply Exists_exists in X. destruct X as (q & Hq & Ha).
      assert (Hq' : In (fst q) (map fst (concat css'))) by (eapply Permutation_in; [exact P|now apply in_map]).
      apply in_map_iff in Hq'. destruct Hq' as (q' & Ef & Hq').
      assert (E : Some (snd (snd q)) = Some (snd (snd q'))).
      { eapply tells_unique; [apply (H q Hq)|]. rewrite <- Ef. apply (H' q' Hq'). }
      injection E as E. destruct (W1 q Hq) as [L1 N1]. destruct (V1 q' Hq') as [L2 N2]. rewrite Ef, <- E in N2. rewrite <- E, Ef in L2.
      specialize (N1 (Z.to_nat (a - (dst + fst (fst q)))) ltac:(lia)). specialize (N2 (Z.to_nat (a - (dst + fst (fst q)))) ltac:(lia)).
      rewrite N1 in N2. replace (dst + fst (fst q) + Z.of_nat (Z.to_nat (a - (dst + fst (fst q))))) with a in N2 by lia. exact N2.
    - rewrite W2, V2; [reflexivity| |].
      + intros q Hq Ha. apply X, Exists_exists. assert (Hq' : In (fst q) (map fst (concat css))).
        { eapply Permutation_in; [symmetry; exact P|now apply in_map]. }
        apply in_map_iff in Hq'. destruct Hq' as (q' & Ef & Hq'). exists q'. split; [exact Hq'|]. rewrite Ef. exact Ha.
      + intros q Hq Ha. apply X, Exists_exists. now exists q.
  Qed.

  (** A group with a chunk the callable throws on is no group of those that have been answered. *)
  Lemma not_answered (m : mem T) srcs s0 before css group at_ :
    groups_of before css -> Forall (fun q => tells m srcs s0 (fst q) (Some (snd (snd q)))) (concat css) ->
    In at_ group -> tells m srcs s0 at_ None -> ~ In group before.
  Proof.
    intros F H Hat N Hin. rewrite Forall_forall in H.
    assert (X : In at_ (map fst (concat css))).
    { eapply Permutation_in; [symmetry; exact (groups_concat _ _ F)|]. apply in_concat. now exists group. }
    apply in_map_iff in X. destruct X as (q & <- & Hq). pose proof (tells_unique _ _ _ _ _ _ N (H q Hq)). discriminate.
  Qed.

  Lemma split_unique {A} (l1 l2 l3 l4 : list A) x y : l1 ++ x :: l2 = l3 ++ y :: l4 -> ~ In x l3 -> ~ In y l1 -> l1 = l3.
  Proof.
    revert l3. induction l1 as [|a l1 IH]; intros [|b l3] E H1 H2; cbn in E.
    - reflexivity.
    - injection E as -> _. destruct H1. now left.
    - injection E as -> _. destruct H2. now left.
    - injection E as -> E. f_equal. apply IH; [exact E| |]; intros H; [apply H1|apply H2]; now right.
  Qed.

  Lemma post_same order order' c pol w first last dst srcs2 (m : mem T) st ps : stateless op ->
    transform_post order c pol w first last dst srcs2 m st ps -> transform_post order' c pol w first last dst srcs2 m st ps ->
    exists e e' r, run_transform_in op order c pol w first last dst srcs2 m st = Ok (e, r)
      /\ run_transform_in op order' c pol w first last dst srcs2 m st = Ok (e', r) /\ same_end e e'.
  Proof.
    intros Hst (e & E & H) (e' & E' & H').
    destruct e as [s|s ch], e' as [s'|s' ch'].
    - destruct H as (css & F & A & B & _ & W). destruct H' as (css' & F' & A' & B' & _ & W').
      do 3 eexists. split; [exact E|]. split; [exact E'|]. cbn.
      apply (same_written m (s_mem s) (s_mem s') (first :: srcs2) st dst ps css css'); try assumption; eapply answers_tell; eassumption.
    - exfalso. destruct H as (css & F & A & B & _ & W).
      destruct H' as (before & group & after & css' & part & i & k & rest & st0 & Eps & F' & P & A' & B' & G & O & _).
      apply (not_answered m (first :: srcs2) st ps css group (i, k) F); [eapply answers_tell; eassumption| | |].
      + eapply Permutation_in; [exact P|]. apply in_app_iff. right. now left.
      + exists ch'. split; [exact G|]. rewrite (Hst st st0), O. reflexivity.
      + rewrite Eps. apply in_app_iff. right. now left.
    - exfalso. destruct H' as (css & F & A & B & _ & W).
      destruct H as (before & group & after & css' & part & i & k & rest & st0 & Eps & F' & P & A' & B' & G & O & _).
      apply (not_answered m (first :: srcs2) st ps css group (i, k) F); [eapply answers_tell; eassumption| | |].
      + eapply Permutation_in; [exact P|]. apply in_app_iff. right. now left.
      + exists ch. split; [exact G|]. rewrite (Hst st st0), O. reflexivity.
      + rewrite Eps. apply in_app_iff. right. now left.
    - destruct H as (before & group & after & css & part & i & k & rest & st0 & Eps & F & P & A & B & G & O & _ & W).
      destruct H' as (before' & group' & after' & css' & part' & i' & k' & rest' & st0' & Eps' & F' & P' & A' & B' & G' & O' & _ & W').
      assert (T1 := answers_tell m (first :: srcs2) st Hst _ _ _ B A). assert (T2 := answers_tell m (first :: srcs2) st Hst _ _ _ B' A').
      apply Forall_app in T1, T2.
      assert (Eb : before = before').
      { apply (split_unique before after before' after' group group'); [congruence| |].
        - apply (not_answered m (first :: srcs2) st before' css' group (i, k) F'); [apply T2| |].
          + eapply Permutation_in; [exact P|]. apply in_app_iff. right. now left.
          + exists ch. split; [exact G|]. rewrite (Hst st st0), O. reflexivity.
        - apply (not_answered m (first :: srcs2) st before css group' (i', k') F); [apply T1| |].
          + eapply Permutation_in; [exact P'|]. apply in_app_iff. right. now left.
          + exists ch'. split; [exact G'|]. rewrite (Hst st st0'), O'. reflexivity. }
      subst before'. do 3 eexists. split; [exact E|]. split; [exact E'|]. cbn.
      apply (same_written m (s_mem s) (s_mem s') (first :: srcs2) st dst before css css'); try assumption; [apply T1|apply T2].
  Qed.

  Lemma transform_order_unobservable order order' c pol w first last dst srcs2 (m : mem T) st :
    target_ok c -> c_ce c = false -> policy_ok pol -> width_ok w -> range_ok first last ->
    size_matches pol w first last -> reaches_alignment c pol w dst (dst + (last - first)) ->
    keeps_count op -> stateless op -> any_order order -> any_order order' ->
    Forall (fun p => mapped m p (p + (last - first))) (dst :: first :: srcs2) ->
    no_clobber dst (last - first) (first :: srcs2) ->
    exists e e' r, run_transform_in op order c pol w first last dst srcs2 m st = Ok (e, r)
      /\ run_transform_in op order' c pol w first last dst srcs2 m st = Ok (e', r) /\ same_end e e'.
  Proof.
    intros Hc Hce Hp Hw Hr Hs Hra Hop Hst Hor Hor' Hm Hnc.
    destruct (transform_schedule c pol w first last dst srcs2 Hc Hce Hp Hw Hr Hs Hra) as (d & Hd & _).
    eapply post_same; [exact Hst| |]; eapply transform_calls; eassumption.
  Qed.

  (** ** One call at a time *)
  Lemma singleton_groups ps css : groups_of ps css -> Forall (fun g => length g = 1%nat) ps ->
    map fst (concat css) = concat ps.
  Proof.
    induction 1 as [|g qs ps css P F IH]; intros H; [reflexivity|]. inversion H as [|? ? Hg H']; subst. cbn. rewrite map_app.
    f_equal; [|auto]. destruct g as [|x [|y g] ]; try discriminate. now apply Permutation_sym, Permutation_length_1_inv in P.
  Qed.

  Lemma account_ordered (m : mem T) srcs dst st ps e : Forall (fun g => length g = 1%nat) ps ->
    account op m srcs dst st ps e -> account_in_order op m srcs dst st (concat ps) e.
  Proof.
    intros H. destruct e as [s|s ch]; cbn.
    - intros (css & F & R). exists (concat css). split; [|exact R]. now apply singleton_groups.
    - intros (before & group & after & css & part & i & k & rest & st0 & -> & F & P & A & B & G & O & Tr & W).
      apply Forall_app in H. destruct H as [H1 H2]. inversion H2 as [|? ? Hg H3]; subst.
      destruct group as [|x [|y group] ]; try discriminate.
      apply Permutation_sym, Permutation_length_1_inv in P.
      destruct part as [|q part]; cbn in P; [|injection P as _ P; destruct part; discriminate].
      injection P as <- ->. rewrite app_nil_r in *.
      exists (concat css), i, k, (concat after), st0. split; [|auto 10].
      rewrite concat_app. cbn. f_equal. symmetry. now apply singleton_groups.
  Qed.

  Lemma places_single i gs : Forall (fun g : list nat => length g = 1%nat) gs -> Forall (fun g => length g = 1%nat) (places i gs).
  Proof.
    revert i. induction gs as [|g gs IH]; intros i H; [constructor|]. inversion H as [|? ? Hg H']; subst. cbn. constructor; [|auto].
    destruct g as [|x [|y g] ]; try discriminate. reflexivity.
  Qed.

  Lemma schedule_single w u d n : u <= 1 -> Forall (fun g => length g = 1%nat) (schedule w u d n).
  Proof.
    intros Hu. unfold schedule, groups. destruct (Z.ltb_spec 1 u); [lia|]. apply Forall_app. split; [|apply Forall_app; split; [|apply Forall_app; split] ].
    - apply Forall_map, Forall_forall. reflexivity.
    - constructor.
    - apply Forall_forall. intros g Hg. apply repeat_spec in Hg. now subst.
    - apply Forall_map, Forall_forall. reflexivity.
  Qed.

  Lemma transform_calls_in_order order c pol w first last dst srcs2 (m : mem T) st d :
    target_ok c -> c_ce c = false -> policy_ok pol -> width_ok w -> range_ok first last ->
    size_matches pol w first last -> reaches_alignment c pol w dst (dst + (last - first)) ->
    prologue_length c pol w dst (last - first) d -> p_unroll pol <= 1 ->
    keeps_count op -> any_order order ->
    Forall (fun p => mapped m p (p + (last - first))) (dst :: first :: srcs2) ->
    no_clobber dst (last - first) (first :: srcs2) ->
    exists e, run_transform_in op order c pol w first last dst srcs2 m st
        = Ok (e, returned_iterator (dst + (last - first)) e)
      /\ account_in_order op m (first :: srcs2) dst st
           (concat (places 0 (schedule w (p_unroll pol) d (last - first)))) e.
  Proof.
    intros Hc Hce Hp Hw Hr Hs Hra Hd Hu Hop Hor Hm Hnc.
    destruct (transform_calls order c pol w first last dst srcs2 m st d) as (e & E & A); try assumption.
    exists e. split; [exact E|]. apply account_ordered; [|exact A]. now apply places_single, schedule_single.
  Qed.

  Lemma transform_calls_consteval_in_order order c pol w first last dst srcs2 (m : mem T) st :
    c_ce c = true -> width_ok w -> range_ok first last -> size_matches pol w first last ->
    keeps_count op -> any_order order ->
    Forall (fun p => mapped m p (p + (last - first))) (dst :: first :: srcs2) ->
    no_clobber dst (last - first) (first :: srcs2) ->
    exists e, run_transform_in op order c pol w first last dst srcs2 m st
        = Ok (e, returned_iterator (dst + (last - first)) e)
      /\ account_in_order op m (first :: srcs2) dst st
           (place_group 0 (repeat (Z.to_nat w) (Z.to_nat ((last - first) / w))
                           ++ repeat 1%nat (Z.to_nat ((last - first) mod w)))) e.
  Proof.
    intros Hce Hw Hr Hs Hop Hor Hm Hnc.
    destruct (transform_calls_consteval order c pol w first last dst srcs2 m st) as (e & E & A); try assumption.
    exists e. split; [exact E|]. apply account_ordered in A; [|].
    - rewrite concat_places, concat_app in A.
      assert (R : forall (x : nat) n, concat (repeat [x] n) = repeat x n) by (intros x; induction n; [reflexivity|cbn; now f_equal]).
      now rewrite !R in A.
    - apply places_single, Forall_app. split; apply Forall_forall; intros g Hg; apply repeat_spec in Hg; now subst.
  Qed.
End Thm.

(** ** The places cover the range. *)
Lemma pow_digits_sum d J : 0 <= d -> Z.of_nat (list_sum (map (fun i => Nat.pow 2 i) (filter (fun i => Z.testbit d (Z.of_nat i)) (seq 0 J))))
  = d mod 2 ^ Z.of_nat J.
Proof.
  intros Hd. induction J as [|J IH]; [cbn; now rewrite Z.mod_1_r|].
  rewrite seq_S, filter_app, map_app, list_sum_app, Nat2Z.inj_add, IH. cbn [filter Nat.add].
  rewrite Nat2Z.inj_succ, Z.pow_succ_r, (Z.mul_comm 2) by lia.
  rewrite Z.rem_mul_r by lia. f_equal. rewrite <- Z.bit0_mod. rewrite <- (Z.shiftr_div_pow2 d) by lia.
  rewrite Z.shiftr_spec by lia. rewrite Z.add_0_l. destruct (Z.testbit d (Z.of_nat J)).
  - cbn [map list_sum fold_right Z.b2z]. rewrite Nat.add_0_r, Nat2Z.inj_pow. cbn. lia.
  - cbn. lia.
Qed.

Lemma digits_sum d : 0 <= d < 2 ^ 64 -> Z.of_nat (list_sum (map (fun i => Nat.pow 2 i) (digits d))) = d.
Proof. intros Hd. unfold digits. rewrite pow_digits_sum by lia. apply Z.mod_small. exact Hd. Qed.

Lemma list_sum_perm l l' : Permutation l l' -> list_sum l = list_sum l'.
Proof. induction 1; cbn in *; unfold list_sum in *; cbn; lia. Qed.

Lemma schedule_sum w u d n : 1 <= w -> 0 <= d <= n -> n < 2 ^ 64 -> w < 2 ^ 64 -> Z.of_nat (list_sum (concat (schedule w u d n))) = n.
Proof.
  intros Hw Hd Hn Hw'. rewrite schedule_chunks, !list_sum_app, list_sum_repeat, !Nat2Z.inj_add by lia.
  rewrite digits_sum by lia. rewrite map_rev, <- (list_sum_perm _ _ (Permutation_rev _)).
  pose proof (Z.mod_pos_bound (n - d) w ltac:(lia)). rewrite digits_sum by lia.
  pose proof (Z.div_mod (n - d) w ltac:(lia)). pose proof (Z.div_pos (n - d) w ltac:(lia) ltac:(lia)). nia.
Qed.

Lemma schedule_positive w u d n : 1 <= w -> d <= n -> Forall (lt 0) (concat (schedule w u d n)).
Proof.
  intros Hw Hd. rewrite schedule_chunks by lia. apply Forall_app. split; [|apply Forall_app; split].
  - apply Forall_map, Forall_forall. intros i _. pose proof (Nat.pow_nonzero 2 i ltac:(discriminate)). lia.
  - apply Forall_forall. intros x Hx. apply repeat_spec in Hx. lia.
  - apply Forall_map, Forall_forall. intros i _. pose proof (Nat.pow_nonzero 2 i ltac:(discriminate)). lia.
Qed.

Lemma place_group_cover l : forall i x, i <= x < i + Z.of_nat (list_sum l) ->
  exists p k, In (p, k) (place_group i l) /\ p <= x < p + k.
Proof.
  induction l as [|k l IH]; intros i x Hx; [cbn in Hx; lia|]. change (list_sum (k :: l)) with (k + list_sum l)%nat in Hx.
  cbn [place_group]. destruct (Z_lt_le_dec x (i + Z.of_nat k)).
  - exists i, (Z.of_nat k). split; [now left|lia].
  - destruct (IH (i + Z.of_nat k) x ltac:(lia)) as (p & k' & Hin & Hp). exists p, k'. split; [now right|exact Hp].
Qed.

Lemma place_group_bound l : Forall (lt 0) l -> forall i p k, In (p, k) (place_group i l) ->
  i <= p /\ 0 < k /\ p + k <= i + Z.of_nat (list_sum l).
Proof.
  induction 1 as [|x l Hx Hl IH]; intros i p k; [intros []|]. change (list_sum (x :: l)) with (x + list_sum l)%nat.
  cbn [place_group]. intros [E|Hin]; [injection E as <- <-; lia|]. specialize (IH _ _ _ Hin). lia.
Qed.

Lemma place_group_ascending l : Forall (lt 0) l -> forall i,
  ForallOrdPairs (fun a b => fst a + snd a <= fst b) (place_group i l).
Proof.
  induction 1 as [|x l Hx Hl IH]; intros i; cbn [place_group]; constructor; [|apply IH].
  apply Forall_forall. intros [p k] Hin. destruct (place_group_bound l Hl _ _ _ Hin) as (H1 & _). exact H1.
Qed.

Lemma transform_places c pol w first last dst d :
  target_ok c -> width_ok w -> range_ok first last -> reaches_alignment c pol w dst (dst + (last - first)) ->
  prologue_length c pol w dst (last - first) d ->
  let ps := concat (places 0 (schedule w (p_unroll pol) d (last - first))) in
  (forall x, 0 <= x < last - first -> exists p k, In (p, k) ps /\ p <= x < p + k)
  /\ ForallOrdPairs (fun a b => fst a + snd a <= fst b) ps
  /\ Forall (fun a => 0 <= fst a /\ 0 < snd a /\ fst a + snd a <= last - first) ps.
Proof.
  intros Hc Hw Hr Hra Hd ps.
  assert (Hle : 0 <= d <= last - first).
  { split; [destruct Hd as [(_ & (H & _) & _)|(-> & _)]; lia|].
    assert (Hx := reaches_length c pol w dst (dst + (last - first)) Hc Hw).
    replace (dst + (last - first) - dst) with (last - first) in Hx by lia. apply Hx; [|assumption|assumption].
    destruct Hr. split; lia. }
  unfold range_ok, width_ok in *. unfold ps. rewrite concat_places.
  assert (HS : Z.of_nat (list_sum (concat (schedule w (p_unroll pol) d (last - first)))) = last - first) by (apply schedule_sum; lia).
  assert (HP : Forall (lt 0) (concat (schedule w (p_unroll pol) d (last - first)))) by (apply schedule_positive; lia).
  split; [|split].
  - intros x Hx. apply place_group_cover. lia.
  - now apply place_group_ascending.
  - apply Forall_forall. intros [p k] Hin. destruct (place_group_bound _ HP _ _ _ Hin) as (H1 & H2 & H3). cbn. lia.
Qed.
