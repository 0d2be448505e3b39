(** The property-level lemmas of C82. *)
From Verif Require Import Base BaseFacts ExecModel ExecProofs ExecForEach ExecSpec ExecThm TransformModel
  ReduceModel ReduceSpec ReduceProofs TReduceModel TReduceSpec TReduceProofs TReduceThm
  ScheduleSpec ScheduleProofs ScheduleThm OrderSpec OrderProofs OrderThm CallsSpec ChunkProofs AnyReduceSpec AnyReduceThm
  CostSpec CostProofs CostThm RCallsModel RCallsSpec RCallsSim RCallsProofs.
From Coq Require Import ZifyBool ZifyNat.
Ltac Zify.zify_post_hook ::= idtac.

(** ** Loads *)
Lemma mapR_all {X Y} (f : X -> res Y) (P : Y -> Prop) l : (forall x y, f x = Ok y -> P y) ->
  forall ys, mapR f l = Ok ys -> length ys = length l /\ Forall P ys.
Proof.
  intros H. induction l as [|x l IH]; intros ys E; cbn [mapR] in E.
  - injection E as <-. split; [reflexivity|constructor].
  - destruct (f x) as [y|] eqn:Ex; [|discriminate]. cbn [bindR] in E.
    destruct (mapR f l) as [ys'|]; [|discriminate]. cbn [bindR] in E. injection E as <-.
    destruct (IH ys' eq_refl) as [L F]. split; [cbn; lia|]. constructor; [eapply H; exact Ex|exact F].
Qed.

Section Loads.
  Context {T : Type}.
  Variables (c : cfg) (m : mem T).

  Definition loads (al : bool) (ps : list Z) (k : Z) : res (list (list T)) :=
    match ps with
    | [] => Stop SIllFormed
    | p1 :: ps' => bindR (load_chunk c m al p1 k) (fun v1 =>
                   bindR (mapR (fun p => load_chunk c m false p k) ps') (fun vs => Ok (v1 :: vs)))
    end.

  Lemma loads_lengths al ps k chunks : loads al ps k = Ok chunks ->
    length chunks = length ps /\ Forall (fun ch => length ch = Z.to_nat k) chunks.
  Proof.
    assert (H : forall b p v, load_chunk c m b p k = Ok v -> length v = Z.to_nat k).
    { intros b p v E. unfold load_chunk in E. destruct (b && _); [discriminate|].
      destruct (load m p (Z.to_nat k)) as [l|] eqn:El; [|discriminate]. injection E as <-. eapply load_length. exact El. }
    intros E. destruct ps as [|p1 ps]; [discriminate|]. cbn [loads] in E.
    destruct (load_chunk c m al p1 k) as [v1|] eqn:E1; [|discriminate]. cbn [bindR] in E.
    destruct (mapR _ ps) as [vs|] eqn:E2; [|discriminate]. cbn [bindR] in E. injection E as <-.
    destruct (mapR_all _ (fun ch => length ch = Z.to_nat k) ps (H false) vs E2) as [L F].
    split; [cbn; lia|]. constructor; [eapply H; exact E1|exact F].
  Qed.

  Lemma ld_loads {A} (tr : list (list T) -> A) al ps k : ps <> [] ->
    match ps with
    | [] => Stop SIllFormed
    | p1 :: ps' => bindR (load_chunk c m al p1 k) (fun v1 =>
                   bindR (mapR (fun p => load_chunk c m false p k) ps') (fun vs => Ok (tr (v1 :: vs))))
    end = bindR (loads al ps k) (fun ch => Ok (tr ch)).
  Proof.
    destruct ps as [|p1 ps]; [contradiction|]. intros _. cbn [loads].
    destruct (load_chunk c m al p1 k); [|reflexivity]. cbn [bindR]. destruct (mapR _ ps); reflexivity.
  Qed.

  Lemma ld_with_loads {A St} (tr : St -> list (list T) -> St * list A) s al ps k :
    ld_with c tr m s al ps k
    = match loads al ps k with Ok ch => let (s', v) := tr s ch in (s', Ok v) | Stop e => (s, Stop e) end.
  Proof. destruct ps; reflexivity. Qed.

  Lemma ld_with_length {A St} (tr : St -> list (list T) -> St * list A) s al ps k s' v :
    tr_keeps_lanes tr (length ps) -> ld_with c tr m s al ps k = (s', Ok v) -> length v = Z.to_nat k.
  Proof.
    intros Hk E. rewrite ld_with_loads in E. destruct (loads al ps k) as [ch|] eqn:El; [|discriminate].
    destruct (loads_lengths _ _ _ _ El) as [L F]. pose proof (Hk s ch (Z.to_nat k) L F) as H.
    destruct (tr s ch) as [s1 v1]. injection E as <- <-. exact H.
  Qed.
End Loads.

(** ** Runs that end *)
Lemma from_digits J x : (J < 64)%nat -> 0 <= x < 2 ^ Z.of_nat J -> from 0 (S J) x = digits x.
Proof.
  intros HJ Hx. rewrite (digits_dg x (S J)); [reflexivity|lia|]. rewrite Nat2Z.inj_succ, Z.pow_succ_r by lia. lia.
Qed.

Lemma pw_length l : length (pw l) = length l.
Proof. unfold pw. apply map_length. Qed.

Lemma pw_nil : pw [] = [].
Proof. reflexivity. Qed.
Lemma nil_length {X} : length (@nil X) = 0%nat.
Proof. reflexivity. Qed.
Lemma nil_sum : list_sum [] = 0%nat.
Proof. reflexivity. Qed.

Lemma schedule_pw w u d n : 1 <= w -> d <= n ->
  concat (schedule w u d n)
  = pw (digits d) ++ repeat (Z.to_nat w) (Z.to_nat ((n - d) / w)) ++ pw (rev (digits ((n - d) mod w))).
Proof. unfold pw. apply schedule_chunks. Qed.

Section On.
  Context {A St : Type} {EO : eval_order}.
  Variables (rop : St -> list A -> list A -> St * list A) (sop : St -> A -> A -> St * A)
            (ld : St -> bool -> list Z -> Z -> St * res (list A)).

  Lemma run_unfold c pol w first last srcs2 init : first < last ->
    p_match pol && negb ((last - first) mod w =? 0) = false -> c_ce c = false ->
    c_transform_reduce rop sop ld c pol w first last srcs2 init
    = match prologue_args c pol w (last - first) first with
      | None => c_body rop sop ld pol w (use_aligned_loadstore c pol w) [init] first last (last - first) (first :: srcs2)
      | Some (maxe, tp) =>
        bindM (c_prologue rop sop ld 65 1 maxe [init] (first :: srcs2) tp) (fun acc1 =>
        c_body rop sop ld pol w (use_aligned_loadstore c pol w) acc1 (first + tp) last
               ((last - first - tp) mod two64) (adv tp (first :: srcs2)))
      end.
  Proof.
    intros H1 H2 H3. unfold c_transform_reduce. replace (first =? last) with false by lia. cbv zeta.
    rewrite H2, H3. reflexivity.
  Qed.

  Section Held.
    Variables (first : Z) (srcs2 : list Z).
    Hypothesis Hld : forall s al p k s' v, 0 < k -> ld s al (adv p (first :: srcs2)) k = (s', Ok v) -> length v = Z.to_nat k.

    Lemma prologue_run J d init fuel : (J < 64)%nat -> 0 <= d < 2 ^ Z.of_nat J ->
      holds (c_prologue rop sop ld fuel 1 (2 ^ Z.of_nat J) [init] (first :: srcs2) d)
            (fun es z => length z = 1%nat
               /\ obs (first :: srcs2) 0 (pw (digits d)) (length (digits d) + list_sum (digits d)) (Z.to_nat d) es).
    Proof.
      intros HJ Hd.
      pose proof (prologue_calls rop sop ld (first :: srcs2) Hld J d fuel 0 [init] ltac:(lia) ltac:(lia) eq_refl) as HP.
      rewrite Nat.sub_0_r in HP. rewrite (from_digits J d HJ Hd) in HP.
      assert (E0 : 2 ^ Z.of_nat 0 = 1) by reflexivity. rewrite E0, Z.mod_1_r in HP.
      assert (Esum : list_sum (pw (digits d)) = Z.to_nat d).
      { apply Nat2Z.inj. unfold pw. rewrite sum_powers, powers_digits; [lia|].
        pose proof (Z.pow_lt_mono_r 2 (Z.of_nat J) 64 ltac:(lia) ltac:(lia) ltac:(lia)). lia. }
      rewrite Esum in HP. exact HP.
    Qed.

    Lemma body_run pol w al acc1 last d : 1 <= w < two64 -> length acc1 = 1%nat -> 0 <= d < last - first ->
      last - first < two64 -> (p_match pol = true -> (w | last - first - d)) ->
      holds (c_body rop sop ld pol w al acc1 (first + d) last (last - first - d) (adv d (first :: srcs2)))
            (fun es _ => obs (first :: srcs2) d
               (repeat (Z.to_nat w) (Z.to_nat ((last - first - d) / w)) ++ pw (rev (digits ((last - first - d) mod w))))
               (Z.to_nat ((last - first - d) / w) + length (digits ((last - first - d) mod w))
                + across_calls (widest w (last - first - d)))
               (Z.to_nat (last - first - d)) es).
    Proof.
      intros Hw L1 Hd H64 Hdiv. replace (last - first - d) with (last - (first + d)) in * by lia.
      apply (body_calls rop sop ld (first :: srcs2) Hld w (Z.to_nat w)); (lia || reflexivity || assumption).
    Qed.

    Lemma prologue_body_run pol w J al init last d fuel : 1 <= w < two64 -> w = 2 ^ Z.of_nat J -> 0 < d < w -> d < last - first ->
      last - first < two64 -> p_match pol = false ->
      holds (bindM (c_prologue rop sop ld fuel 1 w [init] (first :: srcs2) d) (fun acc1 =>
             c_body rop sop ld pol w al acc1 (first + d) last ((last - first - d) mod two64) (adv d (first :: srcs2))))
            (fun es _ => obs (first :: srcs2) 0 (concat (schedule w (p_unroll pol) d (last - first)))
                             (reduction_calls w (p_unroll pol) d (last - first)) (Z.to_nat (last - first)) es).
    Proof.
      intros Hw EJ Hd Hdn H64 Hpm.
      assert (HJ64 : (J < 64)%nat).
      { enough (Z.of_nat J < 64) by lia. apply pow2_lt_inv; [lia|]. change (2 ^ 64) with two64. lia. }
      unfold reduction_calls. rewrite schedule_pw by lia.
      rewrite !app_length, repeat_length, !pw_length, rev_length.
      apply (holds_bind _ _ (fun es z => length z = 1%nat
               /\ obs (first :: srcs2) 0 (pw (digits d)) (length (digits d) + list_sum (digits d)) (Z.to_nat d) es)).
      { rewrite EJ. apply prologue_run; lia. }
      intros es1 acc1 [L1 O1]. rewrite (Z.mod_small (last - first - d) two64) by lia.
      eapply holds_weaken; [|apply body_run; [lia|exact L1|lia|lia|congruence]]. intros es2 xx O2.
      eapply obs_eq; [eapply obs_app; [|exact O1|exact O2]|reflexivity|lia|lia].
      unfold pw. rewrite sum_powers, powers_digits; [lia|]. change (2 ^ 64) with two64. lia.
    Qed.

    Lemma body_only_run pol w al init last : 1 <= w < two64 -> 0 < last - first ->
      last - first < two64 -> (p_match pol = true -> (w | last - first)) ->
      holds (c_body rop sop ld pol w al [init] first last (last - first) (first :: srcs2))
            (fun es _ => obs (first :: srcs2) 0 (concat (schedule w (p_unroll pol) 0 (last - first)))
                             (reduction_calls w (p_unroll pol) 0 (last - first)) (Z.to_nat (last - first)) es).
    Proof.
      intros Hw H0 H64 Hdiv. unfold reduction_calls. rewrite schedule_pw by lia.
      rewrite !app_length, repeat_length, !pw_length, rev_length. rewrite digits_zero.
      pose proof (body_run pol w al [init] last 0 Hw eq_refl ltac:(lia) H64) as HB.
      rewrite Z.add_0_r, adv_0 in HB. rewrite !Z.sub_0_r in *.
      eapply holds_weaken; [|exact (HB Hdiv)]. intros es xx O.
      rewrite pw_nil, app_nil_l, nil_length, nil_sum, Nat.add_0_l, Nat.add_0_r. exact O.
    Qed.

    Lemma run_calls c pol w last init d :
      target_ok c -> c_ce c = false -> policy_ok pol -> width_ok w -> range_ok first last ->
      size_matches pol w first last ->
      prologue_length c pol w first (last - first) d -> d < last - first -> first < last ->
      holds (c_transform_reduce rop sop ld c pol w first last srcs2 init)
            (fun es _ => obs (first :: srcs2) 0 (concat (schedule w (p_unroll pol) d (last - first)))
                             (reduction_calls w (p_unroll pol) d (last - first)) (Z.to_nat (last - first)) es).
    Proof.
      intros Hc Hce Hpol Hw Hr Hm Hd Hdn Hlt. destruct Hr as [_ H64]. change (2 ^ 64) with two64 in H64.
      assert (Hw' : 1 <= w < two64) by exact Hw. clear Hw.
      rewrite run_unfold; [|assumption| |assumption].
      2:{ destruct (p_match pol) eqn:Em; [|reflexivity]. destruct (Hm Em) as [q Hq].
          rewrite Hq, Z.mod_mul by lia. reflexivity. }
      assert (Hcfg := target_cfg c Hc).
      destruct (prologue_args c pol w (last - first) first) as [[maxe tp]|] eqn:Epa.
      - destruct (prologue_some_length c pol w _ first maxe tp Hcfg Hw' Epa) as (Hd' & _ & Htp & Emx & Hpos).
        assert (Ed : d = tp) by (eapply prologue_length_unique; eassumption). rewrite <- Ed in *. rewrite Emx. clear Emx.
        destruct Hcfg as [Hstd|Hfb]; [|rewrite fallback_impossible in Hpos by assumption; discriminate].
        destruct (possible_std c w Hstd Hpos) as (J & s & HJ & Hs & EJ & Es & Hmal).
        assert (Hpm : p_match pol = false).
        { destruct Hpol as (_ & Hp1 & Hp2). unfold prologue_args, use_aligned_loadstore, maybe_prologue in Epa.
          destruct (p_aligned pol); [auto|]. destruct (p_auto pol); [auto|discriminate]. }
        apply (prologue_body_run pol w (Z.to_nat J)); try lia; [|exact Hpm].
        rewrite Z2Nat.id by lia. exact EJ.
      - assert (Ed : d = 0).
        { eapply prologue_length_unique; [eassumption|]. now apply prologue_none_length. }
        rewrite Ed. apply body_only_run; try lia. intros Em. destruct (Hm Em) as [q Hq]. exists q. exact Hq.
    Qed.
  End Held.
End On.

(** ** They do end *)
Section End_.
  Context {T A : Type}.
  Variables (tr : list (list T) -> list A) (op : A -> A -> A).

  (** Loads of the right number of ranges only. *)
  Definition ld_only (ranges : nat) (c : cfg) (m : mem T) (al : bool) (ps : list Z) (k : Z) : res (list A) :=
    if (length ps =? ranges)%nat then TReduceModel.ld c tr m al ps k else Stop SUB.

  Lemma only_run c pol w first last srcs2 (m : mem T) init d :
    target_ok c -> c_ce c = false -> policy_ok pol -> width_ok w -> range_ok first last ->
    size_matches pol w first last ->
    prologue_length c pol w first (last - first) d -> (first = last \/ d < last - first) ->
    keeps_lanes tr (S (length srcs2)) ->
    Forall (fun p => mapped m p (p + (last - first))) (first :: srcs2) ->
    exists x, transform_reduce_on op (ld_only (S (length srcs2)) c m) c pol w first last srcs2 init = Ok x
              /\ transform_reduce c op tr m pol w first last srcs2 init = Ok x.
  Proof.
    intros Hc Hce Hp Hw Hr Hs Hd Hdn Hk Hm.
    assert (Hmono : forall x, transform_reduce_on op (ld_only (S (length srcs2)) c m) c pol w first last srcs2 init = Ok x ->
                              transform_reduce c op tr m pol w first last srcs2 init = Ok x).
    { intros x. unfold transform_reduce. apply transform_reduce_on_mono. intros al ps k v. unfold ld_only.
      destruct (_ =? _)%nat; [auto|discriminate]. }
    assert (Hr' : first <= last) by apply Hr. destruct (Z.eq_dec first last) as [<-|Hne].
    { exists init. split; [|apply Hmono]; unfold transform_reduce_on; now rewrite Z.eqb_refl. }
    destruct Hdn as [|Hdn]; [contradiction|].
    assert (Hd0 : 0 <= d) by (destruct Hd as [(_ & (H & _) & _)|(-> & _)]; lia).
    destruct (chunk_values_exist tr op m (first :: srcs2) w d (last - first)) as [vals Hv]; try assumption; [apply Hw|lia|].
    eexists. enough (E : transform_reduce_on op (ld_only (S (length srcs2)) c m) c pol w first last srcs2 init = Ok _)
      by (split; [exact E|exact (Hmono _ E)]).
    apply (transform_reduce_on_exact op (ld_only (S (length srcs2)) c m) c pol w first last srcs2 vals init d);
      try assumption; [now right|apply Hv| |].
    - intros al p k P1 P2 P3 P4 P5 C Hal. unfold ld_only. unfold adv at 1. rewrite map_length. cbn [length]. rewrite Nat.eqb_refl.
      destruct (given_exists tr m (first :: srcs2) (last - first) p k) as [ch G]; try assumption; [lia|].
      rewrite (given_ld tr c m (first :: srcs2) al p k ch); [|discriminate|lia|exact G|exact Hal]. f_equal. eapply chunk_values_seg; eassumption.
    - intros al p k v P1 P2 P3 P4 P5 C E. unfold ld_only in E. destruct (_ =? _)%nat; [|discriminate].
      destruct (ld_given tr c m (first :: srcs2) al p k v) as (ch & G & ->); [lia|exact E|].
      eapply chunk_values_seg; eassumption.
  Qed.
End End_.

Definition units {T} (chunks : list (list T)) : list unit := map (fun _ => tt) (hd [] chunks).

Lemma units_keep {T} n : keeps_lanes (@units T) (S n).
Proof.
  intros k chunks L F. destruct chunks as [|ch chunks]; [discriminate|]. unfold units. cbn [hd]. rewrite map_length.
  exact (Forall_inv F).
Qed.

Lemma same_length_related {X Y} (v : list X) : forall (v' : list Y), length v = length v' -> Forall2 (fun _ _ => True) v v'.
Proof. induction v as [|x v IH]; intros [|y v'] E; try discriminate; constructor; auto. Qed.

Lemma related_length {X Y} (R : X -> Y -> Prop) v v' : Forall2 R v v' -> length v = length v'.
Proof. induction 1; cbn; congruence. Qed.

Lemma eq_related {X} (v v' : list X) : Forall2 eq v v' <-> v = v'.
Proof.
  split; [induction 1; congruence|]. intros <-. induction v; constructor; auto.
Qed.

Section Final.
  Context {T A St : Type} {EO : eval_order}.

  Lemma only_loads (tr1 : list (list T) -> list A) ranges c (m : mem T) al ps k v :
    ld_only tr1 (S ranges) c m al ps k = Ok v ->
    exists ch, loads c m al ps k = Ok ch /\ v = tr1 ch /\ length ps = S ranges /\ length ch = S ranges
               /\ Forall (fun x => length x = Z.to_nat k) ch.
  Proof.
    unfold ld_only. destruct (Nat.eqb_spec (length ps) (S ranges)) as [El|]; [|discriminate]. intros E.
    assert (Hne : ps <> []) by (destruct ps; [discriminate|congruence]).
    unfold TReduceModel.ld in E. rewrite (ld_loads c m tr1 al ps k Hne) in E.
    destruct (loads c m al ps k) as [ch|] eqn:Ec; [|discriminate]. cbn [bindR] in E. injection E as <-.
    destruct (loads_lengths _ _ _ _ _ _ Ec) as [L F]. exists ch. repeat split; (assumption || congruence).
  Qed.

  Variables (rop : St -> list A -> list A -> St * list A) (sop : St -> A -> A -> St * A)
            (tr : St -> list (list T) -> St * list A).

  Lemma calls_empty c pol w first srcs2 (m : mem T) init s :
    transform_reduce_calls c rop sop tr m pol w first first srcs2 init s = ([], s, Ok init).
  Proof. unfold transform_reduce_calls, c_transform_reduce. rewrite Z.eqb_refl. reflexivity. Qed.

  Lemma calls_trap c pol w first last srcs2 (m : mem T) init s :
    first < last -> 1 <= w -> p_match pol = true -> ~ (w | last - first) ->
    transform_reduce_calls c rop sop tr m pol w first last srcs2 init s = ([], s, Stop STrap).
  Proof.
    intros Hlt Hw Em Hn. unfold transform_reduce_calls, c_transform_reduce.
    replace (first =? last) with false by lia. cbv zeta. rewrite Em.
    assert (E : (last - first) mod w =? 0 = false).
    { apply Z.eqb_neq. intros E. apply Hn. apply Z.mod_divide; lia. }
    rewrite E. reflexivity.
  Qed.

  Hypothesis Hrop : op_keeps_lanes rop.

  Lemma calls_run c pol w first last srcs2 (m : mem T) init d s :
    target_ok c -> c_ce c = false -> policy_ok pol -> width_ok w -> range_ok first last ->
    size_matches pol w first last ->
    prologue_length c pol w first (last - first) d -> d < last - first -> first < last ->
    tr_keeps_lanes tr (S (length srcs2)) ->
    Forall (fun p => mapped m p (p + (last - first))) (first :: srcs2) ->
    exists es s' x, transform_reduce_calls c rop sop tr m pol w first last srcs2 init s = (es, s', Ok x)
      /\ transforms es = consecutive (first :: srcs2) 0 (concat (schedule w (p_unroll pol) d (last - first)))
      /\ reductions es = reduction_calls w (p_unroll pol) d (last - first)
      /\ pairs es = Z.to_nat (last - first).
  Proof.
    intros Hc Hce Hp Hw Hr Hs Hd Hdn Hlt Htr Hm.
    assert (Hw1 : 0 < w) by (destruct Hw; lia).
    destruct (only_run (@units T) (fun _ _ => tt) c pol w first last srcs2 m tt d) as (x & Ex & _); try assumption;
      [now right|apply units_keep|].
    assert (Sim : sim (transform_reduce_on (fun _ _ => tt) (ld_only units (S (length srcs2)) c m) c pol w first last srcs2 tt)
                      (c_transform_reduce rop sop (ld_with c tr m) c pol w first last srcs2 init) (fun _ _ => True)).
    { apply sim_transform_reduce; [| | | |exact Hw1|exact I].
      - intros al ps k v Hk E. unfold ld_only in E. destruct (Nat.eqb_spec (length ps) (S (length srcs2))) as [El|]; [|discriminate].
        assert (Hne : ps <> []) by (destruct ps; [discriminate|congruence]).
        unfold TReduceModel.ld in E. rewrite (ld_loads c m units al ps k Hne) in E.
        destruct (loads c m al ps k) as [ch|] eqn:Ec; [|discriminate]. cbn [bindR] in E. injection E as <-.
        destruct (loads_lengths _ _ _ _ _ _ Ec) as [L F]. destruct ch as [|x0 ch]; [cbn in L; lia|].
        unfold units. cbn [hd]. rewrite map_length. exact (Forall_inv F).
      - intros al ps k v Hk E s0. unfold ld_only in E. destruct (Nat.eqb_spec (length ps) (S (length srcs2))) as [El|]; [|discriminate].
        assert (Hne : ps <> []) by (destruct ps; [discriminate|congruence]).
        unfold TReduceModel.ld in E. rewrite (ld_loads c m units al ps k Hne) in E. rewrite ld_with_loads.
        destruct (loads c m al ps k) as [ch|] eqn:Ec; [|discriminate]. cbn [bindR] in E. injection E as <-.
        destruct (loads_lengths _ _ _ _ _ _ Ec) as [L F].
        pose proof (Htr s0 ch (Z.to_nat k) ltac:(lia) F) as Lv. destruct (tr s0 ch) as [s1 v1]. cbn [snd] in Lv.
        exists s1, v1. split; [reflexivity|]. apply same_length_related.
        destruct ch as [|x0 ch]; [cbn in L; lia|]. unfold units. cbn [hd]. rewrite map_length, Lv. exact (Forall_inv F).
      - intros s0 a a' b b' Ha Hb El. apply same_length_related. rewrite map2_length by exact El.
        rewrite Hrop; [now apply related_length in Ha|].
        apply related_length in Ha, Hb. congruence.
      - intros. exact I. }
    destruct (Sim x Ex s) as (es & s' & y & E & _). exists es, s', y.
    split; [exact E|].
    pose proof (run_calls rop sop (ld_with c tr m) first srcs2) as HC.
    refine (HC _ c pol w last init d Hc Hce Hp Hw Hr Hs Hd Hdn Hlt s es s' y E).
    intros s0 al p k s1 v Hk E1. eapply (ld_with_length c m tr s0 al); [|exact E1].
    unfold adv. rewrite map_length. exact Htr.
  Qed.

  (** The value, for operations that work lane by lane. *)
  Lemma calls_value (op : A -> A -> A) (tr1 : list (list T) -> list A) c pol w first last srcs2 (m : mem T) init d s :
    (forall s a b, length a = length b -> snd (rop s a b) = map2 op a b) -> (forall s x y, snd (sop s x y) = op x y) ->
    (forall s chunks, snd (tr s chunks) = tr1 chunks) ->
    target_ok c -> c_ce c = false -> policy_ok pol -> width_ok w -> range_ok first last ->
    size_matches pol w first last ->
    prologue_length c pol w first (last - first) d -> (first = last \/ d < last - first) ->
    keeps_lanes tr1 (S (length srcs2)) ->
    Forall (fun p => mapped m p (p + (last - first))) (first :: srcs2) ->
    exists es s' x, transform_reduce_calls c rop sop tr m pol w first last srcs2 init s = (es, s', Ok x)
      /\ transform_reduce c op tr1 m pol w first last srcs2 init = Ok x.
  Proof.
    intros Hr1 Hs1 Ht1 Hc Hce Hp Hw Hr Hs Hd Hdn Hk Hm.
    assert (Hw1 : 0 < w) by (destruct Hw; lia).
    destruct (only_run tr1 op c pol w first last srcs2 m init d) as (x & Ex & Ex2); try assumption.
    assert (Sim : sim (transform_reduce_on op (ld_only tr1 (S (length srcs2)) c m) c pol w first last srcs2 init)
                      (c_transform_reduce rop sop (ld_with c tr m) c pol w first last srcs2 init) eq).
    { apply sim_transform_reduce; [| | | |exact Hw1|reflexivity].
      - intros al ps k v Hk0 E. destruct (only_loads _ _ _ _ _ _ _ _ E) as (ch & _ & -> & _ & L & F).
        specialize (Hk k ch L). enough (Z.of_nat (length (tr1 ch)) = k) by lia. apply Hk.
        eapply Forall_impl; [|exact F]. cbn. lia.
      - intros al ps k v Hk0 E s0. destruct (only_loads _ _ _ _ _ _ _ _ E) as (ch & Ec & -> & _ & L & F).
        rewrite ld_with_loads, Ec. pose proof (Ht1 s0 ch) as Et. destruct (tr s0 ch) as [s1 v1]. cbn [snd] in Et.
        exists s1, v1. split; [reflexivity|]. apply eq_related. congruence.
      - intros s0 a a' b b' Ha Hb El. apply eq_related in Ha, Hb. subst a' b'. apply eq_related. symmetry. now apply Hr1.
      - intros s0 x0 x' y y' <- <-. symmetry. apply Hs1. }
    destruct (Sim x Ex s) as (es & s' & y & E & <-). exists es, s', x. split; assumption.
  Qed.

  (** Constant evaluation. *)
  Lemma const_run c (m : mem T) srcs last (Htr : tr_keeps_lanes tr (S (length srcs))) first n :
    Forall (fun p => mapped m p (p + n)) (first :: srcs) -> last = first + n ->
    forall fuel i acc1 s, 0 <= i <= n -> n - i < Z.of_nat fuel -> length acc1 = 1%nat ->
    exists es s' x, c_const rop (ld_with c tr m) fuel last (first + i) (adv i (first :: srcs)) acc1 s = (es, s', Ok x)
      /\ obs (first :: srcs) i (repeat 1%nat (Z.to_nat (n - i))) (Z.to_nat (n - i)) (Z.to_nat (n - i)) es.
  Proof.
    intros Hm El. induction fuel as [|fuel IH]; intros i acc1 s Hi Hf L1; [lia|]. cbn [c_const].
    destruct (Z.ltb_spec (first + i) last) as [Hlt|Hge].
    - destruct (given_exists (fun _ => @nil A) m (first :: srcs) n i 1) as [ch G]; try lia; [assumption|].
      destruct (given_lengths (fun _ => @nil A) _ _ _ _ _ G) as [G1 G2].
      assert (El1 : loads c m false (adv i (first :: srcs)) 1 = Ok ch).
      { pose proof (given_ld (fun x => x) c m (first :: srcs) false i 1 ch ltac:(discriminate) ltac:(lia) G ltac:(discriminate)) as E.
        unfold TReduceModel.ld in E. rewrite (ld_loads c m (fun x => x)) in E by discriminate.
        destruct (loads c m false _ 1); [exact E|discriminate]. }
      assert (Lv : length (snd (tr s ch)) = 1%nat).
      { apply Htr; [exact G1|]. eapply Forall_impl; [|exact G2]. cbn. lia. }
      unfold bindM at 1. unfold call_transform. rewrite ld_with_loads, El1.
      destruct (tr s ch) as [s1 v]. cbn [snd] in Lv.
      unfold bindM, call_reduce. rewrite L1, Lv. cbn [Nat.eqb].
      pose proof (Hrop s1 acc1 v ltac:(lia)) as Lz. destruct (rop s1 acc1 v) as [s2 z]. cbn [snd] in Lz. rewrite Lz, L1. cbn [Nat.eqb].
      rewrite adv_adv. destruct (IH (i + 1) z s2 ltac:(lia) ltac:(lia) ltac:(lia)) as (es & s' & x & E & O).
      rewrite <- Z.add_assoc, E. do 3 eexists. split; [reflexivity|].
      replace (Z.to_nat (n - i)) with (S (Z.to_nat (n - (i + 1)))) by lia. cbn [repeat].
      destruct O as (O1 & O2 & O3). unfold obs, transforms, reductions, pairs in *.
      unfold list_sum in *. cbn [app flat_map map consecutive fold_right]. rewrite O1, O2, O3.
      split; [reflexivity|]. split; lia.
    - assert (i = n) by lia. subst i. destruct acc1 as [|x acc1]; [discriminate|].
      exists [], s, x. split; [reflexivity|]. rewrite Z.sub_diag. cbn [Z.to_nat repeat]. apply obs_nil.
  Qed.

  Lemma calls_const c pol w first last srcs2 (m : mem T) init s :
    c_ce c = true -> width_ok w -> range_ok first last -> size_matches pol w first last -> first < last ->
    tr_keeps_lanes tr (S (length srcs2)) ->
    Forall (fun p => mapped m p (p + (last - first))) (first :: srcs2) ->
    exists es s' x, transform_reduce_calls c rop sop tr m pol w first last srcs2 init s = (es, s', Ok x)
      /\ transforms es = consecutive (first :: srcs2) 0 (repeat 1%nat (Z.to_nat (last - first)))
      /\ reductions es = Z.to_nat (last - first) /\ pairs es = Z.to_nat (last - first).
  Proof.
    intros Hce Hw Hr Hs Hlt Htr Hm. unfold transform_reduce_calls, c_transform_reduce.
    replace (first =? last) with false by lia. cbv zeta. rewrite Hce.
    assert (Etrap : p_match pol && negb ((last - first) mod w =? 0) = false).
    { destruct (p_match pol) eqn:Em; [|reflexivity]. destruct (Hs Em) as [q Hq]. destruct Hw.
      rewrite Hq, Z.mod_mul by lia. reflexivity. }
    rewrite Etrap.
    pose proof (const_run c m srcs2 last Htr first (last - first) Hm ltac:(lia) (loop_fuel first last) 0 [init] s) as H.
    rewrite Z.add_0_r, Z.sub_0_r, adv_0 in H. apply H; [lia| |reflexivity]. unfold loop_fuel. lia.
  Qed.
End Final.

(** ** No more calls than elements *)
Lemma pow_ge i : (i + 1 <= 2 ^ i)%nat.
Proof. induction i as [|i IH]; [cbn; lia|]. cbn [Nat.pow]. lia. Qed.

Lemma length_le_powers l : (length l + list_sum l <= list_sum (pw l))%nat.
Proof.
  induction l as [|i l IH]; [cbn; lia|]. unfold pw in *. cbn [map length].
  change (list_sum (i :: l)) with (i + list_sum l)%nat.
  change (list_sum ((2 ^ i)%nat :: map (fun i => (2 ^ i)%nat) l)) with (2 ^ i + list_sum (map (fun i => (2 ^ i)%nat) l))%nat.
  pose proof (pow_ge i). lia.
Qed.

Lemma sum_pw l : Z.of_nat (list_sum (pw l)) = powers l.
Proof. unfold pw. apply sum_powers. Qed.

Lemma digits_sum x : 0 <= x < two64 -> (length (digits x) + list_sum (digits x) <= Z.to_nat x)%nat.
Proof.
  intros Hx. pose proof (length_le_powers (digits x)) as H. pose proof (sum_pw (digits x)) as E.
  rewrite (powers_digits x Hx) in E. lia.
Qed.

Lemma reduction_calls_le w u d n : 1 <= w < two64 -> 0 <= d < n -> n < two64 ->
  (reduction_calls w u d n <= Z.to_nat n)%nat.
Proof.
  intros Hw Hd Hn. unfold reduction_calls. rewrite schedule_pw by lia.
  rewrite !app_length, repeat_length, !pw_length, rev_length.
  pose proof (digits_sum d ltac:(lia)) as Hdd.
  enough (Z.to_nat ((n - d) / w) + length (digits ((n - d) mod w)) + across_calls (widest w (n - d)) <= Z.to_nat (n - d))%nat by lia.
  clear Hdd. assert (H0 : 0 < n - d < two64) by lia. generalize dependent (n - d). intros k Hk. clear Hd Hn n d.
  pose proof (Z.mod_pos_bound k w ltac:(lia)) as Hm. pose proof (Z.div_mod k w ltac:(lia)) as Hdm.
  unfold widest. destruct (Z.leb_spec w k) as [Hle|Hgt].
  - pose proof (digits_sum (k mod w) ltac:(lia)) as H1. pose proof (digits_sum w ltac:(lia)) as H2.
    assert (Hl : (0 < length (digits w))%nat).
    { pose proof (powers_digits w ltac:(exact (conj (Z.le_trans _ _ _ Z.le_0_1 (proj1 Hw)) (proj2 Hw)))) as E.
      destruct (digits w); [cbn in E; lia|cbn; lia]. }
    unfold across_calls.
    assert (Hq : 1 <= k / w) by (apply Z.div_le_lower_bound; lia).
    generalize dependent (k mod w). intros lo Hlo Hdm H1. generalize dependent (k / w). intros q Hdm Hq.
    assert (q + (w - 1) <= w * q) by nia. lia.
  - rewrite (Z.div_small k w), (Z.mod_small k w) by lia. change (Z.to_nat 0) with 0%nat. rewrite Nat.add_0_l.
    destruct (Z.log2_spec k ltac:(lia)) as [B1 B2]. set (b := Z.log2 k) in *.
    assert (Hb : 0 <= b) by apply Z.log2_nonneg. rewrite Z.pow_succ_r in B2 by lia.
    set (bn := Z.to_nat b). assert (Eb : b = Z.of_nat bn) by lia. rewrite Eb in *. clearbody bn. clear Eb b Hb.
    assert (H64 : (bn < 64)%nat).
    { enough (Z.of_nat bn < 64) by lia. apply pow2_lt_inv; [lia|]. change (2 ^ 64) with two64. lia. }
    rewrite across_pow by exact H64.
    assert (E : digits k = digits (k - 2 ^ Z.of_nat bn) ++ [bn]).
    { rewrite <- digits_top by lia. f_equal. lia. }
    rewrite E, app_length. pose proof (digits_sum (k - 2 ^ Z.of_nat bn) ltac:(lia)) as H1.
    pose proof (pow_ge bn) as H2. pose proof (CostProofs.pow_nat bn) as H3. cbn [length]. lia.
Qed.

Lemma consecutive_length ranges l : forall p, length (consecutive ranges p l) = length l.
Proof. induction l as [|k l IH]; intros p; [reflexivity|]. cbn [consecutive length]. now rewrite IH. Qed.

Section Bounds.
  Context {T A St : Type} {EO : eval_order}.
  Variables (rop : St -> list A -> list A -> St * list A) (sop : St -> A -> A -> St * A)
            (tr : St -> list (list T) -> St * list A).

  Lemma calls_bound c pol w first last srcs2 (m : mem T) init d s :
    op_keeps_lanes rop -> tr_keeps_lanes tr (S (length srcs2)) ->
    target_ok c -> c_ce c = false -> policy_ok pol -> width_ok w -> range_ok first last ->
    size_matches pol w first last ->
    prologue_length c pol w first (last - first) d -> d < last - first -> first < last ->
    Forall (fun p => mapped m p (p + (last - first))) (first :: srcs2) ->
    exists es s' x, transform_reduce_calls c rop sop tr m pol w first last srcs2 init s = (es, s', Ok x)
      /\ Z.of_nat (reductions es) <= last - first.
  Proof.
    intros Hrop Htr Hc Hce Hp Hw Hr Hs Hd Hdn Hlt Hm.
    destruct (calls_run rop sop tr Hrop c pol w first last srcs2 m init d s) as (es & s' & x & E & _ & Er & _); try assumption.
    exists es, s', x. split; [exact E|].
    assert (Hd0 : 0 <= d) by (destruct Hd as [(_ & (H & _) & _)|(-> & _)]; lia).
    destruct Hr as [_ H64]. pose proof (reduction_calls_le w (p_unroll pol) d (last - first) Hw ltac:(lia) H64). lia.
  Qed.

  Lemma calls_fewest c pol w k first last srcs2 (m : mem T) init s :
    op_keeps_lanes rop -> tr_keeps_lanes tr (S (length srcs2)) ->
    target_ok c -> c_ce c = false -> policy_ok pol -> plain pol -> width_ok w -> w = 2 ^ Z.of_nat k -> range_ok first last ->
    size_matches pol w first last -> first < last ->
    Forall (fun p => mapped m p (p + (last - first))) (first :: srcs2) ->
    exists es s' x, transform_reduce_calls c rop sop tr m pol w first last srcs2 init s = (es, s', Ok x)
      /\ fewest w (last - first) (length (transforms es)).
  Proof.
    intros Hrop Htr Hc Hce Hp Hpl Hw Ew Hr Hs Hlt Hm.
    destruct (calls_run rop sop tr Hrop c pol w first last srcs2 m init 0 s) as (es & s' & x & E & Et & _ & _); try assumption.
    { now apply plain_length. }
    { lia. }
    exists es, s', x. split; [exact E|]. rewrite Et, consecutive_length. eapply schedule_fewest; [exact Ew|exact Hw|lia].
  Qed.

  Lemma calls_cover c pol w first last srcs2 (m : mem T) init d s :
    op_keeps_lanes rop -> tr_keeps_lanes tr (S (length srcs2)) ->
    target_ok c -> c_ce c = false -> policy_ok pol -> width_ok w -> range_ok first last ->
    size_matches pol w first last ->
    prologue_length c pol w first (last - first) d -> d < last - first -> first < last ->
    Forall (fun p => mapped m p (p + (last - first))) (first :: srcs2) ->
    exists es s' x sizes, transform_reduce_calls c rop sop tr m pol w first last srcs2 init s = (es, s', Ok x)
      /\ transforms es = consecutive (first :: srcs2) 0 sizes /\ covers w (last - first) sizes.
  Proof.
    intros Hrop Htr Hc Hce Hp Hw Hr Hs Hd Hdn Hlt Hm.
    destruct (calls_run rop sop tr Hrop c pol w first last srcs2 m init d s) as (es & s' & x & E & Et & _); try assumption.
    exists es, s', x, (concat (schedule w (p_unroll pol) d (last - first))).
    split; [exact E|]. split; [exact Et|]. apply schedule_covers; [exact Hw| |lia].
    eapply prologue_below; [apply Hw|exact Hd].
  Qed.
End Bounds.
