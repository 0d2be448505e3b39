(** Executions of for_each and transform follow the schedule. *)
From Verif Require Import Base BaseFacts ExecModel ExecProofs ExecForEach ExecRun ExecSpec ExecThm
  ScheduleSpec ScheduleProofs.
From Coq Require Import ZifyBool ZifyNat Sorted.
Ltac Zify.zify_post_hook ::= idtac.
Opaque digits.

Lemma schedule_nil w u : 1 <= w -> schedule w u 0 0 = [].
Proof.
  intros Hw. unfold schedule. rewrite Z.sub_0_r, digits_0, Z.mod_0_l by lia. unfold groups, singles.
  assert (Er : map power_chunk (rev (digits 0)) = []) by (rewrite map_rev, digits_0; reflexivity).
  rewrite Er. destruct (Z.ltb_spec 1 u) as [Hu|Hu].
  - rewrite Z.div_0_l, Z.mod_0_l, Z.div_0_l by nia. reflexivity.
  - rewrite Z.div_0_l by lia. reflexivity.
Qed.

(** ** for_each *)
Lemma for_each_lanes c pol w first last :
  cfg_ok c -> c_ce c = false -> pol_ok pol -> 1 <= w < two64 -> first <= last ->
  last - first < two64 -> (p_match pol = true -> (w | last - first)) ->
  (forall d, prologue_length c pol w first (last - first) d -> d <= last - first) ->
  exists l d, for_each c pol w first last = (l, Ok tt) /\ tiles first last l
    /\ Forall (call_aligned c) l /\ call_shape pol w l
    /\ prologue_length c pol w first (last - first) d
    /\ lanes_of l = schedule w (p_unroll pol) d (last - first).
Proof.
  intros Hc Hce Hpol Hw Hle H64 Hmatch Hfit.
  assert (Hfit' : forall maxe tp, prologue_args c pol w (last - first) first = Some (maxe, tp) ->
                  tp <= last - first).
  { intros maxe tp E. apply Hfit. eapply prologue_some_length; eassumption. }
  destruct (for_each_rt_calls_fit c pol w first last Hc Hpol Hw Hle H64 Hmatch Hfit')
    as (l & E & HT & HA & _ & HS).
  destruct (for_each_rt_lanes c pol w first last Hc Hpol Hw Hle H64 Hmatch Hfit')
    as (l' & d & E' & Hpl & Hl).
  rewrite E in E'. injection E' as <-.
  exists (if first =? last then [] else l), d. unfold for_each.
  destruct (Z.eqb_spec first last) as [->|Hne].
  - split; [reflexivity|]. split; [constructor|]. split; [constructor|]. split.
    { exists [], 0%nat, 0%nat, []. repeat split; constructor. }
    split; [assumption|]. rewrite Z.sub_diag in *.
    assert (d = 0).
    { specialize (Hfit d Hpl). destruct Hpl as [(_ & (H & _) & _)|(H & _)]; lia. }
    subst d. rewrite schedule_nil by lia. reflexivity.
  - assert (Etrap : p_match pol && negb ((last - first) mod w =? 0) = false).
    { destruct (p_match pol); [|reflexivity]. cbn [andb].
      assert ((last - first) mod w = 0) by (apply Z.mod_divide; [lia|]; now apply Hmatch). lia. }
    rewrite Etrap, Hce. repeat split; assumption.
Qed.

Lemma for_each_ce_lanes c pol w first last :
  c_ce c = true -> 1 <= w < two64 -> first <= last ->
  (p_match pol = true -> (w | last - first)) ->
  (w = 2 -> first = last \/ (last - first) mod 2 <> 0) ->
  exists l, for_each c pol w first last = (l, Ok tt) /\ lanes_of l = schedule w 1 0 (last - first).
Proof.
  intros Hce Hw Hle Hmatch Hodd. unfold for_each.
  destruct (Z.eqb_spec first last) as [->|Hne].
  { exists []. split; [reflexivity|]. rewrite Z.sub_diag, schedule_nil by lia. reflexivity. }
  assert (Etrap : p_match pol && negb ((last - first) mod w =? 0) = false).
  { destruct (p_match pol); [|reflexivity]. cbn [andb].
    assert ((last - first) mod w = 0) by (apply Z.mod_divide; [lia|]; now apply Hmatch). lia. }
  rewrite Etrap, Hce.
  destruct (const_loop_ok w (loop_fuel first last) last first) as [E Hu];
    [lia|lia|unfold loop_fuel; lia|].
  set (l1 := fst (const_loop (loop_fuel first last) w last first)) in *.
  rewrite E. unfold bindW at 1.
  assert (Hmb : 0 <= (last - first) mod w < w) by (apply Z.mod_pos_bound; lia).
  assert (HJ : exponent w <= 64).
  { unfold exponent. apply Z.log2_up_le_pow2; [lia|]. unfold two64 in Hw. lia. }
  assert (H3 : exists l3, (if 1 <? w then for_each_epilogue 64 c w ((last - first) mod w) last false
                           else retW tt) = (l3, Ok tt)
               /\ desc false (exponent w) (last - (last - first) mod w) last l3).
  { destruct (Z.ltb_spec 1 w) as [Hw1|Hw1].
    - destruct (Z.eq_dec ((last - first) mod w) 0) as [E0|N0].
      + rewrite E0. assert (w <> 2).
        { intros ->. destruct (Hodd eq_refl); [lia|]. lia. }
        exists []. split; [apply for_each_epilogue_zero; [assumption|lia]|].
        rewrite Z.sub_0_r. constructor.
      + apply for_each_epilogue_ok; [| |lia].
        * split; [lia|]. apply Z.log2_up_spec. lia.
        * split; [apply Z.log2_up_nonneg|]. exact HJ.
    - replace w with 1 by lia. rewrite Z.mod_1_r, Z.sub_0_r. exists []. split; [reflexivity|constructor]. }
  destruct H3 as (l3 & E3 & Hd3). rewrite E3. exists (l1 ++ l3). split; [reflexivity|].
  destruct (uniform_lanes _ _ _ _ _ _ Hu) as [S1 L1].
  assert (S3 := desc_lanes _ _ _ _ _ Hd3 HJ).
  replace (last - (last - (last - first) mod w)) with ((last - first) mod w) in S3 by lia.
  assert (G : length l1 = singles w 1 (last - first)).
  { unfold singles. cbn [Z.ltb Z.compare]. replace (w * Z.of_nat 1) with w in L1 by lia.
    assert ((last - first) / w = Z.of_nat (length l1))
      by (symmetry; apply Z.div_unique_pos with ((last - first) mod w); lia).
    change (1 <? 1) with false. cbv iota. lia. }
  assert (G0 : repeat (repeat (Z.to_nat w) (Z.to_nat 1)) (groups w 1 (last - first)) = []) by reflexivity.
  unfold schedule. rewrite lanes_app, S1, S3, G, digits_0, Z.sub_0_r, G0, repeat_once, !app_nil_l.
  reflexivity.
Qed.

(** ** Traces are determined by their shape and contents *)
Lemma chunks_eq {T} (l l' : list (list T)) :
  map (@length T) l = map (@length T) l' -> concat l = concat l' -> l = l'.
Proof.
  revert l'. induction l as [|x l IH]; intros [|x' l'] Hl Hc; try discriminate; [reflexivity|].
  cbn in Hl, Hc. injection Hl as Hx Hl.
  assert (E : x = x' /\ concat l = concat l').
  { revert x' Hx Hc. clear. induction x as [|a x IHx]; intros [|b x'] Hx Hc; try discriminate; [auto|].
    cbn in Hc. injection Hc as -> Hc. injection Hx as Hx. destruct (IHx x' Hx Hc) as [-> ->]. auto. }
  destruct E as [-> E]. f_equal. now apply IH.
Qed.

Lemma concat_lengths {T} (tr : list (list (list T))) :
  map (@length T) (concat tr) = concat (map (map (@length T)) tr).
Proof. rewrite concat_map. reflexivity. Qed.

Lemma traces_eq {T} (tr : list (list (list T))) : forall tr',
  map (map (@length T)) tr = map (map (@length T)) tr' -> seen tr = seen tr' -> tr = tr'.
Proof.
  intros tr' Hl Hs. unfold seen in Hs.
  assert (Hc : concat tr = concat tr').
  { apply chunks_eq; [rewrite !concat_lengths, Hl; reflexivity|exact Hs]. }
  assert (Hn : map (@length (list T)) tr = map (@length (list T)) tr').
  { assert (E : map (@length nat) (map (map (@length T)) tr)
                = map (@length nat) (map (map (@length T)) tr')) by now rewrite Hl.
    rewrite !map_map in E. rewrite (map_ext _ (@length (list T))) in E by (intros; apply map_length).
    rewrite (map_ext (fun x => length (map (@length T) x)) (@length (list T))) in E
      by (intros; apply map_length). exact E. }
  now apply chunks_eq.
Qed.

Section Run.
  Context {T St : Type} (f : St -> list (list T) -> St * list (list T)).

  Lemma run_with_lanes c pol w wb first last (m : mem T) st l :
    keeps_lanes f -> for_each c pol w first last = (l, Ok tt) -> tiles first last l ->
    Forall (call_aligned c) l -> mapped m first last ->
    exists s, run_for_each f c pol w wb first last m st = Ok s
              /\ map (map (@length T)) (s_trace s) = lanes_of l.
  Proof.
    intros Hk E HT HA Hm.
    destruct (run_for_each_ok f c pol w wb first last m st l Hk E HT HA (mapped_some _ _ _ Hm))
      as (m' & tr & Er & Hlen & _).
    rewrite Er. eexists. split; [reflexivity|]. exact Hlen.
  Qed.

  Lemma run_scheduled c pol w wb first last (m : mem T) st :
    target_ok c -> c_ce c = false -> policy_ok pol -> width_ok w -> range_ok first last ->
    size_matches pol w first last ->
    (forall d, prologue_length c pol w first (last - first) d -> d <= last - first) ->
    keeps_lanes f -> mapped m first last ->
    exists s d, run_for_each f c pol w wb first last m st = Ok s
      /\ prologue_length c pol w first (last - first) d
      /\ map (map (@length T)) (s_trace s) = schedule w (p_unroll pol) d (last - first)
      /\ run_spec f pol w wb first last m st (Ok s).
  Proof.
    intros Hc Hce Hp Hw [Hr1 Hr2] Hs Hfit Hk Hm.
    destruct (for_each_lanes c pol w first last) as (l & d & E & HT & HA & HS & Hpl & Hl);
      try assumption; [now apply target_cfg|now apply policy_pol|].
    destruct (run_with_lanes c pol w wb first last m st l Hk E HT HA Hm) as (s & Er & Ht).
    exists s, d. split; [assumption|]. split; [assumption|]. split; [congruence|].
    rewrite <- Er. eapply run_spec_intro; eassumption.
  Qed.

  Lemma reaches_length c pol w first last :
    target_ok c -> width_ok w -> range_ok first last -> reaches_alignment c pol w first last ->
    forall d, prologue_length c pol w first (last - first) d -> d <= last - first.
  Proof.
    intros Hc Hw [Hr1 Hr2] [H1 H2] d [(Hca & (Hd0 & Hda & Hleast) & Hp)|(-> & _)]; [|lia].
    destruct Hca as (Hw1 & (e & He & Ee) & Hm).
    destruct Hp as [Ha|[Ha Hwo]].
    - destruct (H1 Ha Hw1) as (a & Hra & Hal); [exists e; auto|].
      specialize (Hleast (a - first) ltac:(lia)).
      replace (first + (a - first)) with a in Hleast by lia. specialize (Hleast Hal). lia.
    - specialize (H2 Ha). destruct Hwo as [Hbig|Hb].
      + (* at most one vector is in front *)
        assert (Hsz : 0 < c_sz c) by exact (proj1 Hc).
        assert (Hdw : d <= w).
        { destruct (Z_le_gt_dec d w) as [|Hgt]; [assumption|exfalso].
          specialize (Hleast (d - w) ltac:(lia)).
          assert (is_aligned c (first + (d - w)) w); [|specialize (Hleast H); lia].
          unfold is_aligned, address in *. rewrite Hm in *.
          replace (c_base c + (first + (d - w)) * c_sz c)
            with (c_base c + (first + d) * c_sz c - w * c_sz c) by ring.
          apply Z.divide_sub_r; [assumption|apply Z.divide_refl]. }
        assert ((last - first) * c_sz c mod 2 ^ 64 <= (last - first) * c_sz c)
          by (apply Z.mod_le; [nia|lia]).
        nia.
      + apply land_bits in Hb. rewrite <- Hb, Z.land_comm. apply land_le. lia.
  Qed.

  (** Shape and contents determine everything. *)
  Lemma run_same pol pol' w w' wb first last (m : mem T) st s s' :
    run_spec f pol w wb first last m st (Ok s) -> run_spec f pol' w' wb first last m st (Ok s') ->
    map (map (@length T)) (s_trace s) = map (map (@length T)) (s_trace s') ->
    s_trace s = s_trace s' /\ s_st s = s_st s' /\ forall a, s_mem s a = s_mem s' a.
  Proof.
    intros (s0 & E0 & A1 & A2 & A3 & A4 & A5 & _) (s1 & E1 & B1 & B2 & B3 & B4 & B5 & _) Hsh.
    injection E0 as <-. injection E1 as <-.
    assert (Et : s_trace s = s_trace s').
    { apply traces_eq; [assumption|]. eapply range_is_unique; eassumption. }
    split; [assumption|]. split; [congruence|]. intros a.
    destruct wb; [|rewrite A3, B3 by reflexivity; reflexivity].
    specialize (A4 eq_refl). specialize (B4 eq_refl). rewrite <- Et in B4.
    destruct (Z_le_gt_dec first a); [|rewrite A5, B5 by lia; reflexivity].
    destruct (Z_lt_le_dec a last); [|rewrite A5, B5 by lia; reflexivity].
    destruct A4 as [L H4]. destruct B4 as [_ H4'].
    specialize (H4 (Z.to_nat (a - first)) ltac:(lia)). specialize (H4' (Z.to_nat (a - first)) ltac:(lia)).
    replace (first + Z.of_nat (Z.to_nat (a - first))) with a in * by lia. congruence.
  Qed.

  Lemma for_each_schedule c pol w wb first last (m : mem T) st :
    target_ok c -> c_ce c = false -> policy_ok pol -> width_ok w -> range_ok first last ->
    size_matches pol w first last -> reaches_alignment c pol w first last ->
    keeps_lanes f -> mapped m first last ->
    exists s d, run_for_each f c pol w wb first last m st = Ok s
      /\ prologue_length c pol w first (last - first) d
      /\ map (map (@length T)) (s_trace s) = schedule w (p_unroll pol) d (last - first).
  Proof.
    intros. destruct (run_scheduled c pol w wb first last m st) as (s & d & E & H' & H'' & _);
      try assumption; [now apply reaches_length|]. exists s, d. auto.
  Qed.

  Lemma for_each_schedule_fits c pol w wb first last (m : mem T) st :
    target_ok c -> c_ce c = false -> policy_ok pol -> width_ok w -> range_ok first last ->
    size_matches pol w first last ->
    (forall d, prologue_length c pol w first (last - first) d -> d <= last - first) ->
    keeps_lanes f -> mapped m first last ->
    exists s d, run_for_each f c pol w wb first last m st = Ok s
      /\ prologue_length c pol w first (last - first) d
      /\ map (map (@length T)) (s_trace s) = schedule w (p_unroll pol) d (last - first).
  Proof.
    intros. destruct (run_scheduled c pol w wb first last m st) as (s & d & E & H' & H'' & _);
      try assumption. exists s, d. auto.
  Qed.

  Lemma for_each_ce_schedule c pol w wb first last (m : mem T) st :
    c_ce c = true -> width_ok w -> range_ok first last -> size_matches pol w first last ->
    (w = 2 -> first = last \/ (last - first) mod 2 <> 0) ->
    keeps_lanes f -> mapped m first last ->
    exists s, run_for_each f c pol w wb first last m st = Ok s
      /\ map (map (@length T)) (s_trace s) = schedule w 1 0 (last - first)
      /\ run_spec f pol w wb first last m st (Ok s).
  Proof.
    intros Hce Hw Hr Hs Hodd Hk Hm. destruct Hr as [Hr1 Hr2].
    destruct (for_each_calls_ce c pol w first last) as (l & E & HT & HA & _ & HS); try assumption.
    destruct (for_each_ce_lanes c pol w first last) as (l' & E' & Hl); try assumption.
    rewrite E in E'. injection E' as <-.
    destruct (run_with_lanes c pol w wb first last m st l Hk E HT HA Hm) as (s & Er & Ht).
    exists s. split; [assumption|]. split; [congruence|].
    rewrite <- Er. eapply run_spec_intro; eassumption.
  Qed.

  (** Optimising for size. *)
  Lemma prologue_length_ext c c' pol w first n d :
    c_base c = c_base c' -> c_sz c = c_sz c' -> (forall k, c_malign c k = c_malign c' k) ->
    prologue_length c pol w first n d -> prologue_length c' pol w first n d.
  Proof.
    intros Hb Hs Hm H.
    assert (Hn : forall e, next_aligned c w first e <-> next_aligned c' w first e).
    { intros e. unfold next_aligned, is_aligned, address. rewrite Hb, Hs, Hm. tauto. }
    unfold prologue_length in *. unfold can_align, worth in *. rewrite Hs, Hm, Hn in H.
    destruct H as [H|(H & [H'|(H' & H'')])]; [left; exact H|right; auto|right].
    split; [assumption|]. right. split; [assumption|]. intros Ha e He. apply (H'' Ha). now apply Hn.
  Qed.

  Lemma for_each_size_independent c c' pol w wb first last (m : mem T) st :
    c_base c = c_base c' -> c_sz c = c_sz c' -> (forall k, c_malign c k = c_malign c' k) ->
    target_ok c -> c_ce c = false -> c_ce c' = false -> policy_ok pol -> width_ok w ->
    range_ok first last -> size_matches pol w first last -> reaches_alignment c pol w first last ->
    keeps_lanes f -> mapped m first last ->
    exists s s', run_for_each f c pol w wb first last m st = Ok s
      /\ run_for_each f c' pol w wb first last m st = Ok s'
      /\ s_trace s = s_trace s' /\ s_st s = s_st s' /\ forall a, s_mem s a = s_mem s' a.
  Proof.
    intros Hb Hs Hm Hc Hce Hce' Hp Hw Hr Hsz Hra Hk Hmp.
    assert (Hc' : target_ok c').
    { unfold target_ok, address in *. rewrite <- Hb, <- Hs. destruct Hc as [H0 H].
      split; [assumption|]. destruct H as [(H1 & H2)|H1]; [left|right].
      - split; [assumption|]. intros k Hk'. rewrite <- Hm. now apply H2.
      - intros k Hk'. rewrite <- Hm. now apply H1. }
    assert (Hfit := reaches_length c pol w first last Hc Hw Hr Hra).
    assert (Hx : forall d, prologue_length c' pol w first (last - first) d ->
                           prologue_length c pol w first (last - first) d).
    { intros d. apply prologue_length_ext; [congruence|congruence|intros; symmetry; apply Hm]. }
    destruct (run_scheduled c pol w wb first last m st) as (s & d & E & Hd & Hl & HS); try assumption.
    destruct (run_scheduled c' pol w wb first last m st) as (s' & d' & E' & Hd' & Hl' & HS');
      try assumption; [intros d' Hd'; apply Hfit, Hx, Hd'|].
    assert (d = d') by (eapply prologue_length_unique; [exact Hd|apply Hx, Hd']). subst d'.
    exists s, s'. split; [assumption|]. split; [assumption|].
    eapply run_same; [exact HS|exact HS'|congruence].
  Qed.

  (** Constant evaluation does what a plain policy without unrolling does. *)
  Lemma for_each_ce_as_plain c c' pol pol' w wb first last (m : mem T) st :
    c_ce c = true -> target_ok c' -> c_ce c' = false -> policy_ok pol' -> plain pol' ->
    p_unroll pol' <= 1 -> width_ok w -> range_ok first last ->
    size_matches pol w first last -> size_matches pol' w first last ->
    (w = 2 -> first = last \/ (last - first) mod 2 <> 0) ->
    keeps_lanes f -> mapped m first last ->
    exists s s', run_for_each f c pol w wb first last m st = Ok s
      /\ run_for_each f c' pol' w wb first last m st = Ok s'
      /\ s_trace s = s_trace s' /\ s_st s = s_st s' /\ forall a, s_mem s a = s_mem s' a.
  Proof.
    intros Hce Hc' Hce' Hp [Hpl1 Hpl2] Hu Hw Hr Hs Hs' Hodd Hk Hm.
    destruct (for_each_ce_schedule c pol w wb first last m st) as (s & E & Hl & HS); try assumption.
    assert (H0 : forall d, prologue_length c' pol' w first (last - first) d -> d = 0).
    { intros d [(_ & _ & [H|[H _]])|(H & _)]; congruence. }
    destruct (run_scheduled c' pol' w wb first last m st) as (s' & d & E' & Hd & Hl' & HS');
      try assumption; [intros d Hd; rewrite (H0 d Hd); unfold range_ok in Hr; lia|].
    rewrite (H0 d Hd) in *. exists s, s'. split; [assumption|]. split; [assumption|].
    eapply run_same; [exact HS|exact HS'|]. rewrite Hl, Hl'. unfold schedule, groups, singles.
    change (1 <? 1) with false. destruct (Z.ltb_spec 1 (p_unroll pol')); [lia|]. reflexivity.
  Qed.
End Run.

(** ** Unrolling only groups the chunks *)
Lemma repeat_app' {A} (x : A) n k : repeat x n ++ repeat x k = repeat x (n + k).
Proof. symmetry. apply repeat_app. Qed.

Lemma concat_repeat {A} (x : A) u n : concat (repeat (repeat x u) n) = repeat x (n * u).
Proof. induction n; cbn [repeat concat Nat.mul]; [reflexivity|]. rewrite IHn. apply repeat_app'. Qed.

Lemma concat_powers l : concat (map power_chunk l) = map (fun i => Nat.pow 2 i) l.
Proof. induction l; cbn [map concat]; [reflexivity|]. rewrite IHl. reflexivity. Qed.

Lemma full_chunks w u m : 1 <= w -> 0 <= m ->
  Z.of_nat (groups w u m) * Z.max u 0 + Z.of_nat (singles w u m) = m / w.
Proof.
  intros Hw Hm. unfold groups, singles. destruct (Z.ltb_spec 1 u) as [Hu|Hu].
  - rewrite Z.max_l by lia. assert (Hwu : 0 < w * u) by nia.
    pose proof (Z.div_pos m (w * u) Hm Hwu). pose proof (Z.mod_pos_bound m (w * u) Hwu).
    pose proof (Z.div_pos (m mod (w * u)) w ltac:(lia) ltac:(lia)).
    rewrite !Z2Nat.id by lia.
    apply Z.div_unique_pos with (m mod (w * u) mod w); [apply Z.mod_pos_bound; lia|].
    pose proof (Z.div_mod m (w * u) ltac:(lia)) as E1.
    pose proof (Z.div_mod (m mod (w * u)) w ltac:(lia)) as E2.
    set (q := m / (w * u)) in *. set (r := m mod (w * u)) in *. set (q2 := r / w) in *.
    set (r2 := r mod w) in *. rewrite E1, E2. ring.
  - pose proof (Z.div_pos m w Hm ltac:(lia)). rewrite Z2Nat.id by lia. lia.
Qed.

Lemma schedule_chunks w u d n : 1 <= w -> d <= n ->
  concat (schedule w u d n)
  = map (fun i => Nat.pow 2 i) (digits d) ++ repeat (Z.to_nat w) (Z.to_nat ((n - d) / w))
    ++ map (fun i => Nat.pow 2 i) (rev (digits ((n - d) mod w))).
Proof.
  intros Hw Hd. unfold schedule. rewrite !concat_app, !concat_powers, concat_repeat.
  rewrite <- (repeat_once (Z.to_nat w)), concat_repeat, Nat.mul_1_r.
  rewrite (app_assoc (repeat _ _)), repeat_app'. do 3 f_equal.
  pose proof (full_chunks w u (n - d) Hw ltac:(lia)). unfold groups, singles in *.
  destruct (Z.ltb_spec 1 u) as [Hu|Hu]; [|lia]. rewrite Z.max_l in H by lia.
  rewrite <- H. pose proof (Z.div_pos (n - d) (w * u) ltac:(lia) ltac:(nia)).
  rewrite Z2Nat.id in H by lia. rewrite Z2Nat.id by lia.
  rewrite Z2Nat.inj_add, Nat2Z.id, Z2Nat.inj_mul by nia. reflexivity.
Qed.
