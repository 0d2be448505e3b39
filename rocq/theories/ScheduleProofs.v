(** The chunk sequence of for_each, as a function of sizes and distance to alignment. *)
From Verif Require Import Base BaseFacts ExecModel ExecProofs ExecForEach ExecRun ExecSpec ExecThm ScheduleSpec.
From Coq Require Import ZifyBool ZifyNat Sorted.
Ltac Zify.zify_post_hook ::= idtac.

(** ** Binary digits *)
Fixpoint powers (l : list nat) : Z :=
  match l with [] => 0 | i :: l' => 2 ^ Z.of_nat i + powers l' end.

Lemma powers_app l l' : powers (l ++ l') = powers l + powers l'.
Proof. induction l; cbn [powers app]; [reflexivity|]. rewrite IHl. lia. Qed.

Lemma powers_rev l : powers (rev l) = powers l.
Proof. induction l; cbn [rev powers]; [reflexivity|]. rewrite powers_app, IHl. cbn [powers]. lia. Qed.

Lemma powers_nonneg l : 0 <= powers l.
Proof.
  induction l; cbn [powers]; [lia|]. pose proof (pow2_pos (Z.of_nat a) ltac:(lia)). lia.
Qed.

Lemma powers_bits l : NoDup l -> forall j, Z.testbit (powers l) (Z.of_nat j) = true <-> In j l.
Proof.
  induction 1 as [|i l Hi Hn IH]; intros j; cbn [powers In].
  { rewrite Z.testbit_0_l. split; [discriminate|contradiction]. }
  assert (H0 : Z.land (2 ^ Z.of_nat i) (powers l) = 0).
  { apply Z.bits_inj'. intros k Hk. rewrite Z.land_spec, Z.testbit_0_l, Z.pow2_bits_eqb by lia.
    destruct (Z.eqb_spec (Z.of_nat i) k) as [<-|]; [|reflexivity]. cbn [andb].
    destruct (Z.testbit (powers l) (Z.of_nat i)) eqn:E; [|reflexivity].
    apply IH in E. contradiction. }
  rewrite Z.add_nocarry_lxor by assumption. rewrite Z.lxor_spec, Z.pow2_bits_eqb by lia.
  destruct (Z.eqb_spec (Z.of_nat i) (Z.of_nat j)) as [E|E].
  - assert (i = j) by lia. subst j. split; [auto|]. intros _.
    destruct (Z.testbit (powers l) (Z.of_nat i)) eqn:Eb; [|reflexivity].
    apply IH in Eb. contradiction.
  - cbn [xorb]. rewrite <- IH. destruct (Z.testbit (powers l) (Z.of_nat j)); split; try tauto.
    intros [|]; [lia|assumption].
Qed.

Lemma sorted_nodup l : StronglySorted lt l -> NoDup l.
Proof.
  induction 1 as [|i l H IH F]; constructor; [|assumption].
  intros Hi. rewrite Forall_forall in F. specialize (F i Hi). lia.
Qed.

Lemma sorted_ext l : StronglySorted lt l -> forall l', StronglySorted lt l' ->
  (forall i, In i l <-> In i l') -> l = l'.
Proof.
  induction 1 as [|i l H IH F]; intros l' H' E.
  - destruct l' as [|j l']; [reflexivity|]. exfalso. apply (proj2 (E j)). left. reflexivity.
  - destruct H' as [|j l' H' F']; [exfalso; apply (proj1 (E i)); left; reflexivity|].
    rewrite Forall_forall in F, F'.
    assert (i = j).
    { destruct (proj1 (E i) (or_introl eq_refl)) as [|Hi]; [auto|].
      destruct (proj2 (E j) (or_introl eq_refl)) as [|Hj]; [auto|].
      specialize (F j Hj). specialize (F' i Hi). lia. }
    subst j. f_equal. apply IH; [assumption|]. intros k. split; intros Hk.
    + destruct (proj1 (E k) (or_intror Hk)) as [->|]; [|assumption].
      specialize (F k Hk). lia.
    + destruct (proj2 (E k) (or_intror Hk)) as [->|]; [|assumption].
      specialize (F' k Hk). lia.
Qed.

Lemma seq_sorted n : forall a, StronglySorted lt (seq a n).
Proof.
  induction n; intros a; cbn [seq]; constructor; [apply IHn|].
  rewrite Forall_forall. intros x Hx. apply in_seq in Hx. lia.
Qed.

Lemma filter_sorted f l : StronglySorted lt l -> StronglySorted lt (filter f l).
Proof.
  induction 1 as [|i l H IH F]; cbn; [constructor|]. destruct (f i); [|assumption].
  constructor; [assumption|]. rewrite Forall_forall in *. intros x Hx.
  apply filter_In in Hx. apply F, Hx.
Qed.

Lemma digits_powers l : StronglySorted lt l -> Forall (fun i => i < 64)%nat l ->
  digits (powers l) = l.
Proof.
  intros Hs Hf. apply sorted_ext; [apply filter_sorted, seq_sorted|assumption|].
  intros i. unfold digits. rewrite filter_In, in_seq, (powers_bits l (sorted_nodup l Hs)).
  split; [tauto|]. intros Hi. split; [|assumption]. rewrite Forall_forall in Hf.
  specialize (Hf i Hi). lia.
Qed.

Lemma digits_0 : map power_chunk (digits 0) = [].
Proof. reflexivity. Qed.

Lemma repeat_once {A} (x : A) : repeat x 1 = [x].
Proof. reflexivity. Qed.

Lemma sorted_app_last l x : StronglySorted lt l -> Forall (fun y => y < x)%nat l ->
  StronglySorted lt (l ++ [x]).
Proof.
  induction 1 as [|i l H IH F]; intros Hx; cbn; [repeat constructor|].
  inversion Hx; subst. constructor; [now apply IH|]. rewrite Forall_app. split; [assumption|].
  repeat constructor. assumption.
Qed.

Lemma rev_sorted l : StronglySorted gt l -> StronglySorted lt (rev l).
Proof.
  induction 1 as [|i l H IH F]; cbn; [constructor|]. apply sorted_app_last; [assumption|].
  apply Forall_rev. exact F.
Qed.

(** ** Chunk sequences *)
Definition lanes_of (l : list call) : list (list nat) :=
  map (fun k => repeat (Z.to_nat (k_k k)) (k_n k)) l.

Lemma lanes_app l l' : lanes_of (l ++ l') = lanes_of l ++ lanes_of l'.
Proof. apply map_app. Qed.

Lemma pow_lanes i : 0 <= i -> repeat (Z.to_nat (2 ^ i)) 1 = power_chunk (Z.to_nat i).
Proof. intros Hi. unfold power_chunk. cbn. f_equal. rewrite Z2Nat.inj_pow by lia. reflexivity. Qed.

Lemma asc_lanes K i a b l : asc K i a b l -> 0 <= i -> K <= 64 ->
  lanes_of l = map power_chunk (digits (b - a)).
Proof.
  intros H Hi HK.
  assert (exists es, lanes_of l = map power_chunk es /\ StronglySorted lt es
            /\ Forall (fun e => Z.to_nat i <= e < Z.to_nat K)%nat es /\ b - a = powers es)
    as (es & -> & Hs & Hf & ->).
  { induction H as [i a|i k a b l Hk HkK H IH].
    - exists []. repeat split; try constructor. cbn. lia.
    - destruct (IH ltac:(lia)) as (es & E & Hs & Hf & Ep).
      exists (Z.to_nat k :: es). cbn [lanes_of map k_k k_n powers]. rewrite pow_lanes by lia.
      split; [f_equal; exact E|]. split; [|split].
      + constructor; [assumption|]. eapply Forall_impl; [|exact Hf]. cbn. lia.
      + constructor; [lia|]. eapply Forall_impl; [|exact Hf]. cbn. lia.
      + rewrite Z2Nat.id by lia. lia. }
  rewrite digits_powers; [reflexivity|assumption|]. eapply Forall_impl; [|exact Hf]. cbn. lia.
Qed.

Lemma desc_lanes al j a b l : desc al j a b l -> j <= 64 ->
  lanes_of l = map power_chunk (rev (digits (b - a))).
Proof.
  intros H HK.
  assert (exists es, lanes_of l = map power_chunk es /\ StronglySorted gt es
            /\ Forall (fun e => e < Z.to_nat j)%nat es /\ b - a = powers es)
    as (es & -> & Hs & Hf & Ep).
  { induction H as [j a|j k a b l Hk H IH].
    - exists []. repeat split; try constructor. cbn. lia.
    - destruct (IH ltac:(lia)) as (es & E & Hs & Hf & Ep).
      exists (Z.to_nat k :: es). cbn [lanes_of map k_k k_n powers]. rewrite pow_lanes by lia.
      split; [f_equal; exact E|]. split; [|split].
      + constructor; [assumption|]. eapply Forall_impl; [|exact Hf]. cbn. lia.
      + constructor; [lia|]. eapply Forall_impl; [|exact Hf]. cbn. lia.
      + rewrite Z2Nat.id by lia. lia. }
  rewrite Ep, <- powers_rev, digits_powers; [now rewrite rev_involutive|now apply rev_sorted|].
  apply Forall_rev. eapply Forall_impl; [|exact Hf]. cbn. lia.
Qed.

Lemma uniform_lanes w u al a b l : uniform w u al a b l ->
  lanes_of l = repeat (repeat (Z.to_nat w) u) (length l)
  /\ b - a = Z.of_nat (length l) * (w * Z.of_nat u).
Proof.
  induction 1 as [a|a b l H [IH1 IH2]]; cbn [lanes_of map k_k k_n length repeat].
  - split; [reflexivity|lia].
  - split; [f_equal; exact IH1|]. rewrite Nat2Z.inj_succ. lia.
Qed.

Lemma loop_counts w u first last a l1 l2 al1 al2 : 1 <= w ->
  uniform w (Z.to_nat u) al1 first a l1 -> (u <= 1 -> l1 = []) -> a <= last ->
  uniform w 1 al2 a (last - (last - first) mod w) l2 -> (1 < u -> last - w * u < a) ->
  length l1 = groups w u (last - first) /\ length l2 = singles w u (last - first).
Proof.
  intros Hw Hu1 Hl1 Ha Hu2 Hmax.
  destruct (uniform_lanes _ _ _ _ _ _ Hu1) as [_ L1].
  destruct (uniform_lanes _ _ _ _ _ _ Hu2) as [_ L2].
  assert (Hlo : 0 <= (last - first) mod w < w) by (apply Z.mod_pos_bound; lia).
  unfold groups, singles.
    replace (w * Z.of_nat 1) with w in L2 by lia.
    destruct (Z.ltb_spec 1 u) as [Hu|Hu].
    - specialize (Hmax Hu). rewrite Z2Nat.id in L1 by lia.
      set (wu := w * u) in *.
      assert (Hwu : 0 < wu) by (unfold wu; nia).
      assert (Eq : last - first = wu * Z.of_nat (length l1) + (last - a)) by lia.
      assert (Hq : (last - first) / wu = Z.of_nat (length l1))
        by (symmetry; apply Z.div_unique_pos with (last - a); lia).
      assert (Hm : (last - first) mod wu = last - a)
        by (symmetry; apply Z.mod_unique_pos with (Z.of_nat (length l1)); lia).
      split; [lia|]. rewrite Hm.
      assert ((last - a) / w = Z.of_nat (length l2))
        by (symmetry; apply Z.div_unique_pos with ((last - first) mod w); lia).
      lia.
    - rewrite (Hl1 Hu) in *. cbn [length] in *. split; [reflexivity|].
      assert ((last - first) / w = Z.of_nat (length l2))
        by (symmetry; apply Z.div_unique_pos with ((last - first) mod w); lia).
      lia. 
Qed.

(** ** The main loops and the epilogue *)
Lemma body_pieces c pol w first last distance :
  1 <= w < two64 -> first <= last ->
  distance mod w = (last - first) mod w ->
  (p_match pol = true -> (w | last - first)) ->
  exists l1 l2 l3 a, let al := use_aligned_loadstore c pol w in
    for_each_body c pol w first last distance = (l1 ++ l2 ++ l3, Ok tt)
    /\ uniform w (Z.to_nat (p_unroll pol)) al first a l1 /\ (p_unroll pol <= 1 -> l1 = [])
    /\ a <= last /\ (1 < p_unroll pol -> last - w * p_unroll pol < a)
    /\ uniform w 1 al a (last - (last - first) mod w) l2
    /\ desc al (exponent w) (last - (last - first) mod w) last l3.
Proof.
  intros Hw Hle Hd Hmatch. unfold for_each_body. rewrite Hd.
  set (al := use_aligned_loadstore c pol w). cbn zeta.
  destruct (body_loops pol w al first last Hw Hle Hmatch)
    as (l1 & a & l2 & b & E1 & Hu1 & Hl1 & Ha & Hda & E2 & Hu2 & Hdb & Eb).
  assert (Hmax : 1 < p_unroll pol -> last - w * p_unroll pol < a).
  { intros Hu. destruct (Z.ltb_spec 1 (p_unroll pol)); [|lia].
    destruct (main_loop_ok w (Z.to_nat (p_unroll pol)) al (loop_fuel first last)
                (last - w * p_unroll pol) first) as (l & a0 & E0 & Hun & H1 & H2 & H3);
      [lia|lia|unfold loop_fuel; lia|].
    rewrite E0 in E1. injection E1 as -> ->. rewrite Z2Nat.id in H1 by lia. apply H1. lia. }
  rewrite E1. unfold bindW. cbn beta iota. rewrite E2. rewrite Eb in Hu2.
  destruct (negb (p_match pol) && (1 <? w) && negb ((last - first) mod w =? 0)) eqn:Eep.
  - rewrite !andb_true_iff in Eep. destruct Eep as [[Ep Ew] E0].
    assert (Hlo : 0 <= (last - first) mod w < w) by (apply Z.mod_pos_bound; lia).
    destruct (for_each_epilogue_ok c al 64 w (exponent w) ((last - first) mod w) last)
      as (l3 & E3 & Hd3).
    + unfold exponent. split; [lia|]. apply Z.log2_up_spec. lia.
    + unfold exponent. split; [apply Z.log2_up_nonneg|].
      apply Z.log2_up_le_pow2; [lia|]. unfold two64 in Hw. change (Z.of_nat 64) with 64. lia.
    + lia.
    + rewrite E3. exists l1, l2, l3, a.
      split; [reflexivity|]. repeat split; try assumption; lia.
  - exists l1, l2, [], a. unfold retW. rewrite app_nil_r.
    split; [reflexivity|]. repeat split; try assumption; try lia.
    assert (E0 : (last - first) mod w = 0).
    { destruct (p_match pol); [apply Z.mod_divide; [lia|]; now apply Hmatch|].
      cbn [negb andb] in Eep. destruct (Z.ltb_spec 1 w); cbn [andb] in Eep; [lia|].
      replace w with 1 by lia. apply Z.mod_1_r. }
    rewrite E0, Z.sub_0_r. constructor.
Qed.

Lemma body_lanes c pol w first last distance :
  1 <= w < two64 -> first <= last ->
  distance mod w = (last - first) mod w ->
  (p_match pol = true -> (w | last - first)) ->
  exists l, for_each_body c pol w first last distance = (l, Ok tt)
    /\ lanes_of l = schedule w (p_unroll pol) 0 (last - first).
Proof.
  intros Hw Hle Hd Hmatch.
  destruct (body_pieces c pol w first last distance Hw Hle Hd Hmatch)
    as (l1 & l2 & l3 & a & E & Hu1 & Hl1 & Ha & Hmax & Hu2 & Hd3).
  exists (l1 ++ l2 ++ l3). split; [exact E|].
  assert (HJ : exponent w <= 64).
  { unfold exponent. apply Z.log2_up_le_pow2; [lia|]. unfold two64 in Hw. lia. }
  destruct (loop_counts _ _ _ _ _ _ _ _ _ (proj1 Hw) Hu1 Hl1 Ha Hu2 Hmax) as [G1 G2].
  destruct (uniform_lanes _ _ _ _ _ _ Hu1) as [S1 _].
  destruct (uniform_lanes _ _ _ _ _ _ Hu2) as [S2 _].
  assert (S3 := desc_lanes _ _ _ _ _ Hd3 HJ).
  replace (last - (last - (last - first) mod w)) with ((last - first) mod w) in S3 by lia.
  unfold schedule. rewrite !lanes_app, S1, S2, S3, G1, G2, digits_0, Z.sub_0_r, repeat_once, app_nil_l.
  reflexivity.
Qed.

Lemma schedule_split w u d n :
  schedule w u d n = map power_chunk (digits d) ++ schedule w u 0 (n - d).
Proof. unfold schedule. rewrite digits_0, Z.sub_0_r, app_nil_l. reflexivity. Qed.

(** ** The prologue *)
Lemma is_aligned_iff c p k : 0 < c_malign c k -> is_aligned c p k <-> aligned_at c p k = true.
Proof.
  intros H. unfold is_aligned, aligned_at, address. rewrite Z.eqb_eq, Z.mod_divide by lia. tauto.
Qed.

Lemma can_align_possible c w : cfg_ok c -> 1 <= w -> can_align c w <-> prologue_is_possible c w = true.
Proof.
  intros Hc Hw. split.
  - intros (H1 & _ & Hm). unfold prologue_is_possible.
    assert (0 < c_sz c) by (destruct Hc as [(H & _)|(H & _)]; exact H).
    rewrite Hm, Z.mod_same by nia. rewrite !andb_true_iff. split; [split; [lia|reflexivity]|]. nia.
  - intros Hp. destruct Hc as [Hstd|Hf]; [|rewrite fallback_impossible in Hp by assumption; discriminate].
    destruct (possible_std c w Hstd Hp) as (J & s & HJ & Hs & EJ & Es & Hm).
    split; [rewrite EJ; change 1 with (2 ^ 0); apply Z.pow_lt_mono_r; lia|].
    split; [|rewrite EJ; apply Hm; lia].
    exists (J + s). split; [lia|]. rewrite EJ, Es. symmetry. apply Z.pow_add_r; lia.
Qed.

Lemma land_bits d n : Z.land d n = d <-> forall i, Z.testbit d i = true -> Z.testbit n i = true.
Proof.
  split.
  - intros H i Hi. rewrite <- H, Z.land_spec, andb_true_iff in Hi. tauto.
  - intros H. apply Z.bits_inj. intros i. rewrite Z.land_spec.
    destruct (Z.testbit d i) eqn:E; [|reflexivity]. cbn [andb]. now apply H.
Qed.

Lemma next_aligned_unique c w first d e :
  next_aligned c w first d -> next_aligned c w first e -> d = e.
Proof. intros (H1 & H2 & H3) (H4 & H5 & H6). specialize (H3 e H4 H5). specialize (H6 d H1 H2). lia. Qed.

Lemma prologue_length_unique c pol w first n d e :
  prologue_length c pol w first n d -> prologue_length c pol w first n e -> d = e.
Proof.
  intros [(H1 & H2 & H3)|(H1 & H2)] [(H4 & H5 & H6)|(H4 & H5)].
  - eapply next_aligned_unique; eassumption.
  - exfalso. destruct H5 as [H5|[H5 H7]]; [tauto|]. destruct H3 as [H3|[H3 H8]]; [congruence|].
    exact (H7 H3 d H2 H8).
  - exfalso. destruct H2 as [H2|[H2 H7]]; [tauto|]. destruct H6 as [H6|[H6 H8]]; [congruence|].
    exact (H7 H6 e H5 H8).
  - congruence.
Qed.

(** What prologue::operator() does, in these terms. *)
Lemma worth_iff c n d : worth c n d <->
  (4000 <? (n * c_sz c) mod two64) || (Z.land d n =? d) = true.
Proof.
  unfold worth. rewrite orb_true_iff, Z.ltb_lt, Z.eqb_eq, land_bits.
  change (2 ^ 64) with two64. tauto.
Qed.

Lemma prologue_some_length c pol w n p maxe tp :
  cfg_ok c -> 1 <= w < two64 -> prologue_args c pol w n p = Some (maxe, tp) ->
  prologue_length c pol w p n tp /\ next_aligned c w p tp /\ 0 < tp < w /\ maxe = w
  /\ prologue_is_possible c w = true.
Proof.
  intros Hc Hw Epa.
  assert (Hpos : prologue_is_possible c w = true).
  { unfold prologue_args, use_aligned_loadstore, maybe_prologue in Epa.
    destruct (prologue_is_possible c w); [reflexivity|].
    rewrite !andb_false_r in Epa. discriminate. }
  assert (Hca := proj2 (can_align_possible c w Hc (proj1 Hw)) Hpos).
  destruct Hc as [Hstd|Hfb]; [|rewrite fallback_impossible in Hpos by assumption; discriminate].
  destruct (prologue_args_std _ _ _ _ _ _ _ Hstd (proj2 Hw) Epa) as (_ & -> & Htp & Hal & Hleast).
  assert (Hm : 0 < c_malign c w) by (apply malign_pos; [left; assumption|lia]).
  assert (Hn : next_aligned c w p tp).
  { split; [lia|]. split; [now apply is_aligned_iff|]. intros e He Ha.
    specialize (Hleast (p + e) ltac:(lia) (proj1 (is_aligned_iff c _ _ Hm) Ha)). lia. }
  split; [|auto]. left. split; [assumption|]. split; [assumption|].
  unfold prologue_args in Epa. unfold use_aligned_loadstore, maybe_prologue in Epa.
  rewrite Hpos, !andb_true_r in Epa. destruct (p_aligned pol); [left; reflexivity|right].
  destruct (p_auto pol); [|discriminate]. split; [reflexivity|]. cbn [orb] in Epa.
  destruct ((c_base c + p * c_sz c) mod c_malign c w =? 0); [discriminate|].
  match type of Epa with (if ?b then _ else _) = _ => destruct b eqn:Eb; [|discriminate] end.
  injection Epa as _ Et. rewrite <- Et. apply worth_iff. exact Eb.
Qed.

Lemma prologue_none_length c pol w n p :
  cfg_ok c -> 1 <= w < two64 -> prologue_args c pol w n p = None ->
  prologue_length c pol w p n 0.
Proof.
  intros Hc Hw Epa.
  destruct (prologue_is_possible c w) eqn:Hpos.
  2:{ right. split; [reflexivity|]. left. rewrite can_align_possible by (assumption || lia). congruence. }
  assert (Hca := proj2 (can_align_possible c w Hc (proj1 Hw)) Hpos).
  assert (Hm : 0 < c_malign c w) by (apply malign_pos; [assumption|lia]).
  unfold prologue_args in Epa. cbv zeta in Epa. unfold use_aligned_loadstore, maybe_prologue in Epa.
  rewrite Hpos, !andb_true_r in Epa.
  destruct (Z.eqb_spec ((c_base c + p * c_sz c) mod c_malign c w) 0) as [E0|E0].
  - (* already aligned *)
    assert (Hn : next_aligned c w p 0).
    { split; [lia|]. split; [|lia]. rewrite Z.add_0_r. apply is_aligned_iff; [assumption|].
      unfold aligned_at. now apply Z.eqb_eq. }
    destruct (p_aligned pol) eqn:Ea; [left; tauto|]. destruct (p_auto pol) eqn:Eu.
    + left. split; [assumption|]. split; [assumption|]. right. split; [assumption|].
      right. intros i. rewrite Z.testbit_0_l. discriminate.
    + right. split; [reflexivity|]. right. split; [assumption|]. congruence.
  - right. split; [reflexivity|]. right.
    destruct (p_aligned pol) eqn:Ea; [discriminate|]. split; [reflexivity|].
    intros Eu. rewrite Eu in Epa. cbn [orb] in Epa.
    set (tp := (c_malign c w / c_sz c - (c_base c + p * c_sz c) mod c_malign c w / c_sz c) mod two64) in *.
    destruct ((4000 <? (n * c_sz c) mod two64) || (Z.land tp n =? tp)) eqn:Eb; [discriminate|].
    destruct (prologue_some_length c (mkpol true false false 0 0) w n p (c_malign c w / c_sz c) tp)
      as (_ & Hn & _); try assumption.
    { unfold prologue_args. cbv zeta. unfold use_aligned_loadstore. cbn [p_aligned]. rewrite Hpos.
      cbn [andb orb]. apply Z.eqb_neq in E0. rewrite E0. reflexivity. }
    intros e He. rewrite (next_aligned_unique _ _ _ _ _ He Hn), worth_iff. congruence.
Qed.

(** ** for_each *)
Lemma for_each_rt_lanes c pol w first last :
  cfg_ok c -> pol_ok pol -> 1 <= w < two64 -> first <= last ->
  last - first < two64 ->
  (p_match pol = true -> (w | last - first)) ->
  (forall maxe tp, prologue_args c pol w (last - first) first = Some (maxe, tp) -> tp <= last - first) ->
  exists l d, for_each_rt c pol w first last = (l, Ok tt)
    /\ prologue_length c pol w first (last - first) d
    /\ lanes_of l = schedule w (p_unroll pol) d (last - first).
Proof.
  intros Hc Hpol Hw Hle H64 Hmatch Hfit. unfold for_each_rt.
  destruct (prologue_args c pol w (last - first) first) as [[maxe tp]|] eqn:Epa.
  - assert (Htple := Hfit maxe tp eq_refl).
    destruct (prologue_some_length _ _ _ _ _ _ _ Hc Hw Epa) as (Hpl & _ & Htp & -> & Hpos).
    destruct Hc as [Hstd|Hfb]; [|rewrite fallback_impossible in Hpos by assumption; discriminate].
    destruct (possible_std c w Hstd Hpos) as (J & s & HJ & Hs & EJ & Es & Hm).
    assert (HJ64 : J < 64).
    { apply pow2_lt_inv; [lia|]. rewrite <- EJ. exact (proj2 Hw). }
    destruct (for_each_prologue_ok c J 64 0 first tp) as (lp & Ep & Hasc);
      [lia|lia|lia|lia|].
    change (2^0) with 1 in Ep, Hasc. rewrite Z.div_1_r, Z.mul_1_l in Hasc. rewrite <- EJ in Ep.
    rewrite Ep. unfold bindW at 1. rewrite Z.mod_small by lia.
    destruct (body_lanes c pol w (first + tp) last (last - first - tp)) as (l & Eb & El);
      [assumption|lia|f_equal; lia| |].
    { intros Em. exfalso. destruct Hpol as (Hp1 & Hp2 & _).
      unfold prologue_args, use_aligned_loadstore, maybe_prologue in Epa.
      destruct (p_aligned pol); [rewrite Hp1 in Em by reflexivity; discriminate|].
      destruct (p_auto pol); [rewrite Hp2 in Em by reflexivity; discriminate|].
      cbn in Epa. discriminate. }
    rewrite Eb. exists (lp ++ l), tp. split; [reflexivity|]. split; [assumption|].
    rewrite lanes_app, (asc_lanes _ _ _ _ _ Hasc) by lia.
    rewrite (schedule_split w (p_unroll pol) tp), El.
    replace (first + tp - first) with tp by lia.
    replace (last - (first + tp)) with (last - first - tp) by lia. reflexivity.
  - destruct (body_lanes c pol w first last (last - first)) as (l & Eb & El);
      [assumption|assumption|reflexivity|assumption|].
    exists l, 0. split; [exact Eb|]. split; [|exact El]. now apply prologue_none_length.
Qed.
