(** Iterator arithmetic: proofs. *)
From Verif Require Import Base BaseFacts ExecModel ExecProofs ExecForEach ExecRun ExecSpec ExecThm
  TransformModel TransformSpec TransformProofs TransformThm TReduceModel PtrModel PtrSpec.
From Coq Require Import ZifyBool ZifyNat.
Ltac Zify.zify_post_hook ::= idtac.

Lemma stays_app lo hi j l l' : stays_in lo hi j (l ++ l') <-> stays_in lo hi j l /\ stays_in lo hi j l'.
Proof. unfold stays_in, iterators. now rewrite flat_map_app, Forall_app. Qed.

Lemma stays_cons lo hi j e l : stays_in lo hi j (e :: l) <-> stays_in lo hi j [e] /\ stays_in lo hi j l.
Proof. change (e :: l) with ([e] ++ l). apply stays_app. Qed.

Lemma stays_nil lo hi j : stays_in lo hi j [].
Proof. constructor. Qed.

Lemma stays_compared lo hi p : stays_in lo hi 0 [Compared p] <-> lo <= p <= hi.
Proof.
  unfold stays_in. cbn. split; [|now constructor]. intros H. now inversion H.
Qed.

Lemma stays_compared_other lo hi j p : stays_in lo hi (S j) [Compared p].
Proof. constructor. Qed.

Lemma stays_moved lo hi j ps p : nth_error ps j = Some p -> stays_in lo hi j [Moved ps] <-> lo <= p <= hi.
Proof.
  intros E. unfold stays_in. cbn. rewrite E. cbn. split; [|now constructor]. intros H. now inversion H.
Qed.

Lemma stays_comp lo hi p l : stays_in lo hi 0 (Compared p :: l) <-> lo <= p <= hi /\ stays_in lo hi 0 l.
Proof. rewrite stays_cons, stays_compared. reflexivity. Qed.

Lemma nth_error_adv n ps j p : nth_error ps j = Some p -> nth_error (adv n ps) j = Some (p + n).
Proof. unfold adv. intros E. now rewrite (map_nth_error _ _ _ E). Qed.

Lemma stays_chunks lo hi j ps p k n : nth_error ps j = Some p -> 0 <= k ->
  lo <= p -> p + k * Z.of_nat n <= hi -> stays_in lo hi j (chunk_its ps k n).
Proof.
  intros E Hk Hlo Hhi. unfold chunk_its, stays_in, iterators. rewrite flat_map_concat_map, map_map.
  apply Forall_concat, Forall_map, Forall_forall. intros i Hi. apply in_seq in Hi. cbn beta.
  rewrite (nth_error_adv _ _ _ _ E). constructor; [nia|constructor].
Qed.

Lemma stays_wider lo hi lo' hi' j l : lo' <= lo -> hi <= hi' -> stays_in lo hi j l -> stays_in lo' hi' j l.
Proof. intros H1 H2. apply Forall_impl. intros; lia. Qed.

(** The chunks of calls that tile a range. *)
Lemma stays_calls a b l : tiles a b l -> stays_in a b 0 (flat_map call_its l).
Proof.
  induction 1 as [a|a b k n al l Hk Hn Ht IH]; [constructor|]. cbn [flat_map].
  pose proof (tiles_le _ _ _ Ht). apply stays_app. split.
  - unfold call_its. cbn [k_pos k_k k_n]. apply (stays_chunks _ _ 0 _ a); [reflexivity|lia|lia|lia].
  - eapply stays_wider; [| |exact IH]; [nia|lia].
Qed.

Lemma stays_steps F D S2 j p : nth_error (F :: D :: S2) j = Some p -> forall a b l, tiles a b l ->
  stays_in (p + (a - F)) (p + (b - F)) j (flat_map step_its (map (ev F D S2) l)).
Proof.
  intros E a b l. induction 1 as [a|a b k n al l Hk Hn Ht IH]; [constructor|]. cbn [map flat_map].
  pose proof (tiles_le _ _ _ Ht). apply stays_app. split.
  - unfold step_its, step_ptrs, ev. cbn [t_srcs t_dst t_k t_n k_pos k_k k_n].
    apply (stays_chunks _ _ j _ (p + (a - F))); [|lia|lia|lia].
    assert (E' := nth_error_adv (a - F) _ _ _ E). unfold adv in E'. cbn [map] in E'.
    now replace (F + (a - F)) with a in E' by lia.
  - eapply stays_wider; [| |exact IH]; [nia|lia].
Qed.

(** ** for_each *)
Lemma for_each_body_its c pol w first last d l : for_each_body c pol w first last d = (l, Ok tt) ->
  exists its, for_each_body_it c pol w first last d = (its, Ok tt) /\
    forall lo hi, stays_in lo hi 0 its <->
      stays_in lo hi 0 (flat_map call_its l) /\ lo <= last - w <= hi
      /\ (1 < p_unroll pol -> lo <= last - w * p_unroll pol <= hi).
Proof.
  unfold for_each_body, for_each_body_it. cbn zeta.
  set (al := use_aligned_loadstore c pol w).
  destruct (Z.ltb_spec 1 (p_unroll pol)) as [Hu|Hu].
  - destruct (main_loop (loop_fuel first last) w (Z.to_nat (p_unroll pol)) al (last - w * p_unroll pol) first)
      as [l1 [a|s]]; [|discriminate].
    unfold calls_it. unfold bindW at 1. unfold bindP at 1 2. cbn [fst snd tellP app].
    destruct (if p_match pol then match_loop (loop_fuel first last) w al last a
              else main_loop (loop_fuel first last) w 1 al (last - w) a) as [l2 [b|s]]; [|discriminate].
    cbn [bindW bindP tellP fst snd app].
    destruct (negb (p_match pol) && (1 <? w) && negb (d mod w =? 0)).
    + destruct (for_each_epilogue 64 c w (d mod w) last al) as [l3 [[]|s]]; [|discriminate].
      intros E. injection E as <-. eexists. split; [reflexivity|]. intros lo hi. cbn [fst].
      rewrite !flat_map_app. rewrite ?stays_comp, ?stays_app, ?stays_comp, ?stays_app. tauto.
    + intros E. injection E as <-. eexists. split; [reflexivity|]. intros lo hi.
      rewrite !flat_map_app, !app_nil_r. rewrite ?stays_comp, ?stays_app, ?stays_comp.
      tauto.
  - unfold calls_it. unfold bindW at 1. unfold bindP at 1. cbn [fst snd retW retP app].
    destruct (if p_match pol then match_loop (loop_fuel first last) w al last first
              else main_loop (loop_fuel first last) w 1 al (last - w) first) as [l2 [b|s]]; [|discriminate].
    cbn [bindW bindP tellP fst snd app].
    destruct (negb (p_match pol) && (1 <? w) && negb (d mod w =? 0)).
    + destruct (for_each_epilogue 64 c w (d mod w) last al) as [l3 [[]|s]]; [|discriminate].
      intros E. injection E as <-. eexists. split; [reflexivity|]. intros lo hi. cbn [fst].
      rewrite !flat_map_app. rewrite ?stays_comp, ?stays_app.
      assert (~ 1 < p_unroll pol) by lia. tauto.
    + intros E. injection E as <-. eexists. split; [reflexivity|]. intros lo hi.
      rewrite !app_nil_r. rewrite ?stays_comp.
      assert (~ 1 < p_unroll pol) by lia. tauto.
Qed.

Lemma no_trap pol w first last : 0 < w -> (p_match pol = true -> (w | last - first)) ->
  p_match pol && negb ((last - first) mod w =? 0) = false.
Proof.
  intros Hw H. destruct (p_match pol); [|reflexivity]. cbn [andb].
  assert ((last - first) mod w = 0) by (apply Z.mod_divide; [lia|]; now apply H). lia.
Qed.

Lemma fit_of_room c pol w first last : target_ok c -> width_ok w -> range_ok first last ->
  reaches_alignment c pol w first last ->
  forall maxe tp, prologue_args c pol w (last - first) first = Some (maxe, tp) -> 0 < tp <= last - first.
Proof.
  intros Hc Hw Hr Hreach maxe tp Epa. destruct (reaches_fits _ _ _ _ _ Hc Hw Hreach) as [Hfits Hsmall].
  assert (Hcfg := target_cfg c Hc). destruct Hr as [Hle H64].
  assert (Hw' : 1 <= w < two64) by exact Hw.
  assert (Hpos : prologue_is_possible c w = true).
  { unfold prologue_args, use_aligned_loadstore, maybe_prologue in Epa.
    destruct (prologue_is_possible c w); [reflexivity|].
    rewrite !andb_false_r in Epa. discriminate. }
  destruct Hcfg as [Hstd|Hfb]; [|rewrite fallback_impossible in Hpos by assumption; discriminate].
  destruct (prologue_args_std _ _ _ _ _ _ _ Hstd (proj2 Hw') Epa) as (_ & _ & Htp & _ & Hleast).
  split; [lia|]. destruct (p_aligned pol) eqn:Epal.
  - destruct (Hfits Epal Hpos) as (a & Ha & Haa). specialize (Hleast a ltac:(lia) Haa). lia.
  - apply (prologue_args_auto_fits c pol w (last - first) first maxe tp); try assumption; try lia.
    apply Hsmall. unfold prologue_args, use_aligned_loadstore, maybe_prologue in Epa.
    rewrite Epal in Epa. cbn [andb orb] in Epa. destruct (p_auto pol); [reflexivity|].
    cbn [andb] in Epa. discriminate.
Qed.

Lemma for_each_stays c pol w first last lo hi :
  target_ok c -> c_ce c = false -> policy_ok pol -> width_ok w -> range_ok first last ->
  size_matches pol w first last -> reaches_alignment c pol w first last ->
  lo <= first -> first < last -> last <= hi ->
  exists its, for_each_it c pol w first last = (its, Ok tt) /\
    (stays_in lo hi 0 its <-> lo <= last - w /\ (1 < p_unroll pol -> lo <= last - w * p_unroll pol)).
Proof.
  intros Hc Hce Hpol Hw Hr Hm Hreach Hlo Hlt Hhi.
  assert (Hfit := fit_of_room c pol w first last Hc Hw Hr Hreach).
  assert (Hw' : 1 <= w < two64) by exact Hw. destruct Hr as [Hle H64].
  assert (Hdiv : p_match pol = true -> (w | last - first)) by exact Hm.
  destruct (for_each_rt_calls_fit c pol w first last) as (l & E & HT & _); try assumption.
  { now apply target_cfg. } { now apply policy_pol. }
  { intros maxe tp Ep. destruct (Hfit maxe tp Ep). lia. }
  unfold for_each_it. replace (first =? last) with false by lia.
  rewrite no_trap by (try assumption; lia). rewrite Hce. unfold for_each_rt in E.
  assert (HS := stays_wider first last lo hi 0 _ Hlo Hhi (stays_calls _ _ _ HT)).
  assert (Hw0 : 1 < p_unroll pol -> 0 <= w * p_unroll pol) by nia.
  destruct (prologue_args c pol w (last - first) first) as [[maxe tp]|].
  - destruct (Hfit maxe tp eq_refl) as [Htp0 Htp1].
    destruct (for_each_prologue 64 c 1 maxe first tp) as [lp [[]|s]]; [|discriminate].
    cbn [bindW] in E.
    destruct (for_each_body c pol w (first + tp) last ((last - first - tp) mod two64)) as [lb r] eqn:Eb.
    injection E as <- ->. destruct (for_each_body_its _ _ _ _ _ _ _ Eb) as (its & Ei & Hi).
    unfold calls_it. cbn [bindP tellP fst snd app]. rewrite Ei. cbn [app]. eexists. split; [reflexivity|].
    rewrite flat_map_app, stays_app in HS. rewrite stays_app, stays_cons, Hi.
    rewrite (stays_moved _ _ 0 _ (first + tp)) by reflexivity.
    split; [intros (_ & _ & _ & H1 & H2); split; [lia|intros Hu; specialize (H2 Hu); lia]|].
    intros (H1 & H2). destruct HS as [HS1 HS2]. split; [assumption|]. split; [lia|]. split; [assumption|].
    split; [lia|]. intros Hu. specialize (Hw0 Hu). specialize (H2 Hu). lia.
  - destruct (for_each_body_its _ _ _ _ _ _ _ E) as (its & Ei & Hi). rewrite Ei.
    eexists. split; [reflexivity|]. rewrite Hi.
    split; [intros (_ & H1 & H2); split; [lia|intros Hu; specialize (H2 Hu); lia]|].
    intros (H1 & H2). split; [assumption|]. split; [lia|]. intros Hu. specialize (Hw0 Hu). specialize (H2 Hu). lia.
Qed.

(** Constant evaluation: the test of the loop. *)
Lemma const_its w last lo hi fuel : forall first,
  0 < w -> lo <= first <= last -> last <= hi -> (Z.to_nat (last - first) < fuel)%nat ->
  exists its, const_it fuel w last first = (its, Ok (last - (last - first) mod w)) /\
    (stays_in lo hi 0 its <-> last - (last - first) mod w + (w - 1) <= hi).
Proof.
  induction fuel as [|fuel IH]; intros first Hw Hle Hhi Hf; [lia|]. cbn [const_it].
  destruct (Z.ltb_spec (first + (w - 1)) last) as [Hlt|Hge].
  - destruct (IH (first + w)) as (its & E & Hs); try lia.
    assert (Hm : (last - (first + w)) mod w = (last - first) mod w).
    { replace (last - first) with (last - (first + w) + 1 * w) by lia.
      rewrite Z.mod_add by lia. reflexivity. }
    rewrite Hm in *. unfold calls_it, tellW. cbn [bindP tellP fst snd flat_map app]. rewrite E.
    eexists. split; [reflexivity|]. cbn [app]. rewrite stays_comp, stays_app, app_nil_r, Hs.
    split; [tauto|]. intros H. split; [lia|]. split; [|exact H].
    unfold call_its. cbn [k_pos k_k k_n]. apply (stays_chunks _ _ 0 _ first); [reflexivity|lia|lia|lia].
  - cbn [bindP tellP retP app]. assert (Em : (last - first) mod w = last - first) by (apply Z.mod_small; lia).
    rewrite Em. replace (last - (last - first)) with first by lia. eexists. split; [reflexivity|].
    rewrite stays_compared. lia.
Qed.

Lemma epilogue_ce_its c w leftover last lo hi : c_ce c = true -> 1 < w < two64 -> 0 <= leftover < w ->
  lo <= last - leftover -> lo < last <= hi ->
  exists its, calls_it (for_each_epilogue 64 c w leftover last false) = (its, Ok tt)
              /\ stays_in lo hi 0 its.
Proof.
  intros Hce Hw Hl Hlo Hlast. unfold calls_it.
  destruct (Z.eq_dec leftover 0) as [->|N0].
  - destruct (Z.eq_dec w 2) as [->|N2].
    + cbn. eexists. split; [reflexivity|]. unfold stays_in. cbn [iterators flat_map nth_error app].
      repeat constructor; lia.
    + rewrite for_each_epilogue_zero by (try assumption; lia). exists []. split; [reflexivity|constructor].
  - destruct (for_each_epilogue_ok c false 64 w (exponent w) leftover last) as (l3 & E3 & Hd3).
    + unfold exponent. split; [lia|]. apply Z.log2_up_spec. lia.
    + unfold exponent. split; [apply Z.log2_up_nonneg|].
      apply Z.log2_up_le_pow2; [lia|]. unfold two64 in Hw. change (Z.of_nat 64) with 64. lia.
    + lia.
    + rewrite E3. eexists. split; [reflexivity|]. cbn [fst].
      eapply stays_wider; [| |apply stays_calls; eapply desc_tiles; exact Hd3]; lia.
Qed.

Lemma for_each_stays_ce c pol w first last lo hi :
  c_ce c = true -> width_ok w -> size_matches pol w first last ->
  lo <= first -> first < last -> last <= hi ->
  exists its, for_each_it c pol w first last = (its, Ok tt) /\
    (stays_in lo hi 0 its <-> last - (last - first) mod w + (w - 1) <= hi).
Proof.
  intros Hce Hw Hm Hlo Hlt Hhi. assert (Hw' : 1 <= w < two64) by exact Hw.
  unfold for_each_it. replace (first =? last) with false by lia.
  rewrite no_trap by (try assumption; lia). rewrite Hce.
  destruct (const_its w last lo hi (loop_fuel first last) first) as (its & E & Hs);
    [lia|lia|lia|unfold loop_fuel; lia|].
  rewrite E. cbn [bindP].
  assert (Hmb : 0 <= (last - first) mod w < w) by (apply Z.mod_pos_bound; lia).
  destruct (Z.ltb_spec 1 w) as [Hw1|Hw1].
  - assert ((last - first) mod w <= last - first) by (apply Z.mod_le; lia).
    destruct (epilogue_ce_its c w ((last - first) mod w) last lo hi) as (its2 & E2 & Hs2); try assumption; try lia.
    rewrite E2. eexists. split; [reflexivity|]. rewrite stays_app, Hs. tauto.
  - cbn [retP]. eexists. split; [reflexivity|]. rewrite app_nil_r. exact Hs.
Qed.

(** ** transform *)
Lemma stays_comp_j lo hi j p l :
  stays_in lo hi j (Compared p :: l) <-> (j = 0%nat -> lo <= p <= hi) /\ stays_in lo hi j l.
Proof.
  destruct j; [rewrite stays_comp; tauto|]. unfold stays_in. cbn. intuition discriminate.
Qed.

Lemma transform_body_its c pol w last d p l r : transform_body c pol w last d p = (l, Ok r) ->
  exists its, transform_body_it c pol w last d p = (its, Ok r) /\
    forall lo hi j, (j = 0%nat -> lo <= last <= hi) -> (j = 1%nat -> lo <= r <= hi) ->
      stays_in lo hi j its <->
      stays_in lo hi j (flat_map step_its l) /\
      (j = 0%nat -> lo <= last - w <= hi /\ (1 < p_unroll pol -> lo <= last - w * p_unroll pol <= hi)).
Proof.
  unfold transform_body, transform_body_it. cbn zeta.
  set (al := use_aligned_loadstore c pol w).
  assert (X : exists l1 p1 ev1,
    (if 1 <? p_unroll pol
     then transform_loop (loop_fuel (fst (fst p)) last) (fun f => f <=? last - w * p_unroll pol) w
            (Z.to_nat (p_unroll pol)) al p
     else retT p) = (l1, p1)
    /\ (if 1 <? p_unroll pol
        then bindP (tellP (Compared (last - w * p_unroll pol))) (fun _ =>
             steps_it (transform_loop (loop_fuel (fst (fst p)) last)
                         (fun f => f <=? last - w * p_unroll pol) w (Z.to_nat (p_unroll pol)) al p))
        else retP p) = (ev1 ++ flat_map step_its l1, p1)
    /\ forall lo hi j, stays_in lo hi j ev1 <->
         (j = 0%nat -> 1 < p_unroll pol -> lo <= last - w * p_unroll pol <= hi)).
  { destruct (Z.ltb_spec 1 (p_unroll pol)) as [Hu|Hu].
    - destruct (transform_loop (loop_fuel (fst (fst p)) last) (fun f => f <=? last - w * p_unroll pol) w
            (Z.to_nat (p_unroll pol)) al p) as [l1 p1].
      exists l1, p1, [Compared (last - w * p_unroll pol)]. split; [reflexivity|]. split; [reflexivity|].
      intros lo hi j. rewrite stays_comp_j. assert (stays_in lo hi j []) by constructor. tauto.
    - exists [], (Ok p), []. split; [reflexivity|]. split; [reflexivity|].
      intros lo hi j. split; [lia|]. intros _. constructor. }
  destruct X as (l1 & p1 & ev1 & -> & -> & H1).
  destruct p1 as [p1|s]; [|discriminate]. cbn [bindT bindP tellP].
  unfold steps_it at 1.
  destruct (if p_match pol
            then transform_loop (loop_fuel (fst (fst p)) last) (fun f => negb (f =? last)) w 1 al p1
            else transform_loop (loop_fuel (fst (fst p)) last) (fun f => f <=? last - w) w 1 al p1)
    as [l2 [[ [f dd] s]|s] ]; [|discriminate].
  cbn [bindT bindP fst snd].
  destruct ((1 <? w) && negb (p_match pol)).
  2:{ cbn [retT retP]. intros E. injection E as <- <-. eexists. split; [reflexivity|].
      intros lo hi j Hlast Hr. rewrite !app_nil_r, flat_map_app. cbn [app].
      rewrite !stays_app, stays_comp_j, H1. intuition. }
  destruct (d mod w =? 0).
  { cbn [retT retP]. intros E. injection E as <- <-. eexists. split; [reflexivity|].
    intros lo hi j Hlast Hr. rewrite !app_nil_r, flat_map_app. cbn [app].
    rewrite !stays_app, stays_comp_j, H1. intuition. }
  unfold steps_it.
  destruct (transform_epilogue 64 w (d mod w) last dd s al) as [l3 [[]|s3] ]; [|discriminate].
  cbn [retT retP tellP bindP fst snd app]. intros E. injection E as <- <-. eexists. split; [reflexivity|].
  intros lo hi j Hlast Hr. rewrite !app_nil_r, !flat_map_app. cbn [app].
  rewrite !stays_app, stays_comp_j, !stays_app, H1.
  assert (stays_in lo hi j [Moved [last; dd + d mod w] ]).
  { destruct j as [|[|j] ].
    - apply (stays_moved _ _ 0 _ last); [reflexivity|auto].
    - apply (stays_moved _ _ 1 _ (dd + d mod w)); [reflexivity|auto].
    - unfold stays_in. cbn. destruct j; constructor. }
  intuition.
Qed.

Lemma transform_stays c pol w first last dst srcs2 :
  target_ok c -> c_ce c = false -> policy_ok pol -> width_ok w -> range_ok first last ->
  size_matches pol w first last -> reaches_alignment c pol w dst (dst + (last - first)) ->
  first < last ->
  exists its, transform_it c pol w first last dst srcs2 = (its, Ok (dst + (last - first))) /\
    forall lo hi j p, nth_error (first :: dst :: srcs2) j = Some p -> lo <= p -> p + (last - first) <= hi ->
      stays_in lo hi j its <->
      (j = 0%nat -> lo <= last - w /\ (1 < p_unroll pol -> lo <= last - w * p_unroll pol)).
Proof.
  intros Hc Hce Hpol Hw Hr Hm Hreach Hlt.
  assert (Hfit := fit_of_room c pol w dst (dst + (last - first)) Hc Hw).
  assert (Hw' : 1 <= w < two64) by exact Hw. destruct Hr as [Hle H64].
  specialize (Hfit ltac:(unfold range_ok; lia) Hreach).
  replace (dst + (last - first) - dst) with (last - first) in Hfit by lia.
  assert (Hdiv : p_match pol = true -> (w | last - first)) by exact Hm.
  destruct (reaches_fits (shift_cfg first dst c) pol w first last) as [Hfits Hsmall].
  { now apply shift_target. } { exact Hw. } { now apply shift_reaches. }
  destruct (transform_rt_steps c pol w first last dst srcs2) as (l & E & HT & _); try assumption.
  { now apply target_cfg. } { now apply policy_pol. }
  unfold transform_it. replace (first =? last) with false by lia.
  rewrite no_trap by (try assumption; lia). rewrite Hce. unfold transform_rt in E.
  assert (HS := fun j p E => stays_steps first dst srcs2 j p E _ _ _ HT).
  assert (Hw0 : 1 < p_unroll pol -> 0 <= w * p_unroll pol) by nia.
  assert (Hj0 : forall lo hi j p, nth_error (first :: dst :: srcs2) j = Some p -> lo <= p ->
                p + (last - first) <= hi -> j = 0%nat -> lo <= last <= hi).
  { intros lo hi j p Ej Hlo Hhi ->. cbn in Ej. injection Ej as <-. lia. }
  assert (Hj1 : forall lo hi j p, nth_error (first :: dst :: srcs2) j = Some p -> lo <= p ->
                p + (last - first) <= hi -> j = 1%nat -> lo <= dst + (last - first) <= hi).
  { intros lo hi j p Ej Hlo Hhi ->. cbn in Ej. injection Ej as <-. lia. }
  destruct (prologue_args c pol w (last - first) dst) as [ [maxe tp]|].
  - destruct (Hfit maxe tp eq_refl) as [Htp0 Htp1].
    destruct (transform_prologue 64 1 maxe tp (first :: srcs2) dst) as [lp [[]|s] ]; [|discriminate].
    cbn [bindT] in E.
    destruct (transform_body c pol w last ((last - first - tp) mod two64) (advance tp (first, dst, srcs2)))
      as [lb r] eqn:Eb.
    injection E as El ->. destruct (transform_body_its _ _ _ _ _ _ _ _ Eb) as (its & Ei & Hi).
    unfold steps_it. cbn [bindP tellP fst snd]. rewrite Ei. eexists. split; [reflexivity|].
    intros lo hi j p Ej Hlo Hhi. specialize (HS j p Ej). rewrite <- El, flat_map_app, stays_app in HS.
    destruct HS as [HS1 HS2]. cbn [app].
    rewrite stays_app, stays_cons.
    rewrite (Hi lo hi j (Hj0 lo hi j p Ej Hlo Hhi) (Hj1 lo hi j p Ej Hlo Hhi)).
    assert (Hmv : stays_in lo hi j [Moved (lockstep (advance tp (first, dst, srcs2)))]).
    { apply (stays_moved _ _ j _ (p + tp)); [|lia]. exact (nth_error_adv tp _ _ _ Ej). }
    apply (stays_wider _ _ lo hi) in HS1; [|lia|lia]. apply (stays_wider _ _ lo hi) in HS2; [|lia|lia].
    split.
    + intros (_ & _ & _ & H) Ej0. destruct (H Ej0) as [H1 H2]. split; [lia|]. intros Hu. specialize (H2 Hu). lia.
    + intros H. do 3 (split; [assumption|]). intros Ej0. destruct (H Ej0) as [H1 H2].
      assert (Hl := Hj0 lo hi j p Ej Hlo Hhi Ej0).
      split; [lia|]. intros Hu. specialize (Hw0 Hu). specialize (H2 Hu). lia.
  - destruct (transform_body_its _ _ _ _ _ _ _ _ E) as (its & Ei & Hi). rewrite Ei.
    eexists. split; [reflexivity|]. intros lo hi j p Ej Hlo Hhi. specialize (HS j p Ej).
    rewrite (Hi lo hi j (Hj0 lo hi j p Ej Hlo Hhi) (Hj1 lo hi j p Ej Hlo Hhi)).
    apply (stays_wider _ _ lo hi) in HS; [|lia|lia]. split.
    + intros (_ & H) Ej0. destruct (H Ej0) as [H1 H2]. split; [lia|]. intros Hu. specialize (H2 Hu). lia.
    + intros H. split; [assumption|]. intros Ej0. destruct (H Ej0) as [H1 H2].
      assert (Hl := Hj0 lo hi j p Ej Hlo Hhi Ej0).
      split; [lia|]. intros Hu. specialize (Hw0 Hu). specialize (H2 Hu). lia.
Qed.

Lemma transform_const_its F D S2 w last fuel : forall q,
  0 < w -> q <= last -> (Z.to_nat (last - q) < fuel)%nat ->
  exists its, transform_const_it fuel w last (at_pos F D S2 q)
              = (its, Ok (at_pos F D S2 (last - (last - q) mod w))) /\
    forall lo hi j p, nth_error (F :: D :: S2) j = Some p -> lo <= p + (q - F) -> p + (last - F) <= hi ->
      stays_in lo hi j its <-> (j = 0%nat -> last - (last - q) mod w + (w - 1) <= hi).
Proof.
  induction fuel as [|fuel IH]; intros q Hw Hle Hf; [lia|]. cbn [transform_const_it].
  cbn [at_pos fst].
  assert (Hq : forall lo hi j p, nth_error (F :: D :: S2) j = Some p -> lo <= p + (q - F) ->
               p + (last - F) <= hi -> j = 0%nat -> lo <= q /\ last <= hi).
  { intros lo hi j p Ej Hlo Hhi ->. cbn in Ej. injection Ej as <-. lia. }
  destruct (Z.ltb_spec (q + (w - 1)) last) as [Hlt|Hge].
  - destruct (IH (q + w)) as (its & E & Hs); try lia.
    assert (Hm : (last - (q + w)) mod w = (last - q) mod w).
    { replace (last - q) with (last - (q + w) + 1 * w) by lia.
      rewrite Z.mod_add by lia. reflexivity. }
    rewrite Hm in *. unfold steps_it, tellT. cbn [bindP tellP fst snd flat_map app].
    rewrite advance_at. replace (q + w * 1) with (q + w) by lia. rewrite E.
    eexists. split; [reflexivity|]. intros lo hi j p Ej Hlo Hhi. cbn [app].
    rewrite stays_comp_j, stays_app, app_nil_r, (Hs lo hi j p Ej ltac:(lia) Hhi).
    split; [tauto|]. intros H. split; [intros Ej0; destruct (Hq _ _ _ _ Ej Hlo Hhi Ej0); lia|].
    split; [|exact H]. unfold step_its, step_ptrs, step_at. cbn [at_pos t_srcs t_dst t_k t_n].
    apply (stays_chunks _ _ j _ (p + (q - F))); [|lia|lia|lia].
    assert (E' := nth_error_adv (q - F) _ _ _ Ej). unfold adv in E'. cbn [map] in E'.
    now replace (F + (q - F)) with q in E' by lia.
  - cbn [bindP tellP retP app]. assert (Em : (last - q) mod w = last - q) by (apply Z.mod_small; lia).
    rewrite Em. replace (last - (last - q)) with q by lia. eexists. split; [reflexivity|].
    intros lo hi j p Ej Hlo Hhi. rewrite stays_comp_j.
    split; [intros [H _] Ej0; specialize (H Ej0); lia|]. intros H. split; [|constructor].
    intros Ej0. destruct (Hq _ _ _ _ Ej Hlo Hhi Ej0). specialize (H Ej0). lia.
Qed.

Lemma transform_stays_ce c pol w first last dst srcs2 :
  c_ce c = true -> width_ok w -> size_matches pol w first last -> first < last ->
  exists its, transform_it c pol w first last dst srcs2 = (its, Ok (dst + (last - first))) /\
    forall lo hi j p, nth_error (first :: dst :: srcs2) j = Some p -> lo <= p -> p + (last - first) <= hi ->
      stays_in lo hi j its <-> (j = 0%nat -> last - (last - first) mod w + (w - 1) <= hi).
Proof.
  intros Hce Hw Hm Hlt. assert (Hw' : 1 <= w < two64) by exact Hw.
  unfold transform_it. replace (first =? last) with false by lia.
  rewrite no_trap by (try assumption; lia). rewrite Hce.
  destruct (transform_const_its first dst srcs2 w last (loop_fuel first last) first) as (its & E & Hs);
    [lia|lia|unfold loop_fuel; lia|].
  rewrite at_pos_start in E. rewrite E. cbn [bindP].
  assert (Hmb : 0 <= (last - first) mod w < w) by (apply Z.mod_pos_bound; lia).
  assert ((last - first) mod w <= last - first) by (apply Z.mod_le; lia).
  set (b := last - (last - first) mod w) in *.
  assert (Hext : forall fuel p,
    transform_loop fuel (fun f => f <? last) 1 1 false p
    = transform_loop fuel (fun f => f + (1 - 1) <? last) 1 1 false p).
  { induction fuel as [|fuel IH]; intros p; [reflexivity|]. cbn [transform_loop].
    rewrite Z.add_0_r. destruct (fst (fst p) <? last); [|reflexivity]. now rewrite IH. }
  rewrite Hext, const_loop_steps.
  destruct (const_loop_ok 1 (loop_fuel first last) last b) as [E1 Hu1];
    [lia|lia|unfold loop_fuel; lia|].
  set (l2 := fst (const_loop (loop_fuel first last) 1 last b)) in *.
  rewrite Z.mod_1_r, Z.sub_0_r in *. rewrite E1. unfold mapWT, steps_it. cbn [fst snd map_res bindP retP at_pos].
  eexists. split; [reflexivity|]. intros lo hi j p Ej Hlo Hhi.
  rewrite app_nil_r, stays_app, (Hs lo hi j p Ej ltac:(lia) Hhi).
  assert (HT : tiles b last l2) by (eapply uniform_tiles; [| |exact Hu1]; lia).
  assert (HS := stays_steps first dst srcs2 j p Ej _ _ _ HT).
  apply (stays_wider _ _ lo hi) in HS; [|lia|lia]. tauto.
Qed.
