(** Iterator arithmetic of transform_reduce: proofs. *)
From Verif Require Import Base BaseFacts ExecModel ExecProofs ExecForEach ExecRun ExecSpec ExecThm
  TransformModel TransformProofs TReduceModel TReduceSpec TReduceProofs TReduceThm PtrModel PtrSpec PtrProofs.
From Coq Require Import ZifyBool ZifyNat.
Ltac Zify.zify_post_hook ::= idtac.

(** All iterators stay within the [n] elements that follow where the range's iterator is. *)
Definition within (ps : list Z) (n : Z) (its : list itv) : Prop :=
  forall j p, nth_error ps j = Some p -> stays_in p (p + n) j its.

Lemma within_app ps n l l' : within ps n l -> within ps n l' -> within ps n (l ++ l').
Proof. intros H H' j p E. apply stays_app. split; eauto. Qed.

Lemma within_nil ps n : within ps n [].
Proof. intros j p E. constructor. Qed.

Lemma within_adv ps n m l : 0 <= m -> within (adv m ps) n l -> within ps (m + n) l.
Proof.
  intros Hm H j p E. eapply stays_wider; [| |apply (H j (p + m)); now apply nth_error_adv]; lia.
Qed.

Lemma within_more ps n n' l : n <= n' -> within ps n l -> within ps n' l.
Proof. intros Hn H j p E. eapply stays_wider; [| |apply (H j p E)]; lia. Qed.

Lemma within_chunks ps k n : 0 <= k -> within ps (k * Z.of_nat n) (chunk_its ps k n).
Proof. intros Hk j p E. apply (stays_chunks _ _ j _ p); auto; lia. Qed.

Lemma within_moved ps n m : 0 <= m <= n -> within ps n [Moved (adv m ps)].
Proof. intros Hm j p E. apply (stays_moved _ _ j _ (p + m)); [now apply nth_error_adv|lia]. Qed.

Lemma tr_loop_its matching w last fuel : forall f ps, 0 < w -> f <= last ->
  (matching = true -> (w | last - f)) -> (Z.to_nat (last - f) < fuel)%nat ->
  exists its, tr_loop_it fuel matching w last f ps
              = (its, Ok (adv (last - (last - f) mod w - f) ps))
              /\ within ps (last - (last - f) mod w - f) its.
Proof.
  induction fuel as [|fuel IH]; intros f ps Hw Hle Hd Hf; [lia|]. cbn [tr_loop_it].
  assert (Hc : (if matching then negb (f =? last) else f <=? last - w) = (f + w <=? last)).
  { destruct matching; [|lia]. destruct (Z.eqb_spec f last) as [->|Hne]; cbn [negb]; [lia|].
    assert (w <= last - f) by (apply Z.divide_pos_le; [lia|now apply Hd]). lia. }
  rewrite Hc. destruct (Z.leb_spec (f + w) last) as [Hl|Hg].
  - destruct (IH (f + w) (adv w ps)) as (its & E & Hi); try lia.
    { intros Em. replace (last - (f + w)) with ((last - f) - w) by lia.
      apply Z.divide_sub_r; [now apply Hd|apply Z.divide_refl]. }
    assert (Hm : (last - (f + w)) mod w = (last - f) mod w).
    { replace (last - f) with (last - (f + w) + 1 * w) by lia.
      rewrite Z.mod_add by lia. reflexivity. }
    rewrite Hm in *. rewrite E. unfold tellsP. cbn [bindP]. eexists. split.
    + do 2 f_equal. rewrite TReduceProofs.adv_adv. f_equal. lia.
    + assert (0 <= (last - f) mod w <= last - (f + w))
        by (rewrite <- Hm; split; [apply Z.mod_pos_bound; lia|apply Z.mod_le; lia]).
      apply within_app.
      * eapply within_more; [|apply within_chunks; lia]. lia.
      * eapply within_more; [|eapply (within_adv ps _ w); [lia|exact Hi] ]. lia.
  - assert (Em : (last - f) mod w = last - f) by (apply Z.mod_small; lia).
    rewrite Em. replace (last - (last - f) - f) with 0 by lia. rewrite adv_0.
    exists []. split; [reflexivity|apply within_nil].
Qed.

Lemma tr_unrolled_its w n limit fuel : let s := w * Z.of_nat n in
  0 < w -> (0 < n)%nat -> forall f ps, f <= limit -> (Z.to_nat (limit - f) < fuel)%nat ->
  exists its f', tr_unrolled_it fuel w n limit f ps = (its, Ok (f', adv (f' - f) ps))
    /\ f < f' <= limit + s /\ (w | f' - f) /\ within ps (f' - f) its.
Proof.
  intros s Hw Hn. assert (0 < s) by (unfold s; nia).
  assert (Hws : (w | s)) by (unfold s; apply Z.divide_factor_l).
  induction fuel as [|fuel IH]; intros f ps Hle Hf; [lia|]. cbn [tr_unrolled_it].
  unfold tellsP. cbn [bindP]. fold s. destruct (Z.leb_spec (f + s) limit) as [Hl|Hg].
  - destruct (IH (f + s) (adv s ps)) as (its & f' & E & Hb & Hd & Hi); try lia.
    rewrite E. eexists _, f'. split.
    { do 3 f_equal. rewrite TReduceProofs.adv_adv. f_equal. lia. }
    split; [lia|]. split.
    { replace (f' - f) with ((f' - (f + s)) + s) by lia. now apply Z.divide_add_r. }
    apply within_app.
    + eapply within_more; [|apply within_chunks; lia]. fold s. lia.
    + eapply within_more; [|eapply (within_adv ps _ s); [lia|exact Hi] ]. lia.
  - cbn [retP]. exists (chunk_its ps w n), (f + s). rewrite app_nil_r.
    replace (f + s - f) with s by lia. split; [reflexivity|]. split; [lia|]. split; [assumption|].
    apply within_chunks. lia.
Qed.

Lemma tr_epilogue_its fuel : forall j ps leftover, 0 <= j < Z.of_nat fuel ->
  leftover mod 2 ^ (j + 1) <> 0 ->
  exists its, tr_epilogue_it fuel (2 ^ j) ps leftover = (its, Ok tt)
              /\ within ps (leftover mod 2 ^ (j + 1)) its.
Proof.
  induction fuel as [|fuel IH]; intros j ps leftover Hj Hn; [lia|]. cbn [tr_epilogue_it].
  rewrite single_bit_pow2 by lia. cbn [negb].
  assert (Hs := mod_pow2_split leftover j ltac:(lia)).
  rewrite land_pred_pow2 by lia.
  assert (Hl := land_pow2 leftover j ltac:(lia)).
  assert (Hp := pow2_pos j ltac:(lia)).
  assert (Hmb : 0 <= leftover mod 2 ^ j < 2 ^ j) by (apply Z.mod_pos_bound; lia).
  destruct (Z.testbit leftover j) eqn:Et.
  - rewrite Hl. replace (2 ^ j =? 0) with false by lia. cbn [negb bindP tellP].
    assert (H0 : within ps (leftover mod 2 ^ (j + 1)) [Moved ps]).
    { rewrite <- (adv_0 ps) at 2. apply within_moved. lia. }
    destruct (Z.eqb_spec (2 ^ j) 1) as [E1|N1].
    { cbn [retP]. rewrite app_nil_r. eexists. split; [reflexivity|exact H0]. }
    destruct (Z.eqb_spec (leftover mod 2 ^ j) 0) as [E0|N0].
    { cbn [retP]. rewrite app_nil_r. eexists. split; [reflexivity|exact H0]. }
    assert (Hj1 : 1 <= j). { destruct (Z.eq_dec j 0) as [->|]; [cbn in N1; lia|lia]. }
    destruct (pow2_half j Hj1) as [-> _].
    destruct (IH (j - 1) (adv (2 ^ j) ps) leftover) as (its & E & Hi);
      [lia|replace (j - 1 + 1) with j by lia; assumption|].
    replace (j - 1 + 1) with j in Hi by lia.
    rewrite E. cbn [bindP tellP app]. eexists. split; [reflexivity|].
    change (Moved ps :: Moved (adv (2 ^ j) ps) :: its) with ([Moved ps] ++ [Moved (adv (2 ^ j) ps)] ++ its).
    apply within_app; [exact H0|]. apply within_app; [apply within_moved; lia|].
    eapply within_more; [|eapply (within_adv ps _ (2 ^ j)); [lia|exact Hi] ]. lia.
  - rewrite Hl. cbn [Z.eqb negb]. replace (leftover mod 2 ^ j =? 0) with false by lia.
    destruct (Z.ltb_spec 1 (2 ^ j)) as [H1|H1].
    + assert (Hj1 : 1 <= j). { destruct (Z.eq_dec j 0) as [->|]; [cbn in H1; lia|lia]. }
      destruct (pow2_half j Hj1) as [-> _].
      destruct (IH (j - 1) ps leftover) as (its & E & Hi);
        [lia|replace (j - 1 + 1) with j by lia; lia|].
      replace (j - 1 + 1) with j in Hi by lia. exists its. split; [exact E|].
      eapply within_more; [|exact Hi]. lia.
    + lia.
Qed.

Lemma tr_prologue_its J tp ps fuel : 0 <= tp -> forall i, 0 <= i <= J -> J - i < Z.of_nat fuel ->
  exists its, tr_prologue_it fuel (2 ^ i) (2 ^ J) ps tp = (its, Ok tt) /\ within ps tp its.
Proof.
  intros Htp. induction fuel as [|fuel IH]; intros i Hi Hf; [lia|]. cbn [tr_prologue_it].
  rewrite !single_bit_pow2 by lia. cbn [negb andb]. rewrite land_pred_pow2 by lia.
  assert (Hp := pow2_pos i ltac:(lia)).
  assert (Hm : 0 <= tp mod 2 ^ i <= tp) by (split; [apply Z.mod_pos_bound; lia|apply Z.mod_le; lia]).
  assert (X : exists l, (if Z.land tp (2 ^ i) =? 0 then retP tt else tellP (Moved (adv (tp mod 2 ^ i) ps)))
                        = (l, Ok tt) /\ within ps tp l).
  { destruct (Z.land tp (2 ^ i) =? 0); [exists []; split; [reflexivity|apply within_nil]|].
    eexists. split; [reflexivity|]. now apply within_moved. }
  destruct X as (l & -> & Hl). cbn [bindP].
  destruct (Z.ltb_spec (2 ^ i) (2 ^ J)) as [Hlt|Hge].
  - assert (i < J) by (apply (Z.pow_lt_mono_r_iff 2); lia).
    replace (2 ^ i * 2) with (2 ^ (i + 1)) by (rewrite Z.pow_add_r; lia).
    destruct (IH (i + 1)) as (its & E & Hw); try lia. rewrite E. eexists. split; [reflexivity|].
    now apply within_app.
  - cbn [retP]. rewrite app_nil_r. eexists. split; [reflexivity|assumption].
Qed.

Lemma tr_first_its pol w f last ps : 0 < w -> f + w <= last ->
  exists its f', tr_first_it pol w f last ps = (its, Ok (f', adv (f' - f) ps))
    /\ f < f' <= last /\ (w | f' - f)
    /\ forall lo hi j p, nth_error ps j = Some p -> lo <= p -> p + (last - f) <= hi ->
         stays_in lo hi j its <->
         (j = 0%nat -> 1 < p_unroll pol ->
          lo <= last - w * p_unroll pol <= hi /\ lo <= f + w * p_unroll pol <= hi).
Proof.
  intros Hw Hle. unfold tr_first_it. cbn zeta.
  set (n := Z.to_nat (p_unroll pol)). set (u := p_unroll pol) in *.
  assert (Hs : exists its, bindP (tellsP (chunk_its ps w 1)) (fun _ => retP (f + w, adv w ps))
                           = (its, Ok (f + w, adv (f + w - f) ps)) /\ within ps (last - f) its).
  { exists (chunk_its ps w 1). split.
    - cbn [bindP tellsP retP]. rewrite app_nil_r. do 4 f_equal. lia.
    - eapply within_more; [|apply within_chunks; lia]. lia. }
  destruct Hs as (its1 & E1 & H1). rewrite E1.
  destruct (Z.ltb_spec 1 u) as [Hu|Hu].
  2:{ exists its1, (f + w). split; [reflexivity|]. split; [lia|].
      split; [replace (f + w - f) with w by lia; apply Z.divide_refl|]. intros lo hi j p Ej Hlo Hhi.
      split; [lia|]. intros _. eapply stays_wider; [| |apply (H1 j p Ej)]; lia. }
  assert (Hst : w * u = w * Z.of_nat n) by (unfold n; lia).
  assert (Hn : (0 < n)%nat) by (unfold n; lia). assert (0 < w * u) by nia.
  cbn [bindP tellP].
  destruct (Z.leb_spec (f + w * u) (last - w * u)) as [Hl|Hg].
  - destruct (tr_unrolled_its w n (last - w * u) (loop_fuel f last) Hw Hn (f + w * u) (adv (w * u) ps))
      as (its & f' & E & Hb & Hd & Hi); [lia|unfold loop_fuel; lia|].
    rewrite E. cbn [bindP tellsP app]. eexists _, f'. split.
    { do 3 f_equal. rewrite TReduceProofs.adv_adv. f_equal. lia. }
    split; [lia|]. split.
    { replace (f' - f) with ((f' - (f + w * u)) + w * u) by lia.
      apply Z.divide_add_r; [assumption|apply Z.divide_factor_l]. }
    intros lo hi j p Ej Hlo Hhi. rewrite !stays_comp_j.
    assert (HA : stays_in lo hi j (chunk_its ps w n)).
    { apply (stays_chunks _ _ j _ p); auto; lia. }
    assert (HB : stays_in lo hi j its).
    { eapply stays_wider; [| |apply (Hi j (p + w * u)); now apply nth_error_adv]; lia. }
    rewrite stays_app. tauto.
  - cbn [app]. eexists _, (f + w). split; [reflexivity|]. split; [lia|].
    split; [replace (f + w - f) with w by lia; apply Z.divide_refl|].
    intros lo hi j p Ej Hlo Hhi. rewrite !stays_comp_j.
    assert (stays_in lo hi j its1) by (eapply stays_wider; [| |apply (H1 j p Ej)]; lia). tauto.
Qed.

Lemma tr_body_its pol w f last d ps : 1 <= w < two64 -> f < last ->
  d mod w = (last - f) mod w -> (p_match pol = true -> (w | last - f)) ->
  exists its, tr_body_it pol w f last d ps = (its, Ok tt) /\
    forall lo hi j p, nth_error ps j = Some p -> lo <= p -> p + (last - f) <= hi ->
      (j = 0%nat -> p = f) ->
      stays_in lo hi j its <->
      (j = 0%nat -> lo <= last - w /\
       (f + w <= last -> 1 < p_unroll pol -> lo <= last - w * p_unroll pol /\ f + w * p_unroll pol <= hi)).
Proof.
  intros Hw Hlt Hd Hm. unfold tr_body_it. cbn zeta. rewrite Hd. cbn [bindP tellP].
  assert (Hmb : 0 <= (last - f) mod w < w) by (apply Z.mod_pos_bound; lia).
  assert (Hmle : (last - f) mod w <= last - f) by (apply Z.mod_le; lia).
  assert (Hlo : 1 < w -> exists e, 0 <= e < 64 /\ bit_ceil w / 2 = 2 ^ e /\ w <= 2 ^ (e + 1)).
  { intros H1. destruct (bit_ceil_half w ltac:(lia)) as (e & He & Ebc & Elo & Ehi). exists e.
    split; [|split; assumption]. split; [lia|]. apply (Z.pow_lt_mono_r_iff 2); [lia|lia|].
    unfold two64 in Hw. lia. }
  assert (Hep : forall ps', (last - f) mod w <> 0 -> 1 < w ->
    exists its, tr_epilogue_it 64 (bit_ceil w / 2) ps' ((last - f) mod w) = (its, Ok tt)
                /\ within ps' ((last - f) mod w) its).
  { intros ps' N0 H1. destruct (Hlo H1) as (e & He & -> & Hw2).
    assert (Es : ((last - f) mod w) mod 2 ^ (e + 1) = (last - f) mod w) by (apply Z.mod_small; lia).
    destruct (tr_epilogue_its 64 e ps' ((last - f) mod w)) as (its & E & Hi);
      [change (Z.of_nat 64) with 64; lia|rewrite Es; lia|].
    rewrite Es in Hi. eauto. }
  assert (Hc : p_match pol || (f <=? last - w) = (f + w <=? last)).
  { destruct (p_match pol); cbn [orb]; [|lia].
    assert (w <= last - f) by (apply Z.divide_pos_le; [lia|now apply Hm]). lia. }
  rewrite Hc. destruct (Z.leb_spec (f + w) last) as [Hl|Hg].
  - destruct (tr_first_its pol w f last ps ltac:(lia) Hl) as (its1 & f' & E1 & Hb & Hdv & H1).
    rewrite E1. cbn [bindP].
    assert (Emod : (last - f') mod w = (last - f) mod w).
    { destruct Hdv as [k Hk]. replace (last - f) with (last - f' + k * w) by lia.
      rewrite Z.mod_add by lia. reflexivity. }
    assert (Hmle' : (last - f') mod w <= last - f') by (apply Z.mod_le; lia).
    destruct (tr_loop_its (p_match pol) w last (loop_fuel f last) f' (adv (f' - f) ps))
      as (its2 & E2 & H2); [lia|lia| |unfold loop_fuel; lia|].
    { intros Em. replace (last - f') with ((last - f) - (f' - f)) by lia.
      apply Z.divide_sub_r; [now apply Hm|assumption]. }
    rewrite Emod in *. rewrite E2. cbn [bindP].
    set (ps2 := adv (last - (last - f) mod w - f') (adv (f' - f) ps)) in *.
    assert (X : exists its3, (if w =? 1 then retP tt
        else if p_match pol || ((last - f) mod w =? 0) then retP tt
        else tr_epilogue_it 64 (bit_ceil w / 2) ps2 ((last - f) mod w)) = (its3, Ok tt)
        /\ within ps2 ((last - f) mod w) its3).
    { destruct (Z.eqb_spec w 1); [exists []; split; [reflexivity|apply within_nil]|].
      destruct (p_match pol); cbn [orb]; [exists []; split; [reflexivity|apply within_nil]|].
      destruct (Z.eqb_spec ((last - f) mod w) 0) as [|N0];
        [exists []; split; [reflexivity|apply within_nil]|].
      apply Hep; [assumption|lia]. }
    destruct X as (its3 & E3 & H3). rewrite E3. eexists. split; [reflexivity|].
    intros lo hi j p Ej Hlo' Hhi Hj0. cbn [app].
    rewrite stays_comp_j, !stays_app, (H1 lo hi j p Ej Hlo' Hhi).
    assert (HA : stays_in lo hi j its2).
    { eapply stays_wider; [| |apply (H2 j (p + (f' - f))); now apply nth_error_adv]; lia. }
    assert (HB : stays_in lo hi j its3).
    { eapply stays_wider; [| |eapply (H3 j (p + (f' - f) + (last - (last - f) mod w - f')))].
      - lia. - lia. - unfold ps2. apply nth_error_adv. now apply nth_error_adv. }
    split.
    + intros (HC & HD & _) Ej0. specialize (HC Ej0). specialize (HD Ej0). lia.
    + intros H. split; [intros Ej0; specialize (H Ej0); specialize (Hj0 Ej0); lia|].
      split; [|tauto]. intros Ej0 Hu. specialize (H Ej0). specialize (Hj0 Ej0).
      destruct H as [HC HD]. specialize (HD Hl Hu). nia.
  - assert (N0 : (last - f) mod w = last - f) by (apply Z.mod_small; lia).
    assert (Hw1 : 1 < w) by lia. destruct (Hlo Hw1) as (e & He & Ee & _).
    assert (Hp := pow2_pos e ltac:(lia)). replace (0 <? bit_ceil w / 2) with true by lia.
    destruct (Hep ps ltac:(lia) Hw1) as (its & E & Hi). rewrite E. eexists. split; [reflexivity|].
    intros lo hi j p Ej Hlo' Hhi Hj0. cbn [app]. rewrite stays_comp_j.
    assert (HA : stays_in lo hi j its) by (eapply stays_wider; [| |apply (Hi j p Ej)]; lia).
    split.
    + intros (HC & _) Ej0. specialize (HC Ej0). split; lia.
    + intros H. split; [|assumption]. intros Ej0. specialize (H Ej0). specialize (Hj0 Ej0). lia.
Qed.

Lemma tr_const_its last fuel : forall f ps, f <= last -> (Z.to_nat (last - f) < fuel)%nat ->
  exists its, tr_const_it fuel last f ps = (its, Ok tt) /\ within ps (last - f) its.
Proof.
  induction fuel as [|fuel IH]; intros f ps Hle Hf; [lia|]. cbn [tr_const_it].
  destruct (Z.ltb_spec f last) as [Hl|Hg].
  - destruct (IH (f + 1) (adv 1 ps)) as (its & E & Hi); try lia. rewrite E. cbn [bindP tellsP].
    eexists. split; [reflexivity|]. apply within_app.
    + eapply within_more; [|apply within_chunks; lia]. lia.
    + eapply within_more; [|eapply (within_adv ps _ 1); [lia|exact Hi] ]. lia.
  - exists []. split; [reflexivity|apply within_nil].
Qed.

Lemma transform_reduce_stays_ce c pol w first last srcs2 :
  c_ce c = true -> width_ok w -> size_matches pol w first last -> first < last ->
  exists its, transform_reduce_it c pol w first last srcs2 = (its, Ok tt) /\
    forall j p, nth_error (first :: srcs2) j = Some p -> stays_in p (p + (last - first)) j its.
Proof.
  intros Hce Hw Hm Hlt. assert (Hw' : 1 <= w < two64) by exact Hw.
  unfold transform_reduce_it. replace (first =? last) with false by lia.
  rewrite no_trap by (try assumption; lia). rewrite Hce.
  apply tr_const_its; [lia|unfold loop_fuel; lia].
Qed.

(** Where the main part starts. *)
Definition main_start (c : cfg) (pol : policy) (w first last : Z) : Z :=
  match prologue_args c pol w (last - first) first with
  | None => first
  | Some (_, tp) => first + tp
  end.

Lemma transform_reduce_stays_fit c pol w first last srcs2 :
  target_ok c -> c_ce c = false -> policy_ok pol -> width_ok w -> range_ok first last ->
  size_matches pol w first last ->
  (forall maxe tp, prologue_args c pol w (last - first) first = Some (maxe, tp) -> tp < last - first) ->
  first < last ->
  let f := main_start c pol w first last in
  exists its, transform_reduce_it c pol w first last srcs2 = (its, Ok tt) /\
    forall lo hi j p, nth_error (first :: srcs2) j = Some p -> lo <= p -> p + (last - first) <= hi ->
      stays_in lo hi j its <->
      (j = 0%nat -> lo <= last - w /\
       (f + w <= last -> 1 < p_unroll pol -> lo <= last - w * p_unroll pol /\ f + w * p_unroll pol <= hi)).
Proof.
  intros Hc Hce Hpol Hw Hr Hm Hfit Hlt f.
  assert (Hw' : 1 <= w < two64) by exact Hw. destruct Hr as [Hle H64].
  change (2 ^ 64) with two64 in H64.
  assert (Hdiv : p_match pol = true -> (w | last - first)) by exact Hm.
  unfold transform_reduce_it. replace (first =? last) with false by lia.
  rewrite no_trap by (try assumption; lia). rewrite Hce. subst f. unfold main_start.
  destruct (prologue_args c pol w (last - first) first) as [ [maxe tp]|] eqn:Epa.
  - assert (Htp1 := Hfit maxe tp eq_refl).
    assert (Hpos : prologue_is_possible c w = true).
    { unfold prologue_args, use_aligned_loadstore, maybe_prologue in Epa.
      destruct (prologue_is_possible c w); [reflexivity|].
      rewrite !andb_false_r in Epa. discriminate. }
    assert (Hcfg := target_cfg c Hc).
    destruct Hcfg as [Hstd|Hfb]; [|rewrite fallback_impossible in Hpos by assumption; discriminate].
    destruct (prologue_args_std _ _ _ _ _ _ _ Hstd (proj2 Hw') Epa) as (_ & -> & Htp & _ & _).
    destruct (possible_std c w Hstd Hpos) as (J & s & HJ & Hs & EJ & Es & _).
    assert (HJ64 : J < 64).
    { apply (Z.pow_lt_mono_r_iff 2); [lia|lia|]. rewrite <- EJ. unfold two64 in Hw'. lia. }
    destruct (tr_prologue_its J tp (first :: srcs2) 65 ltac:(lia) 0) as (its1 & E1 & H1);
      [lia|change (Z.of_nat 65) with 65; lia|].
    rewrite Z.pow_0_r, <- EJ in E1. rewrite E1. cbn [bindP tellP].
    destruct (tr_body_its pol w (first + tp) last ((last - first - tp) mod two64)
                (adv tp (first :: srcs2))) as (its2 & E2 & H2); [assumption|lia| | |].
    { rewrite (Z.mod_small (last - first - tp) two64) by lia. f_equal. lia. }
    { intros Em. exfalso. destruct Hpol as (_ & Hp1 & Hp2).
      unfold prologue_args, use_aligned_loadstore, maybe_prologue in Epa.
      destruct (p_aligned pol); [rewrite Hp1 in Em by reflexivity; discriminate|].
      destruct (p_auto pol); [rewrite Hp2 in Em by reflexivity; discriminate|].
      cbn in Epa. discriminate. }
    rewrite E2. eexists. split; [reflexivity|]. intros lo hi j p Ej Hlo Hhi. cbn [app].
    rewrite stays_app, stays_cons.
    rewrite (H2 lo hi j (p + tp) (nth_error_adv tp _ _ _ Ej) ltac:(lia) ltac:(lia)).
    2:{ intros ->. cbn in Ej. injection Ej as <-. lia. }
    assert (HA : stays_in lo hi j its1) by (eapply stays_wider; [| |apply (H1 j p Ej)]; lia).
    assert (HB : stays_in lo hi j [Moved (adv tp (first :: srcs2))])
      by (apply (stays_moved _ _ j _ (p + tp)); [now apply nth_error_adv|lia]).
    tauto.
  - destruct (tr_body_its pol w first last (last - first) (first :: srcs2)) as (its & E & H);
      [assumption|lia|reflexivity|assumption|].
    rewrite E. eexists. split; [reflexivity|]. intros lo hi j p Ej Hlo Hhi.
    apply (H lo hi j p); try assumption. intros ->. cbn in Ej. now injection Ej as <-.
Qed.

Lemma transform_reduce_stays c pol w first last srcs2 :
  target_ok c -> c_ce c = false -> policy_ok pol -> width_ok w -> range_ok first last ->
  size_matches pol w first last -> prologue_room c pol w first last -> first < last ->
  let f := main_start c pol w first last in
  exists its, transform_reduce_it c pol w first last srcs2 = (its, Ok tt) /\
    forall lo hi j p, nth_error (first :: srcs2) j = Some p -> lo <= p -> p + (last - first) <= hi ->
      stays_in lo hi j its <->
      (j = 0%nat -> lo <= last - w /\
       (f + w <= last -> 1 < p_unroll pol -> lo <= last - w * p_unroll pol /\ f + w * p_unroll pol <= hi)).
Proof.
  intros Hc Hce Hpol Hw Hr Hm Hroom Hlt. apply transform_reduce_stays_fit; try assumption.
  exact (room_leaves c pol w first last Hc Hw Hr Hroom).
Qed.

Lemma plain_room c pol w first last : plain pol -> prologue_room c pol w first last.
Proof. intros [H1 H2]. split; congruence. Qed.

Lemma plain_start c pol w first last : plain pol -> main_start c pol w first last = first.
Proof.
  intros [H1 H2]. unfold main_start, prologue_args, use_aligned_loadstore, maybe_prologue.
  now rewrite H1, H2.
Qed.

(** Ranges that are a whole array. *)
Lemma for_each_whole c pol w first last :
  target_ok c -> c_ce c = false -> policy_ok pol -> width_ok w -> range_ok first last ->
  size_matches pol w first last -> reaches_alignment c pol w first last -> first < last ->
  exists its, for_each_it c pol w first last = (its, Ok tt) /\
    (stays_in first last 0 its <-> w * Z.max 1 (p_unroll pol) <= last - first).
Proof.
  intros Hc Hce Hpol Hw Hr Hm Ha Hlt.
  destruct (for_each_stays c pol w first last first last) as (its & E & H); try assumption; try lia.
  exists its. split; [exact E|]. rewrite H. unfold width_ok in Hw.
  destruct (Z.le_gt_cases (p_unroll pol) 1).
  - rewrite Z.max_l by lia. lia.
  - rewrite Z.max_r by lia. split; [intros [_ H2]; specialize (H2 ltac:(lia)); lia|]. nia.
Qed.

Lemma for_each_whole_ce c pol w first last :
  c_ce c = true -> width_ok w -> size_matches pol w first last -> first < last ->
  exists its, for_each_it c pol w first last = (its, Ok tt) /\
    (stays_in first last 0 its <-> (last - first) mod w = w - 1).
Proof.
  intros Hce Hw Hm Hlt.
  destruct (for_each_stays_ce c pol w first last first last) as (its & E & H); try assumption; try lia.
  exists its. split; [exact E|]. rewrite H. unfold width_ok in Hw.
  assert (0 <= (last - first) mod w < w) by (apply Z.mod_pos_bound; lia). lia.
Qed.

Lemma reduce_whole_plain c pol w first last srcs2 :
  target_ok c -> c_ce c = false -> plain pol -> policy_ok pol -> width_ok w -> range_ok first last ->
  size_matches pol w first last -> first < last ->
  exists its, transform_reduce_it c pol w first last srcs2 = (its, Ok tt) /\
    (stays_in first last 0 its <-> w * Z.max 1 (p_unroll pol) <= last - first).
Proof.
  intros Hc Hce Hpl Hpol Hw Hr Hm Hlt.
  destruct (transform_reduce_stays c pol w first last srcs2) as (its & E & H);
    try assumption; [now apply plain_room|].
  exists its. split; [exact E|]. rewrite (H first last 0%nat first eq_refl) by lia.
  rewrite plain_start by assumption. unfold width_ok in Hw.
  destruct (Z.le_gt_cases (p_unroll pol) 1).
  - rewrite Z.max_l by lia. lia.
  - rewrite Z.max_r by lia. split; [intros H1; specialize (H1 eq_refl)|]; nia.
Qed.

(** With an aligned prologue: the least aligned position. *)
Lemma main_start_aligned c pol w first last a :
  target_ok c -> width_ok w -> p_aligned pol = true -> 1 < w ->
  (exists e, 0 <= e /\ w * c_sz c = 2 ^ e) -> address c 0 mod c_sz c = 0 ->
  (forall k, 0 < k -> c_malign c k = bit_ceil (k * c_sz c)) ->
  first <= a -> is_aligned c a w -> (forall b, first <= b -> is_aligned c b w -> a <= b) ->
  main_start c pol w first last = a.
Proof.
  intros Hc Hw Hpal Hw1 (e & He & Ee) Hb0 Hma Hfa Ha Hmin.
  assert (Hsz : 0 < c_sz c) by (destruct Hc; lia).
  assert (Hw' : 1 <= w < two64) by exact Hw.
  assert (Hstd : cfg_std c).
  { unfold cfg_std. split; [assumption|]. split; [|assumption].
    unfold address in Hb0. rewrite Z.mul_0_l, Z.add_0_r in Hb0. exact Hb0. }
  assert (Eal : c_malign c w = w * c_sz c).
  { rewrite Hma by lia. rewrite Ee. apply bit_ceil_pow2. lia. }
  assert (Hpos : prologue_is_possible c w = true).
  { unfold prologue_is_possible. rewrite Eal, Z.mod_same by nia. nia. }
  assert (Hu : use_aligned_loadstore c pol w = true) by (unfold use_aligned_loadstore; now rewrite Hpal, Hpos).
  assert (Hmp : 0 < c_malign c w) by nia.
  unfold main_start. destruct (prologue_args c pol w (last - first) first) as [ [maxe tp]|] eqn:Epa.
  - destruct (prologue_args_std _ _ _ _ _ _ _ Hstd (proj2 Hw') Epa) as (_ & _ & Htp & Hat & Hleast).
    apply (is_aligned_at c _ w Hmp) in Ha. specialize (Hleast a Hfa Ha).
    apply (is_aligned_at c _ w Hmp) in Hat. specialize (Hmin (first + tp) ltac:(lia) Hat). lia.
  - apply (prologue_args_none_aligned c pol w _ first Hu) in Epa.
    apply (is_aligned_at c _ w Hmp) in Epa. specialize (Hmin first ltac:(lia) Epa). lia.
Qed.

Lemma reduce_stays_aligned c pol w first last srcs2 a lo hi :
  target_ok c -> c_ce c = false -> policy_ok pol -> width_ok w -> range_ok first last ->
  p_aligned pol = true -> 1 < w -> (exists e, 0 <= e /\ w * c_sz c = 2 ^ e) ->
  address c 0 mod c_sz c = 0 -> (forall k, 0 < k -> c_malign c k = bit_ceil (k * c_sz c)) ->
  first <= a < last -> is_aligned c a w -> (forall b, first <= b -> is_aligned c b w -> a <= b) ->
  lo <= first -> last <= hi ->
  exists its, transform_reduce_it c pol w first last srcs2 = (its, Ok tt) /\
    (stays_in lo hi 0 its <->
     lo <= last - w /\
     (a + w <= last -> 1 < p_unroll pol -> lo <= last - w * p_unroll pol /\ a + w * p_unroll pol <= hi)).
Proof.
  intros Hc Hce Hpol Hw Hr Hpal Hw1 He Hb0 Hma Ha Haa Hmin Hlo Hhi.
  destruct (transform_reduce_stays c pol w first last srcs2) as (its & E & H); try assumption; try lia.
  { intros Em. destruct Hpol as (_ & Hp & _). rewrite Hp in Em by assumption. discriminate. }
  { split; [intros; exists a; auto|]. intros Eau. destruct Hpol as (Hp & _).
    rewrite Hp in Eau by assumption. discriminate. }
  exists its. split; [exact E|]. rewrite (H lo hi 0%nat first eq_refl Hlo) by lia.
  rewrite (main_start_aligned c pol w first last a) by (try assumption; lia).
  split; [intros H1; exact (H1 eq_refl)|intros H1 _; exact H1].
Qed.

Lemma reduce_stays_plain c pol w first last srcs2 lo hi :
  target_ok c -> c_ce c = false -> plain pol -> policy_ok pol -> width_ok w -> range_ok first last ->
  size_matches pol w first last -> lo <= first -> first < last -> last <= hi ->
  exists its, transform_reduce_it c pol w first last srcs2 = (its, Ok tt) /\
    (stays_in lo hi 0 its <->
     lo <= last - w /\
     (first + w <= last -> 1 < p_unroll pol ->
      lo <= last - w * p_unroll pol /\ first + w * p_unroll pol <= hi)).
Proof.
  intros Hc Hce Hpl Hpol Hw Hr Hm Hlo Hlt Hhi.
  destruct (transform_reduce_stays c pol w first last srcs2) as (its & E & H);
    try assumption; [now apply plain_room|].
  exists its. split; [exact E|]. rewrite (H lo hi 0%nat first eq_refl Hlo) by lia.
  rewrite plain_start by assumption. split; [intros H1; exact (H1 eq_refl)|intros H1 _; exact H1].
Qed.

(** The iterators of the other ranges, whatever the policy. *)
Lemma transform_others c pol w first last dst srcs2 j p :
  target_ok c -> c_ce c = false -> policy_ok pol -> width_ok w -> range_ok first last ->
  size_matches pol w first last -> reaches_alignment c pol w dst (dst + (last - first)) -> first < last ->
  nth_error (dst :: srcs2) j = Some p ->
  exists its, transform_it c pol w first last dst srcs2 = (its, Ok (dst + (last - first)))
              /\ stays_in p (p + (last - first)) (S j) its.
Proof.
  intros Hc Hce Hpol Hw Hr Hm Ha Hlt Ej.
  destruct (transform_stays c pol w first last dst srcs2) as (its & E & H); try assumption.
  exists its. split; [exact E|]. apply (H _ _ (S j) p Ej); [lia|lia|discriminate].
Qed.

Lemma reduce_others c pol w first last srcs2 j p :
  target_ok c -> c_ce c = false -> policy_ok pol -> width_ok w -> range_ok first last ->
  size_matches pol w first last -> prologue_room c pol w first last -> first < last ->
  nth_error srcs2 j = Some p ->
  exists its, transform_reduce_it c pol w first last srcs2 = (its, Ok tt)
              /\ stays_in p (p + (last - first)) (S j) its.
Proof.
  intros Hc Hce Hpol Hw Hr Hm Ha Hlt Ej.
  destruct (transform_reduce_stays c pol w first last srcs2) as (its & E & H); try assumption.
  exists its. split; [exact E|]. apply (H _ _ (S j) p Ej); [lia|lia|discriminate].
Qed.
