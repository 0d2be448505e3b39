(** transform_reduce: exactly when the prologue is too long. *)
From Verif Require Import Base BaseFacts ExecModel ExecProofs ExecForEach ExecRun ExecSpec ExecThm
  TransformModel ReduceModel ReduceSpec ReduceProofs TReduceModel TReduceSpec TReduceProofs TReduceThm
  ExactSpec ExecExact.
From Coq Require Import ZifyBool ZifyNat.
Ltac Zify.zify_post_hook ::= idtac.

(** The prologue takes the whole range, or more. *)
Lemma takes_all_iff c pol w first last :
  libstdcxx_target c -> policy_ok pol -> width_ok w -> range_ok first last -> (last - first) * c_sz c < 2 ^ 64 ->
  first < last ->
  ((exists maxe tp, prologue_args c pol w (last - first) first = Some (maxe, tp) /\ last - first <= tp)
   <-> takes_all c pol w first last).
Proof.
  intros Ht Hp Hw [Hr1 Hr2] H64 Hne. unfold width_ok in Hw.
  assert (Hstd := libstdcxx_cfg c Ht). assert (Hok := libstdcxx_target_ok c Ht).
  assert (Hmp : 0 < c_malign c w) by (apply malign_pos; [now left|lia]).
  pose proof Ht as (Hsz & _ & Hmal).
  change (2 ^ 64) with two64 in *.
  split.
  - intros (maxe & tp & E & Hlt).
    destruct (prologue_args_std _ _ _ _ _ _ _ Hstd (proj2 Hw) E) as (Hpos & -> & Htp & Hal & Hleast).
    destruct (possible_std c w Hstd Hpos) as (J & s & HJ & Hs & EJ & Es & Hm).
    split; [lia|]. split; [|split].
    + exists (J + s). split; [lia|]. rewrite EJ, Es. symmetry. apply Z.pow_add_r; lia.
    + destruct (p_aligned pol) eqn:Ea; [now left|right].
      unfold prologue_args, use_aligned_loadstore, maybe_prologue in E. rewrite Ea in E. cbn [andb orb] in E.
      destruct (p_auto pol); [|discriminate]. rewrite Hpos in E. cbn [andb orb] in E. split; [reflexivity|].
      destruct (_ =? 0) in E; [discriminate|].
      rewrite (Z.mod_small ((last - first) * c_sz c)) in E by nia.
      set (tp' := (c_malign c w / c_sz c - _) mod two64) in E.
      destruct (Z.ltb_spec 4000 ((last - first) * c_sz c)); [now left|]. cbn [orb] in E.
      destruct (Z.eqb_spec (Z.land tp' (last - first)) tp') as [El|]; [|discriminate].
      assert (Etp : tp' = tp) by congruence. rewrite Etp, Z.land_comm in El.
      assert (Z.land (last - first) tp <= last - first) by (apply land_le; lia).
      right. apply is_aligned_at; [assumption|]. replace last with (first + tp) by lia. exact Hal.
    + intros a Ha Haa. apply is_aligned_at in Haa; [|assumption]. specialize (Hleast a ltac:(lia) Haa). lia.
  - intros (Hw1 & He & Hpol & Hno).
    assert (Hpos : prologue_is_possible c w = true).
    { destruct He as (e & He & Ee). unfold prologue_is_possible.
      rewrite Hmal, Ee, bit_ceil_pow2, Z.mod_same, <- Ee by (try assumption; try lia; apply Z.pow_nonzero; lia).
      destruct (Z.ltb_spec 1 w); [|lia]. cbn [Z.eqb andb]. nia. }
    assert (Hmis : (c_base c + first * c_sz c) mod c_malign c w <> 0).
    { intros E. apply (Hno first); [lia|]. apply is_aligned_at; [assumption|]. unfold aligned_at. lia. }
    set (pola := {| p_size := p_size pol; p_match := p_match pol; p_aligned := true; p_auto := p_auto pol; p_unroll := p_unroll pol |}).
    assert (Ea : exists maxe tp, prologue_args c pola w (last - first) first = Some (maxe, tp)).
    { unfold prologue_args, use_aligned_loadstore, maybe_prologue. rewrite Hpos. cbn [p_aligned pola].
      destruct (Z.eqb_spec ((c_base c + first * c_sz c) mod c_malign c w) 0) as [Hz|_]; [contradiction|].
      cbn [andb orb]. eexists _, _. reflexivity. }
    destruct Ea as (maxe & tp & Ea).
    destruct (prologue_args_std _ _ _ _ _ _ _ Hstd (proj2 Hw) Ea) as (_ & _ & Htp & Haa & Hleast).
    assert (Hge : last - first <= tp).
    { destruct (Z.lt_ge_cases tp (last - first)) as [Hlt|]; [|assumption]. exfalso.
      apply (Hno (first + tp)); [lia|]. now apply is_aligned_at. }
    exists maxe, tp. split; [|assumption].
    unfold prologue_args, use_aligned_loadstore, maybe_prologue in Ea |- *. rewrite Hpos in Ea |- *.
    cbn [p_aligned p_auto pola] in Ea.
    destruct (_ =? 0) in Ea |- *; [destruct (p_aligned pol); discriminate|].
    cbn [andb orb] in Ea. rewrite (Z.mod_small ((last - first) * c_sz c)) in * by nia.
    set (tp' := (c_malign c w / c_sz c - _) mod two64) in *.
    assert (Etp : tp' = tp) by congruence. rewrite Etp in *.
    destruct (p_aligned pol); [exact Ea|]. destruct Hpol as [|[-> H4] ]; [discriminate|]. cbn [andb orb].
    destruct (Z.ltb_spec 4000 ((last - first) * c_sz c)); [exact Ea|]. cbn [orb].
    destruct H4 as [H4|H4]; [lia|]. apply is_aligned_at in H4; [|assumption].
    specialize (Hleast last ltac:(lia) H4). replace (last - first) with tp by lia.
    rewrite Z.land_diag, Z.eqb_refl. exact Ea.
Qed.

Section Exact.
  Context {T A : Type}.
  Variables (g : list T -> A) (tr : list (list T) -> list A) (op : A -> A -> A).

  Lemma mapR_stop c (m : mem T) k ps : 0 < k ->
    (exists vs, mapR (fun p => load_chunk c m false p k) ps = Ok vs /\ length vs = length ps
                /\ Forall (fun v => Z.of_nat (length v) = k) vs)
    \/ mapR (fun p => load_chunk c m false p k) ps = Stop SUB.
  Proof.
    intros Hk. induction ps as [|p ps IH]; [left; exists []; repeat split; constructor|]. cbn [mapR].
    unfold load_chunk at 1 3. cbn [andb].
    destruct (load m p (Z.to_nat k)) as [v|] eqn:E; [|now right]. cbn [of_option bindR].
    destruct IH as [(vs & -> & Hl & HF)| ->]; [|now right]. left. exists (v :: vs). cbn [bindR].
    split; [reflexivity|]. split; [cbn; lia|]. constructor; [|assumption]. apply load_length in E. lia.
  Qed.

  Lemma ld_stop c (m : mem T) al p ps k : 0 < k -> transforms_at g tr (S (length ps)) k ->
    (exists v, ld c tr m al (p :: ps) k = Ok v /\ Z.of_nat (length v) = k) \/ ld c tr m al (p :: ps) k = Stop SUB.
  Proof.
    intros Hk Htr. cbn [ld].
    destruct (load_chunk c m al p k) as [v1|s] eqn:E1.
    - cbn [bindR]. destruct (mapR_stop c m k ps Hk) as [(vs & -> & Hl & HF)| ->]; [|now right].
      left. cbn [bindR]. eexists. split; [reflexivity|]. apply Htr; [cbn; lia|]. constructor; [|assumption].
      unfold load_chunk in E1. destruct (al && _); [discriminate|].
      destruct (load m p (Z.to_nat k)) as [v|] eqn:E; [|discriminate]. injection E1 as <-.
      apply load_length in E. lia.
    - right. destruct (load_chunk_stop c m al p k) as [[v Hv]|Hv]; rewrite Hv in E1; [discriminate|].
      injection E1 as <-. reflexivity.
  Qed.

  Lemma hreduce_ok (v : list A) : 0 < Z.of_nat (length v) < two64 -> exists x, hreduce op v = Ok x.
  Proof.
    intros Hv. destruct (reduce_gsum op v) as (x & Hx & _); [destruct v; [cbn in Hv; lia|discriminate]|apply Hv|].
    exists x. unfold hreduce. now rewrite Hx.
  Qed.

  (** The prologue either ends, or touches memory it must not; the latter for sure if there is a hole
      in the part it processes. *)
  Lemma tr_prologue_stop c (m : mem T) p ps J tp : 0 <= tp -> J < 64 ->
    (forall k, 0 < k -> transforms_at g tr (S (length ps)) k) ->
    forall fuel j acc1, 0 <= j <= J -> (Z.to_nat (J - j) < fuel)%nat ->
      tr_prologue op (ld c tr m) fuel (2 ^ j) (2 ^ J) acc1 (p :: ps) tp = Stop SUB
      \/ ((exists x, tr_prologue op (ld c tr m) fuel (2 ^ j) (2 ^ J) acc1 (p :: ps) tp = Ok x)
          /\ forall i, j <= i <= J -> Z.testbit tp i = true -> forall x,
               p + tp mod 2 ^ i <= x < p + tp mod 2 ^ i + 2 ^ i -> m x <> None).
  Proof.
    intros Htp HJ Htr. induction fuel as [|fuel IH]; intros j acc1 Hj Hf; [lia|]. cbn [tr_prologue].
    rewrite !single_bit_pow2 by lia. cbn [andb negb].
    assert (Hjp : 0 < 2 ^ j) by (apply pow2_pos; lia).
    assert (Hj64 : 2 ^ j < two64) by (change two64 with (2 ^ 64); apply Z.pow_lt_mono_r; lia).
    assert (Hstep : (exists acc2, (if Z.land tp (2 ^ j) =? 0 then Ok acc1 else
               bindR (ld c tr m true (adv (Z.land tp (2 ^ j - 1)) (p :: ps)) (2 ^ j)) (fun v =>
               bindR (hreduce op v) (fun x => Ok (op acc1 x)))) = Ok acc2
               /\ (Z.testbit tp j = true -> forall x,
                     p + tp mod 2 ^ j <= x < p + tp mod 2 ^ j + 2 ^ j -> m x <> None))
             \/ (if Z.land tp (2 ^ j) =? 0 then Ok acc1 else
               bindR (ld c tr m true (adv (Z.land tp (2 ^ j - 1)) (p :: ps)) (2 ^ j)) (fun v =>
               bindR (hreduce op v) (fun x => Ok (op acc1 x)))) = Stop SUB).
    { rewrite land_pow2 by lia. destruct (Z.testbit tp j) eqn:Eb; [destruct (Z.eqb_spec (2 ^ j) 0); [lia|]|cbn [Z.eqb]].
      - rewrite land_pred_pow2 by lia.
        cbn [adv map]. fold (adv (tp mod 2 ^ j) ps).
        destruct (ld_stop c m true (p + tp mod 2 ^ j) (adv (tp mod 2 ^ j) ps) (2 ^ j) Hjp) as [(v & Ev & Hv)| ->];
          [unfold adv; rewrite map_length; now apply Htr| |now right].
        rewrite Ev. cbn [bindR]. destruct (hreduce_ok v ltac:(lia)) as [x ->]. left. eexists.
        split; [reflexivity|]. intros _ y Hy Hn.
        cbn [ld] in Ev. rewrite (load_chunk_hole c m true _ _ y Hn Hy) in Ev. discriminate.
      - left. eexists. split; [reflexivity|]. discriminate. }
    destruct Hstep as [(acc2 & -> & Hh)| ->]; [|now left]. cbn [bindR].
    destruct (Z.ltb_spec (2 ^ j) (2 ^ J)) as [Hlt|Hge].
    - assert (j < J) by (apply (Z.pow_lt_mono_r_iff 2); lia).
      replace (2 ^ j * 2) with (2 ^ (j + 1)) by (rewrite Z.pow_add_r; lia).
      destruct (IH (j + 1) acc2) as [E|(E & Hm)]; [lia|lia|now left|right].
      split; [assumption|]. intros i Hi Eb. destruct (Z.eq_dec i j) as [->|]; [now apply Hh|].
      apply Hm; [lia|assumption].
    - assert (j = J) as ->. { destruct (Z.eq_dec j J); [assumption|]. assert (2 ^ j < 2 ^ J) by (apply Z.pow_lt_mono_r; lia). lia. }
      right. split; [eauto|]. intros i Hi Eb. assert (i = J) by lia. subst i. now apply Hh.
  Qed.

  (** Every position below [tp] belongs to one of the chunks. *)
  Lemma bit_chunk tp x : 0 <= x < tp -> forall J : nat, tp < 2 ^ Z.of_nat J ->
    exists i, 0 <= i < Z.of_nat J /\ Z.testbit tp i = true /\ tp mod 2 ^ i <= x < tp mod 2 ^ i + 2 ^ i.
  Proof.
    intros Hx J. 
    assert (H : forall J : nat, x < tp mod 2 ^ Z.of_nat J ->
      exists i, 0 <= i < Z.of_nat J /\ Z.testbit tp i = true /\ tp mod 2 ^ i <= x < tp mod 2 ^ i + 2 ^ i).
    { induction J0 as [|n IH]; intros Hlt; [cbn in Hlt; rewrite Z.mod_1_r in Hlt; lia|].
      rewrite Nat2Z.inj_succ, <- Z.add_1_r, mod_pow2_split in Hlt by lia.
      destruct (Z.lt_ge_cases x (tp mod 2 ^ Z.of_nat n)) as [H1|H1].
      - destruct (IH H1) as (i & Hi & Hr). exists i. split; [lia|assumption].
      - exists (Z.of_nat n). split; [lia|]. destruct (Z.testbit tp (Z.of_nat n)); [|lia].
        split; [reflexivity|]. lia. }
    intros HJ. apply H. rewrite Z.mod_small by lia. lia.
  Qed.

  Lemma tr_body_nothing c (m : mem T) pol w al acc1 first last ps : 1 < w < two64 -> p_match pol = false ->
    last < first + w -> tr_body op (ld c tr m) pol w al acc1 first last 0 ps = Stop SUB.
  Proof.
    intros Hw Hm Hl. unfold tr_body. rewrite Hm. cbn [orb].
    destruct (Z.leb_spec first (last - w)); [lia|]. rewrite Z.mod_0_l by lia.
    destruct (bit_ceil_half w ltac:(lia)) as (e & He & -> & _).
    pose proof (pow2_pos e ltac:(lia)). destruct (Z.ltb_spec 0 (2 ^ e)); [|lia].
    change 64%nat with (S 63). cbn [tr_epilogue]. rewrite single_bit_pow2 by lia. reflexivity.
  Qed.

  Lemma transform_reduce_takes_all c pol w first last srcs2 (m : mem T) init maxe tp :
    libstdcxx_target c -> c_ce c = false -> policy_ok pol -> width_ok w -> range_ok first last -> first < last ->
    m last = None -> (forall k, 0 < k -> transforms_at g tr (S (length srcs2)) k) ->
    prologue_args c pol w (last - first) first = Some (maxe, tp) -> last - first <= tp ->
    transform_reduce c op tr m pol w first last srcs2 init = Stop SUB.
  Proof.
    intros Ht Hce Hpol Hw [Hle H64] Hne Hhole Htr Epa Hge. unfold width_ok in Hw. change (2 ^ 64) with two64 in *.
    assert (Hstd := libstdcxx_cfg c Ht).
    destruct (prologue_args_std _ _ _ _ _ _ _ Hstd (proj2 Hw) Epa) as (Hpos & -> & Htp & Hal & Hleast).
    destruct (possible_std c w Hstd Hpos) as (J & s & HJ & Hs & EJ & Es & Hm).
    assert (Hpm : p_match pol = false).
    { destruct Hpol as (_ & Hp1 & Hp2). unfold prologue_args, use_aligned_loadstore, maybe_prologue in Epa.
      destruct (p_aligned pol); [auto|]. destruct (p_auto pol); [auto|discriminate]. }
    assert (HJ64 : J < 64) by (apply pow2_lt_inv; [lia|]; change (2 ^ 64) with two64; lia).
    unfold transform_reduce, transform_reduce_on. destruct (Z.eqb_spec first last); [lia|]. rewrite Hpm, Hce, Epa. cbn [andb].
    destruct (tr_prologue_stop c m first srcs2 J tp ltac:(lia) HJ64 Htr 65 0 init ltac:(lia) ltac:(lia))
      as [E|((x & E) & Hmap)]; change (2 ^ 0) with 1 in E; rewrite <- EJ in E; rewrite E; [reflexivity|].
    cbn [bindR]. destruct (Z.eq_dec tp (last - first)) as [Eq|Hneq].
    - replace (last - first - tp) with 0 by lia. rewrite Z.mod_0_l by (unfold two64; lia).
      apply tr_body_nothing; [|assumption|lia]. lia.
    - exfalso. destruct (bit_chunk tp (last - first) ltac:(lia) (Z.to_nat J)) as (i & Hi & Hb & Hx).
      { rewrite Z2Nat.id by lia. lia. }
      apply (Hmap i ltac:(lia) Hb last); [lia|assumption].
  Qed.

  (** Whether the prologue leaves something decides. *)
  Lemma transform_reduce_inside_iff c pol w first last srcs2 (m : mem T) vals init :
    libstdcxx_target c -> c_ce c = false -> policy_ok pol -> width_ok w -> range_ok first last ->
    (last - first) * c_sz c < 2 ^ 64 -> size_matches pol w first last -> first < last -> m last = None ->
    (forall k, 0 < k -> transforms_at g tr (S (length srcs2)) k) ->
    transformed_are g m (first :: srcs2) (last - first) vals ->
    (takes_all c pol w first last -> transform_reduce c op tr m pol w first last srcs2 init = Stop SUB)
    /\ (~ takes_all c pol w first last ->
        exists x, transform_reduce c op tr m pol w first last srcs2 init = Ok x /\ gsum op (init :: vals) x).
  Proof.
    intros Ht Hce Hpol Hw Hr H64 Hm Hne Hhole Htr Hv.
    pose proof (takes_all_iff c pol w first last Ht Hpol Hw Hr H64 Hne) as Hiff. split; intros H.
    - apply Hiff in H. destruct H as (maxe & tp & Epa & Hge).
      now apply (transform_reduce_takes_all c pol w first last srcs2 m init maxe tp).
    - apply (transform_reduce_fit g); try assumption; [now apply libstdcxx_target_ok| |].
      + intros maxe tp Epa. destruct (Z.lt_ge_cases tp (last - first)); [assumption|]. exfalso. apply H, Hiff. eauto.
      + intros k Hk _. now apply Htr.
  Qed.
End Exact.
