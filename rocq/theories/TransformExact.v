(** transform: exactly when the prologue leaves the output range. *)
From Verif Require Import Base BaseFacts ExecModel ExecProofs ExecForEach ExecRun ExecSpec ExecThm ExactSpec ExecExact
  TransformModel TransformSpec TransformProofs TransformThm.
From Coq Require Import ZifyBool ZifyNat.
Ltac Zify.zify_post_hook ::= idtac.

Lemma adv_0 l : adv 0 l = l.
Proof. unfold adv. rewrite <- (map_id l) at 2. apply map_ext. intros; lia. Qed.

(** As [transform_rt_steps], from the number of elements the prologue takes. *)
Lemma transform_rt_steps_fit c pol w first last dst S2 :
  cfg_ok c -> pol_ok pol -> 1 <= w < two64 -> first <= last -> last - first < two64 ->
  (p_match pol = true -> (w | last - first)) ->
  (forall maxe tp, prologue_args c pol w (last - first) dst = Some (maxe, tp) -> tp <= last - first) ->
  exists l, transform_rt c pol w first last dst S2
            = (map (ev first dst S2) l, Ok (dst + (last - first)))
    /\ tiles first last l /\ Forall (call_aligned (shift_cfg first dst c)) l.
Proof.
  intros Hc Hpol Hw Hle H64 Hmatch Hfit. set (c' := shift_cfg first dst c).
  destruct (for_each_rt_calls_fit c' pol w first last) as (l & E & HT & HA & _);
    try assumption; [now apply shift_cfg_ok|unfold c'; intros maxe tp; rewrite shift_prologue_args; apply Hfit|].
  exists l. split; [|auto]. unfold transform_rt. rewrite <- shift_prologue_args with (F := first) in Hfit |- *.
  fold c' in Hfit |- *. unfold for_each_rt in E.
  destruct (prologue_args c' pol w (last - first) first) as [[maxe tp]|] eqn:Epa.
  - assert (Htple := Hfit maxe tp eq_refl).
    assert (Hpos : prologue_is_possible c' w = true).
    { unfold prologue_args, use_aligned_loadstore, maybe_prologue in Epa.
      destruct (prologue_is_possible c' w); [reflexivity|].
      rewrite !andb_false_r in Epa. discriminate. }
    assert (Hc' : cfg_ok c') by now apply shift_cfg_ok.
    destruct Hc' as [Hstd|Hfb];
      [|rewrite fallback_impossible in Hpos by assumption; discriminate].
    destruct (prologue_args_std _ _ _ _ _ _ _ Hstd (proj2 Hw) Epa) as (_ & -> & Htp & Hal & Hleast).
    assert (HPS := prologue_steps first dst S2 c' w tp 64 1 first eq_refl ltac:(lia)).
    rewrite Z.sub_diag, Z.add_0_r, adv_0 in HPS. rewrite HPS. rewrite <- (at_pos_start first dst S2).
    destruct (transform_body_steps first dst S2 c c' pol w (first + tp) last
                ((last - first - tp) mod two64)) as (l' & E' & Et);
      [reflexivity|reflexivity|assumption|lia| | |].
    { rewrite (Z.mod_small (last - first - tp) two64) by lia. f_equal. lia. }
    { intros Em. exfalso. destruct Hpol as (Hp1 & Hp2 & _).
      unfold prologue_args, use_aligned_loadstore, maybe_prologue in Epa.
      destruct (p_aligned pol); [rewrite Hp1 in Em by reflexivity; discriminate|].
      destruct (p_auto pol); [rewrite Hp2 in Em by reflexivity; discriminate|].
      cbn in Epa. discriminate. }
    rewrite advance_at. rewrite Et. rewrite E' in E.
    destruct (for_each_prologue 64 c' 1 w first tp) as [lp [[]|s]]; unfold bindW in E; cbn beta iota in E.
    + injection E as <-. unfold mapWT, bindT. cbn [fst snd map_res]. now rewrite map_app.
    + discriminate.
  - rewrite <- (at_pos_start first dst S2).
    destruct (transform_body_steps first dst S2 c c' pol w first last (last - first)) as (l' & E' & Et);
      try assumption; try reflexivity.
    rewrite Et. rewrite E' in E. injection E as <-. reflexivity.
Qed.

(** ** A store where there is nothing *)
Section Hole.
  Context {T : Type} (op : list T -> T) (opv : list (list T) -> list T).

  Lemma mapR_load_stop (m : mem T) k srcs :
    (exists chunks, mapR (fun p => of_option (load m p k)) srcs = Ok chunks
                    /\ length chunks = length srcs /\ Forall (fun ch => length ch = k) chunks)
    \/ mapR (fun p => of_option (load m p k)) srcs = Stop SUB.
  Proof.
    induction srcs as [|p srcs IH]; [left; exists []; now repeat split|]. cbn [mapR].
    destruct (load m p k) as [ch|] eqn:E; [|now right]. cbn [of_option bindR].
    destruct IH as [(chunks & -> & Hl & HF)| ->]; [|now right]. cbn [bindR]. left. eexists. split; [reflexivity|].
    split; [cbn; congruence|]. constructor; [|assumption]. now apply load_length in E.
  Qed.

  Lemma invoke_all_stop (m : mem T) k : lanewise_op op opv -> forall n srcs, srcs <> [] ->
    (exists rs, invoke_all opv m srcs k n = Ok rs /\ map (@length T) rs = repeat (Z.to_nat k) n)
    \/ invoke_all opv m srcs k n = Stop SUB.
  Proof.
    intros Hop. induction n as [|n IH]; intros srcs Hne; [left; now exists []|]. cbn [invoke_all]. unfold invoke_at.
    destruct (mapR_load_stop m (Z.to_nat k) srcs) as [(chunks & -> & Hl & HF)| ->]; [|now right]. cbn [bindR].
    assert (Hlen : length (opv chunks) = Z.to_nat k).
    { apply (Hop (Z.to_nat k) chunks); [|assumption]. intros ->. destruct srcs; [contradiction|discriminate]. }
    destruct (IH (adv k srcs)) as [(rs & -> & Hrs)| ->]; [destruct srcs; [contradiction|discriminate]| |now right].
    cbn [bindR]. left. eexists. split; [reflexivity|]. cbn. now rewrite Hlen, Hrs.
  Qed.

  Lemma store_none (m : mem T) x : m x = None -> forall l p, p <= x < p + Z.of_nat (length l) -> store m p l = None.
  Proof.
    intros Hx l p Hr. destruct (store m p l) as [m'|] eqn:E; [|reflexivity]. exfalso.
    assert (H : nth_error l (Z.to_nat (x - p)) <> None) by (apply nth_error_Some; lia).
    rewrite <- (load_nth _ _ _ _ (store_load _ _ _ _ E)) in H by lia.
    replace (p + Z.of_nat (Z.to_nat (x - p))) with x in H by lia. now apply H, (store_defined _ _ _ _ E).
  Qed.

  Lemma store_chunks_covers c al k x : 0 < k -> forall n rs (m : mem T) pos, m x = None ->
    map (@length T) rs = repeat (Z.to_nat k) n -> pos <= x < pos + k * Z.of_nat n ->
    store_chunks c m al pos k rs = Stop SUB.
  Proof.
    intros Hk. induction n as [|n IH]; intros rs m pos Hx Hsh Hr; [lia|].
    destruct rs as [|v rs]; [discriminate|]. cbn in Hsh. injection Hsh as Hv Hrs. cbn [store_chunks]. unfold store_chunk.
    destruct (al && _); [reflexivity|]. destruct (Z.lt_ge_cases x (pos + k)) as [Hlt|Hge].
    - rewrite (store_none m x Hx v pos) by lia. reflexivity.
    - destruct (store m pos v) as [m'|] eqn:E; [|reflexivity]. cbn [of_option bindR].
      apply (IH rs m'); [now apply (store_defined _ _ _ _ E)|assumption|lia].
  Qed.

  Lemma run_steps_hole c F D S2 : lanewise_op op opv -> forall l tail x, Forall (fun k => 0 < k_k k) l ->
    (exists k, In k l /\ covers x k) -> forall m : mem T, m (D + (x - F)) = None ->
    run_steps opv c m (map (ev F D S2) l ++ tail) = Stop SUB.
  Proof.
    intros Hop. induction l as [|k l IH]; intros tail x Hpos (k' & Hin & Hc) m Hx; [destruct Hin|].
    inversion Hpos as [|? ? Hk HF]; subst. cbn [map app run_steps]. unfold run_step. cbn [ev t_srcs t_k t_n t_al t_dst].
    destruct (invoke_all_stop m (k_k k) Hop (k_n k) (k_pos k :: adv (k_pos k - F) S2) ltac:(discriminate))
      as [(rs & -> & Hrs)| ->]; [|reflexivity]. cbn [bindR].
    destruct Hin as [->|Hin].
    - unfold covers in Hc.
      now rewrite (store_chunks_covers c (k_al k') (k_k k') (D + (x - F)) Hk (k_n k') rs m) by (try assumption; lia).
    - destruct (store_chunks_hole (T := T) c (k_al k) (k_k k) (D + (x - F)) rs m (D + (k_pos k - F)) Hx)
        as [(m' & -> & Hx')| ->]; [|reflexivity]. cbn [bindR]. apply (IH tail x); [assumption|now exists k'|assumption].
  Qed.

  Lemma tiles_positive a b l : tiles a b l -> Forall (fun k => 0 < k_k k) l.
  Proof. induction 1; constructor; [cbn; lia|assumption]. Qed.

  Lemma transform_overrun c pol w first last dst srcs2 (m : mem T) :
    libstdcxx_target c -> c_ce c = false -> policy_ok pol -> width_ok w -> range_ok first last ->
    (last - first) * c_sz c < 2 ^ 64 -> first < last -> lanewise_op op opv ->
    aligns c pol w dst (dst + (last - first)) -> no_aligned_address c w dst (dst + (last - first)) ->
    m (dst + (last - first)) = None ->
    run_transform opv c pol w first last dst srcs2 m = Stop SUB.
  Proof.
    intros Ht Hce Hp Hw [Hr1 Hr2] H64 Hlt Hop Ha Hno Hlast.
    assert (Hr' : range_ok dst (dst + (last - first))) by (split; lia).
    assert (H64' : (dst + (last - first) - dst) * c_sz c < 2 ^ 64).
    { replace (dst + (last - first) - dst) with (last - first) by lia. exact H64. }
    destruct (proj2 (overrun_iff c pol w dst _ Ht Hp Hw Hr' H64') (conj Ha Hno)) as (maxe & tp & E & Hov).
    replace (dst + (last - first) - dst) with (last - first) in E, Hov by lia.
    unfold width_ok in Hw. change (2 ^ 64) with two64 in *. assert (Hstd := libstdcxx_cfg c Ht).
    set (c' := shift_cfg first dst c).
    assert (Hstd' : cfg_std c').
    { destruct Hstd as (H1 & H2 & H3). unfold c', cfg_std, shift_cfg; cbn. repeat split; try assumption.
      rewrite Z.mod_add by lia. assumption. }
    assert (E' := E). rewrite <- shift_prologue_args with (F := first) in E'. fold c' in E'.
    destruct (prologue_args_std _ _ _ _ _ _ _ Hstd' (proj2 Hw) E') as (Hpos & -> & Htp & Hal & Hleast).
    destruct (possible_std c' w Hstd' Hpos) as (J & s & HJ & Hs & EJ & Es & Hm).
    assert (HJ64 : J < 64) by (apply pow2_lt_inv; [lia|]; rewrite <- EJ; exact (proj2 Hw)).
    destruct (for_each_prologue_ok c' J 64 0 first tp) as (lp & Ep & Hasc); [lia|lia|lia|lia|].
    change (2 ^ 0) with 1 in Ep, Hasc. rewrite Z.div_1_r, Z.mul_1_l in Hasc. rewrite <- EJ in Ep.
    assert (Em : p_match pol = false).
    { destruct Hp as (_ & H1 & H2), Ha as (_ & _ & [Hx|[Hx _] ]); auto. }
    assert (HPS := prologue_steps first dst srcs2 c' w tp 64 1 first eq_refl ltac:(lia)).
    rewrite Z.sub_diag, Z.add_0_r, adv_0, Ep in HPS. unfold mapWT in HPS. cbn [fst snd map_res] in HPS.
    assert (Etr : exists tail r, transform c pol w first last dst srcs2 = (map (ev first dst srcs2) lp ++ tail, r)).
    { unfold transform. destruct (Z.eqb_spec first last); [lia|]. rewrite Em, Hce. cbn [andb]. unfold transform_rt.
      rewrite E, HPS. unfold bindT.
      destruct (transform_body c pol w last ((last - first - tp) mod two64) (advance tp (first, dst, srcs2))) as [l r].
      eauto. }
    destruct Etr as (tail & r & Etr). unfold run_transform. rewrite Etr.
    assert (HT := asc_tiles _ _ _ _ _ Hasc).
    rewrite (run_steps_hole c first dst srcs2 Hop lp tail last); [reflexivity| | |exact Hlast].
    - exact (tiles_positive _ _ _ HT).
    - destruct (tiles_cover first (first + tp) lp last HT) as (k & Hk & Hc); [lia|]. eauto.
  Qed.

  Lemma transform_fit c pol w first last dst srcs2 (m : mem T) :
    libstdcxx_target c -> c_ce c = false -> policy_ok pol -> width_ok w -> range_ok first last ->
    (last - first) * c_sz c < 2 ^ 64 -> size_matches pol w first last -> lanewise_op op opv ->
    Forall (fun p => mapped m p (p + (last - first))) (dst :: first :: srcs2) ->
    no_clobber dst (last - first) (first :: srcs2) ->
    (first = last \/ ~ (aligns c pol w dst (dst + (last - first))
                        /\ no_aligned_address c w dst (dst + (last - first)))) ->
    exists m', run_transform opv c pol w first last dst srcs2 m = Ok (m', dst + (last - first))
               /\ transformed op (first :: srcs2) dst (last - first) m m'.
  Proof.
    intros Ht Hce Hp Hw Hr H64 Hs Hop Hm Hnc Hn. destruct Hr as [Hr1 Hr2].
    destruct (Z.eq_dec first last) as [<-|Hne]; [apply run_empty|]. destruct Hn as [|Hn]; [contradiction|].
    assert (Hmd : p_match pol = true -> (w | last - first)).
    { intros Em. destruct (Hs Em) as [n Hn']. exists n. exact Hn'. }
    destruct (transform_rt_steps_fit c pol w first last dst srcs2) as (l & E & HT & HA);
      try assumption; [left; now apply libstdcxx_cfg|now apply policy_pol| |].
    { intros maxe tp E. destruct (Z.le_gt_cases tp (last - first)) as [|Hgt]; [assumption|]. exfalso. apply Hn.
      apply overrun_iff; try assumption; [split; lia| |].
      - replace (dst + (last - first) - dst) with (last - first) by lia. exact H64.
      - exists maxe, tp. replace (dst + (last - first) - dst) with (last - first) by lia. split; [assumption|lia]. }
    apply (run_all op opv c w pol first last dst srcs2 m l); try assumption.
    unfold transform. rewrite Hce. destruct (Z.eqb_spec first last) as [|_]; [contradiction|].
    destruct (p_match pol) eqn:Em; cbn [andb]; [|exact E].
    unfold width_ok in Hw. rewrite (proj2 (Z.mod_divide (last - first) w ltac:(lia))) by (now apply Hmd).
    exact E.
  Qed.

  Theorem transform_inside_iff c pol w first last dst srcs2 (m : mem T) :
    libstdcxx_target c -> c_ce c = false -> policy_ok pol -> width_ok w -> range_ok first last ->
    (last - first) * c_sz c < 2 ^ 64 -> size_matches pol w first last -> lanewise_op op opv ->
    Forall (fun p => mapped m p (p + (last - first))) (dst :: first :: srcs2) ->
    no_clobber dst (last - first) (first :: srcs2) -> m (dst + (last - first)) = None ->
    ((exists m', run_transform opv c pol w first last dst srcs2 m = Ok (m', dst + (last - first))
                 /\ transformed op (first :: srcs2) dst (last - first) m m')
       <-> first = last \/ ~ (aligns c pol w dst (dst + (last - first))
                              /\ no_aligned_address c w dst (dst + (last - first))))
    /\ ((exists r, run_transform opv c pol w first last dst srcs2 m = Ok r)
        \/ run_transform opv c pol w first last dst srcs2 m = Stop SUB).
  Proof.
    intros Ht Hce Hp Hw Hr H64 Hs Hop Hm Hnc Hend.
    assert (Hfit := transform_fit c pol w first last dst srcs2 m Ht Hce Hp Hw Hr H64 Hs Hop Hm Hnc).
    destruct (Z.eq_dec first last) as [E|N].
    - destruct (Hfit (or_introl E)) as (m' & Em & Hm'). rewrite Em.
      split; [split; [now left|eauto]|left; eauto].
    - assert (Hlt : first < last) by (destruct Hr; lia).
      assert (Hov := transform_overrun c pol w first last dst srcs2 m Ht Hce Hp Hw Hr H64 Hlt Hop).
      assert (Hi : (exists maxe tp, prologue_args c pol w (last - first) dst = Some (maxe, tp) /\ last - first < tp)
                   <-> aligns c pol w dst (dst + (last - first)) /\ no_aligned_address c w dst (dst + (last - first))).
      { assert (Hr' : range_ok dst (dst + (last - first))) by (destruct Hr; split; lia).
        pose proof (overrun_iff c pol w dst (dst + (last - first)) Ht Hp Hw Hr') as Ho.
        replace (dst + (last - first) - dst) with (last - first) in Ho by lia. now apply Ho. }
      assert (D : (exists maxe tp, prologue_args c pol w (last - first) dst = Some (maxe, tp) /\ last - first < tp)
                  \/ ~ (exists maxe tp, prologue_args c pol w (last - first) dst = Some (maxe, tp) /\ last - first < tp)).
      { destruct (prologue_args c pol w (last - first) dst) as [[maxe tp]|].
        - destruct (Z.lt_ge_cases (last - first) tp) as [H|H]; [left; eauto|right].
          intros (x & y & E' & Hx). injection E' as <- <-. lia.
        - right. intros (x & y & E' & Hx). discriminate. }
      rewrite Hi in D. destruct D as [[D1 D2]|D].
      + rewrite (Hov D1 D2 Hend). split; [|now right].
        split; [intros (m' & Hx & _); discriminate|]. intros [|Hx]; [contradiction|]. now destruct Hx.
      + destruct (Hfit (or_intror D)) as (m' & Em & Hm'). rewrite Em. split; [|left; eauto].
        split; [intros _; now right|eauto].
  Qed.
End Hole.
