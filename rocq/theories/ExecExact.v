(** for_each: exactly when the prologue leaves the range, and what constant evaluation does for
    vectors of two elements. *)
From Verif Require Import Base BaseFacts ExecModel ExecProofs ExecForEach ExecRun ExecSpec ExecThm ExactSpec.
From Coq Require Import ZifyBool ZifyNat.
Ltac Zify.zify_post_hook ::= idtac.

Lemma libstdcxx_cfg c : libstdcxx_target c -> cfg_std c.
Proof.
  intros (H0 & H1 & H2). repeat split; try assumption. unfold address in H1. now rewrite Z.mul_0_l, Z.add_0_r in H1.
Qed.

Lemma libstdcxx_target_ok c : libstdcxx_target c -> target_ok c.
Proof. intros (H0 & H1 & H2). split; [assumption|]. left. now split. Qed.

Lemma aligns_possible c pol w first last : libstdcxx_target c -> aligns c pol w first last ->
  prologue_is_possible c w = true.
Proof.
  intros (H0 & _ & Hm) (Hw & (e & He & E) & _). unfold prologue_is_possible.
  rewrite Hm, E, bit_ceil_pow2, Z.mod_same, <- E by (try assumption; try lia; apply Z.pow_nonzero; lia).
  destruct (Z.ltb_spec 1 w); [|lia]. cbn [Z.eqb andb]. nia.
Qed.

(** The prologue takes more than there is exactly if the aligned address is out of reach. *)
Lemma overrun_iff c pol w first last :
  libstdcxx_target c -> policy_ok pol -> width_ok w -> range_ok first last -> (last - first) * c_sz c < 2 ^ 64 ->
  ((exists maxe tp, prologue_args c pol w (last - first) first = Some (maxe, tp) /\ last - first < tp)
   <-> aligns c pol w first last /\ no_aligned_address c w first last).
Proof.
  intros Ht Hp Hw [Hr1 Hr2] H64. unfold width_ok in Hw.
  assert (Hstd := libstdcxx_cfg c Ht). assert (Hok := libstdcxx_target_ok c Ht).
  assert (Hmp : 0 < c_malign c w) by (apply malign_pos; [now left|lia]).
  pose proof Ht as (Hsz & _ & _).
  change (2 ^ 64) with two64 in *.
  split.
  - intros (maxe & tp & E & Hlt).
    destruct (prologue_args_std _ _ _ _ _ _ _ Hstd (proj2 Hw) E) as (Hpos & -> & Htp & Hal & Hleast).
    destruct (possible_std c w Hstd Hpos) as (J & s & HJ & Hs & EJ & Es & Hm).
    split; [split; [lia|]; split|].
    + exists (J + s). split; [lia|]. rewrite EJ, Es. symmetry. apply Z.pow_add_r; lia.
    + destruct (p_aligned pol) eqn:Ea; [now left|right].
      unfold prologue_args, use_aligned_loadstore, maybe_prologue in E. rewrite Ea in E. cbn [andb orb] in E.
      destruct (p_auto pol); [|discriminate]. rewrite Hpos in E. cbn [andb orb] in E. split; [reflexivity|].
      destruct (_ =? 0) in E; [discriminate|].
      rewrite (Z.mod_small ((last - first) * c_sz c)) in E by nia.
      set (tp' := (c_malign c w / c_sz c - _) mod two64) in E.
      destruct (Z.ltb_spec 4000 ((last - first) * c_sz c)); [assumption|]. cbn [orb] in E.
      destruct (Z.eqb_spec (Z.land tp' (last - first)) tp') as [El|]; [|discriminate].
      injection E as _ <-. rewrite Z.land_comm in El.
      assert (Z.land (last - first) tp' <= last - first) by (apply land_le; lia). lia.
    + intros a Ha Haa. apply is_aligned_at in Haa; [|assumption]. specialize (Hleast a ltac:(lia) Haa). lia.
  - intros [Hal Hno]. pose proof (aligns_possible c pol w first last Ht Hal) as Hpos.
    assert (E : exists maxe tp, prologue_args c pol w (last - first) first = Some (maxe, tp)).
    { assert (Hmis : (c_base c + first * c_sz c) mod c_malign c w <> 0).
      { intros E. apply (Hno first); [lia|]. apply is_aligned_at; [assumption|]. unfold aligned_at. lia. }
      destruct Hal as (_ & _ & Hpol). unfold prologue_args, use_aligned_loadstore, maybe_prologue. rewrite Hpos.
      rewrite !andb_true_r.
      destruct (Z.eqb_spec ((c_base c + first * c_sz c) mod c_malign c w) 0) as [Hz|_]; [contradiction|].
      destruct (p_aligned pol); [cbn [orb]; eauto|]. destruct Hpol as [|[-> H4] ]; [discriminate|]. cbn [orb].
      rewrite (Z.mod_small ((last - first) * c_sz c)) by nia.
      destruct (Z.ltb_spec 4000 ((last - first) * c_sz c)); [|lia]. cbn [orb]. eauto. }
    destruct E as (maxe & tp & E). exists maxe, tp. split; [assumption|].
    destruct (prologue_args_std _ _ _ _ _ _ _ Hstd (proj2 Hw) E) as (_ & -> & Htp & Haa & _).
    destruct (Z.lt_ge_cases (last - first) tp) as [|Hge]; [assumption|]. exfalso.
    apply (Hno (first + tp)); [lia|]. now apply is_aligned_at.
Qed.

(** ** Calls that touch an address where there is nothing *)
Definition covers (x : Z) (k : call) : Prop := k_pos k <= x < k_pos k + k_k k * Z.of_nat (k_n k).

Lemma tiles_cover a b l x : tiles a b l -> a <= x < b -> exists k, In k l /\ covers x k.
Proof.
  induction 1 as [a|a b k n al l Hk Hn HT IH]; intros Hx; [lia|].
  destruct (Z.lt_ge_cases x (a + k * Z.of_nat n)) as [Hlt|Hge].
  - eexists. split; [now left|]. unfold covers. cbn. lia.
  - destruct IH as (c & Hc & Hcov); [lia|]. exists c. split; [now right|assumption].
Qed.

Section Hole.
  Context {T St : Type} (f : St -> list (list T) -> St * list (list T)).

  Lemma load_chunk_hole c (m : mem T) al pos k x : m x = None -> pos <= x < pos + k ->
    load_chunk c m al pos k = Stop SUB.
  Proof.
    intros Hx Hr. unfold load_chunk. destruct (al && _); [reflexivity|].
    destruct (load m pos (Z.to_nat k)) as [l|] eqn:E; [|reflexivity].
    exfalso. apply (load_defined _ _ _ _ E x); [lia|assumption].
  Qed.

  Lemma load_chunk_stop c (m : mem T) al pos k :
    (exists v, load_chunk c m al pos k = Ok v) \/ load_chunk c m al pos k = Stop SUB.
  Proof.
    unfold load_chunk. destruct (al && _); [now right|]. destruct (load m pos (Z.to_nat k)); [left; eexists; reflexivity|now right].
  Qed.

  Lemma load_chunks_stop c (m : mem T) al k n : forall pos,
    (exists v, load_chunks c m al pos k n = Ok v) \/ load_chunks c m al pos k n = Stop SUB.
  Proof.
    induction n as [|n IH]; intros pos; [left; now exists []|]. cbn [load_chunks].
    destruct (load_chunk_stop c m al pos k) as [[v ->]| ->]; [|now right]. cbn [bindR].
    destruct (IH (pos + k)) as [[vs ->]| ->]; [|now right]. cbn [bindR]. left. eauto.
  Qed.

  Lemma load_chunks_hole c (m : mem T) al k x : m x = None -> forall n pos,
    pos <= x < pos + k * Z.of_nat n -> load_chunks c m al pos k n = Stop SUB.
  Proof.
    intros Hx. induction n as [|n IH]; intros pos Hr; [lia|]. cbn [load_chunks].
    destruct (Z.lt_ge_cases x (pos + k)) as [Hlt|Hge].
    - now rewrite (load_chunk_hole c m al pos k x Hx) by lia.
    - destruct (load_chunk_stop c m al pos k) as [[v ->]| ->]; [|reflexivity]. cbn [bindR].
      now rewrite IH by lia.
  Qed.

  Lemma store_chunks_hole c al k x vs : forall (m : mem T) pos, m x = None ->
    (exists m', store_chunks c m al pos k vs = Ok m' /\ m' x = None) \/ store_chunks c m al pos k vs = Stop SUB.
  Proof.
    induction vs as [|v vs IH]; intros m pos Hx; [left; now exists m|]. cbn [store_chunks]. unfold store_chunk.
    destruct (al && _); [now right|]. destruct (store m pos v) as [m'|] eqn:E; [|now right]. cbn [of_option bindR].
    apply IH. now apply (store_defined _ _ _ _ E).
  Qed.

  Lemma invoke_hole c wb s k x : s_mem s x = None ->
    (exists s', load_and_invoke f c wb s k = Ok s' /\ s_mem s' x = None) \/ load_and_invoke f c wb s k = Stop SUB.
  Proof.
    intros Hx. unfold load_and_invoke.
    destruct (load_chunks_stop c (s_mem s) (k_al k) (k_k k) (k_n k) (k_pos k)) as [[ch ->]| ->]; [|now right].
    cbn [bindR]. destruct (f (s_st s) ch) as [st' out]. destruct wb; cbn [bindR].
    - destruct (store_chunks_hole c (k_al k) (k_k k) x out (s_mem s) (k_pos k) Hx) as [(m' & -> & Hm')| ->]; [|now right].
      cbn [bindR]. left. eexists. split; [reflexivity|]. exact Hm'.
    - left. eexists. split; [reflexivity|]. exact Hx.
  Qed.

  Lemma run_calls_hole c wb x l : (exists k, In k l /\ covers x k) -> forall s : state T St, s_mem s x = None ->
    run_calls f c wb l s = Stop SUB.
  Proof.
    induction l as [|k l IH]; intros (k' & Hin & Hc) s Hx; [destruct Hin|]. cbn [run_calls].
    destruct Hin as [->|Hin].
    - unfold load_and_invoke. now rewrite (load_chunks_hole c (s_mem s) (k_al k') (k_k k') x Hx).
    - destruct (invoke_hole c wb s k x Hx) as [(s' & -> & Hx')| ->]; [|reflexivity]. cbn [bindR].
      apply IH; [now exists k'|assumption].
  Qed.

  (** ** Exactly when for_each stays inside *)
  Lemma for_each_overrun c pol w wb first last m st :
    libstdcxx_target c -> c_ce c = false -> policy_ok pol -> width_ok w -> range_ok first last ->
    (last - first) * c_sz c < 2 ^ 64 -> first < last ->
    aligns c pol w first last -> no_aligned_address c w first last -> m last = None ->
    run_for_each f c pol w wb first last m st = Stop SUB.
  Proof.
    intros Ht Hce Hp Hw Hr H64 Hlt Ha Hno Hlast.
    destruct (proj2 (overrun_iff c pol w first last Ht Hp Hw Hr H64) (conj Ha Hno)) as (maxe & tp & E & Hov).
    unfold width_ok in Hw. change (2 ^ 64) with two64 in *. assert (Hstd := libstdcxx_cfg c Ht).
    destruct (prologue_args_std _ _ _ _ _ _ _ Hstd (proj2 Hw) E) as (Hpos & -> & Htp & Hal & Hleast).
    destruct (possible_std c w Hstd Hpos) as (J & s & HJ & Hs & EJ & Es & Hm).
    assert (HJ64 : J < 64) by (apply pow2_lt_inv; [lia|]; rewrite <- EJ; exact (proj2 Hw)).
    destruct (for_each_prologue_ok c J 64 0 first tp) as (lp & Ep & Hasc); [lia|lia|lia|lia|].
    change (2 ^ 0) with 1 in Ep, Hasc. rewrite Z.div_1_r, Z.mul_1_l in Hasc. rewrite <- EJ in Ep.
    assert (Em : p_match pol = false).
    { destruct Hp as (_ & H1 & H2), Ha as (_ & _ & [Hx|[Hx _] ]); auto. }
    assert (Efe : exists l r, for_each c pol w first last = (lp ++ l, r)).
    { unfold for_each. destruct (Z.eqb_spec first last); [lia|]. rewrite Em, Hce. cbn [andb]. unfold for_each_rt.
      rewrite E, Ep. unfold bindW. destruct (for_each_body c pol w (first + tp) last ((last - first - tp) mod two64)) as [l r].
      eauto. }
    destruct Efe as (l & r & Efe). unfold run_for_each. rewrite Efe.
    rewrite (run_calls_hole c wb last (lp ++ l)); [reflexivity| |exact Hlast].
    destruct (tiles_cover first (first + tp) lp last (asc_tiles _ _ _ _ _ Hasc)) as (k & Hk & Hc); [lia|].
    exists k. split; [apply in_or_app; now left|assumption].
  Qed.

  Lemma for_each_fit c pol w wb first last m st :
    libstdcxx_target c -> c_ce c = false -> policy_ok pol -> width_ok w -> range_ok first last ->
    (last - first) * c_sz c < 2 ^ 64 -> size_matches pol w first last ->
    keeps_lanes f -> mapped m first last ->
    (first = last \/ ~ (aligns c pol w first last /\ no_aligned_address c w first last)) ->
    run_spec f pol w wb first last m st (run_for_each f c pol w wb first last m st).
  Proof.
    intros Ht Hce Hp Hw Hr H64 Hs Hk Hm Hn.
    assert (HC : exists l, for_each c pol w first last = (l, Ok tt) /\ tiles first last l
              /\ Forall (call_aligned c) l /\ Forall (call_size pol w) l /\ call_shape pol w l).
    { destruct Hn as [->|Hn].
      - exists []. unfold for_each. rewrite Z.eqb_refl. split; [reflexivity|]. split; [constructor|].
        do 2 (split; [constructor|]). exists [], 0%nat, 0%nat, []. repeat split; constructor.
      - unfold for_each. destruct (Z.eqb_spec first last) as [->|Hne].
        { exists []. split; [reflexivity|]. split; [constructor|]. do 2 (split; [constructor|]).
          exists [], 0%nat, 0%nat, []. repeat split; constructor. }
        assert (Etrap : p_match pol && negb ((last - first) mod w =? 0) = false).
        { destruct (p_match pol) eqn:Em; [|reflexivity]. cbn [andb]. unfold width_ok in Hw.
          assert ((last - first) mod w = 0) by (apply Z.mod_divide; [lia|]; now apply Hs). lia. }
        rewrite Etrap, Hce. destruct Hr as [Hr1 Hr2].
        apply for_each_rt_calls_fit; try assumption; [left; now apply libstdcxx_cfg|now apply policy_pol|].
        intros maxe tp E. destruct (Z.le_gt_cases tp (last - first)) as [|Hgt]; [assumption|]. exfalso. apply Hn.
        apply overrun_iff; try assumption; [now split|]. exists maxe, tp. split; [assumption|lia]. }
    destruct HC as (l & E & HT & HA & _ & HS).
    eapply run_spec_intro; try eassumption. apply Hr.
  Qed.

  (** Both directions. *)
  Theorem for_each_inside_iff c pol w wb first last m st :
    libstdcxx_target c -> c_ce c = false -> policy_ok pol -> width_ok w -> range_ok first last ->
    (last - first) * c_sz c < 2 ^ 64 -> size_matches pol w first last ->
    keeps_lanes f -> mapped m first last -> (forall a, ~ (first <= a < last) -> m a = None) ->
    ((exists s, run_for_each f c pol w wb first last m st = Ok s)
       <-> first = last \/ ~ (aligns c pol w first last /\ no_aligned_address c w first last))
    /\ ((exists s, run_for_each f c pol w wb first last m st = Ok s)
        \/ run_for_each f c pol w wb first last m st = Stop SUB).
  Proof.
    intros Ht Hce Hp Hw Hr H64 Hs Hk Hm Hno.
    assert (Hfit := for_each_fit c pol w wb first last m st Ht Hce Hp Hw Hr H64 Hs Hk Hm).
    destruct (Z.eq_dec first last) as [E|N].
    - destruct (Hfit (or_introl E)) as (s & Es & _). rewrite Es.
      split; [split; [now left|eauto]|left; eauto].
    - assert (Hlt : first < last) by (destruct Hr; lia).
      assert (Hov := for_each_overrun c pol w wb first last m st Ht Hce Hp Hw Hr H64 Hlt).
      assert (D : aligns c pol w first last /\ no_aligned_address c w first last
                  \/ ~ (aligns c pol w first last /\ no_aligned_address c w first last)).
      { destruct (prologue_args c pol w (last - first) first) as [[maxe tp]|] eqn:E.
        - destruct (Z.lt_ge_cases (last - first) tp) as [H|H].
          + left. apply overrun_iff; try assumption. eauto.
          + right. intros Hx. apply overrun_iff in Hx; try assumption. destruct Hx as (x & y & E' & Hx).
            rewrite E in E'. injection E' as <- <-. lia.
        - right. intros Hx. apply overrun_iff in Hx; try assumption. destruct Hx as (x & y & E' & Hx).
          rewrite E in E'. discriminate. }
      destruct D as [[D1 D2]|D].
      + rewrite (Hov D1 D2) by (apply Hno; lia). split; [|now right].
        split; [intros [s Hx]; discriminate|]. intros [|Hx]; [contradiction|]. now destruct Hx.
      + destruct (Hfit (or_intror D)) as (s & Es & _). rewrite Es. split; [|left; eauto].
        split; [intros _; now right|eauto].
  Qed.
End Hole.

(** ** Constant evaluation with vectors of two elements *)
Section Two.
  Context {T St : Type} (f : St -> list (list T) -> St * list (list T)).

  Lemma for_each_two_calls c pol first last :
    c_ce c = true -> range_ok first last -> first < last -> (last - first) mod 2 = 0 ->
    exists l, for_each c pol 2 first last = (l ++ [mkcall (last - 1) 1 1 false], Ok tt)
      /\ uniform 2 1 false first last l.
  Proof.
    intros Hce [Hr1 Hr2] Hlt He. unfold for_each. destruct (Z.eqb_spec first last); [lia|].
    rewrite He, Hce. change (negb (0 =? 0)) with false. rewrite andb_false_r.
    destruct (const_loop_ok 2 (loop_fuel first last) last first) as [E Hu]; [lia|lia|unfold loop_fuel; lia|].
    rewrite He, Z.sub_0_r in E, Hu. rewrite E. unfold bindW. cbn [Z.ltb].
    change (1 <? 2) with true. cbv iota.
    exists (fst (const_loop (loop_fuel first last) 2 last first)). split; [reflexivity|exact Hu].
  Qed.

  (** The last element is shown to the callable a second time, as the first call left it. *)
  Theorem for_each_two c pol first last m st (g : T -> T) :
    c_ce c = true -> range_ok first last -> first < last -> (last - first) mod 2 = 0 ->
    lanewise g f -> forall l x, range_is m first last (l ++ [x]) ->
    exists s, run_for_each f c pol 2 true first last m st = Ok s
      /\ seen (s_trace s) = l ++ [x; g x]
      /\ s_mem s (last - 1) = Some (g (g x))
      /\ forall a, a <> last - 1 -> s_mem s a = map_range g m first last a.
  Proof.
    intros Hce Hr Hlt He Hg l x Hl.
    destruct (for_each_two_calls c pol first last Hce Hr Hlt He) as (lc & E & Hu).
    assert (HT : tiles first last lc) by (eapply uniform_tiles; [| |exact Hu]; lia).
    assert (HA : Forall (call_aligned c) lc).
    { pose proof (uniform_pos _ _ _ _ _ _ Hu first ltac:(rewrite Z.sub_diag; apply Z.divide_0_r)) as P.
      eapply Forall_impl; [|exact P]. intros k (_ & _ & Ek & _) E'. congruence. }
    assert (Hks : keeps_shape f) by exact (lanewise_keeps f g Hg).
    assert (Hlen : Z.of_nat (length l) + 1 = last - first) by (destruct Hl as [H _]; rewrite app_length in H; cbn in H; lia).
    assert (Hdef : forall a, first <= a < last -> m a <> None).
    { intros a Ha. destruct Hl as [H1 H2]. specialize (H2 (Z.to_nat (a - first))).
      rewrite Z2Nat.id in H2 by lia. replace (first + (a - first)) with a in H2 by lia.
      rewrite <- H2 by lia. apply nth_error_Some. lia. }
    destruct (run_tiles f c true Hks first last lc HT HA m st [] Hdef)
      as (m' & tr & Er & _ & Hld & _ & Hwb & Hout & Hdom).
    assert (Hseen : seen tr = l ++ [x]).
    { apply (range_is_unique m first last); [|assumption]. now apply load_range_is; [lia|]. }
    specialize (Hwb eq_refl).
    assert (Hrm' : range_is m' first last (map g (l ++ [x]))).
    { rewrite <- Hseen, <- seen_map, <- (left_behind_lanewise g f st) by assumption. rewrite <- outputs_left.
      apply load_range_is; [lia|exact Hwb]. }
    assert (Hx' : m' (last - 1) = Some (g x)).
    { destruct Hrm' as [H1 H2]. specialize (H2 (length l)). rewrite map_length, app_length in H2. cbn in H2.
      replace (first + Z.of_nat (length l)) with (last - 1) in H2 by lia. rewrite <- H2 by lia.
      rewrite nth_error_map, nth_error_app2, Nat.sub_diag by lia. reflexivity. }
    unfold run_for_each. rewrite E.
    assert (Eapp : forall a b s, run_calls f c true (a ++ b) s = bindR (run_calls f c true a s) (run_calls f c true b)).
    { induction a as [|k a IH]; intros b s; [reflexivity|]. cbn [app run_calls].
      destruct (load_and_invoke f c true s k); [|reflexivity]. cbn [bindR]. apply IH. }
    rewrite Eapp, Er. cbn [bindR app run_calls].
    unfold load_and_invoke. cbn [s_mem s_st s_trace k_pos k_k k_n k_al load_chunks]. unfold load_chunk.
    cbn [andb]. change (Z.to_nat 1) with 1%nat. cbn [load]. rewrite Hx'. cbn [of_option bindR].
    destruct (f (final_state f st tr) [[g x]]) as [st' out] eqn:Ef.
    assert (Eo : out = [[g (g x)]]) by (specialize (Hg (final_state f st tr) [[g x]]); rewrite Ef in Hg; exact Hg).
    subst out. cbn [store_chunks]. unfold store_chunk. cbn [andb store]. rewrite Hx'. cbn [of_option bindR].
    eexists. split; [reflexivity|]. cbn [s_mem s_trace]. split; [|split].
    - unfold seen in *. rewrite !concat_app, Hseen. cbn [concat app]. now rewrite <- app_assoc.
    - apply upd_same.
    - intros a Ha. rewrite upd_other by assumption. unfold map_range.
      destruct (Z.leb_spec first a); cbn [andb]; [|apply Hout; lia].
      destruct (Z.ltb_spec a last); [|apply Hout; lia].
      destruct Hrm' as [L1 H1]. destruct Hl as [L2 H2]. rewrite map_length in *.
      specialize (H1 (Z.to_nat (a - first)) ltac:(lia)). specialize (H2 (Z.to_nat (a - first)) ltac:(lia)).
      replace (first + Z.of_nat (Z.to_nat (a - first))) with a in * by lia.
      rewrite <- H1, <- H2. apply nth_error_map.
  Qed.

  (** By value: the last element is shown twice. *)
  Theorem for_each_two_value c pol first last m st :
    c_ce c = true -> range_ok first last -> first < last -> (last - first) mod 2 = 0 ->
    keeps_lanes f -> forall l x, range_is m first last (l ++ [x]) ->
    exists s, run_for_each f c pol 2 false first last m st = Ok s
      /\ seen (s_trace s) = l ++ [x; x]
      /\ s_st s = state_after f st (s_trace s)
      /\ Forall (fun ch => exists y, ch = [y]) (s_trace s)
      /\ forall a, s_mem s a = m a.
  Proof.
    intros Hce Hr Hlt He Hk l x Hl.
    destruct (for_each_two_calls c pol first last Hce Hr Hlt He) as (lc & E & Hu).
    assert (HT : tiles first last lc) by (eapply uniform_tiles; [| |exact Hu]; lia).
    assert (HA : Forall (call_aligned c) lc).
    { pose proof (uniform_pos _ _ _ _ _ _ Hu first ltac:(rewrite Z.sub_diag; apply Z.divide_0_r)) as P.
      eapply Forall_impl; [|exact P]. intros k (_ & _ & Ek & _) E'. congruence. }
    assert (Hks : keeps_shape f) by exact Hk.
    assert (Hlen : Z.of_nat (length l) + 1 = last - first) by (destruct Hl as [H _]; rewrite app_length in H; cbn in H; lia).
    assert (Hdef : forall a, first <= a < last -> m a <> None).
    { intros a Ha. destruct Hl as [H1 H2]. specialize (H2 (Z.to_nat (a - first))).
      rewrite Z2Nat.id in H2 by lia. replace (first + (a - first)) with a in H2 by lia.
      rewrite <- H2 by lia. apply nth_error_Some. lia. }
    destruct (run_tiles f c false Hks first last lc HT HA m st [] Hdef)
      as (m' & tr & Er & Hsh & Hld & Hm' & _ & _ & _).
    rewrite (Hm' eq_refl) in Er. clear Hm' m'.
    assert (Hseen : seen tr = l ++ [x]).
    { apply (range_is_unique m first last); [|assumption]. now apply load_range_is; [lia|]. }
    assert (Hx' : m (last - 1) = Some x).
    { destruct Hl as [H1 H2]. specialize (H2 (length l)). rewrite app_length in H2. cbn in H2.
      replace (first + Z.of_nat (length l)) with (last - 1) in H2 by lia. rewrite <- H2 by lia.
      rewrite nth_error_app2, Nat.sub_diag by lia. reflexivity. }
    unfold run_for_each. rewrite E.
    assert (Eapp : forall a b s, run_calls f c false (a ++ b) s = bindR (run_calls f c false a s) (run_calls f c false b)).
    { induction a as [|k a IH]; intros b s; [reflexivity|]. cbn [app run_calls].
      destruct (load_and_invoke f c false s k); [|reflexivity]. cbn [bindR]. apply IH. }
    rewrite Eapp, Er. cbn [bindR app run_calls].
    unfold load_and_invoke. cbn [s_mem s_st s_trace k_pos k_k k_n k_al load_chunks]. unfold load_chunk.
    cbn [andb]. change (Z.to_nat 1) with 1%nat. cbn [load]. rewrite Hx'. cbn [of_option bindR].
    destruct (f (final_state f st tr) [[x]]) as [st' out] eqn:Ef.
    eexists. split; [reflexivity|]. cbn [s_mem s_st s_trace]. split; [|split; [|split] ].
    - unfold seen in *. rewrite !concat_app, Hseen. cbn [concat app]. now rewrite <- app_assoc.
    - rewrite <- final_state_after. clear - Ef. revert st Ef. induction tr as [|ch tr IH]; intros st Ef; cbn in *.
      + now rewrite Ef.
      + now apply IH.
    - apply Forall_app. split; [|constructor; [now eexists|constructor] ].
      assert (HF : Forall (fun n => length n = 1%nat) (map (map (@length T)) tr)).
      { rewrite Hsh. apply Forall_map.
        pose proof (uniform_pos _ _ _ _ _ _ Hu first ltac:(rewrite Z.sub_diag; apply Z.divide_0_r)) as P.
        eapply Forall_impl; [|exact P]. intros k (_ & En & _). now rewrite En. }
      rewrite Forall_map in HF. eapply Forall_impl; [|exact HF]. cbn. intros ch Hch. rewrite map_length in Hch.
      destruct ch as [|y [|? ?] ]; try discriminate. now exists y.
    - reflexivity.
  Qed.
End Two.
