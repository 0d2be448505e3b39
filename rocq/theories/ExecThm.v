(** The property-level lemmas about for_each. *)
From Verif Require Import Base BaseFacts ExecModel ExecProofs ExecForEach ExecRun ExecSpec.
From Coq Require Import ZifyBool ZifyNat Sorted.
Ltac Zify.zify_post_hook ::= idtac.

Lemma target_cfg c : target_ok c -> cfg_ok c.
Proof.
  intros [H0 [[H1 H2]|H]].
  - left. repeat split; try assumption. unfold address in H1. now rewrite Z.mul_0_l, Z.add_0_r in H1.
  - right. split; assumption.
Qed.

Lemma policy_pol pol : policy_ok pol -> pol_ok pol.
Proof. unfold policy_ok, pol_ok. tauto. Qed.

Lemma is_aligned_at c a w : 0 < c_malign c w -> is_aligned c a w <-> aligned_at c a w = true.
Proof.
  intros H. unfold is_aligned, aligned_at, address. rewrite Z.eqb_eq. symmetry. apply Z.mod_divide. lia.
Qed.

Lemma malign_pos c w : cfg_ok c -> 0 < w -> 0 < c_malign c w.
Proof.
  intros [(H0 & _ & H)|(H0 & H)] Hw; [|apply H; lia].
  rewrite H by lia. unfold bit_ceil. apply Z.pow_pos_nonneg; [lia|apply Z.log2_up_nonneg].
Qed.

Lemma reaches_fits c pol w first last : target_ok c -> width_ok w ->
  reaches_alignment c pol w first last ->
  prologue_fits c pol w first last /\ small_vectors c pol w.
Proof.
  intros Hc Hw [H1 H2]. apply target_cfg in Hc. split; [|exact H2].
  intros Ea Ep. unfold width_ok in Hw. destruct (H1 Ea) as (a & Ha & Hal).
  - unfold prologue_is_possible in Ep. lia.
  - destruct Hc as [Hstd|Hf]; [|rewrite fallback_impossible in Ep by assumption; discriminate].
    destruct (possible_std c w Hstd Ep) as (J & s & HJ & Hs & EJ & Es & _).
    exists (J + s). split; [lia|]. rewrite EJ, Es. symmetry. apply Z.pow_add_r; lia.
  - exists a. split; [assumption|]. apply is_aligned_at; [apply malign_pos; [assumption|lia]|assumption].
Qed.

Lemma plain_reaches c pol w first last : plain pol -> reaches_alignment c pol w first last.
Proof. intros [H1 H2]. split; congruence. Qed.

Lemma mapped_some {T} (m : mem T) first last :
  mapped m first last -> forall x, first <= x < last -> m x <> None.
Proof. intros H x Hx. destruct (H x Hx) as [v Hv]. congruence. Qed.

Lemma final_state_after {T St} f (st : St) (tr : list (list (list T))) :
  final_state f st tr = state_after f st tr.
Proof. revert st; induction tr; cbn; auto. Qed.

Lemma outputs_left {T St} f (st : St) (tr : list (list (list T))) :
  outputs f st tr = left_behind f st tr.
Proof. revert st; induction tr; cbn; intros; f_equal; auto. Qed.

Lemma load_range_is {T} (m : mem T) first last l : first <= last ->
  load m first (Z.to_nat (last - first)) = Some l -> range_is m first last l.
Proof.
  intros Hle H. pose proof (load_length _ _ _ _ H) as Hl. split; [lia|].
  intros i Hi. symmetry.
  rewrite (load_nth _ _ _ _ H) by lia. f_equal. lia.
Qed.

Lemma range_is_unique {T} (m : mem T) first last l l' :
  range_is m first last l -> range_is m first last l' -> l = l'.
Proof.
  intros [L1 H1] [L2 H2]. apply nth_error_ext. intros n.
  destruct (lt_dec n (length l)).
  - rewrite H1, H2 by lia. reflexivity.
  - transitivity (@None T); [|symmetry]; apply nth_error_None; lia.
Qed.

Lemma left_behind_lanewise {T St} (g : T -> T) f (st : St) tr : lanewise g f ->
  left_behind f st tr = map (map (map g)) tr.
Proof. intros H. revert st; induction tr; cbn; intros; [reflexivity|]. rewrite H, IHtr. reflexivity. Qed.

Lemma seen_map {T} (g : T -> T) tr : seen (map (map (map g)) tr) = map g (seen tr).
Proof. unfold seen. rewrite !concat_map. reflexivity. Qed.

Lemma map_repeat' {A B} (g : A -> B) x n : map g (repeat x n) = repeat (g x) n.
Proof. induction n; cbn; f_equal; assumption. Qed.

(** Shapes. *)
Lemma shapes_of_calls {T} pol w l (tr : list (list (list T))) : width_ok w ->
  call_shape pol w l ->
  map (map (@length T)) tr = map (fun k => repeat (Z.to_nat (k_k k)) (k_n k)) l ->
  shapes_ok (Z.to_nat w) (Z.to_nat (p_unroll pol)) tr
  /\ (p_match pol = true -> Forall (Forall (fun ch => Z.of_nat (length ch) = w)) tr).
Proof.
  intros Hw (ies & a & b & des & E & Hs1 & Hs2 & Hf & Hu & Hm) Htr. unfold width_ok in Hw.
  assert (E' : map (map (@length T)) tr = map (fun p => repeat (Z.to_nat (fst p)) (snd p)) (map size_of l)).
  { rewrite Htr, map_map. reflexivity. }
  rewrite E in E'. clear E Htr. rewrite !map_app, !map_map, !map_repeat' in E'. cbn [fst snd pow_size] in E'.
  split.
  - exists (map Z.to_nat ies), a, b, (map Z.to_nat des).
    rewrite Forall_app in Hf. destruct Hf as [Hf1 Hf2].
    assert (Hmap : forall es, Forall (fun i => 0 <= i /\ 2 ^ i < w) es ->
              map (fun x => repeat (Z.to_nat (2 ^ x)) 1) es
              = map (fun e => [Nat.pow 2 e]) (map Z.to_nat es)).
    { intros es H. rewrite map_map. apply map_ext_in. intros i Hi. rewrite Forall_forall in H.
      specialize (H i Hi). cbn. f_equal. rewrite Z2Nat.inj_pow by lia. reflexivity. }
    rewrite E', !Hmap by assumption. split; [reflexivity|].
    assert (Hsort : forall (R : Z -> Z -> Prop) (R' : nat -> nat -> Prop) es,
              (forall x y, 0 <= x -> 0 <= y -> R x y -> R' (Z.to_nat x) (Z.to_nat y)) ->
              Forall (fun i => 0 <= i /\ 2 ^ i < w) es ->
              StronglySorted R es -> StronglySorted R' (map Z.to_nat es)).
    { intros R R' es HR HF HS. induction HS as [|x es HS IH HFR]; cbn; [constructor|].
      inversion HF; subst. constructor; [now apply IH|]. rewrite Forall_forall in *. intros y Hy.
      apply in_map_iff in Hy as (z & <- & Hz). apply HR; [lia| |now apply HFR].
      match goal with H : forall x, In x es -> _ |- _ => specialize (H z Hz); lia end. }
    split; [eapply Hsort; [|assumption|exact Hs1]; cbn; lia|].
    split; [eapply Hsort; [|assumption|exact Hs2]; cbn; lia|].
    split; [|intros; apply Hu; lia].
    rewrite <- map_app. rewrite Forall_forall. intros e He. apply in_map_iff in He as (z & <- & Hz).
    assert (Hzw : 0 <= z /\ 2 ^ z < w).
    { apply in_app_or in Hz as [Hz|Hz]; [rewrite Forall_forall in Hf1; now apply Hf1
                                         |rewrite Forall_forall in Hf2; now apply Hf2]. }
    change 2%nat with (Z.to_nat 2). rewrite <- Z2Nat.inj_pow by lia. lia.
  - intros Em. destruct (Hm Em) as [-> ->]. cbn in E'. rewrite app_nil_r in E'.
    assert (HF : Forall (Forall (fun n => Z.of_nat n = w)) (map (map (@length T)) tr)).
    { rewrite E', Forall_app. split; apply Forall_forall; intros x Hx; apply repeat_spec in Hx; subst x.
      - apply Forall_forall. intros y Hy. apply repeat_spec in Hy. lia.
      - repeat constructor. lia. }
    rewrite Forall_forall in *. intros x Hx. specialize (HF (map (@length T) x) (in_map _ _ _ Hx)).
    rewrite Forall_forall in *. intros ch Hch. apply HF, in_map, Hch.
Qed.

Section Main.
  Context {T St : Type} (f : St -> list (list T) -> St * list (list T)).

  (** What a successful run of for_each looks like. *)
  Definition run_spec (pol : policy) (w : Z) (wb : bool) (first last : Z) (m : mem T) (st : St)
             (r : res (state T St)) : Prop :=
    exists s, r = Ok s
      /\ range_is m first last (seen (s_trace s))
      /\ s_st s = state_after f st (s_trace s)
      /\ (wb = false -> forall a, s_mem s a = m a)
      /\ (wb = true -> range_is (s_mem s) first last (seen (left_behind f st (s_trace s))))
      /\ (forall a, ~ (first <= a < last) -> s_mem s a = m a)
      /\ shapes_ok (Z.to_nat w) (Z.to_nat (p_unroll pol)) (s_trace s)
      /\ (p_match pol = true -> Forall (Forall (fun ch => Z.of_nat (length ch) = w)) (s_trace s)).

  Lemma run_spec_intro c pol w wb first last m st l :
    keeps_lanes f -> width_ok w -> first <= last -> mapped m first last ->
    for_each c pol w first last = (l, Ok tt) -> tiles first last l -> Forall (call_aligned c) l ->
    call_shape pol w l -> run_spec pol w wb first last m st (run_for_each f c pol w wb first last m st).
  Proof.
    intros Hk Hw Hle Hm E HT HA HS.
    destruct (run_for_each_ok f c pol w wb first last m st l Hk E HT HA (mapped_some _ _ _ Hm))
      as (m' & tr & Er & Hlen & Hl & Hf & Ht & Ho).
    rewrite Er. eexists. split; [reflexivity|]. cbn [s_mem s_st s_trace].
    destruct (shapes_of_calls pol w l tr Hw HS Hlen) as [Hsh Hma].
    split; [now apply load_range_is|]. split; [apply final_state_after|].
    split; [intros Ew a; now rewrite (Hf Ew)|]. split; [|split; [|split]]; try assumption.
    intros Ew. rewrite <- outputs_left. apply load_range_is; [assumption|]. apply (Ht Ew).
  Qed.

  Lemma for_each_runtime c pol w wb first last m st :
    target_ok c -> c_ce c = false -> policy_ok pol -> width_ok w -> range_ok first last ->
    size_matches pol w first last -> reaches_alignment c pol w first last ->
    keeps_lanes f -> mapped m first last ->
    run_spec pol w wb first last m st (run_for_each f c pol w wb first last m st).
  Proof.
    intros Hc Hce Hp Hw [Hr1 Hr2] Hs Hra Hk Hm.
    destruct (reaches_fits _ _ _ _ _ Hc Hw Hra) as [Hfit Hsm].
    destruct (for_each_calls c pol w first last) as (l & E & HT & HA & _ & HS);
      try assumption; [now apply target_cfg|now apply policy_pol|].
    eapply run_spec_intro; eassumption.
  Qed.

  Lemma for_each_consteval c pol w wb first last m st :
    c_ce c = true -> width_ok w -> range_ok first last -> size_matches pol w first last ->
    (w = 2 -> first = last \/ (last - first) mod 2 <> 0) ->
    keeps_lanes f -> mapped m first last ->
    run_spec pol w wb first last m st (run_for_each f c pol w wb first last m st).
  Proof.
    intros Hce Hw [Hr1 Hr2] Hs Hodd Hk Hm.
    destruct (for_each_calls_ce c pol w first last) as (l & E & HT & HA & _ & HS);
      try assumption.
    eapply run_spec_intro; eassumption.
  Qed.

  Lemma run_spec_map g pol w first last m st r :
    lanewise g f -> first <= last -> run_spec pol w true first last m st r ->
    exists s, r = Ok s /\ range_is m first last (seen (s_trace s))
              /\ forall a, s_mem s a = map_range g m first last a.
  Proof.
    intros Hg Hle (s & E & Hseen & _ & _ & Hwb & Hout & _).
    exists s. split; [assumption|]. split; [assumption|].
    specialize (Hwb eq_refl). rewrite (left_behind_lanewise g) in Hwb by assumption.
    rewrite seen_map in Hwb. intros a. unfold map_range.
    destruct (Z.leb_spec first a); cbn [andb]; [|apply Hout; lia].
    destruct (Z.ltb_spec a last); [|apply Hout; lia].
    destruct Hwb as [L1 H1]. destruct Hseen as [L2 H2]. rewrite map_length in *.
    specialize (H1 (Z.to_nat (a - first)) ltac:(lia)). specialize (H2 (Z.to_nat (a - first)) ltac:(lia)).
    replace (first + Z.of_nat (Z.to_nat (a - first))) with a in * by lia.
    rewrite <- H1, <- H2. apply nth_error_map.
  Qed.

  Lemma run_spec_value pol w first last m st r :
    run_spec pol w false first last m st r ->
    exists s, r = Ok s /\ range_is m first last (seen (s_trace s)) /\ forall a, s_mem s a = m a.
  Proof. intros (s & E & Hseen & _ & Hwb & _). exists s. auto. Qed.

  Lemma lanewise_keeps g : lanewise g f -> keeps_lanes f.
  Proof.
    intros H st ch. rewrite H, map_map. apply map_ext. intros; apply map_length.
  Qed.
End Main.

(** C10 *)
Lemma for_each_trap {T St} (f : St -> list (list T) -> St * list (list T)) c pol w wb first last m st :
  p_match pol = true -> width_ok w -> first <= last -> (forall n, last - first <> n * w) ->
  run_for_each f c pol w wb first last m st = Stop STrap
  /\ fst (for_each c pol w first last) = [].
Proof.
  intros Em Hw Hle Hn. unfold run_for_each, for_each, width_ok in *.
  destruct (Z.eqb_spec first last); [exfalso; apply (Hn 0); lia|].
  rewrite Em. destruct (Z.eqb_spec ((last - first) mod w) 0) as [E|]; cbn [andb negb].
  - apply Z.mod_divide in E; [|lia]. destruct E as [q E]. now exfalso; apply (Hn q).
  - split; reflexivity.
Qed.

(** ** C04: alignment of every aligned access, also when the prologue leaves the range *)
Lemma main_loop_past w n al limit first fuel :
  limit < first -> main_loop (S fuel) w n al limit first = ([], Ok first).
Proof. intros H. cbn [main_loop]. destruct (Z.leb_spec first limit); [lia|reflexivity]. Qed.

Lemma for_each_aligned_short c pol w first last J :
  1 < w < two64 -> last < first -> p_match pol = false ->
  cfg_std c -> 0 <= J -> w = 2 ^ J ->
  (forall i, 0 <= i -> c_malign c (2 ^ i) = 2 ^ i * c_sz c) ->
  aligned_at c first w = true ->
  forall d, d mod w = (last - first) mod w ->
  exists l, for_each_body c pol w first last d = (l, Ok tt) /\ Forall (call_aligned c) l.
Proof.
  intros Hw Hlt Hm Hstd HJ EJ Hmal Hal d Hd. unfold for_each_body. rewrite Hm. cbn [negb andb].
  assert (E1 : (if 1 <? p_unroll pol
     then main_loop (loop_fuel first last) w (Z.to_nat (p_unroll pol)) (use_aligned_loadstore c pol w)
            (last - w * p_unroll pol) first else retW first) = ([], Ok first)).
  { unfold loop_fuel. destruct (Z.ltb_spec 1 (p_unroll pol)); [|reflexivity].
    apply main_loop_past. nia. }
  rewrite E1. unfold bindW. cbn beta iota. unfold loop_fuel.
  rewrite main_loop_past by lia. cbn [app].
  destruct (Z.ltb_spec 1 w); [|lia]. cbn [andb].
  destruct (Z.eqb_spec (d mod w) 0) as [E0|N0]; cbn [negb].
  - exists []. split; [reflexivity|constructor].
  - set (b := last - d mod w).
    assert (Hmb : 0 <= d mod w < w) by (apply Z.mod_pos_bound; lia).
    destruct (for_each_epilogue_ok c (use_aligned_loadstore c pol w) 64 w (exponent w) (d mod w) last)
      as (l & El & D).
    + split; [lia|]. apply Z.log2_up_spec. lia.
    + split; [apply Z.log2_up_nonneg|]. apply Z.log2_up_le_pow2; [lia|].
      unfold two64 in Hw. change (Z.of_nat 64) with 64. lia.
    + lia.
    + rewrite El. exists l. split; [reflexivity|]. fold b in D.
      assert (EE : exponent w = J) by (unfold exponent; rewrite EJ; apply Z.log2_up_pow2; lia).
      assert (Hb : aligned_at c b w = true).
      { rewrite EJ in Hal |- *.
        apply (aligned_at_iff c J _ first); try assumption; [apply Hmal; lia|].
        rewrite <- EJ. unfold b. rewrite Hd.
        exists ((last - first) / w). pose proof (Z.div_mod (last - first) w ltac:(lia)). lia. }
      pose proof (desc_pos _ _ _ _ _ D (Z.log2_up_nonneg _) b
                    ltac:(rewrite Z.sub_diag; apply Z.divide_0_r)) as P3.
      eapply Forall_impl; [|exact P3]. intros k (i & Hi & Ek & En & _ & Hk) _ i' Hi'.
      rewrite En in Hi'. assert (i' = 0) by lia. subst i'. rewrite Z.mul_0_r, Z.add_0_r.
      rewrite Ek. apply (aligned_at_iff c i _ b); try assumption; [lia|apply Hmal; lia|].
      apply (aligned_at_smaller c i J); try assumption; [lia|]. congruence.
Qed.

Lemma for_each_rt_aligned c pol w first last :
  target_ok c -> policy_ok pol -> width_ok w -> range_ok first last ->
  size_matches pol w first last -> (p_auto pol = true -> w * c_sz c <= 4000) ->
  exists l, for_each_rt c pol w first last = (l, Ok tt) /\ Forall (call_aligned c) l.
Proof.
  intros Hc Hp Hw [Hr1 Hr2] Hs Hauto.
  assert (Hc' := target_cfg c Hc).
  destruct (p_aligned pol && prologue_is_possible c w) eqn:Eu.
  2:{ destruct (for_each_rt_calls c pol w first last) as (l & E & HT & HA & _ & HS);
      try assumption; [now apply policy_pol| |exists l; auto].
      intros E1 E2. rewrite E1, E2 in Eu. discriminate. }
  rewrite andb_true_iff in Eu. destruct Eu as [Ea Epos].
  destruct Hc' as [Hstd|Hfb]; [|rewrite fallback_impossible in Epos by assumption; discriminate].
  destruct (possible_std c w Hstd Epos) as (J & s & HJ & Hs' & EJ & Es & Hm).
  destruct (prologue_args c pol w (last - first) first) as [[maxe tp]|] eqn:Epa.
  - destruct (prologue_args_std _ _ _ _ _ _ _ Hstd (proj2 Hw) Epa) as (_ & -> & Htp & Hal & Hleast).
    destruct (Z_le_gt_dec tp (last - first)) as [Hle|Hgt].
    { destruct (for_each_rt_calls c pol w first last) as (l & E & HT & HA & _ & HS);
      try assumption; [now left|now apply policy_pol| |exists l; auto].
      intros _ _. exists (first + tp). split; [lia|assumption]. }
    unfold for_each_rt.
    assert (Em : p_match pol = false) by (destruct Hp as (_ & H & _); now apply H).
    rewrite Epa.
    unfold width_ok in Hw. fold two64 in Hw, Hr2.
    assert (HJ64 : J < 64).
    { apply pow2_lt_inv; [lia|]. rewrite <- EJ. exact (proj2 Hw). }
    destruct (for_each_prologue_ok c J 64 0 first tp) as (lp & Ep & Hasc); [lia|lia|lia|lia|].
    change (2^0) with 1 in Ep, Hasc. rewrite Z.div_1_r, Z.mul_1_l in Hasc. rewrite <- EJ in Ep.
    rewrite Ep. unfold bindW at 1.
    destruct (for_each_aligned_short c pol w (first + tp) last J) with (d := (last - first - tp) mod two64)
      as (l & El & HA); try assumption; [lia|lia|lia| |].
    { replace (last - (first + tp)) with (last - first - tp) by lia.
      rewrite EJ. change two64 with (2^64). symmetry. apply Znumtheory.Zmod_div_mod;
        [apply pow2_pos; lia|lia|apply pow2_divide; lia]. }
    rewrite El. exists (lp ++ l). split; [reflexivity|]. rewrite Forall_app. split; [|assumption].
    destruct (asc_pos _ _ _ _ _ Hasc ltac:(lia)) as [_ HP].
    eapply Forall_impl; [|exact HP]. intros k (i & Hi & Ek & En & _ & Hk) _ i' Hi'.
    rewrite En in Hi'. assert (i' = 0) by lia. subst i'. rewrite Z.mul_0_r, Z.add_0_r, Ek.
    apply (aligned_at_iff c i _ (first + tp)); try assumption; [lia|apply Hm; lia| |].
    + apply (aligned_at_smaller c i J); try assumption; [lia|]. rewrite <- EJ. exact Hal.
    + replace (k_pos k - (first + tp)) with (- (first + tp - k_pos k)) by lia.
      now apply Z.divide_opp_r.
  - (* the start is aligned already *)
    destruct (for_each_rt_calls c pol w first last) as (l & E & HT & HA & _ & HS);
      try assumption; [now left|now apply policy_pol| |exists l; auto].
    intros _ _. exists first. split; [lia|].
    eapply prologue_args_none_aligned; [|exact Epa].
    unfold use_aligned_loadstore. now rewrite Ea, Epos.
Qed.

Lemma for_each_aligned c pol w first last :
  target_ok c -> c_ce c = false -> policy_ok pol -> width_ok w -> range_ok first last ->
  size_matches pol w first last -> (p_auto pol = true -> w * c_sz c <= 4000) ->
  exists l, for_each c pol w first last = (l, Ok tt) /\ Forall (call_aligned c) l.
Proof.
  intros Hc Hce Hp Hw Hr Hs Hauto. unfold for_each.
  destruct (Z.eqb_spec first last) as [->|Hne].
  { exists []. split; [reflexivity|constructor]. }
  assert (Etrap : p_match pol && negb ((last - first) mod w =? 0) = false).
  { destruct (p_match pol) eqn:Em; [|reflexivity]. cbn [andb]. unfold width_ok in Hw.
    assert ((last - first) mod w = 0) by (apply Z.mod_divide; [lia|]; now apply Hs). lia. }
  rewrite Etrap, Hce. now apply for_each_rt_aligned.
Qed.

Lemma for_each_aligned_spec c pol w first last :
  target_ok c -> c_ce c = false -> policy_ok pol -> width_ok w -> range_ok first last ->
  size_matches pol w first last -> (p_auto pol = true -> w * c_sz c <= 4000) ->
  forall k i, In k (fst (for_each c pol w first last)) -> k_al k = true ->
  (i < k_n k)%nat -> 0 < k_k k -> is_aligned c (k_pos k + k_k k * Z.of_nat i) (k_k k).
Proof.
  intros Hc Hce Hp Hw Hr Hs Hau k i Hin Hal Hi Hk.
  destruct (for_each_aligned c pol w first last) as (l & E & HA); try assumption.
  rewrite E in Hin. rewrite Forall_forall in HA.
  apply is_aligned_at; [apply malign_pos; [now apply target_cfg|assumption]|].
  apply HA; [assumption|assumption|lia].
Qed.

(** ** Statements in the form of the property files *)
Section Forms.
  Context (T St : Type) (f : St -> list (list T) -> St * list (list T)).

  Lemma for_each_visits c pol w wb first last m st :
    target_ok c -> c_ce c = false -> policy_ok pol -> width_ok w -> range_ok first last ->
    size_matches pol w first last -> reaches_alignment c pol w first last ->
    keeps_lanes f -> mapped m first last ->
    exists s, run_for_each f c pol w wb first last m st = Ok s
              /\ range_is m first last (seen (s_trace s))
              /\ s_st s = state_after f st (s_trace s)
              /\ forall a, ~ (first <= a < last) -> s_mem s a = m a.
  Proof.
    intros. destruct (for_each_runtime f c pol w wb first last m st) as (s & E & A1 & A2 & A3 & A4 & A5 & A6);
      try assumption. exists s. auto.
  Qed.

  Lemma for_each_visits_plain c pol w wb first last m st :
    target_ok c -> c_ce c = false -> policy_ok pol -> plain pol -> width_ok w -> range_ok first last ->
    size_matches pol w first last -> keeps_lanes f -> mapped m first last ->
    exists s, run_for_each f c pol w wb first last m st = Ok s
              /\ range_is m first last (seen (s_trace s))
              /\ s_st s = state_after f st (s_trace s)
              /\ forall a, ~ (first <= a < last) -> s_mem s a = m a.
  Proof. intros. apply for_each_visits; try assumption. now apply plain_reaches. Qed.

  Lemma for_each_map (g : T -> T) c pol w first last m st :
    target_ok c -> c_ce c = false -> policy_ok pol -> width_ok w -> range_ok first last ->
    size_matches pol w first last -> reaches_alignment c pol w first last ->
    lanewise g f -> mapped m first last ->
    exists s, run_for_each f c pol w true first last m st = Ok s
              /\ forall a, s_mem s a = map_range g m first last a.
  Proof.
    intros Hc Hce Hp Hw Hr Hs Hra Hg Hm.
    destruct (run_spec_map f g pol w first last m st _ Hg (proj1 Hr)
                (for_each_runtime f c pol w true first last m st Hc Hce Hp Hw Hr Hs Hra
                                  (lanewise_keeps f g Hg) Hm)) as (s & E & _ & A).
    exists s. auto.
  Qed.

  Lemma for_each_stateful c pol w first last m st :
    target_ok c -> c_ce c = false -> policy_ok pol -> width_ok w -> range_ok first last ->
    size_matches pol w first last -> reaches_alignment c pol w first last ->
    keeps_lanes f -> mapped m first last ->
    exists s, run_for_each f c pol w true first last m st = Ok s
              /\ range_is (s_mem s) first last (seen (left_behind f st (s_trace s)))
              /\ forall a, ~ (first <= a < last) -> s_mem s a = m a.
  Proof.
    intros. destruct (for_each_runtime f c pol w true first last m st) as (s & E & A1 & A2 & A3 & A4 & A5 & A6);
      try assumption. exists s. auto.
  Qed.

  Lemma for_each_value c pol w first last m st :
    target_ok c -> c_ce c = false -> policy_ok pol -> width_ok w -> range_ok first last ->
    size_matches pol w first last -> reaches_alignment c pol w first last ->
    keeps_lanes f -> mapped m first last ->
    exists s, run_for_each f c pol w false first last m st = Ok s /\ forall a, s_mem s a = m a.
  Proof.
    intros. destruct (for_each_runtime f c pol w false first last m st) as (s & E & A1 & A2 & A3 & A4 & A5 & A6);
      try assumption. exists s. auto.
  Qed.

  Lemma for_each_inside c pol w wb first last m st :
    target_ok c -> c_ce c = false -> policy_ok pol -> width_ok w -> range_ok first last ->
    size_matches pol w first last -> reaches_alignment c pol w first last ->
    keeps_lanes f -> mapped m first last ->
    (forall a, ~ (first <= a < last) -> m a = None) ->
    exists s, run_for_each f c pol w wb first last m st = Ok s
              /\ forall a, ~ (first <= a < last) -> s_mem s a = None.
  Proof.
    intros. destruct (for_each_visits c pol w wb first last m st) as (s & E & _ & _ & A); try assumption.
    exists s. split; [assumption|]. intros a Ha. rewrite A by assumption. auto.
  Qed.

  Lemma for_each_inside_auto c pol w wb first last m st :
    target_ok c -> c_ce c = false -> policy_ok pol -> p_aligned pol = false ->
    w * c_sz c <= 4000 -> width_ok w -> range_ok first last ->
    size_matches pol w first last -> keeps_lanes f -> mapped m first last ->
    (forall a, ~ (first <= a < last) -> m a = None) ->
    exists s, run_for_each f c pol w wb first last m st = Ok s
              /\ forall a, ~ (first <= a < last) -> s_mem s a = None.
  Proof.
    intros. apply for_each_inside; try assumption. split; [congruence|auto].
  Qed.

  Lemma for_each_ce_same (g : T -> T) c c' pol w first last m st :
    target_ok c -> c_ce c = false -> c_ce c' = true ->
    policy_ok pol -> width_ok w -> range_ok first last ->
    size_matches pol w first last -> reaches_alignment c pol w first last ->
    lanewise g f -> mapped m first last ->
    (w = 2 -> first = last \/ (last - first) mod 2 <> 0) ->
    exists s s', run_for_each f c pol w true first last m st = Ok s
                 /\ run_for_each f c' pol w true first last m st = Ok s'
                 /\ seen (s_trace s) = seen (s_trace s')
                 /\ range_is m first last (seen (s_trace s'))
                 /\ (forall a, s_mem s a = s_mem s' a).
  Proof.
    intros Hc Hce Hce' Hp Hw Hr Hs Hra Hg Hm Hodd. assert (Hk := lanewise_keeps f g Hg).
    destruct (run_spec_map f g pol w first last m st _ Hg (proj1 Hr)
                (for_each_runtime f c pol w true first last m st Hc Hce Hp Hw Hr Hs Hra Hk Hm))
      as (s & E & R & A).
    destruct (run_spec_map f g pol w first last m st _ Hg (proj1 Hr)
                (for_each_consteval f c' pol w true first last m st Hce' Hw Hr Hs Hodd Hk Hm))
      as (s' & E' & R' & A').
    exists s, s'. repeat split; try assumption; try apply R'.
    - eapply range_is_unique; eassumption.
    - intros a. now rewrite A, A'.
  Qed.

  Lemma for_each_match_uniform (g : T -> T) c pol w wb first last m st :
    target_ok c -> c_ce c = false -> policy_ok pol -> width_ok w -> range_ok first last ->
    p_match pol = true -> (exists n, last - first = n * w) -> lanewise g f -> mapped m first last ->
    exists s s', run_for_each f c pol w wb first last m st = Ok s
      /\ Forall (Forall (fun chunk => Z.of_nat (length chunk) = w)) (s_trace s)
      /\ run_for_each f c (mkpol (p_aligned pol) (p_auto pol) false (p_unroll pol) (p_size pol))
                      w wb first last m st = Ok s'
      /\ seen (s_trace s) = seen (s_trace s') /\ (forall a, s_mem s a = s_mem s' a).
  Proof.
    intros Hc Hce Hp Hw Hr Em Hn Hg Hm. assert (Hk := lanewise_keeps f g Hg).
    set (pol' := mkpol _ _ _ _ _).
    assert (Hpl : plain pol).
    { destruct Hp as (_ & H1 & H2). split; [destruct (p_aligned pol)|destruct (p_auto pol)]; try reflexivity.
      - now rewrite H1 in Em. - now rewrite H2 in Em. }
    assert (Hp' : policy_ok pol') by (unfold pol', policy_ok; cbn; destruct Hpl; repeat split; congruence).
    assert (HR := for_each_runtime f c pol w wb first last m st Hc Hce Hp Hw Hr (fun _ => Hn)
                    (plain_reaches _ _ _ _ _ Hpl) Hk Hm).
    assert (HR' := for_each_runtime f c pol' w wb first last m st Hc Hce Hp' Hw Hr
                    ltac:(discriminate) (plain_reaches _ _ _ _ _ Hpl) Hk Hm).
    destruct HR as (s & E & A1 & A2 & A3 & A4 & A5 & A6 & A7) eqn:Z1. clear Z1.
    destruct HR' as (s' & E' & B1 & B2 & B3 & B4 & B5 & B6 & B7) eqn:Z2. clear Z2.
    exists s, s'. split; [assumption|]. split; [auto|]. split; [assumption|].
    split; [eapply range_is_unique; eassumption|].
    destruct wb.
    - destruct (run_spec_map f g pol w first last m st _ Hg (proj1 Hr)
                  ltac:(exists s; do 7 (split; [eassumption|]); assumption)) as (t & Et & _ & At).
      destruct (run_spec_map f g pol' w first last m st _ Hg (proj1 Hr)
                  ltac:(exists s'; do 7 (split; [eassumption|]); assumption)) as (t' & Et' & _ & At').
      intros a. congruence.
    - intros a. rewrite A3, B3 by reflexivity. reflexivity.
  Qed.

  Lemma for_each_shapes c pol w wb first last m st :
    target_ok c -> c_ce c = false -> policy_ok pol -> width_ok w -> range_ok first last ->
    size_matches pol w first last -> reaches_alignment c pol w first last ->
    keeps_lanes f -> mapped m first last ->
    exists s, run_for_each f c pol w wb first last m st = Ok s
              /\ shapes_ok (Z.to_nat w) (Z.to_nat (p_unroll pol)) (s_trace s).
  Proof.
    intros. destruct (for_each_runtime f c pol w wb first last m st) as (s & E & A1 & A2 & A3 & A4 & A5 & A6 & _);
      try assumption. exists s. auto.
  Qed.
End Forms.
