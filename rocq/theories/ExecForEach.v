(** for_each: control flow and execution. *)
From Verif Require Import Base BaseFacts ExecModel ExecProofs.
From Coq Require Import ZifyBool ZifyNat Sorted.
Ltac Zify.zify_post_hook ::= idtac.

(** The two supported implementations of [memory_alignment] (libstdc++ / vir fallback). *)
Definition cfg_std (c : cfg) : Prop :=
  0 < c_sz c /\ c_base c mod c_sz c = 0 /\ forall k, 0 < k -> c_malign c k = bit_ceil (k * c_sz c).
Definition cfg_fallback (c : cfg) : Prop :=
  0 < c_sz c /\ forall k, 0 < k -> 0 < c_malign c k <= c_sz c.
Definition cfg_ok (c : cfg) : Prop := cfg_std c \/ cfg_fallback c.

Definition call_aligned (c : cfg) (k : call) : Prop :=
  k_al k = true -> forall i, 0 <= i < Z.of_nat (k_n k) ->
  aligned_at c (k_pos k + k_k k * i) (k_k k) = true.

(** ** Consequences of [prologue_is_possible] *)
Lemma fallback_impossible c w : cfg_fallback c -> prologue_is_possible c w = false.
Proof.
  intros [Hs Hm]. unfold prologue_is_possible.
  destruct (Z.ltb_spec 1 w); [|reflexivity]. specialize (Hm w ltac:(lia)).
  destruct (Z.ltb_spec (c_sz c) (c_malign c w)); [lia|]. now rewrite andb_false_r.
Qed.

Lemma possible_std c w : cfg_std c -> prologue_is_possible c w = true ->
  exists J s, 1 <= J /\ 0 <= s /\ w = 2 ^ J /\ c_sz c = 2 ^ s /\
              forall i, 0 <= i -> c_malign c (2 ^ i) = 2 ^ i * c_sz c.
Proof.
  intros (Hs & Hb & Hm) H. unfold prologue_is_possible in H.
  rewrite !andb_true_iff in H. destruct H as [[H1 H2] H3].
  assert (Hw : 1 < w) by lia. rewrite Hm in * by lia.
  set (x := w * c_sz c) in *. assert (Hx : 1 <= x) by (unfold x; nia).
  pose proof (bit_ceil_ge x Hx) as Hge.
  assert (Hx2 : x = bit_ceil x).
  { assert (Hdiv : (bit_ceil x | x)) by (apply Z.mod_divide; lia).
    apply Z.divide_pos_le in Hdiv; lia. }
  unfold bit_ceil in Hx2. pose proof (Z.log2_up_nonneg x) as Hn.
  destruct (divide_pow2 w (Z.log2_up x) Hn ltac:(lia)) as [J [HJ EJ]].
  { rewrite <- Hx2. apply Z.divide_factor_l. }
  destruct (divide_pow2 (c_sz c) (Z.log2_up x) Hn ltac:(lia)) as [s [Hs' Es]].
  { rewrite <- Hx2. apply Z.divide_factor_r. }
  exists J, s. repeat split; try lia; try assumption.
  - destruct (Z.eq_dec J 0) as [->|]; [change (2^0) with 1 in EJ; lia|lia].
  - intros i Hi. rewrite Hm by (apply pow2_pos; lia).
    rewrite Es, <- Z.pow_add_r by lia. apply bit_ceil_pow2. lia.
Qed.

Lemma aligned_at_iff c i p s : cfg_std c -> 0 <= i ->
  c_malign c (2 ^ i) = 2 ^ i * c_sz c ->
  aligned_at c s (2 ^ i) = true ->
  (aligned_at c p (2 ^ i) = true <-> (2 ^ i | p - s)).
Proof.
  intros (Hs & _ & _) Hi Hm Ha. unfold aligned_at in *. rewrite Hm in *.
  pose proof (pow2_pos i Hi). rewrite Z.eqb_eq in *.
  assert (Hnz : 2^i * c_sz c <> 0) by nia.
  apply Z.mod_divide in Ha; [|exact Hnz]. destruct Ha as [q Hq].
  split.
  - intros Hp. apply Z.mod_divide in Hp; [|exact Hnz]. destruct Hp as [r Hr].
    exists (r - q). apply (Z.mul_cancel_r _ _ (c_sz c)); [lia|]. nia.
  - intros [r Hr]. apply Z.mod_divide; [exact Hnz|]. exists (q + r).
    replace p with (s + r * 2^i) by lia. nia.
Qed.

(** Alignment for a larger power of two implies it for a smaller one. *)
Lemma aligned_at_smaller c i j p : cfg_std c -> 0 <= i <= j ->
  (forall i, 0 <= i -> c_malign c (2 ^ i) = 2 ^ i * c_sz c) ->
  aligned_at c p (2 ^ j) = true -> aligned_at c p (2 ^ i) = true.
Proof.
  intros (Hs & _ & _) Hi Hm. unfold aligned_at. rewrite !Hm by lia. rewrite !Z.eqb_eq.
  pose proof (pow2_pos i ltac:(lia)). pose proof (pow2_pos j ltac:(lia)).
  intros H1. apply Z.mod_divide in H1; [|nia]. apply Z.mod_divide; [nia|].
  eapply Z.divide_trans; [|exact H1]. apply Z.mul_divide_mono_r. now apply pow2_divide.
Qed.

(** What the prologue arguments mean in the libstdc++ configuration. *)
Lemma prologue_args_std c pol w rem p maxe tp :
  cfg_std c -> w < two64 -> prologue_args c pol w rem p = Some (maxe, tp) ->
  prologue_is_possible c w = true /\ maxe = w /\ 0 < tp < w
  /\ aligned_at c (p + tp) w = true
  /\ (forall a, p <= a -> aligned_at c a w = true -> p + tp <= a).
Proof.
  intros Hstd Hw64 H. unfold prologue_args in H.
  destruct (use_aligned_loadstore c pol w || maybe_prologue c pol w) eqn:Eu; [|discriminate].
  assert (Hpos : prologue_is_possible c w = true).
  { unfold use_aligned_loadstore, maybe_prologue in Eu.
    rewrite orb_true_iff, !andb_true_iff in Eu. tauto. }
  destruct (possible_std c w Hstd Hpos) as (J & s & HJ & Hs & EJ & Es & Hm).
  assert (Hal : c_malign c w = w * c_sz c) by (rewrite EJ; apply Hm; lia).
  destruct Hstd as (Hsz & Hb & _). rewrite Hal in H.
  rewrite Z.div_mul in H by lia.
  assert (Hw : 1 < w).
  { rewrite EJ. change 1 with (2^0). apply Z.pow_lt_mono_r; lia. }
  assert (Hws : 0 < w * c_sz c) by (apply Z.mul_pos_pos; lia).
  set (mis := (c_base c + p * c_sz c) mod (w * c_sz c)) in *.
  assert (Hmis : exists e, 0 <= e < w /\ mis = e * c_sz c).
  { assert (Hd : (c_sz c | mis)).
    { unfold mis. apply Z.mod_divide; [lia|].
      rewrite Z.mul_comm with (n := w), Z.rem_mul_r by lia.
      assert (E0 : (c_base c + p * c_sz c) mod c_sz c = 0).
      { rewrite Z.mod_add by lia. exact Hb. }
      rewrite E0, Z.add_0_l, Z.mul_comm, Z.mod_mul by lia. reflexivity. }
    destruct Hd as [e He]. exists e. split; [|exact He].
    assert (0 <= mis < w * c_sz c) by (apply Z.mod_pos_bound; lia).
    rewrite He in *. clear - Hsz H0. nia. }
  destruct Hmis as (e & He & Ee).
  destruct (Z.eqb_spec mis 0) as [|Hmis0]; [discriminate|].
  assert (Etp : mis / c_sz c = e) by (rewrite Ee; apply Z.div_mul; lia).
  rewrite Etp in H. rewrite Z.mod_small in H by lia.
  assert (Hr : maxe = w /\ tp = w - e).
  { destruct (use_aligned_loadstore c pol w); [inversion H; auto|].
    destruct ((4000 <? (rem * c_sz c) mod two64) || (Z.land (w - e) rem =? w - e));
      [inversion H; auto|discriminate]. }
  destruct Hr as [-> ->].
  assert (0 < e) by (destruct (Z.eq_dec e 0) as [->|]; lia).
  repeat split; try lia; try assumption.
  - unfold aligned_at. rewrite Hal, Z.eqb_eq.
    pose proof (Z.div_mod (c_base c + p * c_sz c) (w * c_sz c) ltac:(lia)) as Hdm.
    fold mis in Hdm. rewrite Ee in Hdm.
    replace (c_base c + (p + (w - e)) * c_sz c)
      with (((c_base c + p * c_sz c) / (w * c_sz c) + 1) * (w * c_sz c)) by (clear - Hdm; nia).
    apply Z.mod_mul. lia.
  - intros a Hpa Ha. unfold aligned_at in Ha. rewrite Hal, Z.eqb_eq in Ha.
    apply Z.mod_divide in Ha; [|lia]. destruct Ha as [q Hq].
    pose proof (Z.div_mod (c_base c + p * c_sz c) (w * c_sz c) ltac:(lia)) as Hdm.
    fold mis in Hdm. rewrite Ee in Hdm. set (d := (c_base c + p * c_sz c) / (w * c_sz c)) in *.
    assert (Hlt : (a - p) * c_sz c = (q - d) * w * c_sz c - e * c_sz c)
      by (clear - Hq Hdm; nia).
    assert (Hap : a - p = (q - d) * w - e) by (clear - Hlt Hsz; nia).
    assert (1 <= q - d) by (clear - Hap Hpa He H0 Hw; nia).
    clear - Hap H1 Hw. nia.
Qed.

Lemma prologue_args_none_aligned c pol w rem p :
  use_aligned_loadstore c pol w = true -> prologue_args c pol w rem p = None ->
  aligned_at c p w = true.
Proof.
  intros Hu H. unfold prologue_args in H. rewrite Hu in H. cbn [orb] in H.
  unfold aligned_at. destruct (_ =? 0); [reflexivity|discriminate].
Qed.

(** auto_prologue never takes more than there is. *)
Lemma prologue_args_auto_fits c pol w rem p maxe tp :
  cfg_std c -> w < two64 -> 0 <= rem -> p_aligned pol = false -> w * c_sz c <= 4000 ->
  prologue_args c pol w rem p = Some (maxe, tp) -> tp <= rem.
Proof.
  intros Hstd Hw64 Hrem Hpa H4000 H.
  destruct (prologue_args_std _ _ _ _ _ _ _ Hstd Hw64 H) as (Hpos & -> & Htp & _).
  destruct Hstd as (Hsz & _ & _).
  unfold prologue_args in H.
  destruct (use_aligned_loadstore c pol w || maybe_prologue c pol w); [|discriminate].
  destruct (_ =? 0) in H; [discriminate|].
  assert (Eu : use_aligned_loadstore c pol w = false)
    by (unfold use_aligned_loadstore; now rewrite Hpa).
  rewrite Eu in H.
  set (tp' := (c_malign c w / c_sz c - _) mod two64) in H.
  destruct (Z.ltb_spec 4000 ((rem * c_sz c) mod two64)) as [Hb|Hb]; cbn [orb] in H.
  - assert (H2 : (rem * c_sz c) mod two64 <= rem * c_sz c) by (apply Z.mod_le; [nia|reflexivity]).
    nia.
  - destruct (Z.eqb_spec (Z.land tp' rem) tp') as [El|]; [|discriminate].
    inversion H; subst. rewrite Z.land_comm in El.
    assert (Z.land rem tp' <= rem) by (apply land_le; lia). lia.
Qed.

(** ** The part after the prologue *)
Definition exponent (w : Z) : Z := Z.log2_up w.

(** The two loops of the run-time branch. *)
Lemma body_loops pol w al first last :
  1 <= w < two64 -> first <= last -> (p_match pol = true -> (w | last - first)) ->
  exists l1 a l2 b,
    (if 1 <? p_unroll pol
             then main_loop (loop_fuel first last) w (Z.to_nat (p_unroll pol)) al
                            (last - w * p_unroll pol) first
             else retW first) = (l1, Ok a)
    /\ uniform w (Z.to_nat (p_unroll pol)) al first a l1 /\ (p_unroll pol <= 1 -> l1 = [])
    /\ first <= a <= last /\ (w | a - first)
    /\ (if p_match pol
     then match_loop (loop_fuel first last) w al last a
     else main_loop (loop_fuel first last) w 1 al (last - w) a) = (l2, Ok b)
    /\ uniform w 1 al a b l2 /\ (w | b - a) /\ b = last - (last - first) mod w.
Proof.
  intros Hw Hle Hmatch.
  assert (Hstep1 : exists l1 a,
    (if 1 <? p_unroll pol
             then main_loop (loop_fuel first last) w (Z.to_nat (p_unroll pol)) al
                            (last - w * p_unroll pol) first
             else retW first) = (l1, Ok a)
    /\ uniform w (Z.to_nat (p_unroll pol)) al first a l1 /\ (p_unroll pol <= 1 -> l1 = [])
    /\ first <= a <= last /\ (w | a - first)).
  { destruct (Z.ltb_spec 1 (p_unroll pol)) as [Hu|Hu].
    - destruct (main_loop_ok w (Z.to_nat (p_unroll pol)) al (loop_fuel first last)
                  (last - w * p_unroll pol) first) as (l & a & E & Hun & H1 & H2 & H3);
        [lia|lia|unfold loop_fuel; lia|].
      exists l, a. split; [exact E|]. split; [exact Hun|]. split; [lia|].
      rewrite Z2Nat.id in * by lia. split.
      + assert (first <= a) by (apply tiles_le with l; eapply uniform_tiles; [| |exact Hun]; lia).
        split; [assumption|]. destruct (Z_le_gt_dec first (last - w * p_unroll pol + w * p_unroll pol)).
        * specialize (H1 l0). lia.
        * lia.
      + eapply Z.divide_trans; [|exact H3]. apply Z.divide_factor_l.
    - exists [], first. split; [reflexivity|]. split; [constructor|]. split; [reflexivity|].
      split; [lia|]. rewrite Z.sub_diag. apply Z.divide_0_r. }
  destruct Hstep1 as (l1 & a & E1 & Hu1 & Hl1 & Ha & Hda).
  assert (Hmod : (last - a) mod w = (last - first) mod w).
  { destruct Hda as [q Hq]. replace (last - first) with (last - a + q * w) by lia.
    rewrite Z.mod_add by lia. reflexivity. }
  assert (Hstep2 : exists l2 b,
    (if p_match pol
     then match_loop (loop_fuel first last) w al last a
     else main_loop (loop_fuel first last) w 1 al (last - w) a) = (l2, Ok b)
    /\ uniform w 1 al a b l2 /\ (w | b - a) /\ b = last - (last - first) mod w).
  { destruct (p_match pol) eqn:Ep.
    - specialize (Hmatch eq_refl).
      assert (Hm0 : (last - first) mod w = 0) by (apply Z.mod_divide; [lia|assumption]).
      assert (Hdl : (w | last - a)) by (apply Z.mod_divide; lia).
      destruct (match_loop_ok w al (loop_fuel first last) last a) as (l & E & Hun);
        [lia|lia|assumption|unfold loop_fuel; lia|].
      exists l, last. split; [exact E|]. split; [exact Hun|]. split; [assumption|lia].
    - destruct (main_loop_ok w 1 al (loop_fuel first last) (last - w) a)
        as (l & b & E & Hun & H1 & H2 & H3); [lia|lia|unfold loop_fuel; lia|].
      replace (w * Z.of_nat 1) with w in * by lia.
      exists l, b. split; [exact E|]. split; [exact Hun|]. split; [assumption|].
      specialize (H1 ltac:(lia)). destruct H3 as [q Hq].
      assert ((last - first) mod w = last - b).
      { rewrite <- Hmod. symmetry. apply Z.mod_unique_pos with q; lia. }
      lia. }
  destruct Hstep2 as (l2 & b & E2 & Hu2 & Hdb & Eb).
  exists l1, a, l2, b. repeat split; try assumption; try apply Ha.
Qed.

Lemma for_each_body_ok c pol w first last distance :
  1 <= w < two64 -> first <= last ->
  distance mod w = (last - first) mod w ->
  (p_match pol = true -> (w | last - first)) ->
  exists l1 l2 l3 a b,
    let al := use_aligned_loadstore c pol w in
    for_each_body c pol w first last distance = (l1 ++ l2 ++ l3, Ok tt)
    /\ uniform w (Z.to_nat (p_unroll pol)) al first a l1 /\ (p_unroll pol <= 1 -> l1 = [])
    /\ uniform w 1 al a b l2 /\ (w | b - first) /\ (w | a - first)
    /\ desc al (exponent w) b last l3
    /\ (p_match pol = true -> l3 = []).
Proof.
  intros Hw Hle Hd Hmatch. unfold for_each_body. rewrite Hd.
  set (al := use_aligned_loadstore c pol w). cbn zeta.
  destruct (body_loops pol w al first last Hw Hle Hmatch)
    as (l1 & a & l2 & b & E1 & Hu1 & Hl1 & Ha & Hda & E2 & Hu2 & Hdb & Eb).
  rewrite E1. unfold bindW. cbn beta iota. rewrite E2.
  assert (Hbf : (w | b - first)).
  { replace (b - first) with ((b - a) + (a - first)) by lia. apply Z.divide_add_r; assumption. }
  destruct (negb (p_match pol) && (1 <? w) && negb ((last - first) mod w =? 0)) eqn:Eep.
  - rewrite !andb_true_iff in Eep. destruct Eep as [[Ep Ew] E0].
    assert (Hlo : 0 <= (last - first) mod w < w) by (apply Z.mod_pos_bound; lia).
    destruct (for_each_epilogue_ok c al 64 w (exponent w) ((last - first) mod w) last)
      as (l3 & E3 & Hd3).
    + unfold exponent. split; [lia|]. apply Z.log2_up_spec. lia.
    + unfold exponent. split; [apply Z.log2_up_nonneg|].
      apply Z.log2_up_le_pow2; [lia|]. unfold two64 in Hw. change (Z.of_nat 64) with 64. lia.
    + lia.
    + rewrite E3. exists l1, l2, l3, a, b.
      split; [reflexivity|]. repeat split; try assumption.
      * rewrite Eb. exact Hd3.
      * intros Ep'. rewrite Ep' in Ep. discriminate.
  - exists l1, l2, [], a, b. unfold retW. rewrite app_nil_r.
    split; [reflexivity|]. repeat split; try assumption.
    assert (E0 : (last - first) mod w = 0).
    { destruct (p_match pol); [apply Z.mod_divide; [lia|]; now apply Hmatch|].
      cbn [negb andb] in Eep. destruct (Z.ltb_spec 1 w); cbn [andb] in Eep; [lia|].
      replace w with 1 by lia. apply Z.mod_1_r. }
    replace b with last by lia. constructor.
Qed.

(** The range reaches the next aligned address, if the policy insists on one. *)
Definition prologue_fits (c : cfg) (pol : policy) (w first last : Z) : Prop :=
  p_aligned pol = true -> prologue_is_possible c w = true ->
  exists a, first <= a <= last /\ aligned_at c a w = true.

Definition small_vectors (c : cfg) (pol : policy) (w : Z) : Prop :=
  p_auto pol = true -> w * c_sz c <= 4000.

(** Sizes a callable may see. *)
Definition call_size (pol : policy) (w : Z) (k : call) : Prop :=
  (k_k k = w /\ (k_n k = 1%nat \/ (1 < p_unroll pol /\ k_n k = Z.to_nat (p_unroll pol))))
  \/ (exists i, 0 <= i /\ k_k k = 2 ^ i /\ 2 ^ i < w /\ k_n k = 1%nat).

Definition pol_ok (pol : policy) : Prop :=
  (p_aligned pol = true -> p_match pol = false) /\ (p_auto pol = true -> p_match pol = false)
  /\ (p_aligned pol = true -> p_auto pol = false).

Lemma exponent_bound w i : 1 <= w -> 0 <= i < exponent w -> 2 ^ i < w.
Proof.
  intros Hw Hi. unfold exponent in Hi. destruct (Z.eq_dec w 1) as [->|].
  - rewrite Z.log2_up_1 in Hi. lia.
  - destruct (Z.log2_up_spec w ltac:(lia)) as [H1 _].
    eapply Z.le_lt_trans; [|exact H1]. apply Z.pow_le_mono_r; lia.
Qed.

Lemma body_facts c pol w first last l1 l2 l3 a b :
  cfg_ok c -> 1 <= w ->
  (use_aligned_loadstore c pol w = true -> aligned_at c first w = true) ->
  let al := use_aligned_loadstore c pol w in
  uniform w (Z.to_nat (p_unroll pol)) al first a l1 -> (p_unroll pol <= 1 -> l1 = []) ->
  uniform w 1 al a b l2 -> (w | b - first) -> (w | a - first) ->
  desc al (exponent w) b last l3 ->
  tiles first last (l1 ++ l2 ++ l3) /\ Forall (call_aligned c) (l1 ++ l2 ++ l3)
  /\ Forall (call_size pol w) (l1 ++ l2 ++ l3).
Proof.
  intros Hc Hw Hal al H1 Hl1 H2 Hdb Hda H3.
  assert (HT1 : tiles first a l1).
  { destruct (Z_le_gt_dec (p_unroll pol) 1) as [Hu|Hu].
    - rewrite (Hl1 Hu) in *. inversion H1; subst. constructor.
    - eapply uniform_tiles; [| |exact H1]; lia. }
  assert (HT2 : tiles a b l2) by (eapply uniform_tiles; [| |exact H2]; lia).
  assert (HT3 : tiles b last l3) by (eapply desc_tiles; exact H3).
  split; [eapply tiles_app; [exact HT1|]; eapply tiles_app; eassumption|].
  assert (Hexp : 0 <= exponent w) by apply Z.log2_up_nonneg.
  (* sizes *)
  pose proof (uniform_pos _ _ _ _ _ _ H1 first ltac:(rewrite Z.sub_diag; apply Z.divide_0_r)) as P1.
  pose proof (uniform_pos _ _ _ _ _ _ H2 first Hda) as P2.
  pose proof (desc_pos _ _ _ _ _ H3 Hexp b ltac:(rewrite Z.sub_diag; apply Z.divide_0_r)) as P3.
  split.
  - (* alignment *)
    destruct (use_aligned_loadstore c pol w) eqn:Eu.
    2:{ unfold al in *. rewrite !Forall_app. repeat split.
        - eapply Forall_impl; [|exact P1]. intros k (_ & _ & E & _) E'. congruence.
        - eapply Forall_impl; [|exact P2]. intros k (_ & _ & E & _) E'. congruence.
        - eapply Forall_impl; [|exact P3]. intros k (i & _ & _ & _ & E & _) E'. congruence. }
    specialize (Hal eq_refl).
    assert (Hpos : prologue_is_possible c w = true).
    { unfold use_aligned_loadstore in Eu. rewrite andb_true_iff in Eu. tauto. }
    destruct Hc as [Hc|Hc]; [|rewrite fallback_impossible in Hpos by assumption; discriminate].
    destruct (possible_std c w Hc Hpos) as (J & s & HJ & Hs & EJ & Es & Hm).
    assert (Hall : forall k, k_k k = w -> (w | k_pos k - first) -> call_aligned c k).
    { intros k Ek Hk _ i _. rewrite Ek. rewrite EJ.
      apply (aligned_at_iff c J _ first); try assumption; [lia|apply Hm; lia|congruence|].
      rewrite <- EJ. replace (k_pos k + w * i - first) with (k_pos k - first + i * w) by lia.
      apply Z.divide_add_r; [assumption|apply Z.divide_factor_r]. }
    rewrite !Forall_app. repeat split.
    + eapply Forall_impl; [|exact P1]. intros k (E & _ & _ & Hk). now apply Hall.
    + eapply Forall_impl; [|exact P2]. intros k (E & _ & _ & Hk). now apply Hall.
    + assert (Hb : aligned_at c b w = true).
      { rewrite EJ. apply (aligned_at_iff c J _ first); try assumption; [lia|apply Hm; lia|congruence|].
        rewrite <- EJ. exact Hdb. }
      assert (EE : exponent w = J) by (unfold exponent; rewrite EJ; apply Z.log2_up_pow2; lia).
      eapply Forall_impl; [|exact P3]. intros k (i & Hi & Ek & En & _ & Hk) _ i' Hi'.
      rewrite En in Hi'. assert (i' = 0) by lia. subst i'. rewrite Z.mul_0_r, Z.add_0_r.
      rewrite Ek. apply (aligned_at_iff c i _ b); try assumption; [lia|apply Hm; lia|].
      apply (aligned_at_smaller c i J); try assumption; [lia|]. congruence.
  - rewrite !Forall_app. repeat split.
    + destruct (Z_le_gt_dec (p_unroll pol) 1) as [Hu|Hu].
      * rewrite (Hl1 Hu). constructor.
      * eapply Forall_impl; [|exact P1]. intros k (E & En & _). left. split; [assumption|].
        right. split; [lia|assumption].
    + eapply Forall_impl; [|exact P2]. intros k (E & En & _). left. auto.
    + eapply Forall_impl; [|exact P3]. intros k (i & Hi & Ek & En & _). right. exists i.
      repeat split; try lia; try assumption. now apply exponent_bound.
Qed.

(** ** The sequence of chunk shapes: increasing powers of two, then unrolled and single
    full-width calls, then decreasing powers of two. *)
Definition size_of (k : call) : Z * nat := (k_k k, k_n k).
Definition pow_size (i : Z) : Z * nat := (2 ^ i, 1%nat).

Definition call_shape (pol : policy) (w : Z) (l : list call) : Prop :=
  exists ies a b des,
    map size_of l = map pow_size ies ++ repeat (w, Z.to_nat (p_unroll pol)) a
                    ++ repeat (w, 1%nat) b ++ map pow_size des
    /\ StronglySorted Z.lt ies /\ StronglySorted (fun x y => y < x) des
    /\ Forall (fun i => 0 <= i /\ 2 ^ i < w) (ies ++ des)
    /\ (p_unroll pol <= 1 -> a = 0%nat)
    /\ (p_match pol = true -> ies = [] /\ des = []).

Lemma uniform_shape w u al a b l : uniform w u al a b l -> map size_of l = repeat (w, u) (length l).
Proof. induction 1; cbn; [reflexivity|]. f_equal. assumption. Qed.

Lemma desc_shape al j a b l : desc al j a b l ->
  exists des, map size_of l = map pow_size des /\ StronglySorted (fun x y => y < x) des
              /\ Forall (fun i => 0 <= i < j) des.
Proof.
  induction 1 as [|j i a b l Hi H (des & E & Hs & Hf)].
  - exists []. repeat split; constructor.
  - exists (i :: des). cbn. rewrite E. repeat split; constructor; try assumption; try lia.
    + eapply Forall_impl; [|exact Hf]. cbn. lia.
    + eapply Forall_impl; [|exact Hf]. cbn. lia.
Qed.

Lemma asc_shape K i a b l : asc K i a b l ->
  exists ies, map size_of l = map pow_size ies /\ StronglySorted Z.lt ies
              /\ Forall (fun k => i <= k < K) ies /\ (0 <= i -> Forall (fun k => 0 <= k) ies).
Proof.
  induction 1 as [|i k a b l Hi HK H (ies & E & Hs & Hf & Hp)].
  - exists []. repeat split; constructor.
  - exists (k :: ies). cbn. rewrite E. repeat split.
    + constructor; [assumption|]. eapply Forall_impl; [|exact Hf]. cbn. lia.
    + constructor; [lia|]. eapply Forall_impl; [|exact Hf]. cbn. lia.
    + intros _. constructor; [lia|]. apply Hp. lia.
Qed.

Lemma body_shape pol w al first last l1 l2 l3 a b : 1 <= w ->
  uniform w (Z.to_nat (p_unroll pol)) al first a l1 -> (p_unroll pol <= 1 -> l1 = []) ->
  uniform w 1 al a b l2 -> desc al (exponent w) b last l3 -> (p_match pol = true -> l3 = []) ->
  call_shape pol w (l1 ++ l2 ++ l3).
Proof.
  intros Hw H1 Hl1 H2 H3 Hm. destruct (desc_shape _ _ _ _ _ H3) as (des & E & Hs & Hf).
  exists [], (length l1), (length l2), des. cbn [map app].
  rewrite !map_app, (uniform_shape _ _ _ _ _ _ H1), (uniform_shape _ _ _ _ _ _ H2), E.
  split; [reflexivity|]. split; [constructor|]. split; [assumption|]. split; [|split].
  - eapply Forall_impl; [|exact Hf]. cbn. intros i Hi. split; [lia|]. now apply exponent_bound.
  - intros Hu. now rewrite (Hl1 Hu).
  - intros Em. rewrite (Hm Em) in E. split; [reflexivity|]. now destruct des.
Qed.

(** ** for_each at run time *)
Lemma for_each_rt_calls_fit c pol w first last :
  cfg_ok c -> pol_ok pol -> 1 <= w < two64 -> first <= last ->
  last - first < two64 ->
  (p_match pol = true -> (w | last - first)) ->
  (forall maxe tp, prologue_args c pol w (last - first) first = Some (maxe, tp) -> tp <= last - first) ->
  exists l, for_each_rt c pol w first last = (l, Ok tt) /\ tiles first last l
            /\ Forall (call_aligned c) l /\ Forall (call_size pol w) l /\ call_shape pol w l.
Proof.
  intros Hc Hpol Hw Hle H64 Hmatch Hfit. unfold for_each_rt.
  destruct (prologue_args c pol w (last - first) first) as [[maxe tp]|] eqn:Epa.
  - (* with prologue *)
    assert (Htple := Hfit maxe tp eq_refl).
    assert (Hpos : prologue_is_possible c w = true).
    { unfold prologue_args, use_aligned_loadstore, maybe_prologue in Epa.
      destruct (prologue_is_possible c w); [reflexivity|].
      rewrite !andb_false_r in Epa. discriminate. }
    destruct Hc as [Hstd|Hfb]; [|rewrite fallback_impossible in Hpos by assumption; discriminate].
    destruct (prologue_args_std _ _ _ _ _ _ _ Hstd (proj2 Hw) Epa) as (_ & -> & Htp & Hal & Hleast).
    destruct (possible_std c w Hstd Hpos) as (J & s & HJ & Hs & EJ & Es & Hm).
    assert (HJ64 : J < 64).
    { apply pow2_lt_inv; [lia|]. rewrite <- EJ. exact (proj2 Hw). }
    destruct (for_each_prologue_ok c J 64 0 first tp) as (lp & Ep & Hasc);
      [lia|lia|lia|lia|].
    change (2^0) with 1 in Ep, Hasc. rewrite Z.div_1_r, Z.mul_1_l in Hasc. rewrite <- EJ in Ep.
    rewrite Ep. unfold bindW at 1. rewrite Z.mod_small by lia.
    destruct (for_each_body_ok c pol w (first + tp) last (last - first - tp))
      as (l1 & l2 & l3 & a & b & Eb & Hu1 & Hl1 & Hu2 & Hdb & Hda & Hd3 & Hm3);
      [assumption|lia|f_equal; lia| |].
    { (* assume_matching_size excludes a prologue *)
      intros Em. exfalso. destruct Hpol as (Hp1 & Hp2 & _).
      unfold prologue_args, use_aligned_loadstore, maybe_prologue in Epa.
      destruct (p_aligned pol); [rewrite Hp1 in Em by reflexivity; discriminate|].
      destruct (p_auto pol); [rewrite Hp2 in Em by reflexivity; discriminate|].
      cbn in Epa. discriminate. }
    rewrite Eb.
    destruct (body_facts c pol w (first + tp) last l1 l2 l3 a b) as (HT & HA & HS);
      try assumption; try lia; [left; assumption|intros _; exact Hal|].
    exists (lp ++ l1 ++ l2 ++ l3). split; [reflexivity|].
    destruct (asc_pos _ _ _ _ _ Hasc ltac:(lia)) as [_ HP].
    split; [eapply tiles_app; [eapply asc_tiles; exact Hasc|exact HT]|].
    rewrite !(Forall_app _ lp). repeat split; try assumption.
    + eapply Forall_impl; [|exact HP]. intros k (i & Hi & Ek & En & _ & Hk) _ i' Hi'.
      rewrite En in Hi'. assert (i' = 0) by lia. subst i'. rewrite Z.mul_0_r, Z.add_0_r, Ek.
      apply (aligned_at_iff c i _ (first + tp)); try assumption; [lia|apply Hm; lia| |].
      * apply (aligned_at_smaller c i J); try assumption; [lia|]. rewrite <- EJ. exact Hal.
      * replace (k_pos k - (first + tp)) with (- (first + tp - k_pos k)) by lia.
        now apply Z.divide_opp_r.
    + eapply Forall_impl; [|exact HP]. intros k (i & Hi & Ek & En & _). right. exists i.
      repeat split; try lia; try assumption. rewrite EJ. apply Z.pow_lt_mono_r; lia.
    + assert (Em : p_match pol = false).
      { destruct (p_match pol) eqn:Em; [exfalso|reflexivity]. destruct Hpol as (Hp1 & Hp2 & _).
        unfold prologue_args, use_aligned_loadstore, maybe_prologue in Epa.
        destruct (p_aligned pol); [rewrite Hp1 in Em by reflexivity; discriminate|].
        destruct (p_auto pol); [rewrite Hp2 in Em by reflexivity; discriminate|].
        cbn in Epa. discriminate. }
      destruct (desc_shape _ _ _ _ _ Hd3) as (des' & E' & Hs3 & Hf3).
      destruct (asc_shape _ _ _ _ _ Hasc) as (ies & Ei & Hsi & Hfi & Hfp).
      exists ies, (length l1), (length l2), des'.
      rewrite !map_app, Ei, (uniform_shape _ _ _ _ _ _ Hu1), (uniform_shape _ _ _ _ _ _ Hu2), E'.
      split; [reflexivity|]. split; [assumption|]. split; [assumption|]. split; [|split].
      * rewrite Forall_app. split.
        -- eapply Forall_impl; [|exact Hfi]. cbn. intros i Hi. split; [lia|].
           rewrite EJ. apply Z.pow_lt_mono_r; lia.
        -- eapply Forall_impl; [|exact Hf3]. cbn. intros i Hi. split; [lia|].
           apply exponent_bound; lia.
      * intros Hu. now rewrite (Hl1 Hu).
      * congruence.
  - destruct (for_each_body_ok c pol w first last (last - first))
      as (l1 & l2 & l3 & a & b & Eb & Hu1 & Hl1 & Hu2 & Hdb & Hda & Hd3 & Hm3);
      [assumption|assumption|reflexivity|assumption|].
    rewrite Eb.
    destruct (body_facts c pol w first last l1 l2 l3 a b) as (HT & HA & HS);
      try assumption; try lia.
    { intros Eu. eapply prologue_args_none_aligned; eassumption. }
    exists (l1 ++ l2 ++ l3). split; [reflexivity|]. do 3 (split; [assumption|]).
    eapply body_shape; try eassumption. lia.
Qed.

Lemma for_each_rt_calls c pol w first last :
  cfg_ok c -> pol_ok pol -> 1 <= w < two64 -> first <= last ->
  last - first < two64 ->
  (p_match pol = true -> (w | last - first)) ->
  prologue_fits c pol w first last -> small_vectors c pol w ->
  exists l, for_each_rt c pol w first last = (l, Ok tt) /\ tiles first last l
            /\ Forall (call_aligned c) l /\ Forall (call_size pol w) l /\ call_shape pol w l.
Proof.
  intros Hc Hpol Hw Hle H64 Hmatch Hfits Hsmall. apply for_each_rt_calls_fit; try assumption.
  intros maxe tp Epa.
  assert (Hpos : prologue_is_possible c w = true).
  { unfold prologue_args, use_aligned_loadstore, maybe_prologue in Epa.
    destruct (prologue_is_possible c w); [reflexivity|].
    rewrite !andb_false_r in Epa. discriminate. }
  destruct Hc as [Hstd|Hfb]; [|rewrite fallback_impossible in Hpos by assumption; discriminate].
  destruct (prologue_args_std _ _ _ _ _ _ _ Hstd (proj2 Hw) Epa) as (_ & -> & Htp & Hal & Hleast).
  destruct (p_aligned pol) eqn:Epal.
  - destruct (Hfits Epal Hpos) as (a & Ha & Haa). specialize (Hleast a ltac:(lia) Haa). lia.
  - apply (prologue_args_auto_fits c pol w (last - first) first w tp); try assumption; try lia.
    apply Hsmall. unfold prologue_args, use_aligned_loadstore, maybe_prologue in Epa.
    rewrite Epal in Epa. cbn [andb orb] in Epa. destruct (p_auto pol); [reflexivity|].
    cbn [andb] in Epa. discriminate.
Qed.

Lemma for_each_calls c pol w first last :
  cfg_ok c -> c_ce c = false -> pol_ok pol -> 1 <= w < two64 -> first <= last ->
  last - first < two64 ->
  (p_match pol = true -> (w | last - first)) ->
  prologue_fits c pol w first last -> small_vectors c pol w ->
  exists l, for_each c pol w first last = (l, Ok tt) /\ tiles first last l
            /\ Forall (call_aligned c) l /\ Forall (call_size pol w) l /\ call_shape pol w l.
Proof.
  intros Hc Hce Hpol Hw Hle H64 Hmatch Hfits Hsmall. unfold for_each.
  destruct (Z.eqb_spec first last) as [->|Hne].
  { exists []. split; [reflexivity|]. split; [constructor|]. do 2 (split; [constructor|]).
    exists [], 0%nat, 0%nat, []. repeat split; constructor. }
  assert (Etrap : p_match pol && negb ((last - first) mod w =? 0) = false).
  { destruct (p_match pol); [|reflexivity]. cbn [andb].
    assert ((last - first) mod w = 0) by (apply Z.mod_divide; [lia|]; now apply Hmatch). lia. }
  rewrite Etrap, Hce. now apply for_each_rt_calls.
Qed.
