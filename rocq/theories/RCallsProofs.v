(** The calls of the parts of detail::transform_reduce (C82). *)
From Verif Require Import Base BaseFacts ExecModel TransformModel ReduceModel ReduceProofs TReduceModel TReduceProofs
  ScheduleSpec ScheduleProofs CostSpec CostProofs RCallsModel RCallsSpec RCallsSim.
From Coq Require Import ZifyBool ZifyNat Sorted.
Ltac Zify.zify_post_hook ::= idtac.

(** ** Binary digits *)
Definition dg (k : nat) (x : Z) : list nat := filter (fun i => Z.testbit x (Z.of_nat i)) (seq 0 k).

Lemma dg_S k x : dg (S k) x = dg k x ++ (if Z.testbit x (Z.of_nat k) then [k] else []).
Proof. unfold dg. rewrite seq_S, filter_app. reflexivity. Qed.

Lemma dg_low x k j : 0 <= x < 2 ^ Z.of_nat k -> dg (k + j) x = dg k x.
Proof.
  intros Hx. induction j as [|j IH]; [now rewrite Nat.add_0_r|]. rewrite Nat.add_succ_r, dg_S, IH.
  assert (E : Z.testbit x (Z.of_nat (k + j)) = false).
  { rewrite <- (Z.mod_small x (2 ^ Z.of_nat k)) by lia. apply Z.mod_pow2_bits_high. lia. }
  rewrite E. apply app_nil_r.
Qed.

Transparent digits.
Lemma digits_dg x k : (k <= 64)%nat -> 0 <= x < 2 ^ Z.of_nat k -> digits x = dg k x.
Proof. intros Hk Hx. rewrite <- (dg_low x k (64 - k) Hx). replace (k + (64 - k))%nat with 64%nat by lia.
  unfold digits, dg. exact eq_refl. Qed.

Lemma digits_sorted x : StronglySorted lt (digits x).
Proof. unfold digits. apply filter_sorted, seq_sorted. Qed.

Lemma digits_below64 x : Forall (fun i => i < 64)%nat (digits x).
Proof. apply Forall_forall. intros i. unfold digits. rewrite filter_In, in_seq. lia. Qed.
Opaque digits.

Lemma digits_top b r : 0 <= r < 2 ^ Z.of_nat b -> (b < 64)%nat -> digits (2 ^ Z.of_nat b + r) = digits r ++ [b].
Proof.
  intros Hr Hb.
  assert (H64 : 2 ^ Z.of_nat b < 2 ^ 64) by (apply Z.pow_lt_mono_r; lia).
  assert (E : 2 ^ Z.of_nat b + r = powers (digits r ++ [b])).
  { rewrite powers_app, powers_digits by lia. cbn [powers]. lia. }
  rewrite E. apply digits_powers.
  - apply sorted_app_last; [apply digits_sorted|]. apply Forall_forall. intros i Hi.
    apply digit_below in Hi; [|lia].
    pose proof (pow2_lt_inv (Z.of_nat i) (Z.of_nat b) ltac:(lia) ltac:(lia)). lia.
  - apply Forall_app. split; [apply digits_below64|]. constructor; [assumption|constructor].
Qed.

Lemma digits_zero : digits 0 = [].
Proof. vm_compute. reflexivity. Qed.

Lemma digits_pow b : (b < 64)%nat -> digits (2 ^ Z.of_nat b) = [b].
Proof.
  intros Hb. pose proof (pow2_pos (Z.of_nat b) ltac:(lia)).
  rewrite <- (Z.add_0_r (2 ^ Z.of_nat b)), digits_top by lia. now rewrite digits_zero.
Qed.

Lemma across_pow b : (b < 64)%nat -> across_calls (2 ^ Z.of_nat b) = b.
Proof. intros Hb. unfold across_calls. rewrite digits_pow by assumption. cbn. lia. Qed.

Lemma across_top b r : 0 < r < 2 ^ Z.of_nat b -> (b < 64)%nat ->
  across_calls (2 ^ Z.of_nat b + r) = (b + across_calls r + 1)%nat.
Proof.
  intros Hr Hb. unfold across_calls. rewrite digits_top by lia. rewrite list_sum_app, app_length.
  assert (0 < length (digits r))%nat.
  { assert (2 ^ Z.of_nat b < 2 ^ 64) by (apply Z.pow_lt_mono_r; lia).
    pose proof (powers_digits r ltac:(lia)) as E. destruct (digits r); cbn in *; lia. }
  cbn [length list_sum fold_right]. lia.
Qed.

Definition pw (l : list nat) : list nat := map (fun i => Nat.pow 2 i) l.

Lemma pw_app a b : pw (a ++ b) = pw a ++ pw b.
Proof. apply map_app. Qed.
Lemma pw_rev l : pw (rev l) = rev (pw l).
Proof. apply map_rev. Qed.

Lemma sum_rev l : list_sum (rev l) = list_sum l.
Proof.
  induction l as [|x l IH]; [reflexivity|]. cbn [rev]. rewrite list_sum_app, IH.
  change (list_sum (x :: l)) with (x + list_sum l)%nat. change (list_sum [x]) with (x + 0)%nat. lia.
Qed.

(** ** Runs that end *)
Section Runs.
  Context {A St : Type} {EO : eval_order}.
  Variables (rop : St -> list A -> list A -> St * list A) (sop : St -> A -> A -> St * A)
            (ld : St -> bool -> list Z -> Z -> St * res (list A)).
  Variable ps0 : list Z.
  Hypothesis Hld : forall s al p k s' v, 0 < k -> ld s al (adv p ps0) k = (s', Ok v) -> length v = Z.to_nat k.

  Definition holds {X} (m : M (St := St) X) (P : list event -> X -> Prop) : Prop :=
    forall s es s' x, m s = (es, s', Ok x) -> P es x.

  (** [es] calls transform_op for chunks of [sizes] from offset [p] on, and reduce_op [c] times with [l] lanes. *)
  Definition obs (p : Z) (sizes : list nat) (c l : nat) (es : list event) : Prop :=
    transforms es = consecutive ps0 p sizes /\ reductions es = c /\ pairs es = l.

  Lemma consecutive_app p a : forall p', p' = p + Z.of_nat (list_sum a) -> forall b,
    consecutive ps0 p (a ++ b) = consecutive ps0 p a ++ consecutive ps0 p' b.
  Proof.
    revert p. induction a as [|k a IH]; intros p p' E b.
    - cbn in *. now replace p' with p by lia.
    - change (list_sum (k :: a)) with (k + list_sum a)%nat in E. cbn [app consecutive].
      rewrite (IH _ p') by lia. reflexivity.
  Qed.

  Lemma obs_nil p : obs p [] 0 0 [].
  Proof. repeat split. Qed.

  Lemma obs_app p a c l es p' b c' l' es' : p' = p + Z.of_nat (list_sum a) ->
    obs p a c l es -> obs p' b c' l' es' -> obs p (a ++ b) (c + c') (l + l') (es ++ es').
  Proof.
    intros E (T1 & R1 & P1) (T2 & R2 & P2). repeat split.
    - unfold transforms in *. rewrite flat_map_app, T1, T2. symmetry. now apply consecutive_app.
    - unfold reductions in *. rewrite map_app, list_sum_app, R1, R2. reflexivity.
    - unfold pairs in *. rewrite map_app, list_sum_app, P1, P2. reflexivity.
  Qed.

  Lemma obs_eq p a c l es a' c' l' : obs p a c l es -> a = a' -> c = c' -> l = l' -> obs p a' c' l' es.
  Proof. intros H -> -> ->. exact H. Qed.

  Lemma holds_ret {X} (x : X) (P : list event -> X -> Prop) : P [] x -> holds (retM x) P.
  Proof. intros H s es s' y E. injection E as <- <- <-. exact H. Qed.
  Lemma holds_stop {X} e (P : list event -> X -> Prop) : holds (stopM e) P.
  Proof. intros s es s' y E. discriminate. Qed.
  Lemma holds_bind {X Y} (m : M X) (f : X -> M Y) (P : list event -> X -> Prop) (Q : list event -> Y -> Prop) :
    holds m P -> (forall es x, P es x -> holds (f x) (fun es2 y => Q (es ++ es2) y)) -> holds (bindM m f) Q.
  Proof.
    intros H1 H2 s es s' y E. unfold bindM in E. destruct (m s) as [[es1 s1] [x|e]] eqn:E1; [|discriminate].
    destruct (f x s1) as [[es2 s2] r] eqn:E2. injection E as <- <- ->.
    apply (H2 es1 x (H1 _ _ _ _ E1) _ _ _ _ E2).
  Qed.
  Lemma holds_weaken {X} (m : M X) (P Q : list event -> X -> Prop) :
    (forall es x, P es x -> Q es x) -> holds m P -> holds m Q.
  Proof. intros H H1 s es s' x E. apply H. eapply H1. exact E. Qed.

  Lemma transform_calls al p k : 0 < k ->
    holds (call_transform ld al (adv p ps0) k) (fun es v => obs p [Z.to_nat k] 0 0 es /\ length v = Z.to_nat k).
  Proof.
    intros Hk s es s' v E. unfold call_transform in E. destruct (ld s al (adv p ps0) k) as [s1 r] eqn:E1.
    injection E as <- -> ->. split; [|now apply (Hld s al p k s')].
    repeat split. cbn [transforms flat_map app consecutive]. rewrite Z2Nat.id by lia. reflexivity.
  Qed.

  Lemma reduce_calls p a b :
    holds (call_reduce rop a b) (fun es z => obs p [] 1 (length a) es /\ length z = length a /\ length b = length a).
  Proof.
    intros s es s' z E. unfold call_reduce in E.
    destruct (Nat.eqb_spec (length a) (length b)) as [El|]; [|discriminate].
    destruct (rop s a b) as [s1 z1]. destruct (Nat.eqb_spec (length z1) (length a)) as [Ez|]; [|discriminate].
    injection E as <- _ <-. repeat split; auto. cbn. lia.
  Qed.

  Lemma scalar_calls p x y : holds (call_scalar sop x y) (fun es _ => obs p [] 1 1 es).
  Proof.
    intros s es s' z E. unfold call_scalar in E. destruct (sop s x y) as [s1 z1]. injection E as <- _ _. repeat split.
  Qed.

  Lemma fold_calls p v : forall x, holds (fold_scalar sop x v) (fun es _ => obs p [] (length v) (length v) es).
  Proof.
    induction v as [|y v IH]; intros x; cbn [fold_scalar length]; [apply holds_ret, obs_nil|].
    eapply holds_bind; [apply scalar_calls|]. intros es z H1. eapply holds_weaken; [|apply IH].
    intros es2 xx H2. apply (obs_app p [] 1 1 es p); [cbn; lia|exact H1|exact H2].
  Qed.

  Lemma across_small (v : list A) : (0 < length v <= 3)%nat ->
    (length v - 1)%nat = across_calls (Z.of_nat (length v)).
  Proof. intros H. destruct (length v) as [|[|[|[|n]]]]; try lia; vm_compute; reflexivity. Qed.

  Lemma hred_fuel_calls fuel : forall p v, Z.of_nat (length v) < two64 ->
    holds (hred_fuel rop sop fuel v)
          (fun es _ => (0 < length v)%nat /\ obs p [] (across_calls (Z.of_nat (length v))) (length v - 1) es).
  Proof.
    induction fuel as [|fuel IH]; intros p v H64; [apply holds_stop|]. cbn [hred_fuel].
    destruct (Z.ltb_spec 3 (Z.of_nat (length v))) as [H3|H3].
    2:{ destruct v as [|x v]; [apply holds_stop|]. eapply holds_weaken; [|apply (fold_calls p)]. intros es xx H.
        split; [cbn; lia|]. rewrite <- across_small by (cbn [length] in *; lia). cbn [length].
        replace (S (length v) - 1)%nat with (length v) by lia. exact H. }
    destruct (bit_floor (Z.of_nat (length v) / 2)) as [n2z|] eqn:En; [|apply holds_stop]. cbv zeta.
    destruct (two_halves v n2z H3 En) as (L1 & L2 & Hn0).
    assert (Hh : 0 < Z.of_nat (length v) / 2 < two64).
    { split; [apply Z.div_str_pos; lia|]. apply Z.div_lt_upper_bound; lia. }
    rewrite (bit_floor_ok _ Hh) in En. injection En as En.
    set (n := Z.of_nat (length v)) in *. set (b := Z.log2 (n / 2)) in *.
    assert (Hb : 0 <= b) by apply Z.log2_nonneg.
    destruct (Z.log2_spec (n / 2) (proj1 Hh)) as [Hb1 Hb2]. fold b in Hb1, Hb2.
    pose proof (pow2_pos b Hb) as Hpb.
    rewrite Z.pow_succ_r in Hb2 by lia.
    pose proof (Z.div_mod n 2 ltac:(lia)) as Hdm. pose proof (Z.mod_pos_bound n 2 ltac:(lia)).
    assert (Hb64 : b + 1 < 64).
    { apply pow2_lt_inv; [lia|]. rewrite Z.pow_add_r by lia. change (2 ^ 64) with two64. change (2 ^ 1) with 2. lia. }
    set (n2 := Z.to_nat n2z) in *.
    assert (En2 : Z.of_nat n2 = 2 ^ b) by (unfold n2; lia).
    assert (Hr : 0 <= n - 2 * 2 ^ b < 2 * 2 ^ b) by lia.
    assert (Eb1 : 2 ^ Z.of_nat (Z.to_nat (b + 1)) = 2 * 2 ^ b).
    { rewrite Z2Nat.id by lia. rewrite Z.pow_add_r by lia. change (2 ^ 1) with 2. lia. }
    assert (Eab : across_calls (2 ^ b) = Z.to_nat b).
    { replace b with (Z.of_nat (Z.to_nat b)) at 1 by lia. apply across_pow. lia. }
    assert (HL : holds (bindM (call_reduce rop (firstn n2 v) (firstn n2 (skipn n2 v))) (fun z => hred_fuel rop sop fuel z))
                   (fun es _ => obs p [] (1 + Z.to_nat b) (n2 + (n2 - 1)) es)).
    { eapply holds_bind; [apply (reduce_calls p)|]. intros es1 z (O1 & Lz & _). rewrite L1 in O1, Lz.
      eapply holds_weaken; [|apply (IH p); rewrite Lz; lia]. intros es2 x (_ & O2). rewrite Lz, En2, Eab in O2.
      exact (obs_app p [] _ _ _ p [] _ _ _ ltac:(cbn; lia) O1 O2). }
    destruct (Z.ltb_spec 0 (n - 2 * n2z)) as [Hpos|Hz].
    - assert (Lr : length (skipn (2 * n2) v) = Z.to_nat (n - 2 * 2 ^ b)).
      { rewrite skipn_length. unfold n in *. lia. }
      assert (HR : holds (hred_fuel rop sop fuel (skipn (2 * n2) v))
                     (fun es _ => obs p [] (across_calls (n - 2 * 2 ^ b)) (Z.to_nat (n - 2 * 2 ^ b) - 1) es)).
      { eapply holds_weaken; [|apply (IH p); rewrite Lr; unfold n in *; lia]. intros es y (_ & O). rewrite Lr in O.
        now rewrite Z2Nat.id in O by lia. }
      assert (Ea : across_calls n = (Z.to_nat (b + 1) + (1 + across_calls (n - 2 * 2 ^ b)))%nat).
      { replace n with (2 ^ Z.of_nat (Z.to_nat (b + 1)) + (n - 2 * 2 ^ b)) at 1 by lia.
        rewrite across_top by lia. lia. }
      destruct (left_first (length v)).
      + eapply holds_bind; [exact HL|]. intros es1 x O1. eapply holds_bind; [exact HR|]. intros es2 y O2.
        eapply holds_weaken; [|apply (scalar_calls p)]. intros es3 xx O3. split; [unfold n in *; lia|].
        pose proof (obs_app p [] _ _ _ p [] _ _ _ ltac:(cbn; lia) O2 O3) as O23.
        pose proof (obs_app p [] _ _ _ p [] _ _ _ ltac:(cbn; lia) O1 O23) as O13.
        eapply obs_eq; [exact O13|reflexivity| |unfold n in *; lia]. rewrite Ea. lia.
      + eapply holds_bind; [exact HR|]. intros es1 x O1. eapply holds_bind; [exact HL|]. intros es2 y O2.
        eapply holds_weaken; [|apply (scalar_calls p)]. intros es3 xx O3. split; [unfold n in *; lia|].
        pose proof (obs_app p [] _ _ _ p [] _ _ _ ltac:(cbn; lia) O2 O3) as O23.
        pose proof (obs_app p [] _ _ _ p [] _ _ _ ltac:(cbn; lia) O1 O23) as O13.
        eapply obs_eq; [exact O13|reflexivity| |unfold n in *; lia]. rewrite Ea. lia.
    - eapply holds_weaken; [|exact HL]. intros es x O. split; [unfold n in *; lia|].
      eapply obs_eq; [exact O|reflexivity| |unfold n in *; lia].
      replace n with (2 ^ Z.of_nat (Z.to_nat (b + 1))) by lia. rewrite across_pow by lia. lia.
  Qed.

  Lemma hred_calls p v : Z.of_nat (length v) < two64 ->
    holds (hred rop sop v)
          (fun es _ => (0 < length v)%nat /\ obs p [] (across_calls (Z.of_nat (length v))) (length v - 1) es).
  Proof. unfold hred. apply hred_fuel_calls. Qed.

  (** Onto a one-lane accumulator. *)
  Lemma onto_calls p acc1 acc : Z.of_nat (length acc) < two64 ->
    holds (onto rop sop acc1 acc)
          (fun es z => (0 < length acc)%nat /\ length acc1 = 1%nat /\ length z = 1%nat
                       /\ obs p [] (across_calls (Z.of_nat (length acc)) + 1) (length acc) es).
  Proof.
    intros H64. unfold onto. eapply holds_bind; [now apply (hred_calls p)|]. intros es x (H0 & O1).
    eapply holds_weaken; [|apply (reduce_calls p)]. intros es2 z (O2 & Lz & L1). cbn [length] in L1.
    repeat split; try lia.
    all: rewrite <- L1 in O2; pose proof (obs_app p [] _ _ _ p [] _ _ _ ltac:(cbn; lia) O1 O2) as O;
      replace (length acc - 1 + 1)%nat with (length acc) in O by lia; apply O.
  Qed.

  Lemma lane0_calls p (v : list A) : holds (lane0 v) (fun es _ => obs p [] 0 0 es).
  Proof. destruct v; [apply holds_stop|apply holds_ret, obs_nil]. Qed.

  Lemma onto_lane0_calls p acc1 acc : Z.of_nat (length acc) < two64 ->
    holds (bindM (onto rop sop acc1 acc) lane0)
          (fun es _ => obs p [] (across_calls (Z.of_nat (length acc)) + 1) (length acc) es).
  Proof.
    intros H64. eapply holds_bind; [now apply (onto_calls p)|]. intros es z (_ & _ & _ & O1).
    eapply holds_weaken; [|apply (lane0_calls p)]. intros es2 xx O2.
    pose proof (obs_app p [] _ _ _ p [] _ _ _ ltac:(cbn; lia) O1 O2) as O. rewrite !Nat.add_0_r in O. exact O.
  Qed.

  Lemma last_calls p acc1 acc : length acc = 1%nat -> holds (last_reduce rop acc1 acc) (fun es _ => obs p [] 1 1 es).
  Proof.
    intros L. unfold last_reduce. eapply holds_bind; [apply (reduce_calls p)|]. intros es z (O1 & _ & L1).
    rewrite L in L1. rewrite <- L1 in O1.
    eapply holds_weaken; [|apply (lane0_calls p)]. intros es2 xx O2.
    exact (obs_app p [] _ _ _ p [] _ _ _ ltac:(cbn; lia) O1 O2).
  Qed.

  Lemma split_calls p a b (v : list A) : 0 <= a -> 0 <= b ->
    holds (split_at a b v) (fun es lh => obs p [] 0 0 es /\ length v = (Z.to_nat a + Z.to_nat b)%nat
                                         /\ length (fst lh) = Z.to_nat a /\ length (snd lh) = Z.to_nat b).
  Proof.
    intros Ha Hb. unfold split_at. destruct (Z.eqb_spec (Z.of_nat (length v)) (a + b)) as [E|]; [|apply holds_stop].
    apply holds_ret. cbn [fst snd]. rewrite firstn_length, skipn_length. repeat split; lia.
  Qed.
  (** ** Prologue *)
  Definition from (i k : nat) (x : Z) : list nat := filter (fun i => Z.testbit x (Z.of_nat i)) (seq i k).

  Lemma from_S i k x : from i (S k) x = (if Z.testbit x (Z.of_nat i) then [i] else []) ++ from (S i) k x.
  Proof. unfold from. cbn [seq filter]. destruct (Z.testbit x (Z.of_nat i)); reflexivity. Qed.

  Lemma prologue_calls J tp fuel : forall i acc1, (i <= J)%nat -> (J < 64)%nat -> length acc1 = 1%nat ->
    holds (c_prologue rop sop ld fuel (2 ^ Z.of_nat i) (2 ^ Z.of_nat J) acc1 ps0 tp)
          (fun es z => length z = 1%nat
             /\ obs (tp mod 2 ^ Z.of_nat i) (pw (from i (S J - i) tp))
                    (length (from i (S J - i) tp) + list_sum (from i (S J - i) tp))
                    (list_sum (pw (from i (S J - i) tp))) es).
  Proof.
    induction fuel as [|fuel IH]; intros i acc1 HiJ HJ L1; [apply holds_stop|]. cbn [c_prologue].
    rewrite !single_bit_pow2 by lia. cbn [andb negb].
    rewrite land_pow2, land_pred_pow2 by lia.
    pose proof (pow2_pos (Z.of_nat i) ltac:(lia)) as Hp.
    assert (H64 : 2 ^ Z.of_nat i < two64) by (change two64 with (2 ^ 64); apply Z.pow_lt_mono_r; lia).
    set (here := if Z.testbit tp (Z.of_nat i) then [i] else []).
    apply (holds_bind _ _ (fun es z => length z = 1%nat
             /\ obs (tp mod 2 ^ Z.of_nat i) (pw here) (length here + list_sum here) (list_sum (pw here)) es)).
    - unfold here. destruct (Z.testbit tp (Z.of_nat i)).
      + replace (2 ^ Z.of_nat i =? 0) with false by lia.
        eapply holds_bind; [now apply transform_calls|]. intros es v [O1 Lv].
        eapply holds_weaken; [|apply (onto_calls (tp mod 2 ^ Z.of_nat i + 2 ^ Z.of_nat i)); lia].
        intros es2 z (_ & _ & Lz & O2). split; [exact Lz|].
        rewrite Lv, Z2Nat.id in O2 by lia. rewrite across_pow in O2 by lia.
        assert (En : Z.to_nat (2 ^ Z.of_nat i) = Nat.pow 2 i) by (rewrite <- CostProofs.pow_nat; apply Nat2Z.id).
        rewrite En in *.
        eapply obs_eq; [eapply obs_app; [|exact O1|exact O2]|reflexivity| |].
        * change (list_sum [(2 ^ i)%nat]) with (2 ^ i + 0)%nat. rewrite Nat.add_0_r, CostProofs.pow_nat. reflexivity.
        * cbn [length]. change (list_sum [i]) with (i + 0)%nat. lia.
        * cbn [pw map]. change (list_sum [(2 ^ i)%nat]) with (2 ^ i + 0)%nat. lia.
      + apply holds_ret. split; [exact L1|apply obs_nil].
    - intros es1 z [Lz O1].
      destruct (Z.ltb_spec (2 ^ Z.of_nat i) (2 ^ Z.of_nat J)) as [Hlt|Hge].
      + assert (i < J)%nat.
        { pose proof (pow2_lt_inv (Z.of_nat i) (Z.of_nat J) ltac:(lia) Hlt). lia. }
        replace (2 ^ Z.of_nat i * 2) with (2 ^ Z.of_nat (S i)).
        2:{ rewrite Nat2Z.inj_succ, Z.pow_succ_r by lia. lia. }
        eapply holds_weaken; [|apply (IH (S i)); lia]. intros es2 z2 [Lz2 O2]. split; [exact Lz2|].
        replace (S J - i)%nat with (S (S J - S i)) by lia. rewrite from_S. fold here.
        rewrite pw_app, app_length, !list_sum_app.
        eapply obs_eq; [eapply obs_app; [|exact O1|exact O2]|reflexivity|lia|lia].
        rewrite Nat2Z.inj_succ, <- Z.add_1_r, mod_pow2_split by lia. unfold here.
        destruct (Z.testbit tp (Z.of_nat i)); [|cbn; lia].
        cbn [pw map]. change (list_sum [(2 ^ i)%nat]) with (2 ^ i + 0)%nat. rewrite Nat.add_0_r, CostProofs.pow_nat. lia.
      + assert (i = J).
        { destruct (Nat.eq_dec i J); [assumption|]. assert (2 ^ Z.of_nat i < 2 ^ Z.of_nat J) by (apply Z.pow_lt_mono_r; lia). lia. }
        subst i. apply holds_ret. split; [exact Lz|]. rewrite app_nil_r.
        replace (S J - J)%nat with 1%nat by lia. rewrite from_S. cbn [from seq filter]. rewrite app_nil_r. exact O1.
  Qed.

  (** ** Epilogue *)
  Definition tail (k : nat) (lo : Z) : list nat := pw (rev (dg k lo)).

  Lemma tail_S k lo : tail (S k) lo = (if Z.testbit lo (Z.of_nat k) then [Nat.pow 2 k] else []) ++ tail k lo.
  Proof. unfold tail. rewrite dg_S, rev_app_distr, pw_app. destruct (Z.testbit lo (Z.of_nat k)); reflexivity. Qed.

  Lemma tail_0 k lo : lo mod 2 ^ Z.of_nat k = 0 -> tail k lo = [].
  Proof.
    induction k as [|k IH]; intros H; [reflexivity|]. rewrite tail_S.
    pose proof (pow2_pos (Z.of_nat k) ltac:(lia)) as Hp. pose proof (Z.mod_pos_bound lo _ Hp).
    rewrite Nat2Z.inj_succ, <- Z.add_1_r, mod_pow2_split in H by lia.
    destruct (Z.testbit lo (Z.of_nat k)); [lia|]. now rewrite IH by lia.
  Qed.

  Lemma half_facts k : Z.to_nat (2 ^ Z.of_nat k) = Nat.pow 2 k
    /\ ((0 < k)%nat -> 2 ^ Z.of_nat k / 2 = 2 ^ Z.of_nat (k - 1) /\ (2 ^ k = 2 ^ (k - 1) + 2 ^ (k - 1))%nat).
  Proof.
    split; [rewrite <- CostProofs.pow_nat; apply Nat2Z.id|]. intros Hk.
    destruct (pow2_half (Z.of_nat k) ltac:(lia)) as [E _].
    rewrite E. split; [f_equal; lia|]. destruct k; [lia|]. cbn [Nat.pow]. replace (S k - 1)%nat with k by lia. lia.
  Qed.

  Lemma epilogue_acc_calls lo al fuel : forall k p acc1 acc, (k < 64)%nat -> length acc = Nat.pow 2 k ->
    holds (c_epilogue_acc rop sop ld fuel (2 ^ Z.of_nat k) acc1 acc (adv p ps0) lo al)
          (fun es _ => obs p (tail (S k) lo) (length (tail (S k) lo) + k + 1) (2 ^ k + list_sum (tail (S k) lo)) es).
  Proof.
    induction fuel as [|fuel IH]; intros k p acc1 acc Hk La; [apply holds_stop|]. cbn [c_epilogue_acc].
    rewrite single_bit_pow2 by lia. cbn [negb]. rewrite land_pow2, land_pred_pow2 by lia. rewrite tail_S.
    pose proof (pow2_pos (Z.of_nat k) ltac:(lia)) as Hp. destruct (half_facts k) as [En Eh].
    assert (H64 : 2 ^ Z.of_nat k < two64) by (change two64 with (2 ^ 64); apply Z.pow_lt_mono_r; lia).
    assert (En' : Z.of_nat (Nat.pow 2 k) = 2 ^ Z.of_nat k) by (rewrite <- En; lia).
    destruct (Z.testbit lo (Z.of_nat k)).
    - replace (2 ^ Z.of_nat k =? 0) with false by lia. cbn [negb].
      eapply holds_bind; [now apply transform_calls|]. intros es1 v [O1 Lv]. rewrite En in O1.
      set (p2 := p + 2 ^ Z.of_nat k).
      assert (Ep2 : p2 = p + Z.of_nat (list_sum [(2 ^ k)%nat])).
      { change (list_sum [(2 ^ k)%nat]) with (2 ^ k + 0)%nat. unfold p2. lia. }
      eapply holds_bind; [apply (reduce_calls p2)|]. intros es2 acc' (O2 & La' & _). rewrite La in O2, La'.
      pose proof (obs_app p _ _ _ _ p2 [] _ _ _ Ep2 O1 O2) as O12. cbn [app] in O12.
      assert (Ep2' : p2 = p + Z.of_nat (list_sum ([(2 ^ k)%nat] ++ []))) by exact Ep2. cbn [app] in Ep2'.
      assert (Hsum : forall l, list_sum ([(2 ^ k)%nat] ++ l) = (2 ^ k + list_sum l)%nat).
      { intros l. rewrite list_sum_app. change (list_sum [(2 ^ k)%nat]) with (2 ^ k + 0)%nat. lia. }
      rewrite app_length, Hsum. cbn [length].
      destruct (Z.eqb_spec (2 ^ Z.of_nat k) 1) as [E1|N1].
      + assert (k = 0)%nat.
        { destruct k; [reflexivity|]. rewrite Nat2Z.inj_succ, Z.pow_succ_r in E1 by lia. lia. }
        subst k. eapply holds_weaken; [|apply (last_calls p2); exact La']. intros es3 xx O3.
        rewrite app_assoc. change (tail 0 lo) with (@nil nat).
        eapply obs_eq; [eapply obs_app; [exact Ep2|exact O12|exact O3]|reflexivity|cbn; lia|cbn; lia].
      + destruct (Z.eqb_spec (lo mod 2 ^ Z.of_nat k) 0) as [E0|N0].
        * rewrite (tail_0 k lo E0). eapply holds_weaken; [|apply (onto_lane0_calls p2); lia]. intros es3 xx O3.
          rewrite La', En', across_pow in O3 by lia. rewrite app_assoc.
          eapply obs_eq; [eapply obs_app; [exact Ep2|exact O12|exact O3]|reflexivity|cbn; lia|cbn; lia].
        * assert (Hk0 : (0 < k)%nat).
          { destruct k; [change (2 ^ Z.of_nat 0) with 1 in N1; lia|lia]. }
          destruct (Eh Hk0) as [E2 E3]. rewrite E2.
          destruct (half_facts (k - 1)) as [En1 _].
          pose proof (pow2_pos (Z.of_nat (k - 1)) ltac:(lia)).
          eapply holds_bind; [apply (split_calls p2); lia|]. intros es3 lh (O3 & _ & Lf & Ls). rewrite En1 in Lf, Ls.
          eapply holds_bind; [apply (reduce_calls p2)|]. intros es4 acc2 (O4 & L2 & _). rewrite Lf in O4, L2.
          rewrite adv_adv. fold p2.
          eapply holds_weaken; [|apply (IH (k - 1)%nat p2); [lia|exact L2]]. intros es5 xx O5.
          replace (S (k - 1)) with k in O5 by lia.
          pose proof (obs_app p2 [] _ _ _ p2 [] _ _ _ ltac:(cbn; lia) O3 O4) as O34.
          pose proof (obs_app p2 [] _ _ _ p2 _ _ _ _ ltac:(cbn; lia) O34 O5) as O35.
          replace (es1 ++ es2 ++ es3 ++ es4 ++ es5) with ((es1 ++ es2) ++ (es3 ++ es4) ++ es5)
            by (rewrite <- !app_assoc; reflexivity).
          eapply obs_eq; [eapply obs_app; [exact Ep2|exact O12|exact O35]|reflexivity|lia|lia].
    - cbn [negb Z.eqb app]. destruct (Z.eqb_spec (lo mod 2 ^ Z.of_nat k) 0) as [E0|N0]; [apply holds_stop|].
      destruct (Z.ltb_spec 1 (2 ^ Z.of_nat k)) as [Hlt|]; [|apply holds_stop].
      assert (Hk0 : (0 < k)%nat).
      { destruct k; [change (2 ^ Z.of_nat 0) with 1 in Hlt; lia|lia]. }
      destruct (Eh Hk0) as [E2 E3]. rewrite E2. destruct (half_facts (k - 1)) as [En1 _].
      pose proof (pow2_pos (Z.of_nat (k - 1)) ltac:(lia)).
      eapply holds_bind; [apply (split_calls p); lia|]. intros es3 lh (O3 & _ & Lf & Ls). rewrite En1 in Lf, Ls.
      eapply holds_bind; [apply (reduce_calls p)|]. intros es4 acc2 (O4 & L2 & _). rewrite Lf in O4, L2.
      eapply holds_weaken; [|apply (IH (k - 1)%nat p); [lia|exact L2]]. intros es5 xx O5.
      replace (S (k - 1)) with k in O5 by lia.
      pose proof (obs_app p [] _ _ _ p [] _ _ _ ltac:(cbn; lia) O3 O4) as O34.
      pose proof (obs_app p [] _ _ _ p _ _ _ _ ltac:(cbn; lia) O34 O5) as O35.
      rewrite app_assoc. eapply obs_eq; [exact O35|reflexivity|lia|lia].
  Qed.

  Lemma epilogue_calls lo al fuel : forall k p acc1, (k < 64)%nat -> 0 < lo < 2 ^ Z.of_nat (S k) ->
    holds (c_epilogue rop sop ld fuel (2 ^ Z.of_nat k) acc1 (adv p ps0) lo al)
          (fun es _ => obs p (tail (S k) lo) (length (tail (S k) lo) + Z.to_nat (Z.log2 lo)) (list_sum (tail (S k) lo)) es).
  Proof.
    induction fuel as [|fuel IH]; intros k p acc1 Hk Hlo; [apply holds_stop|]. cbn [c_epilogue].
    rewrite single_bit_pow2 by lia. cbn [negb]. rewrite land_pow2, land_pred_pow2 by lia. rewrite tail_S.
    pose proof (pow2_pos (Z.of_nat k) ltac:(lia)) as Hp. destruct (half_facts k) as [En Eh].
    assert (H64 : 2 ^ Z.of_nat k < two64) by (change two64 with (2 ^ 64); apply Z.pow_lt_mono_r; lia).
    assert (En' : Z.of_nat (Nat.pow 2 k) = 2 ^ Z.of_nat k) by (rewrite <- En; lia).
    assert (Hsplit := mod_pow2_split lo (Z.of_nat k) ltac:(lia)).
    rewrite Z.add_1_r, <- Nat2Z.inj_succ, Z.mod_small in Hsplit by lia.
    pose proof (Z.mod_pos_bound lo (2 ^ Z.of_nat k) Hp) as Hm.
    destruct (Z.testbit lo (Z.of_nat k)).
    - replace (2 ^ Z.of_nat k =? 0) with false by lia. cbn [negb].
      assert (Elog : Z.to_nat (Z.log2 lo) = k).
      { rewrite (Z.log2_unique lo (Z.of_nat k)); [apply Nat2Z.id|lia|]. rewrite Nat2Z.inj_succ in Hlo. lia. }
      rewrite Elog. clear Elog.
      eapply holds_bind; [now apply transform_calls|]. intros es1 v [O1 Lv]. rewrite En in O1, Lv.
      set (p2 := p + 2 ^ Z.of_nat k).
      assert (Ep2 : p2 = p + Z.of_nat (list_sum [(2 ^ k)%nat])).
      { change (list_sum [(2 ^ k)%nat]) with (2 ^ k + 0)%nat. unfold p2. lia. }
      assert (Hsum : forall l, list_sum ([(2 ^ k)%nat] ++ l) = (2 ^ k + list_sum l)%nat).
      { intros l. rewrite list_sum_app. change (list_sum [(2 ^ k)%nat]) with (2 ^ k + 0)%nat. lia. }
      rewrite app_length, Hsum. cbn [length].
      destruct (Z.eqb_spec (2 ^ Z.of_nat k) 1) as [E1|N1].
      + assert (k = 0)%nat.
        { destruct k; [reflexivity|]. rewrite Nat2Z.inj_succ, Z.pow_succ_r in E1 by lia. lia. }
        subst k. eapply holds_weaken; [|apply (last_calls p2); exact Lv]. intros es3 xx O3.
        change (tail 0 lo) with (@nil nat).
        eapply obs_eq; [eapply obs_app; [exact Ep2|exact O1|exact O3]|reflexivity|cbn; lia|cbn; lia].
      + destruct (Z.eqb_spec (lo mod 2 ^ Z.of_nat k) 0) as [E0|N0].
        * rewrite (tail_0 k lo E0). eapply holds_weaken; [|apply (onto_lane0_calls p2); lia]. intros es3 xx O3.
          rewrite Lv, En', across_pow in O3 by lia.
          eapply obs_eq; [eapply obs_app; [exact Ep2|exact O1|exact O3]|reflexivity|cbn; lia|cbn; lia].
        * assert (Hk0 : (0 < k)%nat).
          { destruct k; [change (2 ^ Z.of_nat 0) with 1 in N1; lia|lia]. }
          destruct (Eh Hk0) as [E2 E3]. rewrite E2.
          destruct (half_facts (k - 1)) as [En1 _].
          pose proof (pow2_pos (Z.of_nat (k - 1)) ltac:(lia)).
          eapply holds_bind; [apply (split_calls p2); lia|]. intros es3 lh (O3 & _ & Lf & Ls). rewrite En1 in Lf, Ls.
          eapply holds_bind; [apply (reduce_calls p2)|]. intros es4 acc2 (O4 & L2 & _). rewrite Lf in O4, L2.
          rewrite adv_adv. fold p2.
          eapply holds_weaken; [|apply (epilogue_acc_calls lo al fuel (k - 1)%nat p2); [lia|exact L2]]. intros es5 xx O5.
          replace (S (k - 1)) with k in O5 by lia.
          pose proof (obs_app p2 [] _ _ _ p2 [] _ _ _ ltac:(cbn; lia) O3 O4) as O34.
          pose proof (obs_app p2 [] _ _ _ p2 _ _ _ _ ltac:(cbn; lia) O34 O5) as O35.
          replace (es1 ++ es3 ++ es4 ++ es5) with (es1 ++ (es3 ++ es4) ++ es5)
            by (rewrite <- !app_assoc; reflexivity).
          eapply obs_eq; [eapply obs_app; [exact Ep2|exact O1|exact O35]|reflexivity|lia|lia].
    - cbn [negb Z.eqb app]. destruct (Z.eqb_spec (lo mod 2 ^ Z.of_nat k) 0) as [E0|N0]; [apply holds_stop|].
      destruct (Z.ltb_spec 1 (2 ^ Z.of_nat k)) as [Hlt|]; [|apply holds_stop].
      assert (Hk0 : (0 < k)%nat).
      { destruct k; [change (2 ^ Z.of_nat 0) with 1 in Hlt; lia|lia]. }
      destruct (Eh Hk0) as [E2 E3]. rewrite E2.
      pose proof (IH (k - 1)%nat p acc1) as IH1. replace (S (k - 1)) with k in IH1 by lia. apply IH1; lia.
  Qed.
  (** ** The main loops, for full chunks of [w] elements *)
  Section Width.
    Variables (w : Z) (W : nat).
    Hypothesis Hw : 0 < w.
    Hypothesis EW : W = Z.to_nat w.

    Definition all_full (n : nat) (accs : list (list A)) : Prop := length accs = n /\ Forall (fun a => length a = W) accs.

    Lemma repeat_end n : w * Z.of_nat n = Z.of_nat (list_sum (repeat W n)).
    Proof. rewrite sum_repeat, Nat2Z.inj_mul. rewrite EW, Z2Nat.id by lia. lia. Qed.

    Lemma full_chunk al p :
      holds (call_transform ld al (adv p ps0) w) (fun es v => obs p [W] 0 0 es /\ length v = W).
    Proof. rewrite EW. now apply transform_calls. Qed.

    Lemma step_end p : p + w = p + Z.of_nat (list_sum [W]).
    Proof. change (list_sum [W]) with (W + 0)%nat. lia. Qed.

    Lemma ld_n_calls al n : forall p,
      holds (c_ld_n ld al (adv p ps0) w n) (fun es accs => obs p (repeat W n) 0 0 es /\ all_full n accs).
    Proof.
      induction n as [|n IH]; intros p; cbn [c_ld_n].
      - apply holds_ret. split; [apply obs_nil|]. split; [reflexivity|constructor].
      - eapply holds_bind; [apply full_chunk|]. intros es1 v [O1 Lv]. rewrite adv_adv.
        eapply holds_bind; [apply IH|]. intros es2 vs [O2 [L2 F2]]. apply holds_ret. rewrite app_nil_r. split.
        + exact (obs_app _ _ _ _ _ _ _ _ _ _ (step_end p) O1 O2).
        + split; [cbn; lia|]. now constructor.
    Qed.

    Lemma each_calls al accs : forall p, Forall (fun a => length a = W) accs ->
      holds (c_each rop ld al (adv p ps0) w accs)
            (fun es accs' => obs p (repeat W (length accs)) (length accs) (length accs * W) es
                             /\ all_full (length accs) accs').
    Proof.
      induction accs as [|acc accs IH]; intros p HF; cbn [c_each].
      - apply holds_ret. split; [apply obs_nil|]. split; [reflexivity|constructor].
      - assert (La := Forall_inv HF). assert (HF' := Forall_inv_tail HF). cbn beta in La.
        eapply holds_bind; [apply full_chunk|]. intros es1 v [O1 Lv].
        eapply holds_bind; [apply (reduce_calls (p + w))|]. intros es2 z (O2 & Lz & _). rewrite La in O2, Lz. rewrite adv_adv.
        eapply holds_bind; [now apply IH|]. intros es3 zs [O3 [L3 F3]]. apply holds_ret. rewrite app_nil_r. split.
        + pose proof (obs_app (p + w) [] _ _ _ (p + w) _ _ _ _ ltac:(cbn; lia) O2 O3) as O23.
          eapply obs_eq; [exact (obs_app _ _ _ _ _ _ _ _ _ _ (step_end p) O1 O23)|reflexivity|cbn; lia|cbn; lia].
        + split; [cbn; lia|]. constructor; [lia|assumption].
    Qed.

    Lemma unrolled_calls n al ul fuel : forall f p accs, all_full n accs ->
      holds (c_unrolled rop ld fuel w n al ul f (adv p ps0) accs)
            (fun es r => exists g : nat, all_full n (fst (fst r))
               /\ snd (fst r) = f + w * Z.of_nat (S g * n) /\ snd r = adv (p + w * Z.of_nat (S g * n)) ps0
               /\ (f <= ul -> snd (fst r) <= ul + w * Z.of_nat n)
               /\ obs p (repeat W (S g * n)) (S g * n) (S g * n * W) es).
    Proof.
      induction fuel as [|fuel IH]; intros f p accs [Ln HF]; [apply holds_stop|]. cbn [c_unrolled].
      eapply holds_bind; [now apply each_calls|]. intros es1 accs' [O1 Ha]. rewrite Ln in O1, Ha.
      cbv zeta. rewrite adv_adv. destruct (Z.leb_spec (f + w * Z.of_nat n) ul) as [Hle|Hgt].
      - eapply holds_weaken; [|apply IH; exact Ha]. intros es2 r (g & Ha2 & Hf & Hp & Hu & O2).
        exists (S g). split; [exact Ha2|].
        replace (S (S g) * n)%nat with (n + S g * n)%nat by lia.
        rewrite !Nat2Z.inj_add, !Z.mul_add_distr_l. split; [lia|].
        split; [rewrite Hp; f_equal; lia|]. split; [intros _; now apply Hu|].
        rewrite repeat_app.
        eapply obs_eq; [eapply obs_app; [|exact O1|exact O2]|reflexivity|lia|lia]. rewrite repeat_end. reflexivity.
      - apply holds_ret. exists 0%nat. cbn [fst snd]. rewrite app_nil_r. replace (1 * n)%nat with n by lia.
        split; [exact Ha|]. split; [reflexivity|]. split; [reflexivity|]. split; [lia|exact O1].
    Qed.

    (** ** The tree *)
    Lemma set_full n accs i z : all_full n accs -> length z = W -> (i < n)%nat -> all_full n (set_nth accs i z).
    Proof.
      intros [Ln HF] Lz Hi. unfold set_nth. split.
      - rewrite app_length, firstn_length. cbn [length]. rewrite skipn_length. lia.
      - rewrite <- (firstn_skipn i accs) in HF. apply Forall_app in HF. destruct HF as [F1 F2].
        apply Forall_app. split; [exact F1|]. constructor; [exact Lz|].
        replace (S i) with (i + 1)%nat by lia. rewrite <- skipn_skipn'. destruct (skipn i accs) as [|x l]; [constructor|].
        cbn [skipn]. now inversion F2.
    Qed.

    Definition fires (n j ii : nat) : bool := (ii * 2 * j + j <? n)%nat.

    Lemma tree_one_calls p n j ii accs : all_full n accs ->
      holds (c_tree_one rop n j ii accs)
            (fun es accs' => obs p [] (Nat.b2n (fires n j ii)) (Nat.b2n (fires n j ii) * W) es /\ all_full n accs').
    Proof.
      intros Ha. unfold c_tree_one, fires. cbv zeta. destruct (Nat.ltb_spec (ii * 2 * j + j) n) as [Hlt|].
      2:{ apply holds_ret. split; [apply obs_nil|exact Ha]. }
      destruct (nth_error accs (ii * 2 * j)) as [a|] eqn:E1; [|apply holds_stop].
      destruct (nth_error accs (ii * 2 * j + j)) as [b|] eqn:E2; [|apply holds_stop].
      assert (La : length a = W).
      { destruct Ha as [_ HF]. rewrite Forall_forall in HF. apply HF. eapply nth_error_In. exact E1. }
      eapply holds_bind; [apply (reduce_calls p)|]. intros es z (O1 & Lz & _). rewrite La in *.
      apply holds_ret. rewrite app_nil_r. split.
      - eapply obs_eq; [exact O1|reflexivity|reflexivity|cbn; lia].
      - apply set_full; [exact Ha|exact Lz|lia].
    Qed.

    Lemma tree_inner_calls p n j iis : forall accs, all_full n accs ->
      holds (c_tree_inner rop n j iis accs)
            (fun es accs' => obs p [] (length (filter (fires n j) iis)) (length (filter (fires n j) iis) * W) es
                             /\ all_full n accs').
    Proof.
      induction iis as [|ii iis IH]; intros accs Ha; cbn [c_tree_inner].
      - apply holds_ret. split; [apply obs_nil|exact Ha].
      - eapply holds_bind; [now apply (tree_one_calls p)|]. intros es1 accs1 [O1 Ha1].
        eapply holds_weaken; [|now apply IH]. intros es2 accs2 [O2 Ha2]. split; [|exact Ha2].
        eapply obs_eq; [exact (obs_app p [] _ _ _ p [] _ _ _ ltac:(cbn; lia) O1 O2)|reflexivity| |];
          cbn [filter]; destruct (fires n j ii); cbn [Nat.b2n length]; lia.
    Qed.

    Lemma count_below B K : length (filter (fun i => i <? B)%nat (seq 0 K)) = Nat.min K B.
    Proof.
      induction K as [|K IH]; [reflexivity|]. rewrite seq_S, filter_app, app_length, IH. cbn [filter Nat.add].
      destruct (Nat.ltb_spec K B); cbn [length]; lia.
    Qed.

    (** The pairs 2^o apart. *)
    Lemma fires_count n o : (1 <= n)%nat ->
      length (filter (fires n (Nat.pow 2 o)) (seq 0 (n / 2)))
      = ((n - 1) / Nat.pow 2 o - (n - 1) / Nat.pow 2 (S o))%nat.
    Proof.
      intros Hn. set (Q := ((n - 1) / 2 ^ o)%nat).
      assert (Hp : (2 ^ o <> 0)%nat) by (apply Nat.pow_nonzero; lia).
      assert (E2 : ((n - 1) / 2 ^ S o = Q / 2)%nat).
      { unfold Q. rewrite Nat.div_div by lia. f_equal. cbn [Nat.pow]. lia. }
      rewrite E2.
      pose proof (Nat.div_mod (n - 1) (2 ^ o) Hp) as D1. fold Q in D1. pose proof (Nat.mod_upper_bound (n - 1) (2 ^ o) Hp) as D2.
      pose proof (Nat.div_mod Q 2 ltac:(lia)) as D3. pose proof (Nat.mod_upper_bound Q 2 ltac:(lia)) as D4.
      pose proof (Nat.div_mod n 2 ltac:(lia)) as D5. pose proof (Nat.mod_upper_bound n 2 ltac:(lia)) as D6.
      assert (EQ : forall ii, fires n (2 ^ o) ii = (ii <? Q - Q / 2)%nat).
      { intros ii. unfold fires. set (P := (2 ^ o)%nat) in *. clearbody P.
        apply Bool.eq_iff_eq_true. rewrite !Nat.ltb_lt. set (R := ((n - 1) mod P)%nat) in *. clearbody R.
        set (q2 := (Q / 2)%nat) in *. set (b := (Q mod 2)%nat) in *. clearbody q2 b. clear E2.
        split; intros H.
        - assert ((2 * ii + 1) * P < (Q + 1) * P)%nat by lia.
          apply Nat.mul_lt_mono_pos_r in H0; lia.
        - assert ((2 * ii + 1) * P <= Q * P)%nat by (apply Nat.mul_le_mono_r; lia). lia. }
      rewrite (filter_ext _ _ EQ), count_below.
      assert (Q <= n - 1)%nat by (unfold Q; apply Nat.div_le_upper_bound; [lia|]; nia). lia.
    Qed.

    Lemma tree_outer_calls p n k : (1 <= n)%nat -> forall o accs, all_full n accs ->
      holds (c_tree_outer rop n (seq o k) accs)
            (fun es accs' => obs p [] ((n - 1) / Nat.pow 2 o - (n - 1) / Nat.pow 2 (o + k))
                                      (((n - 1) / Nat.pow 2 o - (n - 1) / Nat.pow 2 (o + k)) * W) es
                             /\ all_full n accs').
    Proof.
      intros Hn. induction k as [|k IH]; intros o accs Ha; cbn [c_tree_outer seq].
      - apply holds_ret. rewrite Nat.add_0_r, Nat.sub_diag. split; [apply obs_nil|exact Ha].
      - eapply holds_bind; [now apply (tree_inner_calls p)|]. intros es1 accs1 [O1 Ha1]. rewrite fires_count in O1 by lia.
        eapply holds_weaken; [|now apply IH]. intros es2 accs2 [O2 Ha2]. split; [|exact Ha2].
        replace (o + S k)%nat with (S o + k)%nat by lia.
        assert (M1 : ((n - 1) / 2 ^ S o <= (n - 1) / 2 ^ o)%nat).
        { apply Nat.div_le_compat_l. split; [|apply Nat.pow_le_mono_r; lia]. pose proof (Nat.pow_nonzero 2 o). lia. }
        assert (M2 : ((n - 1) / 2 ^ (S o + k) <= (n - 1) / 2 ^ S o)%nat).
        { apply Nat.div_le_compat_l. split; [|apply Nat.pow_le_mono_r; lia]. pose proof (Nat.pow_nonzero 2 (S o)). lia. }
        pose proof (obs_app p [] _ _ _ p [] _ _ _ ltac:(cbn; lia) O1 O2) as O12. rewrite <- Nat.mul_add_distr_r in O12.
        clear O1 O2. set (a := ((n - 1) / 2 ^ o)%nat) in *. set (b := ((n - 1) / 2 ^ S o)%nat) in *.
        set (c := ((n - 1) / 2 ^ (S o + k))%nat) in *. clearbody a b c.
        replace (a - b + (b - c))%nat with (a - c)%nat in O12 by lia. exact O12.
    Qed.

    Lemma tree_calls p n accs : (1 <= n)%nat -> all_full n accs ->
      holds (c_tree rop n accs) (fun es z => obs p [] (n - 1) ((n - 1) * W) es /\ length z = W).
    Proof.
      intros Hn Ha. unfold c_tree. eapply holds_bind; [now apply (tree_outer_calls p)|].
      intros es accs' [O1 [L F]]. destruct accs' as [|x l]; [apply holds_stop|]. apply holds_ret. rewrite app_nil_r.
      split; [|exact (Forall_inv F)].
      cbn [Nat.pow Nat.add] in O1. rewrite Nat.div_1_r in O1.
      assert (E : ((n - 1) / 2 ^ bit_width (n - 1) = 0)%nat).
      { apply Nat.div_small. unfold bit_width. destruct (n - 1)%nat as [|m]; [cbn; lia|].
        apply (Nat.log2_spec (S m)). lia. }
      rewrite E, Nat.sub_0_r in O1. exact O1.
    Qed.

    Lemma first_calls pol al f l p : p_match pol = true \/ f <= l - w -> w <= l - f ->
      holds (c_first rop ld pol w al f l (adv p ps0))
            (fun es r => exists q : nat, length (fst (fst r)) = W
               /\ snd (fst r) = f + w * Z.of_nat (S q) /\ snd r = adv (p + w * Z.of_nat (S q)) ps0
               /\ snd (fst r) <= l /\ obs p (repeat W (S q)) q (q * W) es).
    Proof.
      intros _ Hf. unfold c_first. cbv zeta.
      assert (H1 : holds (bindM (call_transform ld al (adv p ps0) w) (fun v => retM (v, f + w, adv w (adv p ps0))))
            (fun es r => exists q : nat, length (fst (fst r)) = W
               /\ snd (fst r) = f + w * Z.of_nat (S q) /\ snd r = adv (p + w * Z.of_nat (S q)) ps0
               /\ snd (fst r) <= l /\ obs p (repeat W (S q)) q (q * W) es)).
      { eapply holds_bind; [apply full_chunk|]. intros es v [O1 Lv]. apply holds_ret. exists 0%nat. cbn [fst snd].
        rewrite app_nil_r, adv_adv. change (Z.of_nat 1) with 1. rewrite Z.mul_1_r. repeat split; try assumption; lia || apply O1. }
      destruct (Z.ltb_spec 1 (p_unroll pol)) as [Hu|]; [|exact H1].
      destruct (Z.leb_spec (f + w * p_unroll pol) (l - w * p_unroll pol)) as [Hl|]; [|exact H1]. clear H1.
      set (n := Z.to_nat (p_unroll pol)). assert (En : p_unroll pol = Z.of_nat n) by lia. rewrite En in *.
      assert (Hn : (2 <= n)%nat) by lia. clearbody n.
      eapply holds_bind; [apply ld_n_calls|]. intros es1 accs [O1 Ha]. rewrite adv_adv.
      eapply holds_bind; [now apply unrolled_calls|].
      intros es2 [[accs' f'] ps'] (g & Ha' & Hf' & Hp' & Hl' & O2). cbn [fst snd] in *.
      eapply holds_bind; [apply (tree_calls (p + w * Z.of_nat (n + S g * n))); [lia|exact Ha']|].
      intros es3 z [O3 Lz]. apply holds_ret. rewrite app_nil_r. cbn [fst snd].
      exists (n + S g * n - 1)%nat. replace (S (n + S g * n - 1)) with (n + S g * n)%nat by lia.
      split; [exact Lz|]. split; [lia|]. split; [rewrite Hp'; f_equal; lia|]. split; [lia|].
      rewrite repeat_app.
      assert (E12 : p + w * Z.of_nat n = p + Z.of_nat (list_sum (repeat W n))) by (rewrite repeat_end; reflexivity).
      assert (E23 : p + w * Z.of_nat (n + S g * n) = (p + w * Z.of_nat n) + Z.of_nat (list_sum (repeat W (S g * n))))
        by (rewrite <- repeat_end; lia).
      pose proof (obs_app _ _ _ _ _ _ _ _ _ _ E23 O2 O3) as O23. rewrite app_nil_r in O23.
      eapply obs_eq; [exact (obs_app _ _ _ _ _ _ _ _ _ _ E12 O1 O23)|reflexivity|lia|].
      cbn [Nat.add]. rewrite <- Nat.mul_add_distr_r. f_equal. lia.
    Qed.

    Lemma loop_calls mt al l fuel : forall f p acc, length acc = W -> f <= l -> (mt = true -> (w | l - f)) ->
      holds (c_loop rop ld fuel mt w al l f (adv p ps0) acc)
            (fun es r => exists q : nat, length (fst r) = W /\ snd r = adv (p + w * Z.of_nat q) ps0
               /\ (if mt then f + w * Z.of_nat q = l else f + w * Z.of_nat q <= l < f + w * Z.of_nat (S q))
               /\ obs p (repeat W q) q (q * W) es).
    Proof.
      induction fuel as [|fuel IH]; intros f p acc La Hf Hdiv; [apply holds_stop|]. cbn [c_loop].
      destruct (if mt then negb (f =? l) else f <=? l - w) eqn:Eb.
      - assert (Hle : f + w <= l).
        { destruct mt; [|lia]. destruct (Hdiv eq_refl) as [j Hj]. assert (0 < j) by nia. nia. }
        eapply holds_bind; [apply full_chunk|]. intros es1 v [O1 Lv].
        eapply holds_bind; [apply (reduce_calls (p + w))|]. intros es2 z (O2 & Lz & _). rewrite La in O2, Lz. rewrite adv_adv.
        eapply holds_weaken; [|apply IH; [exact Lz|exact Hle|]].
        2:{ intros E. destruct (Hdiv E) as [j Hj]. exists (j - 1). lia. }
        intros es3 r (q & Lr & Hp & Hq & O3).
        exists (S q). split; [exact Lr|]. split; [rewrite Hp; f_equal; lia|]. split; [destruct mt; lia|].
        pose proof (obs_app (p + w) [] _ _ _ (p + w) _ _ _ _ ltac:(cbn; lia) O2 O3) as O23.
        eapply obs_eq; [exact (obs_app _ _ _ _ _ _ _ _ _ _ (step_end p) O1 O23)|reflexivity|cbn; lia|cbn; lia].
      - apply holds_ret. exists 0%nat. split; [exact La|]. rewrite Z.mul_0_r, !Z.add_0_r.
        split; [reflexivity|]. split; [destruct mt; lia|]. apply obs_nil.
    Qed.
    (** Behind the prologue: [m] elements are left. *)
    Lemma body_calls pol al acc1 f l p : 1 <= w < two64 -> length acc1 = 1%nat -> f < l -> l - f < two64 ->
      (p_match pol = true -> (w | l - f)) ->
      holds (c_body rop sop ld pol w al acc1 f l (l - f) (adv p ps0))
            (fun es _ => obs p (repeat W (Z.to_nat ((l - f) / w)) ++ pw (rev (digits ((l - f) mod w))))
                             (Z.to_nat ((l - f) / w) + length (digits ((l - f) mod w)) + across_calls (widest w (l - f)))
                             (Z.to_nat (l - f)) es).
    Proof.
      intros Hw64 L1 Hlt H64 Hdiv. unfold c_body. cbv zeta.
      set (lo := (l - f) mod w). pose proof (Z.mod_pos_bound (l - f) w Hw) as Hlo. fold lo in Hlo.
      pose proof (Z.div_mod (l - f) w ltac:(lia)) as Hdm. fold lo in Hdm.
      assert (Hfit : p_match pol || (f <=? l - w) = (w <=? l - f)).
      { destruct (p_match pol); cbn [orb]; [|lia]. destruct (Hdiv eq_refl) as [j Hj].
        assert (0 < j) by nia. assert (w <= l - f) by nia. lia. }
      rewrite Hfit. unfold widest. destruct (Z.leb_spec w (l - f)) as [Hle|Hgt].
      - eapply holds_bind; [apply first_calls; [|exact Hle]; destruct (p_match pol); lia|].
        intros es1 [[acc0 f1] ps1] (q1 & La0 & Hf1 & Hp1 & Hl1 & O1). cbn [fst snd] in *. subst ps1.
        eapply holds_bind; [apply loop_calls; [exact La0|exact Hl1|]|].
        { intros E. destruct (Hdiv E) as [j Hj]. exists (j - Z.of_nat (S q1)). lia. }
        intros es2 [acc ps2] (q2 & La & Hp2 & Hq2 & O2). cbn [fst snd] in *. subst ps2.
        assert (Eq : (l - f) / w = Z.of_nat (S q1 + q2)).
        { symmetry. destruct (p_match pol) eqn:Em.
          - destruct (Hdiv eq_refl) as [j Hj]. assert (Z.of_nat (S q1 + q2) = j) by nia.
            rewrite Hj, Z.div_mul by lia. assumption.
          - apply Z.div_unique with (r := l - f - w * Z.of_nat (S q1 + q2)); lia. }
        assert (Ep : p + w * Z.of_nat (S q1) + w * Z.of_nat q2 = p + w * Z.of_nat (S q1 + q2)) by lia. rewrite Ep.
        set (q := (S q1 + q2)%nat) in *.
        pose proof (obs_app _ _ _ _ _ _ _ _ _ _ (f_equal (Z.add p) (repeat_end (S q1))) O1 O2) as O12.
        rewrite <- repeat_app in O12. fold q in O12.
        replace (q1 + q2)%nat with (q - 1)%nat in O12 by lia.
        rewrite <- Nat.mul_add_distr_r in O12. replace (q1 + q2)%nat with (q - 1)%nat in O12 by lia.
        rewrite Eq, Nat2Z.id. set (p3 := p + w * Z.of_nat q).
        assert (Ep3 : p3 = p + Z.of_nat (list_sum (repeat W q))) by (unfold p3; rewrite repeat_end; reflexivity).
        assert (Hm : Z.to_nat (l - f) = (q * W + Z.to_nat lo)%nat).
        { rewrite Hdm, Eq. rewrite Z2Nat.inj_add by lia. rewrite Z2Nat.inj_mul, Nat2Z.id, <- EW by lia. lia. }
        rewrite Hm. assert (Hq1 : (1 <= q)%nat) by (unfold q; lia).
        assert (HqW : (q * W = (q - 1) * W + W)%nat) by (destruct q; [lia|cbn; lia]).
        clearbody q. clear O1 O2 Hf1 Hl1 Hq2 Ep.
        destruct (Z.eqb_spec w 1) as [E1|N1].
        { assert (lo = 0) by lia. rewrite H, digits_zero.
          eapply holds_weaken; [|apply (last_calls p3); lia]. intros es3 xx O3. rewrite app_assoc.
          assert (Ea : across_calls w = 0%nat) by (rewrite E1; vm_compute; reflexivity). rewrite Ea.
          eapply obs_eq; [exact (obs_app _ _ _ _ _ _ _ _ _ _ Ep3 O12 O3)|reflexivity|cbn [length]; lia|lia]. }
        assert (Hcond : p_match pol || (lo =? 0) = (lo =? 0)).
        { destruct (p_match pol) eqn:Em; [|reflexivity]. destruct (Hdiv eq_refl) as [j Hj].
          unfold lo. rewrite Hj, Z.mod_mul by lia. reflexivity. }
        rewrite Hcond. destruct (Z.eqb_spec lo 0) as [E0|N0].
        { rewrite E0, digits_zero. eapply holds_weaken; [|apply (onto_lane0_calls p3); lia]. intros es3 xx O3.
          rewrite app_assoc. rewrite La in O3. replace (Z.of_nat W) with w in O3 by lia.
          eapply obs_eq; [exact (obs_app _ _ _ _ _ _ _ _ _ _ Ep3 O12 O3)|reflexivity|cbn [length]; lia|lia]. }
        destruct (bit_ceil_half w ltac:(lia)) as (k & Hk & Ek & Hk1 & Hk2). rewrite Ek.
        pose proof (pow2_pos k Hk) as Hpk.
        assert (Hk64 : k < 64).
        { apply pow2_lt_inv; [lia|]. change (2 ^ 64) with two64. lia. }
        set (kn := Z.to_nat k). assert (Ekn : k = Z.of_nat kn) by lia. rewrite Ekn in *. clearbody kn. clear Ekn k.
        destruct (half_facts kn) as [En _].
        assert (Et : tail (S kn) lo = pw (rev (digits lo))).
        { unfold tail. rewrite (digits_dg lo (S kn)); [reflexivity|lia|].
          replace (Z.of_nat (S kn)) with (Z.of_nat kn + 1) by lia. lia. }
        assert (Elen : length (pw (rev (digits lo))) = length (digits lo)).
        { unfold pw. now rewrite map_length, rev_length. }
        assert (Esum : list_sum (pw (rev (digits lo))) = Z.to_nat lo).
        { rewrite pw_rev, sum_rev. apply Nat2Z.inj. unfold pw. rewrite sum_powers, powers_digits; [lia|].
          change (2 ^ 64) with two64. lia. }
        assert (En' : Z.of_nat (Nat.pow 2 kn) = 2 ^ Z.of_nat kn) by (rewrite <- En; lia).
        eapply holds_bind; [apply (split_calls p3); lia|]. intros es3 lh (O3 & Lv & Lf & Ls). rewrite En in Lf.
        pose proof (obs_app _ _ _ _ _ _ _ _ _ _ Ep3 O12 O3) as O13. rewrite app_nil_r, !Nat.add_0_r in O13.
        destruct (Z.eqb_spec (2 ^ Z.of_nat kn) (w - 2 ^ Z.of_nat kn)) as [Eeq|Nne].
        + eapply holds_bind; [apply (reduce_calls p3)|]. intros es4 acc2 (O4 & L2 & _). rewrite Lf in O4, L2.
          eapply holds_weaken; [|apply (epilogue_acc_calls lo al 64 kn p3); [lia|exact L2]]. intros es5 xx O5.
          rewrite Et, Elen, Esum in O5.
          assert (Ew : w = 2 ^ Z.of_nat (S kn)).
          { rewrite Nat2Z.inj_succ, Z.pow_succ_r by lia. lia. }
          assert (Ea : across_calls w = S kn).
          { rewrite Ew. apply across_pow. rewrite Ew in Hw64. destruct Hw64 as [_ Hx].
            change two64 with (2 ^ 64) in Hx. apply pow2_lt_inv in Hx; lia. }
          rewrite Ea.
          pose proof (obs_app p3 [] _ _ _ p3 _ _ _ _ ltac:(cbn; lia) O4 O5) as O45. cbn [app] in O45.
          replace (es1 ++ es2 ++ es3 ++ es4 ++ es5) with (((es1 ++ es2) ++ es3) ++ es4 ++ es5)
            by (rewrite <- !app_assoc; reflexivity).
          eapply obs_eq; [exact (obs_app _ _ _ _ _ _ _ _ _ _ Ep3 O13 O45)|reflexivity|lia|lia].
        + set (r := w - 2 ^ Z.of_nat kn) in *.
          eapply holds_bind; [apply (onto_calls p3); lia|]. intros es4 acc1' (_ & _ & _ & O4).
          rewrite Ls, Z2Nat.id in O4 by lia.
          eapply holds_weaken; [|apply (epilogue_acc_calls lo al 64 kn p3); [lia|exact Lf]]. intros es5 xx O5.
          rewrite Et, Elen, Esum in O5.
          assert (Hr : 0 < r < 2 ^ Z.of_nat kn).
          { rewrite Z.pow_add_r in Hk2 by lia. change (2 ^ 1) with 2 in Hk2. unfold r in *. lia. }
          assert (Ea : across_calls w = (kn + across_calls r + 1)%nat).
          { replace w with (2 ^ Z.of_nat kn + r) by (unfold r; lia). apply across_top; [exact Hr|lia]. }
          rewrite Ea.
          pose proof (obs_app p3 [] _ _ _ p3 _ _ _ _ ltac:(cbn; lia) O4 O5) as O45. cbn [app] in O45.
          replace (es1 ++ es2 ++ es3 ++ es4 ++ es5) with (((es1 ++ es2) ++ es3) ++ es4 ++ es5)
            by (rewrite <- !app_assoc; reflexivity).
          eapply obs_eq; [exact (obs_app _ _ _ _ _ _ _ _ _ _ Ep3 O13 O45)|reflexivity|lia|unfold r in *; lia].
      - assert (Elo : lo = l - f) by (apply Z.mod_small; lia).
        assert (Eq : (l - f) / w = 0) by (apply Z.div_small; lia). rewrite Eq. change (Z.to_nat 0) with 0%nat. cbn [repeat app Nat.add].
        destruct (Z.ltb_spec 0 (bit_ceil w / 2)) as [Hpos|]; [|apply holds_stop].
        assert (Hw2 : 2 <= w) by lia.
        destruct (bit_ceil_half w Hw2) as (k & Hk & Ek & Hk1 & Hk2). rewrite Ek.
        assert (Hk64 : k < 64).
        { apply pow2_lt_inv; [lia|]. change (2 ^ 64) with two64. lia. }
        set (kn := Z.to_nat k). assert (Ekn : k = Z.of_nat kn) by lia. rewrite Ekn in *. clearbody kn. clear Ekn k.
        replace (Z.of_nat kn + 1) with (Z.of_nat (S kn)) in Hk2 by lia.
        assert (Et : tail (S kn) lo = pw (rev (digits lo))).
        { unfold tail. rewrite (digits_dg lo (S kn)); [reflexivity|lia|lia]. }
        assert (Elen : length (pw (rev (digits lo))) = length (digits lo)).
        { unfold pw. now rewrite map_length, rev_length. }
        assert (Esum : list_sum (pw (rev (digits lo))) = Z.to_nat lo).
        { rewrite pw_rev, sum_rev. apply Nat2Z.inj. unfold pw. rewrite sum_powers, powers_digits; [lia|].
          change (2 ^ 64) with two64. lia. }
        eapply holds_weaken; [|apply (epilogue_calls lo al 64 kn p); lia]. intros es xx O.
        rewrite Et, Elen, Esum, Elo in O. rewrite <- Elo in O at 1 2. rewrite <- Elo in O at 1.
        pose proof (Z.log2_nonneg (l - f)).
        assert (Ea : across_calls (2 ^ Z.log2 (l - f)) = Z.to_nat (Z.log2 (l - f))).
        { replace (Z.log2 (l - f)) with (Z.of_nat (Z.to_nat (Z.log2 (l - f)))) at 1 by lia. apply across_pow.
          enough (Z.log2 (l - f) < 64) by lia. apply Z.log2_lt_pow2; [lia|]. change (2 ^ 64) with two64. lia. }
        rewrite Ea. rewrite Elo in O |- *. exact O.
    Qed.
  End Width.
End Runs.
