(** Exactly when the bit operators on floating-point lanes are undefined (C36). *)
From Verif Require Import Base BaseFacts LaneModel LaneProofs IntModel IntProofs WhereProofs ShapeProofs BitModel BitProofs.
From Coq Require Import ZifyBool ZifyNat.
Ltac Zify.zify_post_hook ::= idtac.

Lemma mapR_first_stop {A B} (f : A -> res B) s : forall l,
  (forall x, In x l -> f x = Stop s \/ exists y, f x = Ok y) -> (exists x, In x l /\ f x = Stop s) -> mapR f l = Stop s.
Proof.
  induction l as [|a l IH]; intros H [x [Hx E] ]; [destruct Hx|]. cbn [mapR].
  destruct (H a (or_introl eq_refl)) as [Ea|[y Ea] ]; rewrite Ea; [reflexivity|]. cbn [bindR].
  destruct Hx as [->|Hx]; [congruence|]. rewrite IH; [reflexivity|intros; apply H; now right|eauto].
Qed.

Lemma decode_le_none o : decode_le o = None <-> In None o.
Proof.
  induction o as [|[b|] o IH]; cbn [decode_le In].
  - split; [discriminate|tauto].
  - destruct (decode_le o); split; try discriminate.
    + intros [C|C]; [discriminate|]. now apply IH in C.
    + intros _. right. now apply IH.
    + reflexivity.
  - split; auto.
Qed.

Lemma decode_none big o : decode big o = None <-> In None o.
Proof. unfold decode. rewrite decode_le_none. destruct big; [symmetry; apply in_rev|reflexivity]. Qed.

Lemma to_ints_cases big (v : list object) :
  (exists p, In p v /\ In None p) /\ to_ints big v = Stop SUB
  \/ (forall p, In p v -> ~ In None p) /\ exists x, to_ints big v = Ok x /\ length x = length v.
Proof.
  unfold to_ints. induction v as [|p v IH]; [right; split; [intros p []|exists []; auto]|]. cbn [mapR].
  destruct (decode big p) as [z|] eqn:E; cbn [of_option bindR].
  - assert (N : ~ In None p) by (rewrite <- (decode_none big); congruence).
    destruct IH as [[(q & Hq & Hn) E']|[Hn (x & E' & L)] ]; rewrite E'; cbn [bindR].
    + left. split; [exists q; split; [now right|assumption]|reflexivity].
    + right. split; [intros q [<-|Hq]; auto|]. exists (z :: x). cbn [length]. auto.
  - left. split; [|reflexivity]. exists p. split; [now left|]. now apply (decode_none big).
Qed.

Definition bytes_ok (p : object) : Prop := forall x, In (Some x) p -> 0 <= x < 256.

Theorem float_bitop_undefined_iff l big o f size (a b : list object) : bitwise o = Some f -> as_unsigned size <> None ->
  length a = length b -> (forall p : object, In p a \/ In p b -> length p = size /\ bytes_ok p) ->
  (float_bitop l big o size a b = Stop SUB <-> exists p : object, (In p a \/ In p b) /\ In None p).
Proof.
  intros Hf Hs Hl Hp. split.
  - intros H.
    destruct (to_ints_cases big (a ++ b)) as [[(p & Hin & Hn) _]|[Hn _] ].
    + exists p. split; [now apply in_app_iff|assumption].
    + exfalso. destruct (float_bitop_lanes l big o f size a b Hf Hs Hl) as (r & Hr & _); [|congruence].
      intros p Hin. destruct (Hp p Hin) as [L Hb]. split; [assumption|]. intros [x|] Hx.
      * exists x. split; [reflexivity|now apply Hb].
      * exfalso. apply (Hn p); [now apply in_app_iff|assumption].
  - intros (p & Hin & Hn). unfold float_bitop. destruct (as_unsigned size) as [w|] eqn:Ew; [|congruence].
    destruct (Nat.leb_spec size 8) as [H8|H8].
    + assert (Wa : wf (mkvty (length a) size false) a) by (split; [reflexivity|]; intros q Hq; split; [now apply Hp; left|reflexivity]).
      assert (Wb : wf (mkvty (length a) size false) b) by (split; [now symmetry|]; intros q Hq; split; [now apply Hp; right|reflexivity]).
      rewrite !bit_cast_self by assumption. cbn [bindR].
      destruct (to_ints_cases big a) as [[_ ->]|[Na (x & -> & _)] ]; [reflexivity|]. cbn [bindR].
      destruct (to_ints_cases big b) as [[_ ->]|[Nb (y & -> & _)] ]; [reflexivity|]. exfalso.
      destruct Hin as [Hin|Hin]; [now apply (Na p)|now apply (Nb p)].
    + unfold gen. apply mapR_first_stop.
      * intros i Hi. apply in_seq in Hi. cbn in Hi. destruct Hi as [_ Hi].
        destruct (nth_lt a i Hi) as [q Hq]. destruct (nth_lt b i ltac:(lia)) as [q' Hq'].
        rewrite (subscript_some a i q Hq), (subscript_some b i q' Hq'). cbn [bindR].
        destruct (decode big q) as [z|]; [|now left]. destruct (decode big q') as [z'|]; [|now left].
        cbn [of_option bindR]. rewrite (expr_bitwise l _ o f) by assumption. cbn [bindR]. right. eauto.
      * assert (I : exists i q q', nth_error a i = Some q /\ nth_error b i = Some q' /\ (In None q \/ In None q')).
        { destruct Hin as [Hin|Hin]; apply In_nth_error in Hin as [i Hi].
          - assert (i < length a)%nat by (apply nth_error_Some; congruence).
            destruct (nth_lt b i ltac:(lia)) as [q' Hq']. exists i, p, q'. auto.
          - assert (i < length b)%nat by (apply nth_error_Some; congruence).
            destruct (nth_lt a i ltac:(lia)) as [q Hq]. exists i, q, p. auto. }
        destruct I as (i & q & q' & Hq & Hq' & N). exists i. split.
        { apply in_seq. assert (i < length a)%nat by (apply nth_error_Some; congruence). lia. }
        rewrite (subscript_some a i q Hq), (subscript_some b i q' Hq'). cbn [bindR].
        destruct (decode big q) as [z|] eqn:E; [|reflexivity]. cbn [of_option bindR].
        destruct (decode big q') as [z'|] eqn:E'; [|reflexivity]. exfalso.
        destruct N as [N|N]; apply (decode_none big) in N; congruence.
Qed.

(** ** bit_ceil for every argument (C41) *)

Lemma lor_shift_bounds w x : 0 < w -> 0 <= x < 2 ^ w -> x <= Z.lor x (Z.shiftr x 1) < 2 ^ w.
Proof.
  intros Hw Hx. split.
  - replace (Z.lor x (Z.shiftr x 1)) with (x + Z.ldiff (Z.shiftr x 1) x).
    + assert (0 <= Z.ldiff (Z.shiftr x 1) x); [|lia]. apply Z.ldiff_nonneg. left. apply Z.shiftr_nonneg. lia.
    + rewrite Z.add_nocarry_lxor.
      * apply Z.bits_inj'. intros i Hi. rewrite Z.lxor_spec, Z.lor_spec, Z.ldiff_spec.
        now destruct (Z.testbit x i), (Z.testbit (Z.shiftr x 1) i).
      * apply Z.bits_inj'. intros i Hi. rewrite Z.land_spec, Z.ldiff_spec, Z.testbit_0_l.
        now destruct (Z.testbit x i), (Z.testbit (Z.shiftr x 1) i).
  - assert (N : 0 <= Z.shiftr x 1) by (apply Z.shiftr_nonneg; lia).
    assert (L : Z.shiftr x 1 <= x).
    { rewrite Z.shiftr_div_pow2 by lia. apply Z.div_le_upper_bound; [reflexivity|]. change (2 ^ 1) with 2. lia. }
    assert (P : 0 < 2 ^ w) by lia.
    destruct (Z.eq_dec (Z.lor x (Z.shiftr x 1)) 0) as [->|Z0]; [lia|].
    assert (0 <= Z.lor x (Z.shiftr x 1)) by (apply Z.lor_nonneg; lia).
    apply Z.log2_lt_pow2; [lia|]. rewrite Z.log2_lor by lia.
    assert (x <> 0) by (intros ->; now apply Z0).
    assert (Z.log2 x < w) by (apply Z.log2_lt_pow2; lia).
    pose proof (Z.log2_le_mono _ _ L). lia.
Qed.

Lemma bit_ceil_rec_wraps w : 0 < w -> forall fuel x, 2 ^ (w - 1) < x < 2 ^ w ->
  bit_ceil_rec fuel (w + 1) x = Some (2 ^ w) -> bit_ceil_rec fuel w x = Some 0.
Proof.
  intros Hw. assert (K0 : 0 < 2 ^ (w - 1)) by (apply Z.pow_pos_nonneg; lia).
  assert (W : 2 ^ (w + 1) = 2 * 2 ^ w) by (rewrite <- Z.pow_succ_r by lia; f_equal; lia).
  induction fuel as [|fuel IH]; intros x Hx H; [discriminate|]. cbn [bit_ceil_rec] in H |- *.
  rewrite (Z.mod_small (x - 1)) in H |- * by lia.
  destruct (Z.eqb_spec (Z.land x (x - 1)) 0) as [E|_]; [exfalso; revert E; apply (between_not_pow2 w); lia|].
  pose proof (lor_shift_bounds w x Hw ltac:(lia)) as B. rewrite Z.mod_small in H by lia.
  destruct (Z.eq_dec (Z.lor x (Z.shiftr x 1) + 1) (2 ^ w)) as [E|N].
  - rewrite E in *. rewrite Z.mod_same by lia. destruct fuel; [discriminate|]. reflexivity.
  - rewrite Z.mod_small by lia. apply IH; [lia|assumption].
Qed.

Theorem bit_ceil_rec_exact w x fuel : 0 < w -> 0 <= x < 2 ^ w -> (Z.to_nat w + 1 < fuel)%nat ->
  exists r, bit_ceil_rec fuel w x = Some r
    /\ ((1 <= x <= 2 ^ (w - 1) /\ least_pow2 x r) \/ ((x = 0 \/ 2 ^ (w - 1) < x) /\ r = 0)).
Proof.
  intros Hw Hx Hf. destruct (Z.eq_dec x 0) as [->|N].
  { exists 0. destruct fuel; [lia|]. split; [reflexivity|]. right. split; [now left|reflexivity]. }
  destruct (Z.le_gt_cases x (2 ^ (w - 1))) as [L|G].
  - destruct (bit_ceil_rec_least w x fuel Hw ltac:(lia) ltac:(lia)) as (r & Hr & HL). exists r. split; [assumption|].
    left. split; [lia|assumption].
  - exists 0. split; [|right; split; [now right|reflexivity] ]. apply bit_ceil_rec_wraps; [assumption|lia|].
    destruct (bit_ceil_rec_least (w + 1) x fuel ltac:(lia)) as (r & Hr & HL);
      [replace (w + 1 - 1) with w by lia; assert (0 < 2 ^ (w - 1)) by (apply Z.pow_pos_nonneg; lia); lia|lia|].
    rewrite Hr. f_equal. destruct HL as (k & Hk & -> & Hle & Hmin). apply Z.le_antisymm.
    + apply Hmin; lia.
    + apply Z.pow_le_mono_r; [lia|]. destruct (Z.le_gt_cases w k); [assumption|].
      assert (2 ^ k <= 2 ^ (w - 1)) by (apply Z.pow_le_mono_r; lia). lia.
Qed.

Lemma bit_ceil_while_stuck w x : 0 < w -> 0 < x -> forall fuel, bit_ceil_while fuel w x 0 = None.
Proof.
  intros Hw Hx. induction fuel as [|fuel IH]; [reflexivity|]. cbn [bit_ceil_while].
  destruct (Z.ltb_spec 0 x); [|lia]. change (0 * 2) with 0. rewrite Z.mod_0_l; [assumption|].
  assert (0 < 2 ^ w) by (apply Z.pow_pos_nonneg; lia). lia.
Qed.

Lemma bit_ceil_while_from w x : 0 < w -> x <= 2 ^ (w - 1) -> forall n i fuel, 0 <= i -> (Z.to_nat (w - 1 - i) <= n)%nat -> i <= w - 1 ->
  (n < fuel)%nat -> exists k, i <= k <= w - 1 /\ bit_ceil_while fuel w x (2 ^ i) = Some (2 ^ k) /\ x <= 2 ^ k
    /\ forall j, i <= j < k -> 2 ^ j < x.
Proof.
  intros Hw Hx. induction n as [|n IH]; intros i fuel Hi Hn Hi' Hf; (destruct fuel as [|fuel]; [lia|]); cbn [bit_ceil_while].
  - assert (i = w - 1) by lia. subst i. destruct (Z.ltb_spec (2 ^ (w - 1)) x); [lia|]. exists (w - 1).
    split; [lia|]. split; [reflexivity|]. split; [assumption|]. intros j Hj. lia.
  - destruct (Z.ltb_spec (2 ^ i) x) as [L|G].
    + destruct (Z.eq_dec i (w - 1)) as [->|N]; [lia|].
      assert (E : 2 ^ i * 2 = 2 ^ (i + 1)) by (rewrite Z.pow_add_r by lia; reflexivity). rewrite E.
      assert (2 ^ (i + 1) < 2 ^ w) by (apply Z.pow_lt_mono_r; lia). assert (0 < 2 ^ (i + 1)) by (apply Z.pow_pos_nonneg; lia).
      rewrite Z.mod_small by lia.
      destruct (IH (i + 1) fuel ltac:(lia) ltac:(lia) ltac:(lia) ltac:(lia)) as (k & Hk & Hr & Hle & Hlt).
      exists k. split; [lia|]. split; [assumption|]. split; [assumption|]. intros j Hj.
      destruct (Z.eq_dec j i) as [->|]; [assumption|]. apply Hlt. lia.
    + exists i. split; [lia|]. split; [reflexivity|]. split; [assumption|]. intros j Hj. lia.
Qed.

(** The loop ends iff the result fits. *)
Theorem bit_ceil_loop_exact w x : 0 < w -> 0 <= x < 2 ^ w ->
  (x <= 2 ^ (w - 1) -> forall fuel, (Z.to_nat w <= fuel)%nat -> exists r, bit_ceil_loop fuel w x = Some r /\ least_pow2 x r)
  /\ (2 ^ (w - 1) < x -> forall fuel, bit_ceil_loop fuel w x = None).
Proof.
  intros Hw Hx. split.
  - intros L fuel Hf.
    destruct (bit_ceil_while_from w x Hw L (Z.to_nat (w - 1)) 0 fuel ltac:(lia) ltac:(lia) ltac:(lia) ltac:(lia))
      as (k & Hk & Hr & Hle & Hlt).
    exists (2 ^ k). split; [exact Hr|]. exists k. split; [lia|]. split; [reflexivity|]. split; [assumption|].
    intros i Hi Hxi. destruct (Z.lt_ge_cases i k) as [A|A]; [specialize (Hlt i ltac:(lia)); lia|].
    apply Z.pow_le_mono_r; lia.
  - intros G fuel. unfold bit_ceil_loop. change 1 with (2 ^ 0).
    assert (H : forall n i fuel, 0 <= i <= w - 1 -> (Z.to_nat (w - 1 - i) <= n)%nat -> bit_ceil_while fuel w x (2 ^ i) = None).
    { clear fuel. induction n as [|n IH]; intros i fuel Hi Hn; (destruct fuel as [|fuel]; [reflexivity|]); cbn [bit_ceil_while].
      - assert (i = w - 1) by lia. subst i. destruct (Z.ltb_spec (2 ^ (w - 1)) x); [|lia].
        replace (2 ^ (w - 1) * 2) with (2 ^ w) by (replace w with (w - 1 + 1) at 1 by lia; now rewrite Z.pow_add_r by lia).
        rewrite Z.mod_same by lia. apply bit_ceil_while_stuck; [assumption|].
        assert (0 < 2 ^ (w - 1)) by (apply Z.pow_pos_nonneg; lia). lia.
      - assert (2 ^ i <= 2 ^ (w - 1)) by (apply Z.pow_le_mono_r; lia).
        destruct (Z.ltb_spec (2 ^ i) x); [|lia].
        assert (E : 2 ^ i * 2 = 2 ^ (i + 1)) by (rewrite Z.pow_add_r by lia; reflexivity). rewrite E.
        destruct (Z.eq_dec (i + 1) w) as [->|N].
        + rewrite Z.mod_same by lia. apply bit_ceil_while_stuck; [assumption|].
          assert (0 < 2 ^ (w - 1)) by (apply Z.pow_pos_nonneg; lia). lia.
        + assert (2 ^ (i + 1) < 2 ^ w) by (apply Z.pow_lt_mono_r; lia). assert (0 < 2 ^ (i + 1)) by (apply Z.pow_pos_nonneg; lia).
          rewrite Z.mod_small by lia. apply IH; lia. }
    apply (H (Z.to_nat (w - 1)) 0); lia.
Qed.
