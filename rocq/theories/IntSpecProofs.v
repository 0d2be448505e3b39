(** The scalar expressions of IntModel.v meet the relations of IntSpec.v. *)
From Verif Require Import Base BaseFacts LaneModel IntModel IntProofs IntSpec.
From Coq Require Import ZifyBool ZifyNat.
Ltac Zify.zify_post_hook ::= idtac.

Lemma in_type_value t x : in_type t x = true <-> value_of t x.
Proof. unfold in_type, value_of. destruct (sgn t); lia. Qed.

Lemma pow2_pos n : 0 <= n -> 0 < 2 ^ n.
Proof. intros. apply Z.pow_pos_nonneg; lia. Qed.

Lemma pow2_neg n : n < 0 -> 2 ^ n = 0.
Proof. intros. now apply Z.pow_neg_r. Qed.

(** The values of a type are a complete residue system. *)
Lemma value_unique t x y : type_ok t -> value_of t x -> value_of t y -> (2 ^ bits t | x - y) -> x = y.
Proof.
  intros Ht Hx Hy [q Hq]. unfold type_ok in Ht. pose proof (pow_half (bits t) ltac:(lia)) as P.
  assert (0 < 2 ^ (bits t - 1)) by (apply pow2_pos; lia).
  unfold value_of in *. destruct (sgn t).
  - assert (q = 0) by nia. lia.
  - assert (q = 0) by nia. lia.
Qed.

Lemma convert_value t x : type_ok t -> value_of t (convert t x) /\ (2 ^ bits t | convert t x - x).
Proof.
  intros Ht. destruct (convert_spec t x Ht) as (A & B & _). split; [now apply in_type_value|].
  assert (0 < 2 ^ bits t) by (apply pow2_pos; unfold type_ok in Ht; lia).
  apply Z.mod_divide; [lia|]. rewrite Zminus_mod, B, Z.sub_diag. apply Z.mod_0_l. lia.
Qed.

Lemma computed_arith p m r : type_ok p -> (computed p m = Ok r <-> arith p m r).
Proof.
  intros Hp. unfold computed, arith. destruct (sgn p) eqn:S.
  - destruct (in_type p m) eqn:E; split.
    + intros H. injection H as <-. split; [now apply in_type_value|reflexivity].
    + intros [_ ->]. reflexivity.
    + discriminate.
    + intros [H ->]. apply in_type_value in H. congruence.
  - assert (C : convert p m = m mod 2 ^ bits p) by (unfold convert; now rewrite S).
    rewrite <- C. destruct (convert_value p m Hp) as [V D]. split.
    + intros H. injection H as <-. split; assumption.
    + intros [V' D']. f_equal. apply (value_unique p); try assumption.
      replace (convert p m - r) with ((convert p m - m) - (r - m)) by lia. now apply Z.divide_sub_r.
Qed.

Lemma quot_unique x y q r : divides_into x y q r <-> y <> 0 /\ q = Z.quot x y /\ r = Z.rem x y.
Proof.
  unfold divides_into. split.
  - intros (Hy & E & B & P & N). split; [assumption|].
    assert (q = Z.quot x y).
    { symmetry. apply (Z.quot_unique_exact x y q) || idtac.
      destruct (Z.eq_dec r 0) as [->|Hr].
      - rewrite E, Z.add_0_r. now apply Z.quot_mul.
      - pose proof (Z.quot_rem' x y) as Q. pose proof (Z.rem_bound_abs x y Hy) as RB.
        pose proof (Z.rem_sign_nz x y Hy) as RS.
        assert (S0 : 0 <= x -> 0 <= Z.rem x y) by (intros; apply Z.rem_nonneg; assumption).
        assert (S1 : x <= 0 -> Z.rem x y <= 0) by (intros; apply Z.rem_nonpos; assumption).
        destruct (Z.le_ge_cases 0 x).
        + specialize (P H). specialize (S0 H). nia.
        + assert (H' : x <= 0) by lia. specialize (N H'). specialize (S1 H'). nia. }
    split; [assumption|]. pose proof (Z.quot_rem' x y). subst q. lia.
  - intros (Hy & -> & ->). split; [assumption|]. split; [pose proof (Z.quot_rem' x y); lia|].
    split; [now apply Z.rem_bound_abs|]. split; intros; [now apply Z.rem_nonneg|now apply Z.rem_nonpos].
Qed.

(** A value of a type, through its bits above the width. *)
Lemma value_bits t x : type_ok t ->
  (value_of t x <-> if sgn t then forall n, bits t - 1 <= n -> Z.testbit x n = (x <? 0)
                    else 0 <= x /\ forall n, bits t <= n -> Z.testbit x n = false).
Proof.
  intros Ht. unfold type_ok in Ht. unfold value_of.
  assert (U : forall k y, 0 <= k -> 0 <= y -> (y < 2 ^ k <-> forall n, k <= n -> Z.testbit y n = false)).
  { intros k y Hk Hy. split.
    - intros H n Hn. destruct (Z.eq_dec y 0) as [->|]; [apply Z.testbit_0_l|].
      apply Z.bits_above_log2; [lia|]. apply Z.log2_lt_pow2; [lia|].
      eapply Z.lt_le_trans; [exact H|]. apply Z.pow_le_mono_r; lia.
    - intros H. destruct (Z.eq_dec y 0) as [->|]; [now apply pow2_pos|].
      apply Z.log2_lt_pow2; [lia|]. destruct (Z.lt_ge_cases (Z.log2 y) k) as [L|L]; [assumption|].
      specialize (H _ L). rewrite Z.bit_log2 in H by lia. discriminate. }
  destruct (sgn t).
  - destruct (Z.ltb_spec x 0) as [Hx|Hx].
    + assert (E : - 2 ^ (bits t - 1) <= x <-> Z.lnot x < 2 ^ (bits t - 1)) by (unfold Z.lnot; lia).
      assert (L0 : 0 <= Z.lnot x) by (unfold Z.lnot; lia).
      rewrite (U (bits t - 1) (Z.lnot x)) in E by lia. split.
      * intros [A _] n Hn. rewrite E in A. specialize (A n Hn). rewrite Z.lnot_spec in A by lia.
        now destruct (Z.testbit x n).
      * intros H. split.
        -- apply E. intros n Hn. rewrite Z.lnot_spec by lia. now rewrite (H n Hn).
        -- pose proof (pow2_pos (bits t - 1)). lia.
    + rewrite <- (U (bits t - 1) x) by lia. pose proof (pow2_pos (bits t - 1)). lia.
  - split.
    + intros [A B]. split; [assumption|]. apply (U (bits t) x); lia.
    + intros [A B]. split; [assumption|]. apply (U (bits t) x); [lia|assumption|assumption].
Qed.

Lemma testbit_ext x y : (forall n, 0 <= n -> Z.testbit x n = Z.testbit y n) -> x = y.
Proof. intros H. now apply Z.bits_inj_iff', H. Qed.

Lemma bitwise_on_bits (g : Z -> Z -> Z) f p x y r : type_ok p -> value_of p x -> value_of p y ->
  (forall a b n, 0 <= n -> Z.testbit (g a b) n = f (Z.testbit a n) (Z.testbit b n)) ->
  (forall a b, 0 <= a -> 0 <= b -> 0 <= g a b) -> f false false = false ->
  (forall a b, (g a b <? 0) = f (a <? 0) (b <? 0)) ->
  (Ok (g x y) = Ok r <-> on_bits f p x y r).
Proof.
  intros Hp Hx Hy T NN F S. unfold on_bits. split.
  - intros H. injection H as <-. split; [|intros; now apply T].
    apply value_bits; [assumption|]. rewrite value_bits in Hx, Hy by assumption. unfold type_ok in Hp.
    destruct (sgn p).
    + intros n Hn. rewrite T, Hx, Hy, S by lia. reflexivity.
    + destruct Hx as [Px Hx], Hy as [Py Hy]. split; [now apply NN|].
      intros n Hn. now rewrite T, Hx, Hy by lia.
  - intros [_ B]. f_equal. apply testbit_ext. intros n Hn. rewrite T, B by assumption. reflexivity.
Qed.

Lemma land_neg a b : (Z.land a b <? 0) = (a <? 0) && (b <? 0).
Proof. pose proof (Z.land_neg a b). lia. Qed.
Lemma lor_neg a b : (Z.lor a b <? 0) = (a <? 0) || (b <? 0).
Proof. pose proof (Z.lor_neg a b). lia. Qed.
Lemma lxor_neg a b : (Z.lxor a b <? 0) = xorb (a <? 0) (b <? 0).
Proof.
  pose proof (Z.lxor_nonneg a b). destruct (Z.ltb_spec a 0), (Z.ltb_spec b 0), (Z.ltb_spec (Z.lxor a b) 0); cbn; lia.
Qed.

Lemma shift_left_spec l p x y r : type_ok p -> (shift_left l p x y = Ok r <-> shifted_left l p x y r).
Proof.
  intros Hp. unfold shift_left, shifted_left.
  assert (C : Ok (convert p (x * 2 ^ y)) = Ok r <-> value_of p r /\ (2 ^ bits p | r - x * 2 ^ y)).
  { destruct (convert_value p (x * 2 ^ y) Hp) as [V D]. split.
    - intros H. injection H as <-. split; assumption.
    - intros [V' D']. f_equal. apply (value_unique p); try assumption.
      replace (convert p (x * 2 ^ y) - r) with ((convert p (x * 2 ^ y) - x * 2 ^ y) - (r - x * 2 ^ y)) by lia.
      now apply Z.divide_sub_r. }
  destruct (Z.leb_spec 0 y), (Z.ltb_spec y (bits p)); cbn [andb];
    try (split; [discriminate|intros [ [? ?] _]; lia]).
  destruct (sgn p) eqn:S, (l_cxx20 l) eqn:L; cbn [andb negb]; try (rewrite C; intuition (congruence || lia)).
  destruct (Z.leb_spec 0 x), (Z.ltb_spec (x * 2 ^ y) (2 ^ bits p)); cbn [andb];
    try (split; [discriminate|intros (_ & _ & _ & G); destruct (G eq_refl eq_refl); lia]).
  rewrite C. intuition.
Qed.

Lemma shift_right_spec p x y r : shift_right p x y = Ok r <-> shifted_right p x y r.
Proof.
  unfold shift_right, shifted_right.
  destruct (Z.leb_spec 0 y), (Z.ltb_spec y (bits p)); cbn [andb];
    try (split; [discriminate|intros [ [? ?] _]; lia]).
  pose proof (pow2_pos y ltac:(lia)) as P. pose proof (Z.div_mod x (2 ^ y) ltac:(lia)) as D.
  pose proof (Z.mod_pos_bound x (2 ^ y) P) as B. split.
  - intros E. injection E as <-. nia.
  - intros [_ E]. f_equal. assert (x / 2 ^ y <= r) by nia. nia.
Qed.

Lemma eval_bin_spec l p o x y r : type_ok p -> value_of p x -> value_of p y ->
  (eval_bin l p o x y = Ok r <-> scalar_bin l p x y o r).
Proof.
  intros Hp Hx Hy.
  destruct o; cbn [eval_bin].
  - rewrite computed_arith by assumption. split; [now constructor|inversion 1; assumption].
  - rewrite computed_arith by assumption. split; [now constructor|inversion 1; assumption].
  - rewrite computed_arith by assumption. split; [now constructor|inversion 1; assumption].
  - assert (Q : forall q, y <> 0 -> value_of p q -> q = Z.quot x y -> computed p (Z.quot x y) = Ok q).
    { intros q Y V ->. apply computed_arith; [assumption|]. split; [assumption|].
      destruct (sgn p); [reflexivity|]. rewrite Z.sub_diag. apply Z.divide_0_r. }
    assert (QN : sgn p = false -> 0 <= Z.quot x y < 2 ^ bits p \/ y = 0).
    { intros S. unfold value_of in Hx, Hy. rewrite S in *. destruct (Z.eq_dec y 0); [now right|left].
      split; [apply Z.quot_pos; lia|]. apply Z.le_lt_trans with x; [|lia].
      apply Z.quot_le_upper_bound; nia. }
    destruct (Z.eqb_spec y 0) as [->|Y].
    + split; [discriminate|]. inversion 1 as [| | |q r' D V| | | | | |]; subst. destruct D. congruence.
    + split.
      * intros E. apply computed_arith in E; [|assumption]. destruct E as [V E].
        assert (r = Z.quot x y).
        { destruct (sgn p) eqn:S; [assumption|]. destruct (QN eq_refl); [|contradiction].
          apply (value_unique p); try assumption. unfold value_of. now rewrite S. }
        subst r. apply (sb_div _ _ _ _ _ (Z.rem x y)); [now apply quot_unique|assumption].
      * inversion 1 as [| | |q r' D V| | | | | |]; subst. apply quot_unique in D. destruct D as (_ & -> & _). now apply Q.
  - assert (QN : sgn p = false -> y <> 0 -> 0 <= Z.quot x y < 2 ^ bits p).
    { intros S Y. unfold value_of in Hx, Hy. rewrite S in *.
      split; [apply Z.quot_pos; lia|]. apply Z.le_lt_trans with x; [|lia].
      apply Z.quot_le_upper_bound; nia. }
    destruct (Z.eqb_spec y 0) as [->|Y].
    + split; [discriminate|]. inversion 1 as [| | | |q r' D V| | | | |]; subst. destruct D. congruence.
    + destruct (computed p (Z.quot x y)) as [q|s] eqn:E; cbn [bindR]; split.
      * intros R. injection R as <-. apply (sb_rem _ _ _ _ (Z.quot x y)); [now apply quot_unique|].
        unfold computed in E. unfold value_of. destruct (sgn p) eqn:S.
        -- destruct (in_type p (Z.quot x y)) eqn:I; [|discriminate]. apply in_type_value in I.
           unfold value_of in I. now rewrite S in I.
        -- now apply QN.
      * inversion 1 as [| | | |q' r' D V| | | | |]; subst. apply quot_unique in D. now destruct D as (_ & _ & ->).
      * discriminate.
      * inversion 1 as [| | | |q' r' D V| | | | |]; subst. apply quot_unique in D. destruct D as (_ & -> & _).
        exfalso. unfold computed in E. destruct (sgn p); [|discriminate].
        apply in_type_value in V. rewrite V in E. discriminate.
  - rewrite (bitwise_on_bits Z.land andb p x y r); try assumption.
    + split; [now constructor|inversion 1; assumption].
    + intros. apply Z.land_spec.
    + intros. apply Z.land_nonneg. lia.
    + reflexivity.
    + apply land_neg.
  - rewrite (bitwise_on_bits Z.lor orb p x y r); try assumption.
    + split; [now constructor|inversion 1; assumption].
    + intros. apply Z.lor_spec.
    + intros. apply Z.lor_nonneg. lia.
    + reflexivity.
    + apply lor_neg.
  - rewrite (bitwise_on_bits Z.lxor xorb p x y r); try assumption.
    + split; [now constructor|inversion 1; assumption].
    + intros. apply Z.lxor_spec.
    + intros. apply Z.lxor_nonneg. lia.
    + reflexivity.
    + apply lxor_neg.
  - rewrite shift_left_spec by assumption. split; [now constructor|inversion 1; assumption].
  - rewrite shift_right_spec. split; [now constructor|inversion 1; assumption].
Qed.

Lemma promote_spec l t : lang_ok l -> type_ok t -> promotes_to l t (promote l t).
Proof.
  unfold lang_ok, type_ok. intros Hl Ht. unfold promotes_to, promote. cbn zeta.
  pose proof (pow2_pos (l_int l - 1) ltac:(lia)) as PI. pose proof (pow2_pos (bits t - 1) ltac:(lia)) as PT.
  pose proof (pow_half (bits t) Ht) as P2.
  destruct (Z.ltb_spec (bits t) (l_int l)) as [B|B].
  - split; [reflexivity|]. intros N. exfalso. apply N. intros x. unfold value_of. cbn [bits sgn].
    assert (2 ^ bits t <= 2 ^ (l_int l - 1)) by (apply Z.pow_le_mono_r; lia). destruct (sgn t); lia.
  - split; [|reflexivity]. intros A. unfold value_of in A. cbn [bits sgn] in A. destruct t as [b s]. cbn [bits sgn] in *.
    destruct s.
    + specialize (A (2 ^ (b - 1) - 1) ltac:(lia)).
      assert (~ l_int l < b).
      { intros L. assert (2 ^ (l_int l - 1 + 1) <= 2 ^ (b - 1)) by (apply Z.pow_le_mono_r; lia).
        rewrite (pow_half (l_int l - 1 + 1)) in H by lia.
        replace (l_int l - 1 + 1 - 1) with (l_int l - 1) in H by lia. lia. }
      f_equal. lia.
    + specialize (A (2 ^ b - 1) ltac:(lia)).
      assert (2 ^ (l_int l - 1 + 1) <= 2 ^ b) by (apply Z.pow_le_mono_r; lia).
      rewrite (pow_half (l_int l - 1 + 1)) in H by lia.
      replace (l_int l - 1 + 1 - 1) with (l_int l - 1) in H by lia. lia.
Qed.

Lemma promote_unique l t p : lang_ok l -> type_ok t -> promotes_to l t p -> p = promote l t.
Proof.
  intros Hl Ht [A B]. destruct (promote_spec l t Hl Ht) as [A' B']. cbn zeta in *.
  unfold promote in *. destruct (Z.ltb_spec (bits t) (l_int l)) as [L|L].
  - apply A. intros x. unfold value_of. cbn [bits sgn]. unfold lang_ok, type_ok in *.
    assert (2 ^ bits t <= 2 ^ (l_int l - 1)) by (apply Z.pow_le_mono_r; lia).
    pose proof (pow_half (bits t) Ht). pose proof (pow2_pos (bits t - 1) ltac:(lia)). destruct (sgn t); lia.
  - destruct t as [b s]. destruct s.
    + destruct (Z.eq_dec b (l_int l)) as [->|N].
      * apply A. intros x Hx. exact Hx.
      * apply B. intros C. specialize (A' C). injection A' as E. cbn in L. lia.
    + apply B. intros C. specialize (A' C). discriminate.
Qed.

Lemma promote_ok l t : lang_ok l -> type_ok t -> type_ok (promote l t).
Proof. unfold lang_ok, type_ok, promote. intros. destruct (_ <? _); cbn [bits]; lia. Qed.

Lemma promote_value l t x : lang_ok l -> type_ok t -> value_of t x -> value_of (promote l t) x.
Proof.
  intros Hl Ht Hx. unfold promote. destruct (Z.ltb_spec (bits t) (l_int l)); [|assumption].
  unfold value_of in *. cbn [bits sgn]. unfold lang_ok, type_ok in *.
  assert (2 ^ bits t <= 2 ^ (l_int l - 1)) by (apply Z.pow_le_mono_r; lia).
  pose proof (pow_half (bits t) Ht). pose proof (pow2_pos (bits t - 1) ltac:(lia)). destruct (sgn t); lia.
Qed.

Lemma convert_iff t e r : type_ok t -> (r = convert t e <-> value_of t r /\ (2 ^ bits t | r - e)).
Proof.
  intros Ht. destruct (convert_value t e Ht) as [V D]. split.
  - intros ->. now split.
  - intros [V' D']. apply (value_unique t); try assumption.
    replace (r - convert t e) with ((r - e) - (convert t e - e)) by lia. now apply Z.divide_sub_r.
Qed.

(** ** Vectors *)

Theorem binary_meaning l t p o x y : lang_ok l -> type_ok t -> promotes_to l t p -> length x = length y ->
  (forall a, In a x -> value_of t a) -> (forall b, In b y -> value_of t b) ->
  (forall r, f_bin l t o x y = Ok r <->
     length r = length x /\ forall i a b, nth_error x i = Some a -> nth_error y i = Some b ->
       exists e c, scalar_bin l p a b o e /\ nth_error r i = Some c /\ value_of t c /\ (2 ^ bits t | c - e))
  /\ (f_bin l t o x y = Stop SUB <->
      exists i a b, nth_error x i = Some a /\ nth_error y i = Some b /\ ~ exists e, scalar_bin l p a b o e)
  /\ forall s, f_bin l t o x y = Stop s -> s = SUB.
Proof.
  intros Hl Ht Hp L Hx Hy. apply promote_unique in Hp; try assumption. subst p.
  destruct (binary_lanes l t o x y L) as (A & B & C).
  assert (S : forall i a b r, nth_error x i = Some a -> nth_error y i = Some b ->
                (expr_bin l t o a b = Ok r <-> scalar_bin l (promote l t) a b o r)).
  { intros i a b r Ha Hb. apply eval_bin_spec; [now apply promote_ok|..]; apply promote_value; try assumption.
    - apply Hx. eapply nth_error_In, Ha.
    - apply Hy. eapply nth_error_In, Hb. }
  split; [|split; [|exact C] ].
  - intros r. rewrite A. unfold lanes2. split; intros [Lr H]; (split; [assumption|]); intros i a b Ha Hb.
    + destruct (H i a b Ha Hb) as (e & Ee & Hr). exists e, (convert t e).
      split; [now apply (S i)|]. split; [assumption|]. now apply convert_value.
    + destruct (H i a b Ha Hb) as (e & c & Ee & Hr & V & D). exists e.
      split; [now apply (S i)|]. rewrite Hr. f_equal. now apply convert_iff.
  - rewrite B. unfold faults2. split; intros (i & a & b & Ha & Hb & F); exists i, a, b;
      (split; [assumption|]); (split; [assumption|]).
    + intros [e E]. apply (S i) in E; try assumption. congruence.
    + destruct (expr_bin l t o a b) as [e|s] eqn:E.
      * exfalso. apply F. exists e. now apply (S i).
      * f_equal. eapply expr_bin_only_ub, E.
Qed.

Theorem shift_int_meaning l t p left x n : lang_ok l -> type_ok t -> promotes_to l t p ->
  (forall r, f_shift_int l t left x n = Ok r <->
     length r = length x /\ forall i a, nth_error x i = Some a ->
       exists e c, (if left then shifted_left l p a n e else shifted_right p a n e)
         /\ nth_error r i = Some c /\ value_of t c /\ (2 ^ bits t | c - e))
  /\ (f_shift_int l t left x n = Stop SUB <->
      exists i a, nth_error x i = Some a /\ ~ exists e, if left then shifted_left l p a n e else shifted_right p a n e)
  /\ forall s, f_shift_int l t left x n = Stop s -> s = SUB.
Proof.
  intros Hl Ht Hp. apply promote_unique in Hp; try assumption. subst p.
  destruct (shift_int_lanes l t left x n) as (A & B & C).
  assert (S : forall a r, expr_shift_int l t left a n = Ok r <->
            if left then shifted_left l (promote l t) a n r else shifted_right (promote l t) a n r).
  { intros a r. unfold expr_shift_int. destruct left; [now apply shift_left_spec, promote_ok|apply shift_right_spec]. }
  split; [|split; [|exact C] ].
  - intros r. rewrite A. unfold lanes1. split; intros [Lr H]; (split; [assumption|]); intros i a Ha.
    + destruct (H i a Ha) as (e & Ee & Hr). exists e, (convert t e).
      split; [now apply S|]. split; [assumption|]. now apply convert_value.
    + destruct (H i a Ha) as (e & c & Ee & Hr & V & D). exists e.
      split; [now apply S|]. rewrite Hr. f_equal. now apply convert_iff.
  - rewrite B. unfold faults1. split; intros (i & a & Ha & F); exists i, a; (split; [assumption|]).
    + intros [e E]. apply S in E. congruence.
    + destruct (expr_shift_int l t left a n) as [e|s] eqn:E.
      * exfalso. apply F. exists e. now apply S.
      * f_equal. unfold expr_shift_int in E.
        destruct left; [eapply shift_left_only_ub, E|eapply shift_right_only_ub, E].
Qed.

Theorem neg_meaning l t p x : lang_ok l -> type_ok t -> promotes_to l t p ->
  (forall r, f_neg l t x = Ok r <->
     length r = length x /\ forall i a, nth_error x i = Some a ->
       exists e c, arith p (- a) e /\ nth_error r i = Some c /\ value_of t c /\ (2 ^ bits t | c - e))
  /\ (f_neg l t x = Stop SUB <-> exists i a, nth_error x i = Some a /\ ~ exists e, arith p (- a) e)
  /\ forall s, f_neg l t x = Stop s -> s = SUB.
Proof.
  intros Hl Ht Hp. apply promote_unique in Hp; try assumption. subst p.
  destruct (neg_lanes l t x) as (A & B & C). unfold expr_neg in *.
  pose proof (fun a r => computed_arith (promote l t) (- a) r (promote_ok l t Hl Ht)) as S.
  split; [|split; [|exact C] ].
  - intros r. rewrite A. unfold lanes1. split; intros [Lr H]; (split; [assumption|]); intros i a Ha.
    + destruct (H i a Ha) as (e & Ee & Hr). exists e, (convert t e).
      split; [now apply S|]. split; [assumption|]. now apply convert_value.
    + destruct (H i a Ha) as (e & c & Ee & Hr & V & D). exists e.
      split; [now apply S|]. rewrite Hr. f_equal. now apply convert_iff.
  - rewrite B. unfold faults1. split; intros (i & a & Ha & F); exists i, a; (split; [assumption|]).
    + intros [e E]. apply S in E. congruence.
    + destruct (computed (promote l t) (- a)) as [e|s] eqn:E.
      * exfalso. apply F. exists e. now apply S.
      * f_equal. eapply computed_only_ub, E.
Qed.

(** ~ inverts the low bits, whatever the promotion. *)
Theorem compl_meaning l t x : lang_ok l -> type_ok t ->
  exists r, f_compl l t x = Ok r /\ length r = length x
    /\ forall i a, nth_error x i = Some a -> exists c, nth_error r i = Some c /\ value_of t c
         /\ forall n, 0 <= n < bits t -> Z.testbit c n = negb (Z.testbit a n).
Proof.
  intros Hl Ht. destruct (compl_lanes l t x) as (A & B & C).
  destruct (f_compl l t x) as [r|s] eqn:E.
  - exists r. split; [reflexivity|]. destruct (proj1 (A r) eq_refl) as [Lr H]. split; [assumption|].
    intros i a Ha. destruct (H i a Ha) as (e & Ee & Hr). exists (convert t e). split; [assumption|].
    split; [now apply convert_value|]. intros n Hn. injection Ee as <-.
    assert (M : forall u z, type_ok u -> bits t <= bits u -> Z.testbit (convert u z) n = Z.testbit z n).
    { intros u z Hu Hb. destruct (convert_spec u z Hu) as (_ & Q & _).
      rewrite <- (Z.mod_pow2_bits_low (convert u z) (bits u) n) by lia. rewrite Q.
      apply Z.mod_pow2_bits_low. lia. }
    rewrite M by (assumption || lia). rewrite M.
    + apply Z.lnot_spec. lia.
    + now apply promote_ok.
    + unfold promote. destruct (Z.ltb_spec (bits t) (l_int l)); cbn [bits]; lia.
  - exfalso. pose proof (C s eq_refl) as ->. destruct (proj1 B eq_refl) as (i & a & Ha & F). discriminate.
Qed.

Theorem cmp_meaning o x y : length x = length y -> exists r, f_cmp o x y = Ok r /\ length r = length x
  /\ forall i a b, nth_error x i = Some a -> nth_error y i = Some b ->
       exists c, nth_error r i = Some c /\ (c = true <-> relation o a b).
Proof.
  intros L. destruct (cmp_lanes o x y L) as (r & E & Lr & H). exists r. split; [assumption|]. split; [assumption|].
  intros i a b Ha Hb. exists (expr_cmp o a b). split; [now apply H|].
  unfold relation. destruct o; cbn [expr_cmp]; lia.
Qed.
