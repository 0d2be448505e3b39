(** Exactly which conversions is_value_preserving accepts (C22). *)
From Verif Require Import Base LaneModel IntModel IntProofs ShapeModel ShapeProofs ValueModel ValueProofs.
From Coq Require Import ZifyBool.
Ltac Zify.zify_post_hook ::= idtac.

Lemma two_pow_pos n : 0 <= n -> 0 < 2 ^ n.
Proof. intros. apply Z.pow_pos_nonneg; lia. Qed.

Lemma two_pow_S n : 0 <= n -> 2 ^ (n + 1) = 2 * 2 ^ n.
Proof. intros. rewrite pow_split by lia. change (2 ^ 1) with 2. lia. Qed.

(** max of a format, at exponent k: strictly between 2^emax and 2^(emax+1). *)
Lemma max_float_below p emax k : 2 <= p <= emax -> k <= emax - p + 1 ->
  (2 ^ p - 1) * 2 ^ (emax - p + 1 - k) < 2 ^ (emax + 1 - k).
Proof.
  intros Hp Hk. replace (emax + 1 - k) with (p + (emax - p + 1 - k)) by lia. rewrite pow_split by lia.
  apply Z.mul_lt_mono_pos_r; [apply two_pow_pos; lia|lia].
Qed.

(** ** Floating point to integer *)

Lemma round_max_overflow p emax d : 2 <= p <= emax -> emax < d ->
  round_int p emax (2 ^ d - 1) = PInf /\ round_int p emax (- 2 ^ d) = NInf.
Proof.
  intros Hp Hd.
  assert (P : 2 ^ p < 2 ^ d) by (apply Z.pow_lt_mono_r; lia).
  assert (P' : 0 < 2 ^ p) by (apply two_pow_pos; lia).
  pose proof (max_float_below p emax 0 Hp ltac:(lia)) as B. rewrite !Z.sub_0_r in B.
  assert (M : 2 ^ (emax + 1) <= 2 ^ d) by (apply Z.pow_le_mono_r; lia).
  unfold round_int. split.
  - rewrite Z.abs_eq by lia. destruct (Z.ltb_spec (2 ^ d - 1) (2 ^ p)) as [C|_]; [lia|].
    cbv zeta. set (k := Z.log2 (2 ^ d - 1) + 1 - p).
    assert (L : Z.log2 (2 ^ d - 1) = d - 1).
    { apply Z.log2_unique; [lia|]. replace (2 ^ d) with (2 * 2 ^ (d - 1)) by (rewrite <- two_pow_S by lia; f_equal; lia).
      replace (Z.succ (d - 1)) with (d - 1 + 1) by lia. rewrite two_pow_S by lia.
      assert (0 < 2 ^ (d - 1)) by (apply two_pow_pos; lia). lia. }
    assert (Hk : k = d - p) by (unfold k; lia).
    assert (K : 0 < 2 ^ k) by (apply two_pow_pos; lia).
    assert (S : 2 ^ d = 2 ^ p * 2 ^ k) by (rewrite <- pow_split by lia; f_equal; lia).
    assert (K1 : 2 <= 2 ^ k). { replace k with (k - 1 + 1) by lia. rewrite two_pow_S by lia. assert (0 < 2 ^ (k - 1)) by (apply two_pow_pos; lia). lia. }
    assert (Q : (2 ^ d - 1) / 2 ^ k = 2 ^ p - 1).
    { symmetry. apply Z.div_unique_pos with (2 ^ k - 1); nia. }
    assert (Rm : (2 ^ d - 1) mod 2 ^ k = 2 ^ k - 1).
    { symmetry. apply Z.mod_unique_pos with (2 ^ p - 1); nia. }
    rewrite Q, Rm.
    assert (O : (2 ^ k <? 2 * (2 ^ k - 1)) || ((2 * (2 ^ k - 1) =? 2 ^ k) && Z.odd (2 ^ p - 1)) = true).
    { destruct (Z.ltb_spec (2 ^ k) (2 * (2 ^ k - 1))); [reflexivity|].
      cbn [orb]. apply andb_true_intro. split; [lia|].
      replace (2 ^ p - 1) with (1 + 2 * (2 ^ (p - 1) - 1)).
      - now rewrite Z.odd_add_mul_2.
      - replace (2 ^ p) with (2 * 2 ^ (p - 1)) by (rewrite <- two_pow_S by lia; f_equal; lia). lia. }
    rewrite O. cbn [max_value]. rewrite (ext_le_at 0) by lia. rewrite !Z.sub_0_r.
    replace (2 ^ p - 1 + 1) with (2 ^ p) by lia. rewrite <- S.
    destruct (Z.leb_spec (2 ^ d) ((2 ^ p - 1) * 2 ^ (emax - p + 1))); [lia|].
    destruct (Z.ltb_spec 0 (2 ^ d - 1)); [reflexivity|lia].
  - replace (Z.abs (- 2 ^ d)) with (2 ^ d) by lia. destruct (Z.ltb_spec (2 ^ d) (2 ^ p)) as [C|_]; [lia|].
    cbv zeta. rewrite Z.log2_pow2 by lia. set (k := d + 1 - p).
    assert (K : 0 < 2 ^ k) by (apply two_pow_pos; lia).
    assert (S : 2 ^ d = 2 ^ (p - 1) * 2 ^ k) by (rewrite <- pow_split by lia; f_equal; lia).
    rewrite S, Z.div_mul, Z.mod_mul by lia.
    assert (O : (2 ^ k <? 2 * 0) || ((2 * 0 =? 2 ^ k) && Z.odd (2 ^ (p - 1))) = false) by lia.
    rewrite O. cbn [max_value]. rewrite (ext_le_at 0) by lia. rewrite !Z.sub_0_r.
    rewrite <- S.
    destruct (Z.leb_spec (2 ^ d) ((2 ^ p - 1) * 2 ^ (emax - p + 1))); [lia|].
    destruct (Z.ltb_spec 0 (- 2 ^ d)); [lia|reflexivity].
Qed.

Lemma float_to_int_exact l p emax t : aty_ok (AFloat p emax) -> 2 <= bits t ->
  is_value_preserving l false (AFloat p emax) (AInt t) = true <-> sgn t = true /\ emax < bits t - 1.
Proof.
  cbn [aty_ok]. intros Hf Ht. cbn [is_value_preserving]. unfold is_unsigned_ty. cbn [is_signed_ty andb].
  destruct (sgn t) eqn:Es; [|cbn [negb]; rewrite andb_false_r; split; [discriminate|intros [? _]; discriminate] ].
  cbn [negb]. rewrite andb_true_r. unfold cmp_le. cbn [int_of max_value lowest_value digits]. rewrite Es.
  set (d := bits t - 1).
  split.
  - intros H. split; [reflexivity|]. apply andb_prop in H as [H _]. apply andb_prop in H as [Hd Hm].
    destruct (Z.le_gt_cases d emax) as [C|C]; [exfalso|exact C].
    destruct (round_int_bound p emax d (2 ^ d - 1)) as (m & e & E & He & Hb); try lia.
    { assert (2 ^ 1 <= 2 ^ d) by (apply Z.pow_le_mono_r; lia). change (2 ^ 1) with 2 in *. lia. }
    rewrite E, (ext_le_at 0) in Hm by lia. rewrite !Z.sub_0_r in Hm.
    pose proof (max_float_large p emax 0 Hf ltac:(lia)) as L. rewrite !Z.sub_0_r in L.
    assert (2 ^ d <= 2 ^ emax) by (apply Z.pow_le_mono_r; lia). lia.
  - intros [_ H]. destruct (round_max_overflow p emax d Hf H) as [-> ->]. cbn [ext_le].
    rewrite !andb_true_r. lia.
Qed.

Lemma float_has_half p emax : 2 <= p <= emax -> has_value (AFloat p emax) 1 (-1).
Proof.
  intros Hp. exists 1, (-1). assert (2 ^ 1 < 2 ^ p) by (apply Z.pow_lt_mono_r; lia). change (2 ^ 1) with 2 in *.
  split; [lia|]. split; [lia|apply same_value_refl].
Qed.

Lemma half_no_int z : ~ same_value 1 (-1) z 0.
Proof. unfold same_value. change (Z.min (-1) 0) with (-1). cbn. lia. Qed.

(** ** Integer and bool to floating point *)

Lemma same_value_int a b : same_value a 0 b 0 <-> a = b.
Proof. unfold same_value. change (Z.min 0 0) with 0. change (2 ^ (0 - 0)) with 1. lia. Qed.

(** An odd number that a format holds has at most p digits. *)
Lemma odd_in_float p emax z : 0 <= p -> Z.odd z = true -> 0 < z -> has_value (AFloat p emax) z 0 -> z < 2 ^ p.
Proof.
  intros Hp Ho Hz (m & e & Hm & He & E). destruct (Z.le_gt_cases e 0) as [C|C].
  - apply (same_value_at e) in E; try lia. rewrite Z.sub_diag in E. change (2 ^ 0) with 1 in E.
    assert (1 <= 2 ^ (0 - e)) by (pose proof (two_pow_pos (0 - e)); lia). nia.
  - exfalso. apply (same_value_at 0) in E; try lia. rewrite !Z.sub_0_r in E. change (2 ^ 0) with 1 in E.
    replace e with (e - 1 + 1) in E by lia. rewrite two_pow_S in E by lia.
    replace z with (0 + 2 * (m * 2 ^ (e - 1))) in Ho by lia. rewrite Z.odd_add_mul_2 in Ho. discriminate.
Qed.

Lemma odd_pow n : 1 <= n -> Z.odd (2 ^ n - 1) = true.
Proof.
  intros. replace (2 ^ n - 1) with (1 + 2 * (2 ^ (n - 1) - 1)); [now rewrite Z.odd_add_mul_2|].
  replace (2 ^ n) with (2 * 2 ^ (n - 1)) by (rewrite <- two_pow_S by lia; f_equal; lia). lia.
Qed.

(** Any integer up to 2^p in magnitude lies between the limits, and converts exactly. *)
Lemma round_small p emax z : 2 <= p <= emax -> - 2 ^ p <= z <= 2 ^ p ->
  ext_le (round_int p emax z) (max_value (AFloat p emax)) = true
  /\ ext_le (lowest_value (AFloat p emax)) (round_int p emax z) = true.
Proof.
  intros Hp Hz. pose proof (max_float_large p emax 0 Hp ltac:(lia)) as L. rewrite !Z.sub_0_r in L.
  assert (Q : 2 ^ p <= 2 ^ emax) by (apply Z.pow_le_mono_r; lia).
  assert (P : 2 ^ p = 2 * 2 ^ (p - 1)) by (rewrite <- two_pow_S by lia; f_equal; lia).
  assert (0 < 2 ^ (p - 1)) by (apply two_pow_pos; lia).
  unfold round_int. cbn [max_value lowest_value]. destruct (Z.ltb_spec (Z.abs z) (2 ^ p)) as [C|C].
  - split; rewrite (ext_le_at 0) by lia; rewrite !Z.sub_0_r; change (2 ^ 0) with 1; lia.
  - assert (A : Z.abs z = 2 ^ p) by lia. cbv zeta. rewrite A, Z.log2_pow2 by lia.
    replace (p + 1 - p) with 1 by lia. change (2 ^ 1) with 2.
    assert (Dv : 2 ^ p / 2 = 2 ^ (p - 1)) by (rewrite P, (Z.mul_comm 2); apply Z.div_mul; lia).
    assert (Mo : 2 ^ p mod 2 = 0) by (rewrite P, (Z.mul_comm 2); apply Z.mod_mul; lia).
    rewrite Dv, Mo.
    change ((2 <? 2 * 0) || ((2 * 0 =? 2) && Z.odd (2 ^ (p - 1)))) with false. cbv iota.
    assert (E : ext_le (Fin (2 ^ (p - 1)) 1) (Fin (2 ^ p - 1) (emax - p + 1)) = true).
    { rewrite (ext_le_at 0) by lia. rewrite !Z.sub_0_r. change (2 ^ 1) with 2. lia. }
    rewrite E. split; rewrite (ext_le_at 0) by lia; rewrite !Z.sub_0_r; change (2 ^ 1) with 2; lia.
Qed.

Lemma int_to_float_exact l t p emax : aty_ok (AInt t) -> aty_ok (AFloat p emax) ->
  is_value_preserving l false (AInt t) (AFloat p emax) = true <-> preserves (AInt t) (AFloat p emax).
Proof.
  intros Ht Hf. split.
  - apply value_preserving_sound; auto; discriminate.
  - intros H. pose proof (digits_pos (AInt t) Ht) as Hd. set (d := digits (AInt t)) in *.
    assert (D : d <= p).
    { destruct (Z.le_gt_cases d p) as [|C]; [assumption|exfalso].
      assert (0 < 2 ^ p) by (apply two_pow_pos; cbn in Hf; lia).
      assert (2 ^ p < 2 ^ d) by (apply Z.pow_lt_mono_r; cbn in Hf; lia).
      pose proof (odd_in_float p emax (2 ^ d - 1) ltac:(cbn in Hf; lia) (odd_pow d ltac:(lia)) ltac:(lia)
        (H _ _ (proj2 (int_value t _) (in_type_max t Ht)))). lia. }
    assert (2 ^ d <= 2 ^ p) by (apply Z.pow_le_mono_r; lia).
    assert (0 < 2 ^ d) by (apply two_pow_pos; lia).
    cbn [is_value_preserving]. unfold is_unsigned_ty. cbn [is_signed_ty negb]. rewrite andb_false_r. cbn [negb].
    rewrite andb_true_r. unfold cmp_le. cbn [int_of].
    change (max_value (AInt t)) with (Fin (2 ^ d - 1) 0). cbn iota.
    change (lowest_value (AInt t)) with (Fin (if sgn t then - 2 ^ (bits t - 1) else 0) 0). cbn iota.
    destruct (round_small p emax (2 ^ d - 1) Hf ltac:(lia)) as [-> _].
    assert (B : - 2 ^ p <= (if sgn t then - 2 ^ (bits t - 1) else 0) <= 2 ^ p).
    { unfold d in *. cbn [digits] in *. destruct (sgn t); lia. }
    destruct (round_small p emax _ Hf B) as [_ B2]. cbn [lowest_value] in *. rewrite B2.
    change (digits (AFloat p emax)) with p. rewrite !andb_true_r. lia.
Qed.

(** ** bool *)

Lemma bool_exact l to : lang_ok l -> aty_ok to -> to <> ABool -> is_value_preserving l false ABool to = true.
Proof.
  intros Hl Ht Hb. destruct to as [t| |p emax]; [|congruence|].
  - cbn [is_value_preserving]. cbn [is_signed_ty andb negb]. rewrite andb_true_r.
    pose proof (digits_pos (AInt t) Ht) as Hd. cbn [aty_ok] in Ht.
    unfold cmp_le. cbn [int_of]. change (max_value ABool) with (Fin 1 0). change (lowest_value ABool) with (Fin 0 0).
    change (max_value (AInt t)) with (Fin (2 ^ digits (AInt t) - 1) 0).
    change (lowest_value (AInt t)) with (Fin (if sgn t then - 2 ^ (bits t - 1) else 0) 0). cbv zeta iota.
    pose proof (in_type_max t Ht) as Im. pose proof (in_type_lowest t Ht) as Il.
    set (hi := 2 ^ digits (AInt t) - 1) in *. set (lo := if sgn t then - 2 ^ (bits t - 1) else 0) in *.
    assert (0 < 2 ^ digits (AInt t)) by (apply two_pow_pos; lia).
    assert (2 ^ 1 <= 2 ^ digits (AInt t)) by (apply Z.pow_le_mono_r; lia). change (2 ^ 1) with 2 in *.
    assert (Lo : lo <= 0). { unfold lo. destruct (sgn t); [|lia]. assert (0 < 2 ^ (bits t - 1)) by (apply two_pow_pos; lia). lia. }
    assert (W : exists c, common l (mkity (l_int l) true) t = c /\ common l t (mkity (l_int l) true) = c
              /\ type_ok c /\ in_type c hi = true /\ in_type c lo = true /\ in_type c 0 = true /\ in_type c 1 = true).
    { unfold lang_ok in Hl.
      assert (P1 : 2 ^ 1 <= 2 ^ (l_int l - 1)) by (apply Z.pow_le_mono_r; lia). change (2 ^ 1) with 2 in *.
      assert (P2 : 2 ^ 1 <= 2 ^ (bits t - 1)) by (apply Z.pow_le_mono_r; lia). change (2 ^ 1) with 2 in *.
      assert (P3 : 2 ^ 1 <= 2 ^ bits t) by (apply Z.pow_le_mono_r; lia). change (2 ^ 1) with 2 in *.
      destruct (Z.ltb_spec (bits t) (l_int l)) as [C|C].
      - exists (mkity (l_int l) true). unfold common, promote. cbn [bits sgn]. rewrite Z.ltb_irrefl.
        destruct (Z.ltb_spec (bits t) (l_int l)); [|lia]. cbn [sgn bits Bool.eqb]. rewrite Z.ltb_irrefl.
        split; [reflexivity|]. split; [reflexivity|]. split; [unfold type_ok; cbn; lia|].
        assert (2 ^ bits t <= 2 ^ (l_int l - 1)) by (apply Z.pow_le_mono_r; lia).
        assert (2 ^ (bits t - 1) <= 2 ^ (l_int l - 1)) by (apply Z.pow_le_mono_r; lia).
        unfold in_type in *. cbn [sgn bits]. destruct (sgn t); lia.
      - exists t. unfold common, promote. cbn [bits sgn]. rewrite Z.ltb_irrefl.
        destruct (Z.ltb_spec (bits t) (l_int l)); [lia|]. cbn [sgn bits].
        assert (R : type_ok t /\ in_type t hi = true /\ in_type t lo = true /\ in_type t 0 = true /\ in_type t 1 = true).
        { unfold type_ok, in_type in *. destruct (sgn t); lia. }
        destruct t as [b s]. cbn [bits sgn] in *. destruct s; cbn [Bool.eqb].
        + destruct (Z.ltb_spec (l_int l) b), (Z.ltb_spec b (l_int l)); try lia; auto.
          replace (l_int l) with b by lia. auto.
        + destruct (Z.leb_spec (l_int l) b); [|lia]. cbn [sgn bits]. rewrite (proj2 (Z.leb_le _ _) H2). split; [reflexivity|]. split; [reflexivity|exact R]. }
    destruct W as (c & -> & -> & Hc & W1 & W2 & W3 & W4). rewrite !convert_id by assumption.
    change (digits ABool) with 1. lia.
  - cbn [is_value_preserving]. cbn [is_signed_ty andb negb]. rewrite andb_true_r. unfold cmp_le. cbn [int_of].
    change (max_value ABool) with (Fin 1 0). change (lowest_value ABool) with (Fin 0 0). cbn iota.
    assert (0 < 2 ^ p) by (apply two_pow_pos; cbn in Ht; lia).
    destruct (round_small p emax 1 Ht ltac:(lia)) as [-> _].
    destruct (round_small p emax 0 Ht ltac:(lia)) as [_ B2]. cbn [lowest_value] in *. rewrite B2.
    cbn in Ht. cbn [digits]. lia.
Qed.

Lemma bool_preserves to : aty_ok to -> preserves ABool to.
Proof.
  intros Ht m e (z & Hz & E). apply (has_value_same _ _ _ z 0 E). destruct to as [t| |p emax].
  - apply int_value. cbn in Ht. unfold in_type.
    assert (2 ^ 1 <= 2 ^ (bits t - 1)) by (apply Z.pow_le_mono_r; lia).
    assert (2 ^ 1 <= 2 ^ bits t) by (apply Z.pow_le_mono_r; lia). change (2 ^ 1) with 2 in *. destruct (sgn t); lia.
  - exists z. split; [assumption|apply same_value_refl].
  - apply int_in_float; [exact Ht|]. assert (2 ^ 1 <= 2 ^ p) by (apply Z.pow_le_mono_r; cbn in Ht; lia).
    change (2 ^ 1) with 2 in *. lia.
Qed.

Lemma nothing_to_bool from : aty_ok from -> from <> ABool -> ~ preserves from ABool.
Proof.
  intros Hf Hb H. destruct from as [t| |p emax]; [|congruence|].
  - destruct (sgn t) eqn:Es.
    + pose proof (in_type_lowest t Hf) as I. rewrite Es in I. apply int_value in I.
      destruct (H _ _ I) as (z & Hz & E). apply (proj1 (same_value_int _ _)) in E.
      assert (0 < 2 ^ (bits t - 1)) by (apply two_pow_pos; cbn in Hf; lia). lia.
    + pose proof (proj2 (int_value t _) (in_type_max t Hf)) as I. destruct (H _ _ I) as (z & Hz & E).
      apply (proj1 (same_value_int _ _)) in E. cbn [digits] in E. rewrite Es in E.
      assert (2 ^ 2 <= 2 ^ bits t) by (apply Z.pow_le_mono_r; cbn in Hf; lia). change (2 ^ 2) with 4 in *. lia.
  - destruct (H _ _ (float_has_half p emax Hf)) as (z & _ & E). now apply half_no_int in E.
Qed.

(** ** Between floating-point formats *)

Lemma float_to_float_exact l p emax p' emax' : aty_ok (AFloat p emax) -> aty_ok (AFloat p' emax') ->
  is_value_preserving l false (AFloat p emax) (AFloat p' emax') = true <-> preserves (AFloat p emax) (AFloat p' emax').
Proof.
  intros Hf Ht. split; [apply value_preserving_sound; auto; discriminate|].
  intros H. cbn [aty_ok] in Hf, Ht.
  assert (P : p <= p').
  { destruct (Z.le_gt_cases p p') as [|C]; [assumption|exfalso].
    assert (0 < 2 ^ p') by (apply two_pow_pos; lia).
    assert (2 ^ p' < 2 ^ p) by (apply Z.pow_lt_mono_r; lia).
    assert (V : has_value (AFloat p emax) (2 ^ p - 1) 0) by (apply int_in_float; lia).
    pose proof (odd_in_float p' emax' (2 ^ p - 1) ltac:(lia) (odd_pow p ltac:(lia)) ltac:(lia) (H _ _ V)). lia. }
  assert (E : emax <= emax').
  { destruct (Z.le_gt_cases emax emax') as [|C]; [assumption|exfalso].
    assert (0 < 2 ^ p) by (apply two_pow_pos; lia).
    assert (V : has_value (AFloat p emax) (2 ^ p - 1) (emax - p + 1)).
    { exists (2 ^ p - 1), (emax - p + 1). split; [lia|]. split; [lia|apply same_value_refl]. }
    destruct (H _ _ V) as (m & e & Hm & He & S).
    set (k := Z.min 0 e). apply (same_value_at k) in S; try lia.
    assert (L1 : 2 ^ (emax - k) < (2 ^ p - 1) * 2 ^ (emax - p + 1 - k)) by (apply max_float_large; lia).
    assert (L2 : m * 2 ^ (e - k) < 2 ^ (emax' + 1 - k)).
    { apply Z.lt_le_trans with (2 ^ p' * 2 ^ (e - k)).
      - apply Z.mul_lt_mono_pos_r; [apply two_pow_pos; lia|lia].
      - rewrite <- pow_split by lia. apply Z.pow_le_mono_r; lia. }
    assert (2 ^ (emax' + 1 - k) <= 2 ^ (emax - k)) by (apply Z.pow_le_mono_r; lia). lia. }
  cbn [is_value_preserving]. unfold is_unsigned_ty. cbn [is_signed_ty andb negb]. rewrite andb_true_r.
  unfold cmp_le. cbn [int_of digits].
  assert (M : ext_le (max_value (AFloat p emax)) (max_value (AFloat p' emax')) = true).
  { cbn [max_value]. set (k := Z.min (emax - p + 1) (emax' - p' + 1)). rewrite (ext_le_at k) by lia. apply Z.leb_le.
    destruct (Z.eq_dec emax emax') as [<-|N].
    - replace (emax - p + 1 - k) with (p' - p) by lia. replace (emax - p' + 1 - k) with 0 by lia.
      replace (2 ^ p') with (2 ^ p * 2 ^ (p' - p)) by (rewrite <- pow_split by lia; f_equal; lia).
      assert (0 < 2 ^ (p' - p)) by (apply two_pow_pos; lia). change (2 ^ 0) with 1. nia.
    - pose proof (max_float_below p emax k Hf ltac:(lia)).
      pose proof (max_float_large p' emax' k Ht ltac:(lia)).
      assert (2 ^ (emax + 1 - k) <= 2 ^ (emax' - k)) by (apply Z.pow_le_mono_r; lia). lia. }
  rewrite M.
  assert (M' : ext_le (lowest_value (AFloat p' emax')) (lowest_value (AFloat p emax)) = true).
  { cbn [max_value lowest_value] in *. set (k := Z.min (emax - p + 1) (emax' - p' + 1)).
    rewrite (ext_le_at k) in M by lia. rewrite (ext_le_at k) by lia. apply Z.leb_le in M. apply Z.leb_le. lia. }
  rewrite M', !andb_true_r. lia.
Qed.

(** ** Everything *)

Theorem value_preserving_exact l same from to : lang_ok l -> aty_ok from -> aty_ok to ->
  (same = true -> from = to) -> (from = ABool -> to = ABool -> same = true) ->
  is_value_preserving l same from to = true <->
  preserves from to \/ exists p emax t, from = AFloat p emax /\ to = AInt t /\ sgn t = true /\ emax < bits t - 1.
Proof.
  intros Hl Hf Ht Hs Hb. destruct same.
  { cbn [is_value_preserving]. rewrite (Hs eq_refl). split; [|reflexivity]. intros _. left. now intros m e. }
  destruct from as [t| |p emax], to as [u| |p' emax'].
  - split; [intros H; left; revert H; apply value_preserving_sound; auto; discriminate|].
    intros [H|(? & ? & ? & H & _)]; [|discriminate]. now apply value_preserving_int_complete.
  - split; [discriminate|]. intros [H|(? & ? & ? & H & _)]; [|discriminate].
    exfalso. revert H. apply nothing_to_bool; [assumption|discriminate].
  - split; [intros H; left; now apply int_to_float_exact in H|].
    intros [H|(? & ? & ? & H & _)]; [|discriminate]. now apply int_to_float_exact.
  - split; [intros _; left; now apply bool_preserves|]. intros _. apply bool_exact; auto. discriminate.
  - specialize (Hb eq_refl eq_refl). discriminate.
  - split; [intros _; left; now apply bool_preserves|]. intros _. apply bool_exact; auto. discriminate.
  - split.
    + intros H. right. apply float_to_int_exact in H; [|assumption..]. exists p, emax, u. tauto.
    + intros [H|(q & em & t & E1 & E2 & Hu & He)].
      * destruct (H _ _ (float_has_half p emax Hf)) as (z & _ & E). now apply half_no_int in E.
      * injection E1 as -> ->. injection E2 as ->. now apply float_to_int_exact.
  - split; [discriminate|]. intros [H|(? & ? & ? & _ & H & _)]; [|discriminate].
    exfalso. revert H. apply nothing_to_bool; [assumption|discriminate].
  - split; [intros H; left; now apply float_to_float_exact in H|].
    intros [H|(? & ? & ? & _ & H & _)]; [|discriminate]. now apply float_to_float_exact.
Qed.
