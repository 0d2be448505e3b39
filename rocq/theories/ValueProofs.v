(** Proofs about value-preserving conversions (C22). *)
From Verif Require Import Base LaneModel IntModel IntProofs ShapeModel ShapeProofs ValueModel.
From Coq Require Import ZifyBool.
Ltac Zify.zify_post_hook ::= idtac.

(** ** Specification: the values of a type *)

(** m1 * 2^e1 = m2 * 2^e2 *)
Definition same_value (m1 e1 m2 e2 : Z) : Prop := m1 * 2 ^ (e1 - Z.min e1 e2) = m2 * 2 ^ (e2 - Z.min e1 e2).

(** m * 2^e is a value of the type. *)
Definition has_value (a : aty) (m e : Z) : Prop :=
  match a with
  | AInt t => exists z, in_type t z = true /\ same_value m e z 0
  | ABool => exists z, 0 <= z <= 1 /\ same_value m e z 0
  | AFloat p emax => exists m' e', - 2 ^ p < m' < 2 ^ p /\ 2 - emax - p <= e' <= emax - p + 1 /\ same_value m e m' e'
  end.

Definition preserves (from to : aty) : Prop := forall m e, has_value from m e -> has_value to m e.

Definition aty_ok (a : aty) : Prop :=
  match a with AInt t => 2 <= bits t | ABool => True | AFloat p emax => 2 <= p <= emax end.

Lemma pow_split a b : 0 <= a -> 0 <= b -> 2 ^ (a + b) = 2 ^ a * 2 ^ b.
Proof. intros. now apply Z.pow_add_r. Qed.

(** Equality at any common exponent. *)
Lemma same_value_at k m1 e1 m2 e2 : k <= e1 -> k <= e2 ->
  same_value m1 e1 m2 e2 <-> m1 * 2 ^ (e1 - k) = m2 * 2 ^ (e2 - k).
Proof.
  intros H1 H2. unfold same_value. set (n := Z.min e1 e2). assert (Hn : k <= n) by lia.
  replace (e1 - k) with (e1 - n + (n - k)) by lia. replace (e2 - k) with (e2 - n + (n - k)) by lia.
  rewrite !pow_split by lia. rewrite !Z.mul_assoc.
  assert (0 < 2 ^ (n - k)) by (apply Z.pow_pos_nonneg; lia). split; [intros ->; reflexivity|].
  intros H'. apply Z.mul_reg_r in H'; lia.
Qed.

Lemma same_value_trans m1 e1 m2 e2 m3 e3 : same_value m1 e1 m2 e2 -> same_value m2 e2 m3 e3 -> same_value m1 e1 m3 e3.
Proof.
  intros H1 H2. set (k := Z.min e1 (Z.min e2 e3)).
  apply (same_value_at k) in H1; try lia. apply (same_value_at k) in H2; try lia. apply (same_value_at k); lia.
Qed.

Lemma same_value_scale m e k : 0 <= k -> same_value m e (m * 2 ^ k) (e - k).
Proof.
  intros Hk. apply (same_value_at (e - k)); try lia. replace (e - (e - k)) with k by lia.
  rewrite Z.sub_diag. change (2 ^ 0) with 1. lia.
Qed.

Lemma same_value_refl m e : same_value m e m e.
Proof. unfold same_value. reflexivity. Qed.

(** An integer of at most p digits is a value of every format with p digits. *)
Lemma int_in_float p emax z : 2 <= p <= emax -> - 2 ^ p <= z <= 2 ^ p -> has_value (AFloat p emax) z 0.
Proof.
  intros Hp Hz. cbn [has_value].
  assert (P : 2 ^ p = 2 ^ (p - 1) * 2) by (replace p with (p - 1 + 1) at 1 by lia; rewrite pow_split by lia; reflexivity).
  assert (0 < 2 ^ (p - 1)) by (apply Z.pow_pos_nonneg; lia).
  destruct (Z.eq_dec z (2 ^ p)) as [->|N1]; [|destruct (Z.eq_dec z (- 2 ^ p)) as [->|N2]].
  - exists (2 ^ (p - 1)), 1. split; [lia|]. split; [lia|].
    apply (same_value_at 0); lia.
  - exists (- 2 ^ (p - 1)), 1. split; [lia|]. split; [lia|].
    apply (same_value_at 0); lia.
  - exists z, 0. split; [lia|]. split; [lia|]. apply same_value_refl.
Qed.

Lemma has_value_same a m1 e1 m2 e2 : same_value m1 e1 m2 e2 -> has_value a m2 e2 -> has_value a m1 e1.
Proof.
  intros H. destruct a as [t| |p emax]; cbn [has_value].
  - intros (z & Hz & E). exists z. split; [assumption|]. now apply (same_value_trans _ _ m2 e2).
  - intros (z & Hz & E). exists z. split; [assumption|]. now apply (same_value_trans _ _ m2 e2).
  - intros (m' & e' & H1 & H2 & E). exists m', e'. split; [assumption|]. split; [assumption|].
    now apply (same_value_trans _ _ m2 e2).
Qed.

Lemma int_range t z : 2 <= bits t -> in_type t z = true ->
  - 2 ^ digits (AInt t) <= z < 2 ^ digits (AInt t) /\ (sgn t = false -> 0 <= z).
Proof. intros Ht. unfold in_type. cbn [digits]. destruct (sgn t); intros; split; try lia; try discriminate. Qed.

Lemma range_int t z : 2 <= bits t -> - 2 ^ digits (AInt t) <= z < 2 ^ digits (AInt t) -> (sgn t = false -> 0 <= z) ->
  in_type t z = true.
Proof. intros Ht. unfold in_type. cbn [digits]. destruct (sgn t); intros H H'; [lia|]. specialize (H' eq_refl). lia. Qed.

Lemma digits_pos a : aty_ok a -> 1 <= digits a.
Proof. destruct a as [t| |p emax]; cbn [aty_ok digits]; [destruct (sgn t)| |]; lia. Qed.

(** From a non-floating-point type. *)
Lemma preserves_int from to : aty_ok from -> aty_ok to -> (forall p emax, from <> AFloat p emax) ->
  to <> ABool -> digits from <= digits to -> is_signed_ty from && is_unsigned_ty to = false -> preserves from to.
Proof.
  intros Hf Ht Hnf Hb Hd Hs m e H.
  assert (R : exists z, same_value m e z 0 /\ - 2 ^ digits from <= z < 2 ^ digits from /\ (is_signed_ty from = false -> 0 <= z)).
  { destruct from as [t| |p emax]; [| |exfalso; eapply Hnf; reflexivity].
    - destruct H as (z & Hz & E). exists z. split; [assumption|]. now apply int_range.
    - destruct H as (z & Hz & E). exists z. split; [assumption|]. cbn [digits]. split; [lia|]. lia. }
  destruct R as (z & E & Hz & Hz0). apply (has_value_same to m e z 0 E).
  assert (M : 2 ^ digits from <= 2 ^ digits to) by (apply Z.pow_le_mono_r; lia).
  destruct to as [u| |p emax].
  - exists z. split; [|apply same_value_refl]. apply range_int; [exact Ht|lia|]. intros Hu.
    apply Hz0. unfold is_unsigned_ty in Hs. cbn [is_signed_ty] in Hs. rewrite Hu in Hs. cbn [negb] in Hs.
    now rewrite andb_true_r in Hs.
  - congruence.
  - apply int_in_float; [exact Ht|]. cbn [digits] in M. lia.
Qed.

(** From floating point to floating point. *)
Lemma preserves_float p emax p' emax' : aty_ok (AFloat p emax) -> aty_ok (AFloat p' emax') -> p <= p' ->
  ext_le (max_value (AFloat p emax)) (max_value (AFloat p' emax')) = true -> preserves (AFloat p emax) (AFloat p' emax').
Proof.
  cbn [aty_ok]. intros Hf Ht Hp Hm.
  assert (He : emax <= emax').
  { cbn [max_value ext_le] in Hm. apply Z.leb_le in Hm. set (k := Z.min (emax - p + 1) (emax' - p' + 1)) in *.
    destruct (Z.le_gt_cases emax emax') as [|C]; [assumption|exfalso].
    assert (A1 : 2 ^ emax < 2 ^ emax + 1) by lia. clear A1.
    assert (L1 : 2 ^ (emax - k) <= (2 ^ p - 1) * 2 ^ (emax - p + 1 - k)).
    { replace (emax - k) with (p - 1 + (emax - p + 1 - k)) by lia. rewrite pow_split by lia.
      apply Z.mul_le_mono_nonneg_r; [apply Z.pow_nonneg; lia|].
      replace p with (p - 1 + 1) at 2 by lia. rewrite pow_split by lia.
      assert (0 < 2 ^ (p - 1)) by (apply Z.pow_pos_nonneg; lia). lia. }
    assert (L2 : (2 ^ p' - 1) * 2 ^ (emax' - p' + 1 - k) < 2 ^ (emax' + 1 - k)).
    { replace (emax' + 1 - k) with (p' + (emax' - p' + 1 - k)) by lia. rewrite pow_split by lia.
      apply Z.mul_lt_mono_pos_r; [apply Z.pow_pos_nonneg; lia|lia]. }
    assert (L3 : 2 ^ (emax' + 1 - k) <= 2 ^ (emax - k)) by (apply Z.pow_le_mono_r; lia). lia. }
  intros m e (m0 & e0 & Hm0 & He0 & E). apply (has_value_same _ m e m0 e0 E). cbn [has_value].
  assert (M : 2 ^ p <= 2 ^ p') by (apply Z.pow_le_mono_r; lia).
  destruct (Z.le_gt_cases e0 (emax' - p' + 1)) as [C|C].
  - exists m0, e0. split; [lia|]. split; [lia|]. apply same_value_refl.
  - set (k := e0 - (emax' - p' + 1)). exists (m0 * 2 ^ k), (emax' - p' + 1).
    assert (K : 0 < 2 ^ k) by (apply Z.pow_pos_nonneg; lia).
    assert (B : 2 ^ p * 2 ^ k <= 2 ^ p') by (rewrite <- pow_split by lia; apply Z.pow_le_mono_r; lia).
    assert (U : m0 * 2 ^ k < 2 ^ p * 2 ^ k) by (apply Z.mul_lt_mono_pos_r; lia).
    assert (D : - 2 ^ p * 2 ^ k < m0 * 2 ^ k) by (apply Z.mul_lt_mono_pos_r; lia).
    split; [lia|]. split; [lia|]. replace (emax' - p' + 1) with (e0 - k) by lia. apply same_value_scale. lia.
Qed.

Theorem value_preserving_sound l same from to : aty_ok from -> aty_ok to -> (same = true -> from = to) ->
  (forall p emax t, from = AFloat p emax -> to <> AInt t) ->
  is_value_preserving l same from to = true -> preserves from to.
Proof.
  intros Hf Ht Hsame Hfi H. unfold is_value_preserving in H. destruct same.
  - rewrite (Hsame eq_refl). now intros m e.
  - assert (Hb : to <> ABool) by (intros ->; discriminate).
    assert (H' : (digits from <=? digits to) && cmp_le l from (max_value from) to (max_value to)
              && cmp_le l to (lowest_value to) from (lowest_value from)
              && negb (is_signed_ty from && is_unsigned_ty to) = true) by (destruct to; [exact H|congruence|exact H]).
    clear H. apply andb_prop in H'. destruct H' as [H' Hs]. apply andb_prop in H'. destruct H' as [H' _].
    apply andb_prop in H'. destruct H' as [Hd Hm]. apply Z.leb_le in Hd. apply negb_true_iff in Hs.
    destruct from as [t| |p emax].
    + apply preserves_int; try assumption. discriminate.
    + apply preserves_int; try assumption. discriminate.
    + destruct to as [u| |p' emax']; [exfalso; eapply Hfi; reflexivity|congruence|].
      apply preserves_float; try assumption.
Qed.

(** A floating-point type whose range exceeds that of the integer type is rejected. *)
Lemma max_float_large p emax k : 2 <= p <= emax -> k <= emax - p + 1 -> 2 ^ (emax - k) < (2 ^ p - 1) * 2 ^ (emax - p + 1 - k).
Proof.
  intros Hp Hk. replace (emax - k) with (p - 1 + (emax - p + 1 - k)) by lia. rewrite pow_split by lia.
  apply Z.mul_lt_mono_pos_r; [apply Z.pow_pos_nonneg; lia|].
  replace p with (p - 1 + 1) at 2 by lia. rewrite pow_split by lia.
  assert (2 ^ 1 <= 2 ^ (p - 1)) by (apply Z.pow_le_mono_r; lia). change (2 ^ 1) with 2 in *. lia.
Qed.

Lemma ext_le_at k m1 e1 m2 e2 : k <= e1 -> k <= e2 ->
  ext_le (Fin m1 e1) (Fin m2 e2) = (m1 * 2 ^ (e1 - k) <=? m2 * 2 ^ (e2 - k)).
Proof.
  intros H1 H2. cbn [ext_le]. set (n := Z.min e1 e2). assert (Hn : k <= n) by lia.
  replace (e1 - k) with (e1 - n + (n - k)) by lia. replace (e2 - k) with (e2 - n + (n - k)) by lia.
  rewrite !pow_split by lia. rewrite !Z.mul_assoc. assert (0 < 2 ^ (n - k)) by (apply Z.pow_pos_nonneg; lia).
  apply eq_true_iff_eq. rewrite !Z.leb_le. apply Z.mul_le_mono_pos_r. assumption.
Qed.

(** Rounding stays below a power of two. *)
Lemma round_int_bound p emax d z : 2 <= p <= emax -> 0 < z < 2 ^ d -> 0 <= d <= emax ->
  exists m e, round_int p emax z = Fin m e /\ 0 <= e /\ m * 2 ^ e <= 2 ^ d.
Proof.
  intros Hp Hz Hd. unfold round_int. rewrite Z.abs_eq by lia. destruct (Z.ltb_spec z (2 ^ p)) as [Hs|Hs].
  - exists z, 0. split; [reflexivity|]. split; [lia|]. change (2 ^ 0) with 1. lia.
  - set (k := Z.log2 z + 1 - p). assert (Hl : p <= Z.log2 z) by (apply Z.log2_le_pow2; lia).
    assert (Hl' : Z.log2 z < d) by (apply Z.log2_lt_pow2; lia).
    assert (K : 0 < 2 ^ k) by (apply Z.pow_pos_nonneg; lia).
    assert (Q : z / 2 ^ k < 2 ^ p).
    { apply Z.div_lt_upper_bound; [assumption|]. rewrite <- pow_split by lia. replace (k + p) with (Z.succ (Z.log2 z)) by lia.
      apply Z.log2_spec. lia. }
    cbv zeta. set (q' := if _ || _ then _ else _).
    assert (Hq : q' <= 2 ^ p) by (unfold q'; destruct (_ || _); lia).
    assert (B : q' * 2 ^ k <= 2 ^ d).
    { apply Z.le_trans with (2 ^ p * 2 ^ k); [apply Z.mul_le_mono_nonneg_r; lia|]. rewrite <- pow_split by lia.
      apply Z.pow_le_mono_r; lia. }
    cbn [max_value].
    destruct (ext_le (Fin q' k) (Fin (2 ^ p - 1) (emax - p + 1))) eqn:E.
    + exists (Z.sgn z * q'), k. split; [reflexivity|]. split; [lia|]. rewrite Z.sgn_pos by lia. lia.
    + exfalso. rewrite (ext_le_at 0) in E by lia. apply Z.leb_gt in E.
      pose proof (max_float_large p emax 0 Hp ltac:(lia)) as L. rewrite Z.sub_0_r in L.
      assert (2 ^ d <= 2 ^ emax) by (apply Z.pow_le_mono_r; lia). rewrite !Z.sub_0_r in *. lia.
Qed.

Theorem float_to_int_rejected l p emax t : aty_ok (AFloat p emax) -> 2 <= bits t <= emax ->
  is_value_preserving l false (AFloat p emax) (AInt t) = false.
Proof.
  intros Hf Ht. cbn [is_value_preserving]. apply not_true_is_false. intros H.
  apply andb_prop in H. destruct H as [H _]. apply andb_prop in H. destruct H as [H _].
  apply andb_prop in H. destruct H as [Hd Hm]. apply Z.leb_le in Hd. cbn [aty_ok] in Hf. cbn [digits] in Hd.
  unfold cmp_le in Hm. cbn [int_of max_value] in Hm.
  set (d := digits (AInt t)) in *. assert (Hdig : 1 <= d <= emax) by (unfold d; cbn [digits]; destruct (sgn t); lia).
  assert (2 ^ 1 <= 2 ^ d) by (apply Z.pow_le_mono_r; lia). change (2 ^ 1) with 2 in *.
  destruct (round_int_bound p emax d (2 ^ d - 1)) as (m & e & E & He & Hb); [lia|lia|lia|].
  rewrite E, (ext_le_at 0) in Hm by lia. apply Z.leb_le in Hm. rewrite !Z.sub_0_r in Hm.
  pose proof (max_float_large p emax 0 Hf ltac:(lia)) as L. rewrite !Z.sub_0_r in L.
  assert (2 ^ d <= 2 ^ emax) by (apply Z.pow_le_mono_r; lia). lia.
Qed.

(** std::float16_t (11 digits, maximum exponent 15) to a 32-bit int: accepted, but 1/2 is lost. *)
Theorem float16_to_int_refuted : exists from to m e, aty_ok from /\ aty_ok to
  /\ is_value_preserving lp64 false from to = true
  /\ is_higher_integer_rank false 4 2 false = true
  /\ has_value from m e /\ ~ has_value to m e.
Proof.
  exists (AFloat 11 15), (AInt (mkity 32 true)), 1, (-1). split; [cbn; lia|]. split; [cbn; lia|].
  split; [vm_compute; reflexivity|]. split; [reflexivity|]. split.
  - exists 1, (-1). split; [lia|]. split; [lia|]. apply same_value_refl.
  - intros (z & _ & E). unfold same_value in E. change (Z.min (-1) 0) with (-1) in E. cbn in E. lia.
Qed.

(** ** Completeness for integers: only conversions that change a value are rejected *)
Lemma in_type_max t : 2 <= bits t -> in_type t (2 ^ digits (AInt t) - 1) = true.
Proof.
  intros Ht. assert (1 <= digits (AInt t)) by (cbn [digits]; destruct (sgn t); lia).
  assert (0 < 2 ^ digits (AInt t)) by (apply Z.pow_pos_nonneg; lia). apply range_int; lia.
Qed.

Lemma in_type_lowest t : 2 <= bits t -> in_type t (if sgn t then - 2 ^ (bits t - 1) else 0) = true.
Proof.
  intros Ht. unfold in_type. assert (0 < 2 ^ (bits t - 1)) by (apply Z.pow_pos_nonneg; lia).
  assert (0 < 2 ^ bits t) by (apply Z.pow_pos_nonneg; lia). destruct (sgn t); lia.
Qed.

Lemma int_value t z : has_value (AInt t) z 0 <-> in_type t z = true.
Proof.
  split.
  - intros (z' & Hz & E). unfold same_value in E. change (Z.min 0 0) with 0 in E. change (2 ^ (0 - 0)) with 1 in E.
    now replace z with z' by lia.
  - intros H. exists z. split; [assumption|apply same_value_refl].
Qed.

Lemma preserves_shape t u : 2 <= bits t -> 2 <= bits u -> preserves (AInt t) (AInt u) ->
  digits (AInt t) <= digits (AInt u) /\ (sgn t = true -> sgn u = true).
Proof.
  intros Ht Hu H.
  pose proof (proj1 (int_value u _) (H _ _ (proj2 (int_value t _) (in_type_max t Ht)))) as Hm.
  pose proof (proj1 (int_value u _) (H _ _ (proj2 (int_value t _) (in_type_lowest t Ht)))) as Hl. split.
  - apply int_range in Hm; [|assumption].
    destruct (Z.le_gt_cases (digits (AInt t)) (digits (AInt u))) as [|C]; [assumption|exfalso].
    assert (2 ^ digits (AInt u) < 2 ^ digits (AInt t)).
    { apply Z.pow_lt_mono_r; [lia| |lia]. cbn [digits]. destruct (sgn t); lia. }
    lia.
  - intros E. rewrite E in Hl. destruct (sgn u) eqn:Eu; [reflexivity|exfalso].
    unfold in_type in Hl. rewrite Eu in Hl. assert (0 < 2 ^ (bits t - 1)) by (apply Z.pow_pos_nonneg; lia). lia.
Qed.

(** The common type of two types, one of which holds the values of the other, is the larger one. *)
Lemma common_larger l t u : lang_ok l -> 2 <= bits t -> 2 <= bits u ->
  digits (AInt t) <= digits (AInt u) -> (sgn t = true -> sgn u = true) ->
  common l t u = promote l u /\ common l u t = promote l u.
Proof.
  destruct t as [bt st], u as [bu su]. cbn [digits bits sgn]. unfold lang_ok, common, promote. cbn [bits sgn].
  intros Hl Ht Hu Hd Hs.
  destruct (Z.ltb_spec bt (l_int l)) as [H1|H1], (Z.ltb_spec bu (l_int l)) as [H2|H2]; cbn [bits sgn].
  - cbn [Bool.eqb]. rewrite Z.ltb_irrefl. auto.
  - destruct su; cbn [Bool.eqb].
    + destruct (Z.ltb_spec (l_int l) bu), (Z.ltb_spec bu (l_int l)); try lia; auto.
      replace (l_int l) with bu by lia. auto.
    + cbn [bits sgn]. destruct (Z.leb_spec (l_int l) bu); try lia. split; reflexivity.
  - exfalso. destruct st, su; try lia; discriminate (Hs eq_refl).
  - destruct st, su; cbn [Bool.eqb]; try discriminate (Hs eq_refl).
    + destruct (Z.ltb_spec bt bu), (Z.ltb_spec bu bt); try lia; auto. replace bt with bu by lia. auto.
    + cbn [bits sgn]. destruct (Z.leb_spec bu bt); try lia. auto.
    + destruct (Z.ltb_spec bt bu), (Z.ltb_spec bu bt); try lia; auto. replace bt with bu by lia. auto.
Qed.

Lemma promote_holds l u z : lang_ok l -> 2 <= bits u -> in_type u z = true -> convert (promote l u) z = z.
Proof.
  intros Hl Hu Hz. unfold lang_ok in Hl. apply convert_id.
  - unfold type_ok, promote. destruct (Z.ltb_spec (bits u) (l_int l)); cbn [bits]; lia.
  - unfold promote. destruct (Z.ltb_spec (bits u) (l_int l)); [|assumption]. unfold in_type in *. cbn [sgn bits].
    assert (2 ^ bits u <= 2 ^ (l_int l - 1)) by (apply Z.pow_le_mono_r; lia).
    assert (2 ^ (bits u - 1) <= 2 ^ (l_int l - 1)) by (apply Z.pow_le_mono_r; lia). destruct (sgn u); lia.
Qed.

Theorem value_preserving_int_complete l t u : lang_ok l -> 2 <= bits t -> 2 <= bits u ->
  preserves (AInt t) (AInt u) -> is_value_preserving l false (AInt t) (AInt u) = true.
Proof.
  intros Hl Ht Hu H. destruct (preserves_shape t u Ht Hu H) as [Hd Hs].
  destruct (common_larger l t u Hl Ht Hu Hd Hs) as [C1 C2].
  assert (Tu : forall z, in_type t z = true -> in_type u z = true).
  { intros z Hz. apply int_value, H, int_value, Hz. }
  cbn [is_value_preserving]. rewrite !andb_true_iff. split; [split; [split|]|].
  - now apply Z.leb_le.
  - unfold cmp_le. cbn [int_of max_value]. cbv zeta. rewrite C1.
    rewrite !promote_holds; try assumption; [|now apply in_type_max|apply Tu; now apply in_type_max].
    apply Z.leb_le. assert (2 ^ digits (AInt t) <= 2 ^ digits (AInt u)) by (apply Z.pow_le_mono_r; lia). lia.
  - unfold cmp_le. cbn [int_of lowest_value]. cbv zeta. rewrite C2.
    rewrite !promote_holds; try assumption; [|apply Tu; now apply in_type_lowest|now apply in_type_lowest].
    apply Z.leb_le. pose proof (Tu _ (in_type_lowest t Ht)) as L. unfold in_type in L. destruct (sgn u); lia.
  - unfold is_unsigned_ty. cbn [is_signed_ty]. destruct (sgn t); [now rewrite Hs|reflexivity].
Qed.

(** ** The broadcast and conversion constructors *)
Theorem conversion_ctor_keeps l same to from st sf first x r : 2 <= bits from -> 2 <= bits to ->
  (same = true -> from = to) -> all_in from x ->
  conversion_ctor l same to from st sf first x = Ok r -> r = x.
Proof.
  intros Hf Ht Hsame Hx. unfold conversion_ctor.
  destruct (is_value_preserving l same (AInt from) (AInt to)) eqn:E; [|discriminate].
  destruct (is_higher_integer_rank _ _ _ _); [|discriminate]. cbn [andb].
  apply value_preserving_sound in E; [|exact Hf|exact Ht|intros; f_equal; auto|discriminate].
  intros H. apply static_simd_cast_lanes in H. destruct H as [Hl Hn]. apply BaseFacts.nth_error_ext. intros i.
  destruct (nth_error x i) as [a|] eqn:Ea.
  - destruct (Hn i a Ea) as (b & Eb & ->). injection Eb as <-. f_equal. apply convert_id; [unfold type_ok; lia|].
    apply int_value, E, int_value, Hx. eapply nth_error_In. exact Ea.
  - apply nth_error_None in Ea. apply nth_error_None. lia.
Qed.

Theorem simd_cast_keeps l same to from x r : 2 <= bits from -> 2 <= bits to ->
  (same = true -> from = to) -> all_in from x -> simd_cast l same to from x = Ok r -> r = x.
Proof.
  intros Hf Ht Hsame Hx H. apply (conversion_ctor_keeps l same to from 2 1 false x r Hf Ht Hsame Hx).
  unfold conversion_ctor. unfold simd_cast in H. destruct (is_value_preserving _ _ _ _); [|discriminate].
  unfold is_higher_integer_rank. destruct same; exact H.
Qed.

(** All types, except floating-point formats with a range inside that of the integer type. *)
Theorem value_preserving_partial l same from to : aty_ok from -> aty_ok to -> (same = true -> from = to) ->
  (forall p emax t, from = AFloat p emax -> to = AInt t -> bits t <= emax) ->
  is_value_preserving l same from to = true -> preserves from to.
Proof.
  intros Hf Ht Hsame Hb H. destruct from as [t| |p emax].
  - apply (value_preserving_sound l same); try assumption. discriminate.
  - apply (value_preserving_sound l same); try assumption. discriminate.
  - destruct to as [u| |p' emax'].
    + destruct same; [discriminate (Hsame eq_refl)|]. exfalso.
      rewrite float_to_int_rejected in H; [discriminate|assumption|]. cbn [aty_ok] in Ht.
      pose proof (Hb p emax u eq_refl eq_refl). lia.
    + apply (value_preserving_sound l same); try assumption. discriminate.
    + apply (value_preserving_sound l same); try assumption. discriminate.
Qed.

Theorem broadcast_partial l same is_int is_uint from to : aty_ok from -> aty_ok to -> (same = true -> from = to) ->
  (forall p emax t, from = AFloat p emax -> to = AInt t -> bits t <= emax) ->
  value_preserving_or_int l same is_int is_uint from to = true ->
  is_int = true \/ (is_uint = true /\ is_unsigned_ty to = true) \/ preserves from to.
Proof.
  intros Hf Ht Hsame Hb H. unfold value_preserving_or_int in H.
  destruct same eqn:E; [right; right; rewrite (Hsame eq_refl); now intros m e|].
  destruct is_int; [now left|]. destruct is_uint, (is_unsigned_ty to); auto; cbn [orb andb] in H.
  all: right; right; apply (value_preserving_partial l false); try assumption.
Qed.
