(** The property-level lemmas of C80, and witnesses. *)
From Verif Require Import Base ExecModel ExecSpec ExecThm ExecExamples TransformModel ReduceModel TReduceModel
  TReduceSpec ScheduleSpec OrderThm AccSpec AccThm AccFloat.
From Coq Require Import QArith Qabs.
From Flocq Require Import Core BinarySingleNaN.
#[local] Open Scope Z_scope.

Section Float.
  Variables prec emax : Z.
  Context (Hprec : Prec_gt_0 prec) (Hemax : Prec_lt_emax prec emax).

  Lemma unit_roundoff_nonneg : (0 <= unit_roundoff prec)%Q.
  Proof.
    apply Qreals.Rle_Qle. unfold unit_roundoff. rewrite Q2R_pow2, Q2R_zero. apply bpow_ge_0.
  Qed.

  Lemma reduce_floats c pol w first last (m : mem (binary_float prec emax)) l init d k :
    target_ok c -> c_ce c = false -> policy_ok pol -> width_ok w -> range_ok first last ->
    size_matches pol w first last ->
    prologue_length c pol w first (last - first) d -> (first = last \/ d < last - first) ->
    range_is m first last l ->
    k = Nat.min (length l) (depth_bound (Z.to_nat w) (Z.to_nat (p_unroll pol)) (length l - Z.to_nat d)) ->
    Forall (fun x => is_finite x = true) (init :: l) ->
    ((1 + 2 ^ (- prec)) ^ Z.of_nat k * qsum (map (fun y => Qabs (float_value prec emax y)) (init :: l))
     <= inject_Z (2 ^ prec - 1) * 2 ^ (emax - prec))%Q ->
    exists x, reduce_alg c (Bplus mode_NE) m pol w first last init = Ok x /\ is_finite x = true
      /\ sum_within (float_value prec emax) (2 ^ (- prec)) k (init :: l) x.
  Proof.
    intros Hc Hce Hp Hw Hr Hm Hd Hdn Hv Hk HF HL.
    apply (reduce_alg_accuracy _ _ (float_finite prec emax) _ (largest prec emax) c pol w first last m l init d k);
      try assumption.
    - exact unit_roundoff_nonneg.
    - exact (float_adds_up prec emax Hprec Hemax).
  Qed.

  Lemma transform_reduce_floats {T} (g : list T -> binary_float prec emax) tr c pol w first last srcs2 (m : mem T) vals init d k :
    target_ok c -> c_ce c = false -> policy_ok pol -> width_ok w -> range_ok first last ->
    size_matches pol w first last ->
    prologue_length c pol w first (last - first) d -> (first = last \/ d < last - first) ->
    (forall k, 0 < k -> transforms_at g tr (S (length srcs2)) k) ->
    transformed_are g m (first :: srcs2) (last - first) vals ->
    k = Nat.min (length vals) (depth_bound (Z.to_nat w) (Z.to_nat (p_unroll pol)) (length vals - Z.to_nat d)) ->
    Forall (fun x => is_finite x = true) (init :: vals) ->
    ((1 + 2 ^ (- prec)) ^ Z.of_nat k * qsum (map (fun y => Qabs (float_value prec emax y)) (init :: vals))
     <= inject_Z (2 ^ prec - 1) * 2 ^ (emax - prec))%Q ->
    exists x, transform_reduce c (Bplus mode_NE) tr m pol w first last srcs2 init = Ok x /\ is_finite x = true
      /\ sum_within (float_value prec emax) (2 ^ (- prec)) k (init :: vals) x.
  Proof.
    intros Hc Hce Hp Hw Hr Hm Hd Hdn Htr Hv Hk HF HL.
    apply (transform_reduce_accuracy g tr _ _ (float_finite prec emax) _ (largest prec emax) c pol w first last srcs2 m vals init d k);
      try assumption.
    - exact unit_roundoff_nonneg.
    - exact (float_adds_up prec emax Hprec Hemax).
  Qed.

  Lemma transform_reduce_floats_const {T} (g : list T -> binary_float prec emax) tr c pol w first last srcs2 (m : mem T) vals init :
    c_ce c = true -> width_ok w -> range_ok first last -> size_matches pol w first last ->
    transforms_at g tr (S (length srcs2)) 1 ->
    transformed_are g m (first :: srcs2) (last - first) vals ->
    Forall (fun x => is_finite x = true) (init :: vals) ->
    ((1 + 2 ^ (- prec)) ^ (last - first) * qsum (map (fun y => Qabs (float_value prec emax y)) (init :: vals))
     <= inject_Z (2 ^ prec - 1) * 2 ^ (emax - prec))%Q ->
    exists x, transform_reduce c (Bplus mode_NE) tr m pol w first last srcs2 init = Ok x /\ is_finite x = true
      /\ sum_within (float_value prec emax) (2 ^ (- prec)) (length vals) (init :: vals) x.
  Proof.
    intros Hce Hw Hr Hm Htr Hv HF HL.
    apply (transform_reduce_accuracy_const g tr _ _ (float_finite prec emax) _ (largest prec emax) c pol w first last srcs2 m vals init);
      try assumption.
    - exact unit_roundoff_nonneg.
    - exact (float_adds_up prec emax Hprec Hemax).
  Qed.
End Float.

(** 2^24 and fifteen ones. *)
Definition ex_floats (a : Z) : option binary32 :=
  if a =? 0 then Some (of_int32 (2 ^ 24)) else if (0 <? a) && (a <? 16) then Some (of_int32 1) else None.
Definition ex_float_list : list binary32 := of_int32 (2 ^ 24) :: repeat (of_int32 1) 15.
Definition ex_float_sum (ce : bool) (w : Z) : res Q :=
  bindR (reduce_alg (ex_cfg 0 false ce) add32 ex_floats pol0 w 0 16 (of_int32 0))
        (fun x => Ok (Qred (float_value 24 128 x))).

Lemma ex_floats_range : range_is ex_floats 0 16 ex_float_list.
Proof.
  split; [reflexivity|]. intros i Hi. change (length ex_float_list) with 16%nat in Hi.
  do 16 (destruct i as [|i]; [reflexivity|]). lia.
Qed.

Lemma ex_floats_finite : Forall (fun x : binary32 => is_finite x = true) (of_int32 0 :: ex_float_list).
Proof. repeat constructor. Qed.

Lemma ex_floats_in_range :
  ((1 + 2 ^ (- 24)) ^ Z.of_nat 8 * qsum (map (fun y => Qabs (float_value 24 128 y)) (of_int32 0 :: ex_float_list))
   <= inject_Z (2 ^ 24 - 1) * 2 ^ (128 - 24))%Q.
Proof. vm_compute. discriminate. Qed.
