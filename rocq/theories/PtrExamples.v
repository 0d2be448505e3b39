(** Concrete cases and witnesses for iterator arithmetic. *)
From Verif Require Import Base ExecModel ExecSpec ExecExamples TransformModel TReduceModel TReduceSpec
  PtrModel PtrSpec PtrProofs PtrReduceProofs.

(** Three 4-byte elements and vectors of four: [last - size] is before the array. *)
Lemma for_each_short : exists c pol w first last its,
  target_ok c /\ c_ce c = false /\ policy_ok pol /\ width_ok w /\ range_ok first last
  /\ size_matches pol w first last /\ reaches_alignment c pol w first last /\ first < last
  /\ for_each_it c pol w first last = (its, Ok tt) /\ In (first - 1) (iterators 0 its)
  /\ ~ stays_in first last 0 its.
Proof.
  exists (ex_cfg 16 false false), pol0, 4, 0, 3. eexists.
  split; [now apply ex_target|]. split; [reflexivity|].
  split; [repeat split; discriminate|]. split; [unfold width_ok; lia|]. split; [unfold range_ok; lia|].
  split; [discriminate|]. split; [split; discriminate|]. split; [lia|]. split; [vm_compute; reflexivity|].
  split; [cbn; tauto|]. unfold stays_in. rewrite Forall_forall. intros H.
  specialize (H (-1)). cbn in H. lia.
Qed.

(** Four elements and vectors of four in a constant expression: after the only vector [first] is
    [last] and [first + (size - 1)] is three past the end. *)
Lemma for_each_ce_past : exists c pol w first last its,
  target_ok c /\ c_ce c = true /\ width_ok w /\ size_matches pol w first last /\ first < last
  /\ for_each_it c pol w first last = (its, Ok tt) /\ In (last + 3) (iterators 0 its)
  /\ ~ stays_in first last 0 its.
Proof.
  exists (ex_cfg 16 false true), pol0, 4, 0, 4. eexists.
  split; [now apply ex_target|]. split; [reflexivity|]. split; [unfold width_ok; lia|].
  split; [discriminate|]. split; [lia|]. split; [vm_compute; reflexivity|].
  split; [cbn; tauto|]. unfold stays_in. rewrite Forall_forall. intros H.
  specialize (H 7). cbn in H. lia.
Qed.

(** transform_reduce with [unroll_by<4>] on nine elements, vectors of four: [last1 - step] and
    [first1 + step] are both outside. *)
Lemma reduce_unrolled_past : exists c pol w first last its,
  target_ok c /\ c_ce c = false /\ policy_ok pol /\ width_ok w /\ range_ok first last
  /\ size_matches pol w first last /\ prologue_room c pol w first last /\ first < last
  /\ transform_reduce_it c pol w first last [] = (its, Ok tt)
  /\ In (first - 7) (iterators 0 its) /\ In (last + 7) (iterators 0 its).
Proof.
  exists (ex_cfg 16 false false), (pol_unroll 4), 4, 0, 9. eexists.
  split; [now apply ex_target|]. split; [reflexivity|].
  split; [repeat split; discriminate|]. split; [unfold width_ok; lia|]. split; [unfold range_ok; lia|].
  split; [discriminate|]. split; [split; discriminate|]. split; [lia|]. split; [vm_compute; reflexivity|].
  split; cbn; tauto.
Qed.
