(** A transform operation that mixes lanes, for C74. *)
From Verif Require Import Base BaseFacts ExecModel ExecSpec ExecExamples ReduceSpec TReduceModel TReduceSpec TReduceExamples
  ScheduleSpec CallsSpec AnyReduceSpec.

(** Running totals inside a chunk. *)
Fixpoint totals_from (t : Z) (l : list Z) : list Z :=
  match l with [] => [] | x :: r => (t + x) :: totals_from (t + x) r end.
Definition running (chunks : list (list Z)) : list Z := totals_from 0 (hd [] chunks).

Lemma totals_length l : forall t, length (totals_from t l) = length l.
Proof. induction l as [|x l IH]; intros t; [reflexivity|]. cbn. now rewrite IH. Qed.
Lemma running_keeps : keeps_lanes running 1.
Proof.
  intros k chunks Hl HF. destruct chunks as [|ch chunks]; [discriminate|]. inversion HF; subst. unfold running. cbn [hd].
  now rewrite totals_length.
Qed.

Lemma seven_in_front : prologue_length (ex_cfg 4 false false) pol_aligned 8 0 20 7.
Proof.
  left. split; [|split; [|now left] ].
  - split; [lia|]. split; [exists 5; split; [lia|reflexivity]|reflexivity].
  - split; [lia|]. split; [exists 1; reflexivity|]. intros e He [q Hq]. unfold address in Hq.
    change (c_malign (ex_cfg 4 false false) 8) with 32 in Hq. cbn [c_base c_sz ex_cfg] in Hq. lia.
Qed.

Lemma mixing_refuted :
  exists c pol pol' w first last (m : mem Z) d d' x x',
    target_ok c /\ c_ce c = false /\ policy_ok pol /\ policy_ok pol' /\ width_ok w /\ range_ok first last
    /\ size_matches pol w first last /\ size_matches pol' w first last
    /\ prologue_length c pol w first (last - first) d /\ prologue_length c pol' w first (last - first) d'
    /\ d < last - first /\ d' < last - first
    /\ keeps_lanes running 1 /\ mapped m first (first + (last - first)) /\ assoc_comm Z.add
    /\ transform_reduce c Z.add running m pol w first last [] 0 = Ok x
    /\ transform_reduce c Z.add running m pol' w first last [] 0 = Ok x' /\ x <> x'.
Proof.
  exists (ex_cfg 4 false false), pol0, pol_aligned, 8, 0, 20, full_mem, 0, 7. do 2 eexists.
  split; [now apply ex_target|]. split; [reflexivity|].
  split; [repeat split; first [reflexivity|discriminate]|]. split; [repeat split; first [reflexivity|discriminate]|].
  split; [unfold width_ok; lia|]. split; [unfold range_ok; lia|]. split; [discriminate|]. split; [discriminate|].
  split; [right; split; [reflexivity|]; right; split; [reflexivity|discriminate]|].
  split; [exact seven_in_front|]. split; [lia|]. split; [lia|].
  split; [exact running_keeps|]. split; [intros a _; now eexists|]. split; [exact add_assoc_comm|].
  split; [vm_compute; reflexivity|]. split; [vm_compute; reflexivity|]. vm_compute. discriminate.
Qed.

Definition first_lane (l : list Z) : list bool := match l with [] => [] | _ :: r => true :: map (fun _ => false) r end.
Lemma first_lane_keeps : keeps_mask first_lane.
Proof. intros [|x r]; [reflexivity|]. cbn. now rewrite map_length. Qed.
