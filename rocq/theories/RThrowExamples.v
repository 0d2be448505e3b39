(** Runs in which an operation throws, for C84. *)
From Verif Require Import Base BaseFacts ExecModel ExecSpec ExecExamples ReduceModel ReduceProofs TReduceModel TReduceExamples
  ScheduleSpec AnyReduceSpec AnyReduceExamples RCallsModel RCallsSpec RCallsExamples RThrowModel RThrowSpec.

(** transform_op throws if it is given the element 115; reduce_op at its [n]-th call. *)
Definition tr_throws (s : nat * nat) (chunks : list (list Z)) : (nat * nat) * option (list Z) :=
  ((S (fst s), snd s), if existsb (Z.eqb 115) (hd [] chunks) then None else Some (hd [] chunks)).
Definition tr_returns (s : nat * nat) (chunks : list (list Z)) : (nat * nat) * option (list Z) :=
  ((S (fst s), snd s), Some (hd [] chunks)).
Definition op_throws (n : nat) (s : nat * nat) (a b : list Z) : (nat * nat) * option (list Z) :=
  ((fst s, S (snd s)), if (S (snd s) =? n)%nat then None else Some (map2 Z.add a b)).
Definition scalar_throws (n : nat) (s : nat * nat) (x y : Z) : (nat * nat) * option Z :=
  ((fst s, S (snd s)), if (S (snd s) =? n)%nat then None else Some (x + y)).

Lemma op_throws_keeps n : reduce_keeps_lanes (op_throws n).
Proof. intros s a b s' z L. unfold op_throws. destruct (_ =? n)%nat; intros [= <- <-]. now apply map2_length. Qed.
Lemma tr_throws_keeps n : transform_keeps_lanes tr_throws (S n).
Proof.
  intros s ch k s' v L F. unfold tr_throws. destruct (existsb _ _); intros [= <- <-].
  destruct ch as [|c ch]; [discriminate|]. exact (Forall_inv F).
Qed.

Definition ex_throws {EO : eval_order} n tr := transform_reduce_throwing (ex_cfg 4 false false) (op_throws n) (scalar_throws n) tr full_mem
                               pol_aligned 8 0 20 [] 0 (0%nat, 0%nat).
