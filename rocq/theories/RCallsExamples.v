(** A run with operations that count their calls, for C82. *)
From Verif Require Import Base BaseFacts ExecModel ExecSpec ExecExamples ReduceModel ReduceProofs TReduceModel TReduceExamples
  ScheduleSpec AnyReduceSpec AnyReduceExamples RCallsModel RCallsSpec.

(** The state counts the calls of transform_op and of reduce_op. *)
Definition counting_op (s : nat * nat) (a b : list Z) : (nat * nat) * list Z := ((fst s, S (snd s)), map2 Z.add a b).
Definition counting_scalar (s : nat * nat) (x y : Z) : (nat * nat) * Z := ((fst s, S (snd s)), x + y).
Definition counting_tr (s : nat * nat) (chunks : list (list Z)) : (nat * nat) * list Z := ((S (fst s), snd s), hd [] chunks).

Lemma counting_op_keeps : op_keeps_lanes counting_op.
Proof. intros s a b E. now apply map2_length. Qed.
Lemma counting_tr_keeps n : tr_keeps_lanes counting_tr (S n).
Proof. intros s chunks k L F. destruct chunks as [|ch chunks]; [discriminate|]. exact (Forall_inv F). Qed.
Lemma first_range_keeps n : keeps_lanes (fun chunks : list (list Z) => hd [] chunks) (S n).
Proof. intros k chunks L F. destruct chunks as [|ch chunks]; [discriminate|]. exact (Forall_inv F). Qed.

Definition ex_calls {EO : eval_order} := transform_reduce_calls (ex_cfg 4 false false) counting_op counting_scalar counting_tr full_mem
                         pol_aligned 8 0 20 [] 0 (0%nat, 0%nat).
