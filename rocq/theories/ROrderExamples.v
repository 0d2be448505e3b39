(** Operations that give away the order of their calls (C82). *)
From Verif Require Import Base BaseFacts ExecModel ExecSpec ExecExamples ReduceModel ReduceProofs TReduceModel TReduceExamples
  ScheduleSpec AnyReduceSpec RCallsModel RCallsSpec RCallsExamples.

(** Multiplies the right operand by the number of the call. *)
Definition order_op (s : nat * nat) (a b : list Z) : (nat * nat) * list Z :=
  ((fst s, S (snd s)), map2 (fun x y => x + Z.of_nat (S (snd s)) * y) a b).
Definition order_scalar (s : nat * nat) (x y : Z) : (nat * nat) * Z := ((fst s, S (snd s)), x + Z.of_nat (S (snd s)) * y).
Definition left_to_right : eval_order := fun _ => true.
Definition right_to_left : eval_order := fun _ => false.

Lemma order_op_keeps : op_keeps_lanes order_op.
Proof. intros s a b L. cbn. now apply map2_length. Qed.

Lemma order_seen :
  exists c pol w first last (m : mem Z) es es' s s' x x',
    target_ok c /\ c_ce c = false /\ policy_ok pol /\ width_ok w /\ range_ok first last /\ size_matches pol w first last
    /\ prologue_length c pol w first (last - first) 0 /\ op_keeps_lanes order_op /\ tr_keeps_lanes counting_tr 1
    /\ Forall (fun p => mapped m p (p + (last - first))) [first]
    /\ transform_reduce_calls (EO := left_to_right) c order_op order_scalar counting_tr m pol w first last [] 0 (0%nat, 0%nat)
       = (es, s, Ok x)
    /\ transform_reduce_calls (EO := right_to_left) c order_op order_scalar counting_tr m pol w first last [] 0 (0%nat, 0%nat)
       = (es', s', Ok x')
    /\ es <> es' /\ x <> x'.
Proof.
  exists (ex_cfg 4 false false), (pol_unroll 2), 6, 0, 6, (ex_mem 0 6). do 6 eexists.
  split; [now apply ex_target|]. split; [reflexivity|].
  split; [repeat split; first [reflexivity|discriminate]|].
  split; [unfold width_ok; lia|]. split; [unfold range_ok; lia|]. split; [discriminate|].
  split. { right. split; [reflexivity|]. right. split; [reflexivity|discriminate]. }
  split; [exact order_op_keeps|]. split; [exact (counting_tr_keeps 0)|].
  split. { repeat constructor. apply ex_mapped. }
  split; [vm_compute; reflexivity|]. split; [vm_compute; reflexivity|]. split; discriminate.
Qed.
