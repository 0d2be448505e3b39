(** Witnesses for C69. *)
From Verif Require Import Base ExecModel ExecSpec ExecExamples TransformModel ReduceModel TReduceModel
  TReduceSpec TReduceExamples ScheduleSpec OrderSpec.

Definition ex_leaves (k : nat) : list ex_tree := map (fun i => Leaf (100 + Z.of_nat i)) (seq 0 k).

Definition ex_run (base : Z) (pol : policy) (w n : Z) : res ex_tree :=
  transform_reduce (ex_cfg base false false) Node (fun ch => map Leaf (hd [] ch)) (ex_mem 0 n)
    pol w 0 n [] (Leaf 0).

Lemma ex_transforms k : transforms_at (fun args => Leaf (hd 0 args)) (fun ch => map Leaf (hd [] ch)) 1 k.
Proof.
  intros [|ch [|? ?]] Hl HF; try discriminate. inversion HF; subst. cbn [hd]. rewrite map_length.
  split; [reflexivity|]. intros i args Ha. inversion Ha as [|? ? ? ? Hx]; subst.
  rewrite nth_error_map, Hx. reflexivity.
Qed.

(** The five elements in front of address 8 * 4. *)
Lemma ex_length : prologue_length (ex_cfg 12 false false) (pol_aligned_unroll 2) 8 0 45 5.
Proof.
  left. split; [|split; [|left; reflexivity] ].
  - split; [lia|]. split; [exists 5; split; [lia|reflexivity]|reflexivity].
  - split; [lia|]. split; [exists 1; reflexivity|]. intros e He [q Hq]. unfold address in Hq.
    cbn [c_base c_sz c_malign ex_cfg] in Hq. change (bit_ceil (8 * 4)) with 32 in Hq. lia.
Qed.

Lemma consteval_order_refuted :
  exists c1 c2 pol w first last (m : mem Z) l x y,
    target_ok c1 /\ target_ok c2 /\ c_ce c1 = false /\ c_ce c2 = true /\ plain pol /\ width_ok w
    /\ range_ok first last /\ range_is m first last l
    /\ reduce_alg c1 Z.sub m pol w first last 0 = Ok x
    /\ reduce_alg c2 Z.sub m pol w first last 0 = Ok y /\ x <> y.
Proof.
  exists (ex_cfg 0 false false), (ex_cfg 0 false true), pol0, 1, 0, 2, (ex_mem 0 2). do 3 eexists.
  split; [now apply ex_target|]. split; [now apply ex_target|]. split; [reflexivity|]. split; [reflexivity|].
  split; [now split|]. split; [vm_compute; split; congruence|]. split; [vm_compute; split; congruence|].
  split; [exact (ex_range_is 2)|].
  split; [vm_compute; reflexivity|]. split; [vm_compute; reflexivity|]. lia.
Qed.

Lemma alignment_order_refuted :
  exists c1 c2 pol w first last (m : mem Z) l x y,
    target_ok c1 /\ target_ok c2 /\ c_ce c1 = false /\ c_ce c2 = false /\ c_sz c1 = c_sz c2
    /\ policy_ok pol /\ width_ok w
    /\ range_ok first last /\ range_is m first last l
    /\ reduce_alg c1 Z.sub m pol w first last 0 = Ok x
    /\ reduce_alg c2 Z.sub m pol w first last 0 = Ok y /\ x <> y.
Proof.
  exists (ex_cfg 0 false false), (ex_cfg 4 false false), pol_aligned, 4, 0, 9, (ex_mem 0 9). do 3 eexists.
  split; [now apply ex_target|]. split; [now apply ex_target|]. split; [reflexivity|]. split; [reflexivity|].
  split; [reflexivity|]. split; [repeat split; first [reflexivity|discriminate]|]. split; [vm_compute; split; congruence|]. split; [vm_compute; split; congruence|].
  split; [exact (ex_range_is 9)|].
  split; [vm_compute; reflexivity|]. split; [vm_compute; reflexivity|]. lia.
Qed.

Lemma unroll_order_refuted :
  exists c pol1 pol2 w first last (m : mem Z) l x y,
    target_ok c /\ c_ce c = false /\ plain pol1 /\ plain pol2 /\ p_unroll pol1 = 0 /\ p_unroll pol2 = 2
    /\ width_ok w /\ range_ok first last /\ range_is m first last l
    /\ reduce_alg c Z.sub m pol1 w first last 0 = Ok x
    /\ reduce_alg c Z.sub m pol2 w first last 0 = Ok y /\ x <> y.
Proof.
  exists (ex_cfg 0 false false), pol0, (pol_unroll 2), 1, 0, 4, (ex_mem 0 4). do 3 eexists.
  split; [now apply ex_target|]. split; [reflexivity|]. split; [now split|]. split; [now split|].
  split; [reflexivity|]. split; [reflexivity|]. split; [vm_compute; split; congruence|]. split; [vm_compute; split; congruence|].
  split; [exact (ex_range_is 4)|].
  split; [vm_compute; reflexivity|]. split; [vm_compute; reflexivity|]. lia.
Qed.
