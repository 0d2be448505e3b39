(** Concrete runs of transform_reduce and witnesses against the unrestricted claims. *)
From Verif Require Import Base BaseFacts ExecModel ExecSpec ExecThm ExecExamples
  TransformModel ReduceModel ReduceSpec ReduceProofs TReduceModel TReduceSpec TReduceThm.
From Coq Require Import Permutation.

(** Every address is mapped. *)
Definition full_mem : mem Z := fun a => Some (100 + a).

Lemma full_range_is n : range_is full_mem 0 (Z.of_nat n) (map (fun i => 100 + Z.of_nat i) (seq 0 n)).
Proof.
  split; [rewrite map_length, seq_length; lia|]. intros i Hi. rewrite map_length, seq_length in Hi.
  rewrite nth_error_map. rewrite (nth_error_nth' _ 0%nat) by (now rewrite seq_length).
  rewrite seq_nth by assumption. reflexivity.
Qed.

Lemma ex_range_is n : range_is (ex_mem 0 (Z.of_nat n)) 0 (Z.of_nat n)
                               (map (fun i => 100 + Z.of_nat i) (seq 0 n)).
Proof.
  destruct (full_range_is n) as [H1 H2]. split; [assumption|]. intros i Hi. rewrite H2 by assumption.
  rewrite map_length, seq_length in Hi. unfold full_mem, ex_mem.
  destruct (Z.leb_spec 0 (0 + Z.of_nat i)), (Z.ltb_spec (0 + Z.of_nat i) (Z.of_nat n)); try lia.
  reflexivity.
Qed.

Lemma add_assoc_comm : assoc_comm Z.add.
Proof. split; intros; lia. Qed.

(** The prologue takes the whole range and the epilogue runs into unreachable(), although
    nothing outside the range was touched and everything is mapped. *)
Lemma whole_range_prologue pol : pol = pol_aligned \/ pol = pol_auto ->
  target_ok (ex_cfg 4 false false) /\ policy_ok pol /\ width_ok 8 /\ range_ok 0 7
  /\ (exists l, range_is full_mem 0 7 l)
  /\ is_aligned (ex_cfg 4 false false) 7 8
  /\ reduce_alg (ex_cfg 4 false false) Z.add full_mem pol 8 0 7 0 = Stop SUB.
Proof.
  intros Hp. split; [now apply ex_target|].
  split; [destruct Hp; subst; repeat split; first [reflexivity|discriminate]|].
  split; [unfold width_ok; lia|]. split; [unfold range_ok; lia|].
  split; [eexists; exact (full_range_is 7)|].
  split; [exists 1; reflexivity|]. destruct Hp; subst; vm_compute; reflexivity.
Qed.

Lemma prologue_whole_range_refuted :
  exists c pol1 pol2 w first last (m : mem Z) l,
    target_ok c /\ c_ce c = false /\ policy_ok pol1 /\ p_aligned pol1 = true
    /\ policy_ok pol2 /\ p_auto pol2 = true /\ width_ok w /\ w * c_sz c <= 4000
    /\ range_ok first last /\ first < last /\ range_is m first last l
    /\ (forall a, m a <> None)
    /\ (exists a, first <= a <= last /\ is_aligned c a w)
    /\ reduce_alg c Z.add m pol1 w first last 0 = Stop SUB
    /\ reduce_alg c Z.add m pol2 w first last 0 = Stop SUB.
Proof.
  exists (ex_cfg 4 false false), pol_aligned, pol_auto, 8, 0, 7, full_mem.
  destruct (whole_range_prologue pol_aligned) as (H1 & H2 & H3 & H4 & [l Hl] & H5 & H6); [auto|].
  destruct (whole_range_prologue pol_auto) as (_ & H7 & _ & _ & _ & _ & H8); [auto|].
  exists l. repeat (split; [first [assumption|reflexivity|cbn; lia|discriminate]|]).
  split; [|auto]. exists 7. split; [lia|assumption].
Qed.

Lemma short_range_refuted :
  exists c pol w first last (m1 m2 : mem Z) l x,
    target_ok c /\ c_ce c = false /\ policy_ok pol /\ width_ok w /\ range_ok first last
    /\ p_match pol = false
    /\ range_is m1 first last l /\ range_is m2 first last l
    /\ reduce_alg c Z.add m1 pol w first last 0 = Stop SUB
    /\ reduce_alg c Z.add m2 pol w first last 0 = Ok x /\ ~ gsum Z.add (0 :: l) x.
Proof.
  exists (ex_cfg 4 false false), pol_aligned, 8, 0, 2, (ex_mem 0 2), full_mem.
  exists (map (fun i => 100 + Z.of_nat i) (seq 0 2)). eexists.
  split; [now apply ex_target|]. split; [reflexivity|].
  split; [repeat split; first [reflexivity|discriminate]|]. split; [unfold width_ok; lia|].
  split; [unfold range_ok; lia|]. split; [reflexivity|].
  split; [exact (ex_range_is 2)|]. split; [exact (full_range_is 2)|].
  split; [vm_compute; reflexivity|]. split; [vm_compute; reflexivity|].
  intros G. apply gsum_fold in G; [|exact add_assoc_comm]. vm_compute in G. discriminate.
Qed.

(** A non-commutative, non-associative operation shows which grouping is used. *)
Inductive ex_tree := Leaf (z : Z) | Node (a b : ex_tree).
