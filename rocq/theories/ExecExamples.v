(** Concrete configurations used by the examples and the refutations. *)
From Verif Require Import Base ExecModel ExecSpec.

(** 4-byte elements; element 0 lives at byte address [base]; libstdc++ alignment rule. *)
Definition ex_cfg (base : Z) (osize ce : bool) : cfg :=
  mkcfg 4 base (fun k => bit_ceil (k * 4)) osize ce.

(** Memory holding 100+a at index a of [first,last) and nothing else. *)
Definition ex_mem (first last : Z) : mem Z :=
  fun a => if (first <=? a) && (a <? last) then Some (100 + a) else None.

(** A callable that counts its invocations and doubles every lane. *)
Definition ex_f (st : Z) (ch : list (list Z)) : Z * list (list Z) :=
  (st + 1, map (map (Z.mul 2)) ch).

Lemma ex_f_lanewise : lanewise (Z.mul 2) ex_f.
Proof. intros st ch. reflexivity. Qed.

Lemma ex_f_keeps : keeps_lanes ex_f.
Proof.
  intros st ch. cbn. rewrite map_map. apply map_ext. intros. apply map_length.
Qed.

Lemma ex_target base osize ce : base mod 4 = 0 -> target_ok (ex_cfg base osize ce).
Proof. intros H. split; [cbn; lia|]. left. split; [unfold address; cbn [c_base c_sz ex_cfg]; now rewrite Z.mul_0_l, Z.add_0_r|]. reflexivity. Qed.

Lemma ex_mapped first last : mapped (ex_mem first last) first last.
Proof.
  intros a Ha. exists (100 + a). unfold ex_mem.
  destruct (Z.leb_spec first a), (Z.ltb_spec a last); try lia. reflexivity.
Qed.

(** Observation of an outcome: log, callable state, and the memory on [first,last). *)
Definition ex_obs (first last : Z) (r : res (state Z Z)) :=
  match r with
  | Ok s => Some (s_trace s, s_st s, load (s_mem s) first (Z.to_nat (last - first)))
  | Stop _ => None
  end.

(** Element-level double on a target that only 4-aligns 8-byte elements (i386). *)
Definition ex_cfg386 : cfg := mkcfg 8 4 (fun k => bit_ceil (k * 8)) false false.

Definition pol0 : policy := mkpol false false false 0 0.
Definition pol_aligned : policy := mkpol true false false 0 0.
Definition pol_auto : policy := mkpol false true false 0 0.
Definition pol_match : policy := mkpol false false true 0 0.
Definition pol_unroll (n : Z) : policy := mkpol false false false n 0.
Definition pol_aligned_unroll (n : Z) : policy := mkpol true false false n 0.

(** ** Witnesses against the unrestricted claims *)
Lemma prologue_leaves_range :
  target_ok (ex_cfg 4 false false) /\ policy_ok pol_aligned /\ width_ok 8 /\ range_ok 0 2
  /\ mapped (ex_mem 0 2) 0 2 /\ keeps_lanes ex_f
  /\ run_for_each ex_f (ex_cfg 4 false false) pol_aligned 8 false 0 2 (ex_mem 0 2) 0 = Stop SUB.
Proof.
  split; [now apply ex_target|]. split; [repeat split; first [reflexivity|discriminate]|]. split; [unfold width_ok; lia|].
  split; [unfold range_ok; lia|]. split; [apply ex_mapped|]. split; [apply ex_f_keeps|].
  vm_compute. reflexivity.
Qed.

Lemma auto_prologue_huge_leaves_range :
  target_ok (ex_cfg 4 false false) /\ policy_ok pol_auto /\ width_ok 2048 /\ range_ok 0 1001
  /\ mapped (ex_mem 0 1001) 0 1001 /\ keeps_lanes ex_f
  /\ run_for_each ex_f (ex_cfg 4 false false) pol_auto 2048 false 0 1001 (ex_mem 0 1001) 0 = Stop SUB.
Proof.
  split; [now apply ex_target|]. split; [repeat split; first [reflexivity|discriminate]|]. split; [unfold width_ok; lia|].
  split; [unfold range_ok; lia|]. split; [apply ex_mapped|]. split; [apply ex_f_keeps|].
  vm_compute. reflexivity.
Qed.

Lemma underaligned_element_unreachable :
  run_for_each ex_f ex_cfg386 pol_aligned 4 false 0 100 (ex_mem 0 100) 0 = Stop SUB.
Proof. vm_compute. reflexivity. Qed.

Lemma consteval_width2_repeats :
  exists s, run_for_each ex_f (ex_cfg 0 false true) pol0 2 false 0 2 (ex_mem 0 2) 0 = Ok s
            /\ seen (s_trace s) = [100; 101; 101] /\ s_st s = 2
            /\ ~ range_is (ex_mem 0 2) 0 2 (seen (s_trace s)).
Proof.
  eexists. split; [vm_compute; reflexivity|]. split; [reflexivity|]. split; [reflexivity|].
  intros [H _]. vm_compute in H. discriminate.
Qed.

(** With a writing callable the last element is updated twice. *)
Lemma consteval_width2_updates_twice :
  exists s, run_for_each ex_f (ex_cfg 0 false true) pol0 2 true 0 2 (ex_mem 0 2) 0 = Ok s
            /\ s_mem s 1 = Some 404 /\ map_range (Z.mul 2) (ex_mem 0 2) 0 2 1 = Some 202.
Proof. eexists. split; [vm_compute; reflexivity|]. split; reflexivity. Qed.

Lemma prefer_aligned_refuted :
  exists c pol w first last (m : mem Z),
    target_ok c /\ c_ce c = false /\ policy_ok pol /\ width_ok w /\ range_ok first last
    /\ p_match pol = false /\ mapped m first last /\ keeps_lanes ex_f
    /\ run_for_each ex_f c pol w false first last m 0 = Stop SUB.
Proof.
  exists (ex_cfg 4 false false), pol_aligned, 8, 0, 2, (ex_mem 0 2).
  pose proof prologue_leaves_range. tauto.
Qed.

Lemma auto_huge_refuted :
  exists c pol w first last (m : mem Z),
    target_ok c /\ c_ce c = false /\ policy_ok pol /\ p_aligned pol = false /\ width_ok w
    /\ range_ok first last /\ p_match pol = false /\ mapped m first last /\ keeps_lanes ex_f
    /\ run_for_each ex_f c pol w false first last m 0 = Stop SUB.
Proof.
  exists (ex_cfg 4 false false), pol_auto, 2048, 0, 1001, (ex_mem 0 1001).
  pose proof auto_prologue_huge_leaves_range. tauto.
Qed.

Lemma underaligned_refuted :
  exists c pol w first last (m : mem Z),
    policy_ok pol /\ width_ok w /\ range_ok first last /\ mapped m first last /\ keeps_lanes ex_f
    /\ (exists a, first <= a /\ a + 50 <= last)
    /\ (forall k, 0 < k -> c_malign c k = bit_ceil (k * c_sz c))
    /\ run_for_each ex_f c pol w false first last m 0 = Stop SUB.
Proof.
  exists ex_cfg386, pol_aligned, 4, 0, 100, (ex_mem 0 100).
  split; [repeat split; first [reflexivity|discriminate]|]. split; [unfold width_ok; lia|]. split; [unfold range_ok; lia|].
  split; [apply ex_mapped|]. split; [apply ex_f_keeps|]. split; [exists 0; lia|].
  split; [reflexivity|]. apply underaligned_element_unreachable.
Qed.

Lemma consteval_refuted :
  exists c w first last (m : mem Z) s,
    target_ok c /\ c_ce c = true /\ width_ok w /\ range_ok first last /\ mapped m first last
    /\ lanewise (Z.mul 2) ex_f
    /\ run_for_each ex_f c pol0 w true first last m 0 = Ok s
    /\ ~ range_is m first last (seen (s_trace s))
    /\ exists a, s_mem s a <> map_range (Z.mul 2) m first last a.
Proof.
  exists (ex_cfg 0 false true), 2, 0, 2, (ex_mem 0 2).
  eexists. split; [now apply ex_target|]. split; [reflexivity|]. split; [unfold width_ok; lia|].
  split; [unfold range_ok; lia|]. split; [apply ex_mapped|]. split; [apply ex_f_lanewise|].
  split; [vm_compute; reflexivity|]. split.
  - intros [H _]. vm_compute in H. discriminate.
  - exists 1. vm_compute. discriminate.
Qed.
