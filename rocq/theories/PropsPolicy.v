(** Property theorems C12: execution policy modifiers. *)
From Verif Require Import Base ExecModel ExecSpec PolicyModel PolicySpec PolicyProofs.
From Coq Require Import Permutation.

(** A chain of modifier calls compiles exactly if it is legal ... *)
Theorem C12_chain_accepted_iff_legal :
  forall calls, (exists p, chain calls = Ok p) <-> legal calls.
Proof. exact chain_accepted. Qed.
Print Assumptions C12_chain_accepted_iff_legal.

(** ... and then the policy carries exactly what was requested, ... *)
Theorem C12_chain_carries_requests :
  forall calls p, chain calls = Ok p -> carries p calls.
Proof. exact chain_carries. Qed.
Print Assumptions C12_chain_carries_requests.

(** ... at most one of the exclusive modifiers, and sane numbers (the hypothesis [policy_ok] of
    the theorems about the algorithms), ... *)
Theorem C12_chain_consistent :
  forall calls p, chain calls = Ok p ->
    policy_ok p /\ (p_unroll p = 0 \/ 1 < p_unroll p) /\ 0 <= p_size p.
Proof. exact chain_policy_ok. Qed.
Print Assumptions C12_chain_consistent.

(** ... independently of the order of the calls. *)
Theorem C12_chain_order_irrelevant :
  forall calls calls' p, Permutation calls calls' -> chain calls = Ok p -> chain calls' = Ok p.
Proof. exact chain_perm. Qed.
Print Assumptions C12_chain_order_irrelevant.

Example C12_instance :
  chain [UnrollBy 3; PreferAligned; PreferSize 8] = Ok (mkpol true false false 3 8)
  /\ chain [PreferSize 8; UnrollBy 3; PreferAligned] = Ok (mkpol true false false 3 8)
  /\ chain [PreferAligned; AutoPrologue] = Stop SIllFormed
  /\ chain [UnrollBy 2; UnrollBy 2] = Stop SIllFormed
  /\ chain [UnrollBy 1] = Stop SIllFormed.
Proof. repeat split; vm_compute; reflexivity. Qed.
