(** Model of execution::simd_policy, simd_execution.h:358-389 and 424-509. *)
From Verif Require Import Base ExecModel.

(** The option tag types, simd_execution.h:358-389 (the element types of [Options...]). *)
Inductive opt : Type :=
| PreferAligned | AutoPrologue | MatchSize | UnrollBy (n : Z) | PreferSize (n : Z).

(** simd_policy_unroll_value / simd_policy_size_value, simd_execution.h:368-390. *)
Definition unroll_value (o : opt) : Z := match o with UnrollBy n => n | _ => 0 end.
Definition size_value (o : opt) : Z := match o with PreferSize n => n | _ => 0 end.
Definition is_aligned_opt (o : opt) : bool := match o with PreferAligned => true | _ => false end.
Definition is_auto_opt (o : opt) : bool := match o with AutoPrologue => true | _ => false end.
Definition is_match_opt (o : opt) : bool := match o with MatchSize => true | _ => false end.

(** The static members, simd_execution.h:427-440: left folds over [Options...]. *)
Definition members (os : list opt) : policy :=
  mkpol (fold_left (fun b o => b || is_aligned_opt o) os false)
        (fold_left (fun b o => b || is_auto_opt o) os false)
        (fold_left (fun b o => b || is_match_opt o) os false)
        (fold_left (fun s o => s + unroll_value o) os 0)
        (fold_left (fun s o => s + size_value o) os 0).

(** One modifier call, simd_execution.h:450-508: the requires-clause, the static_assert, and the
    new type with the tag appended.  A call that does not compile is [SIllFormed]. *)
Definition modifier (os : list opt) (o : opt) : res (list opt) :=
  let p := members os in
  match o with
  | PreferAligned | AutoPrologue | MatchSize =>
    if negb (p_aligned p) && negb (p_auto p) && negb (p_match p)
    then Ok (os ++ [o]) else Stop SIllFormed
  | UnrollBy n =>
    if (p_unroll p =? 0) && (1 <? n) then Ok (os ++ [o]) else Stop SIllFormed
  | PreferSize n =>
    if (p_size p =? 0) && (0 <? n) then Ok (os ++ [o]) else Stop SIllFormed
  end.

(** A chain of modifier calls on some policy. *)
Fixpoint chain_from (os : list opt) (calls : list opt) : res (list opt) :=
  match calls with
  | [] => Ok os
  | o :: calls' => bindR (modifier os o) (fun os' => chain_from os' calls')
  end.

(** ... on vir::execution::simd (simd_execution.h:528). *)
Definition chain (calls : list opt) : res policy :=
  bindR (chain_from [] calls) (fun os => Ok (members os)).
