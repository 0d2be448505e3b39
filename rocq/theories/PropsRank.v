(** Property theorems C22: the implicit conversions between simds against the rule of the TS. *)
From Verif Require Import Base AcceptModel AcceptSpec RankSpec RankProofs.

(** On every usual platform fixed_size simds convert implicitly exactly if the rule of the TS says so, except that
    long double does not convert to double (which the TS asks for where both have the same values). *)
Theorem C22_ts_rule_partial :
  forall d e f n, n <> 1%nat ->
    converts (dm_platform d) (Simd e n) (Simd f n) = true
    <-> e = f \/ (ts_implicit (dm_platform d) e f /\ ~ (e = LDouble /\ f = Double)).
Proof. exact ts_rule. Qed.
Print Assumptions C22_ts_rule_partial.

Theorem C22_ts_rule_refuted :
  exists d, ts_implicit (dm_platform d) LDouble Double
  /\ forall n, n <> 1%nat -> converts (dm_platform d) (Simd LDouble n) (Simd Double n) = false.
Proof. exact long_double_refuted. Qed.
Print Assumptions C22_ts_rule_refuted.

(** long to long long, not back; unsigned to long depends on the platform; char to unsigned char nowhere. *)
Example C22_ts_rule_cases :
  let lp64 := dm_platform (mkdm true true X87_16) in
  let llp64 := dm_platform (mkdm true false Binary64) in
  converts lp64 (Simd Long 4) (Simd LLong 4) = true /\ converts lp64 (Simd LLong 4) (Simd Long 4) = false
  /\ converts llp64 (Simd Int 4) (Simd Long 4) = true /\ converts llp64 (Simd Long 4) (Simd Int 4) = false
  /\ converts lp64 (Simd UInt 4) (Simd Long 4) = true /\ converts llp64 (Simd UInt 4) (Simd Long 4) = false
  /\ converts (dm_platform (mkdm false true Binary128)) (Simd Char 4) (Simd UChar 4) = false
  /\ (forall e, p_aty lp64 e = p_aty lp64_platform e) /\ (forall a b, p_sum lp64 a b = p_sum lp64_platform a b).
Proof. cbv zeta. repeat split. Qed.
