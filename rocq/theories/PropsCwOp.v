(** Property theorems C49. *)
From Verif Require Import Base CwOpModel CwOpProofs.

(** C49: if one operand is cw<...> (or derived from it) and the left one is not a wrapper or says what it wraps,
    the result is the wrapper of the result. *)
Theorem C49_binary_wraps_partial :
  forall op a b c, (o_base a = None \/ canonical a) -> ~ (o_base a = None /\ o_base b = None) ->
    op (o_value a) (o_value b) = Some c ->
    binary op a b = Wrapped (mkw (fst c) (snd c) (fst c)).
Proof. exact binary_wrapped. Qed.
Print Assumptions C49_binary_wraps_partial.

Theorem C49_single_candidate_partial :
  forall a b, (o_base a = None \/ canonical a) -> ~ (o_base a = None /\ o_base b = None) ->
    exists w, filter (lhs_wrapper a) (candidates a b) = [w].
Proof. exact single_candidate. Qed.
Print Assumptions C49_single_candidate_partial.

(** What is returned is always the result of the operator on the values. *)
Theorem C49_binary_value :
  forall op a b,
    (forall w, binary op a b = Wrapped w -> exists c, op (o_value a) (o_value b) = Some c /\ w = mkw (fst c) (snd c) (fst c))
    /\ (forall r, binary op a b = Plain r ->
          r = match op (o_value a) (o_value b) with Some c => Ok c | None => Stop SUB end).
Proof. exact binary_cases. Qed.
Print Assumptions C49_binary_value.

(** Exactly the ambiguous pairs. *)
Theorem C49_ambiguous_iff :
  forall op a b c, op (o_value a) (o_value b) = Some c ->
    (binary op a b = Ambiguous <->
     exists v w, o_base a = Some v /\ o_base b = Some w /\ v <> w /\ ~ canonical a).
Proof. exact binary_ambiguous_iff. Qed.
Print Assumptions C49_ambiguous_iff.

(** Finding: constexpr_wrapper<5, long> + cw<1> is ambiguous. *)
Theorem C49_explicit_type_refuted :
  exists op a b, o_base a <> None /\ o_base b <> None
    /\ (exists c, op (o_value a) (o_value b) = Some c) /\ binary op a b = Ambiguous.
Proof. exact explicit_refuted. Qed.
Print Assumptions C49_explicit_type_refuted.

(** Finding: cw<1> / cw<0> is not an error, but a division of two ints. *)
Theorem C49_undefined_refuted :
  exists a b, canonical a /\ canonical b /\ binary int_div a b = Plain (Stop SUB).
Proof. exact undefined_refuted. Qed.
Print Assumptions C49_undefined_refuted.

Example C49_instance :
  canonical (cw (4, 7)) /\ binary int_div (cw (4, 7)) (cw (2, 2)) = Wrapped (mkw 4 3 4)
  /\ binary int_div (integral_constant (4, 9)) (cw (2, 2)) = Wrapped (mkw 4 4 4)
  /\ binary int_div (cw (4, 7)) (integral_constant (2, 2)) = Wrapped (mkw 4 3 4)
  /\ binary int_div (cw (4, 7)) (cw (4, 7)) = Wrapped (mkw 4 1 4).
Proof. repeat split. Qed.
