(** Property theorems C78: the integer types of a given size, and loops at compile time. *)
From Verif Require Import Base DetailModel DetailSpec DetailProofs.
From Verif Require BitModel.

(** C78.  as_int<T> is the signed integer type of T's size with the greatest conversion rank, on every platform; *)
Theorem C78_as_int_iff :
  forall p t i, standard p -> (as_int p t = Some i <-> i_signed i = true /\ greatest p t (i_rank i)).
Proof.
  intros p t [r b] S. cbn. split.
  - intros H. destruct (as_int_some p t _ H) as [_ B]. cbn in B. subst b. split; [reflexivity|].
    now apply (as_int_greatest p t r S).
  - intros [-> G]. now apply (as_int_greatest p t r S).
Qed.
Print Assumptions C78_as_int_iff.

(** it exists exactly if there is a type of that size, whatever the sizes are; *)
Theorem C78_as_int_exists_iff :
  forall p t, (exists i, as_int p t = Some i) <-> exists r, size_is p r t.
Proof.
  intros p t. split.
  - intros [i H]. exists (i_rank i). exact (proj1 (as_int_some p t i H)).
  - intros [r H]. destruct (as_int p t) as [i|] eqn:E; [now exists i|].
    exfalso. exact (proj1 (as_int_none p t) E r H).
Qed.
Print Assumptions C78_as_int_exists_iff.

(** as_unsigned<T> exists for the same sizes, and is the unsigned counterpart. *)
Theorem C78_as_unsigned :
  forall p t, (as_unsigned p t = None <-> as_int p t = None)
    /\ forall i u, as_int p t = Some i -> as_unsigned p t = Some u -> i_rank u = i_rank i /\ i_signed u = false.
Proof.
  intros p t. rewrite as_unsigned_int. split.
  - destruct (as_int p t); cbn; split; congruence.
  - intros i u -> H. injection H as <-. split; reflexivity.
Qed.
Print Assumptions C78_as_unsigned.

(** The model of C36 (simd_float_ops.h 16-69) uses the types of a 64-bit platform. *)
Theorem C78_as_unsigned_bits :
  forall size, BitModel.as_unsigned size
    = match as_unsigned lp64 (Z.of_nat size) with Some _ => Some (8 * Z.of_nat size) | None => None end.
Proof. exact lp64_bits. Qed.
Print Assumptions C78_as_unsigned_bits.

(** unroll<n> calls its argument with 0, 1, ... n-1 in this order, and is well-formed exactly if n is not negative and
    within the limit of the compiler. *)
Theorem C78_unroll_iff :
  forall depth n is, unroll depth n 0 = Ok is <-> 0 <= n <= Z.of_nat depth /\ is = map Z.of_nat (seq 0 (Z.to_nat n)).
Proof. exact unroll_iff. Qed.
Print Assumptions C78_unroll_iff.

(** A 64-bit platform with __int128, and a 32-bit one without. *)
Example C78_case :
  standard lp64 /\ standard ilp32
  /\ as_int lp64 8 = Some (mkity LLong true) /\ as_unsigned lp64 4 = Some (mkity Int false)
  /\ as_int lp64 16 = Some (mkity I128 true) /\ as_unsigned lp64 12 = None
  /\ as_int ilp32 4 = Some (mkity Long true) /\ as_unsigned ilp32 16 = None
  /\ as_unsigned ilp32 1 = Some (mkity Char false)
  /\ unroll 900 4 0 = Ok [0; 1; 2; 3] /\ unroll 900 0 0 = Ok [] /\ unroll 3 4 0 = Stop SIllFormed
  /\ unroll 900 (-1) 0 = Stop SIllFormed.
Proof. split; [exact lp64_standard|]. split; [exact ilp32_standard|]. vm_compute. repeat split. Qed.
