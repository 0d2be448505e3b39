(** Specification vocabulary for simd_permute. *)
From Verif Require Import Base PermuteModel.

(** The documented meaning of an index: an element counted from the front, or (negative) from the
    back, zero, or an arbitrary value. *)
Definition valid_index (size j : Z) : Prop :=
  - size <= j < size \/ j = 2147483647 \/ j = 2147483646.

Definition selects {T} (zero : T) (v : list T) (j : Z) (r : lane T) : Prop :=
  (0 <= j < Z.of_nat (length v) -> r = Val (nth (Z.to_nat j) v zero)) /\
  (- Z.of_nat (length v) <= j < 0 -> r = Val (nth (Z.to_nat (Z.of_nat (length v) + j)) v zero)) /\
  (j = 2147483647 -> r = Val zero).

(** Sizes are representable and do not collide with the two special index values. *)
Definition size_ok {T} (v : list T) : Prop := 0 < Z.of_nat (length v) < 2147483646.

(** [r] has the [n] lanes [f 0], [f 1], ... *)
Definition lanes_are {T} (n : Z) (f : Z -> T) (r : list (lane T)) : Prop :=
  Z.of_nat (length r) = n /\ forall i, 0 <= i < n -> nth_error r (Z.to_nat i) = Some (Val (f i)).

(** The element at a lane index. *)
Definition at_lane {T} (zero : T) (v : list T) (i : Z) : T := nth (Z.to_nat i) v zero.

(** The compiler uses vpermpd: AVX2 and exactly 8 floats. *)
Definition is_avx2_case {T} (e : penv) (v : list T) : Prop :=
  e_avx2 e = true /\ e_float e = true /\ Z.of_nat (length v) * e_sizeof e = 32.

Definition pow2_size {T} (v : list T) : Prop := exists k, 0 <= k /\ Z.of_nat (length v) = 2 ^ k.

(** Offsets for which rotate<ofs> does what it says: int arithmetic does not overflow; a negative
    offset needs a power-of-two size; an even offset on the AVX2 path must lie in [0, 8]. *)
Definition rotation_supported {T} (e : penv) (v : list T) (ofs : Z) : Prop :=
  -2147483648 <= ofs /\ ofs + Z.of_nat (length v) <= 2147483648 /\
  (0 <= ofs \/ pow2_size v) /\
  (Z.rem ofs 2 = 0 -> is_avx2_case e v -> 0 <= ofs <= 8 /\ e_sizeof e = 4).

(** The index [j] that the permutation [f] gives for output lane [i] of an input with [size] lanes:
    of the unary call if there is one, otherwise of the call with the size. *)
Definition index_is (f : pfun) (size i j : Z) : Prop :=
  (exists g, pf_one f = Some g /\ g i = Ok j)
  \/ (pf_one f = None /\ exists g, pf_two f = Some g /\ g i size = Ok j).

(** The calls fail in no other way than as constant expressions do. *)
Definition constant_index (f : pfun) (size i : Z) : Prop :=
  (forall g s, pf_one f = Some g -> g i = Stop s -> s = SIllFormed)
  /\ (forall g s, pf_one f = None -> pf_two f = Some g -> g i size = Stop s -> s = SIllFormed).
