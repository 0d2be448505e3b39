(** The scalar C++ integer operators as relations ([conv.prom], [expr.mul] to [expr.or]), for operands
    that already have the promoted type.  Of IntModel.v only the syntax is used. *)
From Verif Require Import Base IntModel.

Definition value_of (t : ity) (x : Z) : Prop :=
  if sgn t then - 2 ^ (bits t - 1) <= x < 2 ^ (bits t - 1) else 0 <= x < 2 ^ bits t.

(** [p] is the type of [t] after integral promotion: int if it represents all values. *)
Definition promotes_to (l : lang) (t p : ity) : Prop :=
  let int := mkity (l_int l) true in
  ((forall x, value_of t x -> value_of int x) -> p = int)
  /\ (~ (forall x, value_of t x -> value_of int x) -> p = t).

(** The mathematical result [m] is representable, or reduced modulo 2^w for unsigned types. *)
Definition arith (p : ity) (m r : Z) : Prop :=
  value_of p r /\ if sgn p then r = m else (2 ^ bits p | r - m).

(** Division truncates towards zero; the remainder has the sign of the dividend. *)
Definition divides_into (x y q r : Z) : Prop :=
  y <> 0 /\ x = q * y + r /\ Z.abs r < Z.abs y /\ (0 <= x -> 0 <= r) /\ (x <= 0 -> r <= 0).

Definition on_bits (f : bool -> bool -> bool) (p : ity) (x y r : Z) : Prop :=
  value_of p r /\ forall n, 0 <= n -> Z.testbit r n = f (Z.testbit x n) (Z.testbit y n).

(** x << y; before C++20 a signed x is non-negative and the result fits the unsigned type. *)
Definition shifted_left (l : lang) (p : ity) (x y r : Z) : Prop :=
  0 <= y < bits p /\ value_of p r /\ (2 ^ bits p | r - x * 2 ^ y)
  /\ (sgn p = true -> l_cxx20 l = false -> 0 <= x /\ x * 2 ^ y < 2 ^ bits p).

Definition shifted_right (p : ity) (x y r : Z) : Prop :=
  0 <= y < bits p /\ r * 2 ^ y <= x < (r + 1) * 2 ^ y.

Inductive scalar_bin (l : lang) (p : ity) (x y : Z) : binop -> Z -> Prop :=
| sb_add r : arith p (x + y) r -> scalar_bin l p x y Add r
| sb_sub r : arith p (x - y) r -> scalar_bin l p x y Sub r
| sb_mul r : arith p (x * y) r -> scalar_bin l p x y Mul r
| sb_div q r : divides_into x y q r -> value_of p q -> scalar_bin l p x y Div q
| sb_rem q r : divides_into x y q r -> value_of p q -> scalar_bin l p x y Rem r
| sb_and r : on_bits andb p x y r -> scalar_bin l p x y And r
| sb_or r : on_bits orb p x y r -> scalar_bin l p x y Or r
| sb_xor r : on_bits xorb p x y r -> scalar_bin l p x y Xor r
| sb_shl r : shifted_left l p x y r -> scalar_bin l p x y Shl r
| sb_shr r : shifted_right p x y r -> scalar_bin l p x y Shr r.

(** The comparisons. *)
Definition relation (o : cmpop) (x y : Z) : Prop :=
  match o with CEq => x = y | CNe => x <> y | CLt => x < y | CLe => x <= y | CGt => x > y | CGe => x >= y end.
