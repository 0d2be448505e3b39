(** Specification: conditions that [where] takes (C56). *)
From Verif Require Import Base OverloadModel.

(** [k] is a mask for [v]: of its mask type, or of another element type with the same fixed_size. *)
Definition mask_for (k : cond) (v : vtype) : Prop :=
  match v with
  | VSimd t a | VMask t a => k = CMask t a \/ exists u n, a = AFixed n /\ k = CMask u a
  | VOther _ => False
  end.

Definition is_simd (v : vtype) : Prop := exists t a, v = VSimd t a.

(** Arithmetic types and enumerations. *)
Definition arithmetic (s : scalar) : Prop := s = SBool \/ s = SInt \/ s = SSmall \/ s = SArith.
