(** Specification of the ABI tags (C46). *)
From Verif Require Import Base AbiModel.

(** Bytes of the vector registers for an element type. *)
Definition register_bytes (m : macros) (is_float : bool) : Z :=
  match m with
  | MAvx512 => 64
  | MAvx2 => 32
  | MAvx => if is_float then 32 else 16
  | MNone => 16
  end.

(** Number of bytes of all lanes. *)
Definition bytes (sz : Z) (a : abi) : Z := match a with AScalar => sz | AFixed n => n * sz end.
