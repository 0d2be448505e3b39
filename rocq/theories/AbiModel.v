(** simd.h: the ABI tags and the type functions on them, 414-455 and 552-566, 584-621. *)
From Verif Require Import Base.

(** simd_abi::scalar, simd_abi::fixed_size<N>, 416-424 *)
Inductive abi := AScalar | AFixed (n : Z).

(** Which of the macros __AVX512F__, __AVX2__, __AVX__ is the first one defined. *)
Inductive macros := MAvx512 | MAvx2 | MAvx | MNone.

(** simd_abi::native<T>, 426-442.  The text between the macros is one expression followed by
    "/ sizeof(T)": in the third branch it reads [is_floating_point_v<T> ? 32 : 16 / sizeof(T)]. *)
Definition native (m : macros) (sz : Z) (is_float : bool) : abi :=
  if 8 <? sz then AScalar else
  AFixed match m with
         | MAvx512 => 64 / sz
         | MAvx2 => 32 / sz
         | MAvx => if is_float then 32 else 16 / sz
         | MNone => 16 / sz
         end.

(** simd_abi::compatible<T>, 444-447 *)
Definition compatible (sz : Z) : abi := if 8 <? sz then AScalar else AFixed (16 / sz).

(** The conversion int(N) of a size_t. *)
Definition to_int (n : Z) : Z := (n + 2147483648) mod 4294967296 - 2147483648.

(** simd_abi::deduce_t<T, N>, 449-454 *)
Definition deduce (n : Z) : abi := if n =? 1 then AScalar else AFixed (to_int n).

(** simd_size<T, Abi>, 552-566: the value is a size_t, a negative N is a narrowing conversion. *)
Definition simd_size (a : abi) : res Z :=
  match a with
  | AScalar => Ok 1
  | AFixed n => if n <? 0 then Stop SIllFormed else Ok n
  end.

(** A simd<T, Abi> or simd_mask<T, Abi> type. *)
Record vtype (E : Type) := mkvt { v_elem : E; v_abi : abi; v_mask : bool }.
Arguments mkvt {E} v_elem v_abi v_mask.
Arguments v_elem {E} v. Arguments v_abi {E} v. Arguments v_mask {E} v.

(** rebind_simd<T, V>, 584-598 *)
Definition rebind_simd {E} (t : E) (v : vtype E) : vtype E := mkvt t (v_abi v) (v_mask v).

(** resize_simd<N, V>, 600-621: incomplete unless N > 0. *)
Definition resize_simd {E} (n : Z) (v : vtype E) : res (vtype E) :=
  if 0 <? n then Ok (mkvt (v_elem v) (if n =? 1 then AScalar else AFixed n) (v_mask v)) else Stop SIllFormed.
