(** Model of vir/simd_permute.h.  A simd is the list of its lanes. *)
From Verif Require Import Base.

Definition int_min : Z := - 2 ^ 31.
Definition int_ok (x : Z) : bool := (int_min <=? x) && (x <? 2 ^ 31).
(** Conversion to unsigned and back to int (two's complement). *)
Definition u32 (x : Z) : Z := x mod 2 ^ 32.
Definition i32 (x : Z) : Z := (x + 2 ^ 31) mod 2 ^ 32 - 2 ^ 31.
(** int arithmetic in a constant expression: overflow makes the program ill-formed. *)
Definition int_ce (x : Z) : res Z := if int_ok x then Ok x else Stop SIllFormed.

(** simd_permute.h:51-55. *)
Definition permute_zero : Z := 2 ^ 31 - 1.
Definition permute_uninit : Z := permute_zero - 1.

(** An index permutation function (concepts 29-48): callable with the lane index, or with the
    lane index and the size; the result already converted to int.  [pf_rot] holds
    (is_even_rotation, Offset) if these members exist. *)
Record pfun := mkpf {
  pf_one : option (Z -> res Z);
  pf_two : option (Z -> Z -> res Z);
  pf_rot : option (bool * Z)
}.

(** The call idx_perm(i) / idx_perm(i, size), 217-222 and 252-257: the unary form is preferred. *)
Definition call_idx (f : pfun) (size i : Z) : res Z :=
  match pf_one f with
  | Some g => g i
  | None => match pf_two f with Some g => g i size | None => Stop SIllFormed end
  end.

(** DuplicateEven, 66-71. *)
Definition duplicate_even : pfun :=
  mkpf (Some (fun i => Ok (i32 (Z.land (u32 i) (u32 (Z.lnot 1)))))) None None.
(** DuplicateOdd, 76-81. *)
Definition duplicate_odd : pfun :=
  mkpf (Some (fun i => Ok (i32 (Z.lor (u32 i) 1)))) None None.
(** SwapNeighbors<N>, 86-101. *)
Definition swap_neighbors (N : Z) : pfun :=
  mkpf None (Some (fun i size =>
    if (u32 (2 * N) =? 0) || negb (size mod u32 (2 * N) =? 0) then Stop SIllFormed
    else if has_single_bit N then Ok (i32 (Z.lxor (u32 i) N))
    else if N <=? u32 i mod u32 (2 * N) then Ok (i32 (u32 (u32 i - N)))
    else Ok (i32 (u32 (u32 i + N))))) None.
(** Broadcast<Position>, 111-117. *)
Definition broadcast (pos : Z) : pfun := mkpf (Some (fun _ => Ok pos)) None None.
(** Reverse, 129-134. *)
Definition reverse : pfun := mkpf (Some (fun i => int_ce (-1 - i))) None None.
(** Rotate<O>, 139-148; [size.value] is a std::size_t, so the int operand of % is converted to
    std::size_t first. *)
Definition rotate (ofs : Z) : pfun :=
  mkpf None (Some (fun i size => bindR (int_ce (i + ofs)) (fun s =>
    if size =? 0 then Stop SIllFormed else Ok (i32 ((s mod two64) mod size)))))
    (Some (Z.rem ofs 2 =? 0, ofs)).
(** Shift<Offset>, 154-166. *)
Definition shift (ofs : Z) : pfun :=
  mkpf None (Some (fun i size => bindR (int_ce (i + ofs)) (fun j =>
    Ok (if 0 <=? ofs then (if size <=? j then permute_zero else j)
        else (if j <? 0 then permute_zero else j))))) None.

(** A result lane; [Any] is an indeterminate value. *)
Inductive lane (T : Type) := Val (x : T) | Any.
Arguments Val {T} x.
Arguments Any {T}.

(** The lanes as a value, if none is indeterminate. *)
Definition lane_val {T} (l : lane T) : option T := match l with Val x => Some x | Any => None end.

Section Permute.
  Context {T : Type}.
  Variable zero : T.

  (** One lane on the generic path, 251-275. *)
  Definition generic_lane (f : pfun) (v : list T) (i : Z) : res (lane T) :=
    let size := Z.of_nat (length v) in
    bindR (call_idx f size i) (fun j =>
    if j =? permute_zero then Ok (Val zero)
    else if j =? permute_uninit then Ok Any
    else if j <? 0 then
      (* static_assert(-j <= int(V::size())); v[v.size() + j] *)
      bindR (int_ce (- j)) (fun mj =>
      if mj <=? size then match nth_error v (Z.to_nat (size + j)) with Some x => Ok (Val x) | None => Stop SUB end
      else Stop SIllFormed)
    else if j <? size then match nth_error v (Z.to_nat j) with Some x => Ok (Val x) | None => Stop SUB end
         else Stop SIllFormed).

  Definition lanes_of (n : Z) : list Z := map Z.of_nat (seq 0 (Z.to_nat n)).

  Definition permute_generic (f : pfun) (v : list T) (n : Z) : res (list (lane T)) :=
    mapR (generic_lane f v) (lanes_of n).

  (** adj_idx, 223-239. *)
  Definition adj_idx (size j : Z) : res Z :=
    if j =? permute_zero then Ok size
    else if j =? permute_uninit then Ok (-1)
    else if j <? 0 then
      bindR (int_ce (- j)) (fun mj => if mj <=? size then Ok (size + j) else Stop SIllFormed)
    else if j <? size then Ok j else Stop SIllFormed.

  (** __builtin_shufflevector(a, b, idx) with one index: the concatenation of a and b, -1 for an
      arbitrary value, anything else rejected. *)
  Definition shuffle_lane (a b : list T) (j : Z) : res (lane T) :=
    if j =? -1 then Ok Any
    else if (0 <=? j) && (j <? Z.of_nat (length a + length b))
    then match nth_error (a ++ b) (Z.to_nat j) with Some x => Ok (Val x) | None => Stop SUB end
    else Stop SIllFormed.

  (** The shuffle path, 208-247, for unpadded vectors (as many slots as lanes). *)
  Definition permute_shuffle (f : pfun) (v : list T) (n : Z) : res (list (lane T)) :=
    let size := Z.of_nat (length v) in
    mapR (fun i => bindR (call_idx f size i) (fun j =>
                   bindR (adj_idx size j) (fun j' =>
                   shuffle_lane v (repeat zero (length v)) j'))) (lanes_of n).

  (** The AVX2 path, 189-206: 8 floats seen as 4 doubles, i.e. as 4 pairs.
      __builtin_ia32_permdf256 needs an 8-bit immediate. *)
  Definition permdf256_control (ofs : Z) : Z :=
    let q := Z.quot ofs 2 in
    Z.lor (Z.lor (Z.lor q (Z.shiftl (Z.rem (q + 1) 4) 2)) (Z.shiftl (Z.rem (q + 2) 4) 4))
          (Z.shiftl (Z.rem (q + 3) 4) 6).

  Definition permdf256 (v : list T) (control : Z) : res (list (lane T)) :=
    if (0 <=? control) && (control <=? 255) then
      mapR (fun i => let pair := Z.land (Z.shiftr control (2 * (i / 2))) 3 in
                     match nth_error v (Z.to_nat (2 * pair + i mod 2)) with
                     | Some x => Ok (Val x) | None => Stop SUB end) (lanes_of 8)
    else Stop SIllFormed.

  (** What the dispatch looks at: GCC-compatible compiler, constant evaluation, AVX2 enabled,
      working __builtin_shufflevector, [T] is float, native_simd<T>::size(), sizeof(T).
      All vectors are unpadded and trivially copyable. *)
  Record penv := mkpenv {
    e_gnuc : bool; e_ce : bool; e_avx2 : bool; e_shuffle : bool; e_float : bool;
    e_native : Z; e_sizeof : Z
  }.

  (** simd_permute<N>, 173-276; [n] is R::size(). *)
  Definition simd_permute (e : penv) (f : pfun) (v : list T) (n : Z) : res (list (lane T)) :=
    let size := Z.of_nat (length v) in
    let sizeof_V := size * e_sizeof e in
    if e_gnuc e && negb (e_ce e) && has_single_bit sizeof_V && (size <=? e_native e) then
      if e_avx2 e && e_float e && (sizeof_V =? 32)
         && match pf_rot f with Some (even, _) => even | None => false end
      then match pf_rot f with
           | Some (_, ofs) =>
             if n * e_sizeof e =? 32 then permdf256 v (permdf256_control ofs) else Stop SIllFormed
           | None => Stop SIllFormed
           end
      else if e_shuffle e && has_single_bit (n * e_sizeof e) then permute_shuffle f v n
      else permute_generic f v n
    else permute_generic f v n.

  (** Scalar overload, 278-308, for N <= 1. *)
  Definition permute_scalar (f : pfun) (x : T) : res (lane T) :=
    bindR (call_idx f 1 0) (fun j =>
    if j =? permute_zero then Ok (Val zero)
    else if j =? permute_uninit then Ok Any
    else if (j =? 0) || (j =? -1) then Ok (Val x) else Stop SIllFormed).

  (** simd_shift_in<Offset>(a, more...), 310-331; [vs] is a, more... *)
  Definition shift_in_lane (ofs : Z) (a : list T) (more : list (list T)) (i : Z) : res T :=
    let w := Z.of_nat (length a) in
    let ninputs := 1 + Z.of_nat (length more) in
    bindR (int_ce (ofs + i)) (fun j =>
    bindR (int_ce (w * ninputs)) (fun total =>
    if total <=? j then Ok zero
    else if 0 <=? j then
      match nth_error (a :: more) (Z.to_nat (j / w)) with
      | Some u => match nth_error u (Z.to_nat (j mod w)) with Some x => Ok x | None => Stop SUB end
      | None => Stop SUB
      end
    else if j <? - w then Ok zero
    else match nth_error a (Z.to_nat (w + j)) with Some x => Ok x | None => Stop SUB end)).

  Definition shift_in (ofs : Z) (a : list T) (more : list (list T)) : res (list T) :=
    mapR (shift_in_lane ofs a more) (lanes_of (Z.of_nat (length a))).
End Permute.
