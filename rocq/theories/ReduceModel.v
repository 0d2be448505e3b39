(** Model of the horizontal reduction reduce(simd, op), vir/simd.h:2278-2307, of
    detail::bit_floor, vir/simd.h:231-240, and of the lane-wise application of a binary
    operation to two simd objects. *)
From Verif Require Import Base.

(** detail::bit_floor (simd.h:231-240): [do { r = x; x &= x - 1; } while (x);]; size_t
    arithmetic; one unit of fuel per iteration (a 64-bit value has at most 64 set bits). *)
Fixpoint bit_floor_loop (fuel : nat) (x : Z) : option Z :=
  match fuel with
  | O => None
  | S fuel' =>
    let x' := Z.land x ((x - 1) mod two64) in
    if x' =? 0 then Some x else bit_floor_loop fuel' x'
  end.
Definition bit_floor (x : Z) : option Z := bit_floor_loop 64 x.

Section Reduce.
  Context {T : Type}.
  Variable op : T -> T -> T.

  (** binary_op(l, r) on two simd objects of the same width. *)
  Fixpoint map2 (l r : list T) : list T :=
    match l, r with
    | x :: l', y :: r' => op x y :: map2 l' r'
    | _, _ => []
    end.

  (** reduce, simd.h:2278-2307.  [None]: ill-formed (no lanes) or fuel exhausted. *)
  Fixpoint reduce_fuel (fuel : nat) (v : list T) : option T :=
    match fuel with
    | O => None
    | S fuel' =>
      let n := Z.of_nat (length v) in
      if 3 <? n then
        match bit_floor (n / 2) with
        | None => None
        | Some n2z =>
          let n2 := Z.to_nat n2z in
          let l := firstn n2 v in
          let r := firstn n2 (skipn n2 v) in
          let rem := skipn (2 * n2) v in
          if 0 <? n - 2 * n2z then
            match reduce_fuel fuel' (map2 l r), reduce_fuel fuel' rem with
            | Some x, Some y => Some (op x y)
            | _, _ => None
            end
          else reduce_fuel fuel' (map2 l r)
        end
      else
        match v with
        | [] => None
        | x :: v' => Some (fold_left op v' x)
        end
    end.
  Definition reduce (v : list T) : option T := reduce_fuel (length v) v.
End Reduce.
