(** simd.h: access to the data array of the fallback simd<T, fixed_size<N>> (1524-1766), element type
    abstract.  A simd object is the list of its lanes; simd<T, scalar> (1232-1416) has one lane. *)
From Verif Require Import Base.

Section Lanes.
  Context {A : Type}.

  (** data[i], 1540 *)
  Definition lane (v : list A) (i : nat) : res A := of_option (nth_error v i).

  (** data[i] = x *)
  Fixpoint set_lane (v : list A) (i : nat) (x : A) : list A :=
    match v, i with
    | [], _ => [] | _ :: v', O => x :: v' | y :: v', S i' => y :: set_lane v' i' x
    end.

  (** data {init(SizeConstant<Is>())...}, 1552-1556: the generator is called for 0, 1, ... *)
  Definition gen (n : nat) (g : nat -> res A) : res (list A) := mapR g (seq 0 n).

  (** operator[], 1627-1641 and 1298-1312, with its precondition. *)
  Definition subscript (v : list A) (i : Z) : res A :=
    if (0 <=? i) && (i <? Z.of_nat (length v)) then lane v (Z.to_nat i) else Stop STrap.
End Lanes.

(** "for (int i = from; i < from + n; ++i) body" on a state. *)
Fixpoint loop {S} (i n : nat) (body : nat -> S -> res S) (s : S) : res S :=
  match n with O => Ok s | Datatypes.S n' => bindR (body i s) (loop (Datatypes.S i) n' body) end.
