(** Specification for C66: the sequence of simd sizes the algorithms hand to a callable, as a
    function of the number of elements, the width, the unroll factor and the number of elements
    in front of the main loop. No definition below refers to the model's functions. *)
From Coq Require Import List ZArith Bool.
From Verif Require Import Base ExecModel ExecSpec.
Import ListNotations.
Open Scope Z_scope.

(** The places of the digits 1 of a 64-bit number, lowest first. *)
Definition digits (n : Z) : list nat := filter (fun i => Z.testbit n (Z.of_nat i)) (seq 0 64).

Definition power_chunk (i : nat) : list nat := [Nat.pow 2 i].

(** How many groups of [u] full chunks, and how many full chunks on their own, cover as much as
    possible of [m] elements. *)
Definition groups (w u m : Z) : nat := if 1 <? u then Z.to_nat (m / (w * u)) else 0%nat.
Definition singles (w u m : Z) : nat :=
  if 1 <? u then Z.to_nat (m mod (w * u) / w) else Z.to_nat (m / w).

(** [n] elements, [d] of them in front of the main loop: one inner list per invocation of the
    callable, with the number of lanes of each argument. *)
Definition schedule (w u d n : Z) : list (list nat) :=
  map power_chunk (digits d)
  ++ repeat (repeat (Z.to_nat w) (Z.to_nat u)) (groups w u (n - d))
  ++ repeat [Z.to_nat w] (singles w u (n - d))
  ++ map power_chunk (rev (digits ((n - d) mod w))).

(** The distance from [first] to the next address aligned for a full chunk. *)
Definition next_aligned (c : cfg) (w first d : Z) : Prop :=
  0 <= d /\ is_aligned c (first + d) w
  /\ forall e, 0 <= e -> is_aligned c (first + e) w -> d <= e.

(** Full chunks that occupy a power of two of bytes and are aligned to their size. *)
Definition can_align (c : cfg) (w : Z) : Prop :=
  1 < w /\ (exists e, 0 <= e /\ w * c_sz c = 2 ^ e) /\ c_malign c w = w * c_sz c.

(** The condition under which auto_prologue goes for the aligned main loop: more than 4000
    bytes, or a prologue of [d] elements that costs no invocation the epilogue would not have. *)
Definition worth (c : cfg) (n d : Z) : Prop :=
  4000 < (n * c_sz c) mod 2 ^ 64 \/ forall i, Z.testbit d i = true -> Z.testbit n i = true.

Definition prologue_length (c : cfg) (pol : policy) (w first n d : Z) : Prop :=
  (can_align c w /\ next_aligned c w first d
   /\ (p_aligned pol = true \/ (p_auto pol = true /\ worth c n d)))
  \/ (d = 0
      /\ (~ can_align c w
          \/ (p_aligned pol = false
              /\ (p_auto pol = true -> forall e, next_aligned c w first e -> ~ worth c n e)))).
