(** Vocabulary for the exact extent of the prologue findings. *)
From Verif Require Import Base ExecModel ExecSpec.

(** libstdc++'s rule for [memory_alignment] and naturally aligned elements. *)
Definition libstdcxx_target (c : cfg) : Prop :=
  0 < c_sz c /\ address c 0 mod c_sz c = 0 /\ forall k, 0 < k -> c_malign c k = bit_ceil (k * c_sz c).

(** The vectors can be aligned at all, and the policy asks for it: prefer_aligned always,
    auto_prologue for more than 4000 bytes. *)
Definition aligns (c : cfg) (pol : policy) (w first last : Z) : Prop :=
  1 < w /\ (exists e, 0 <= e /\ w * c_sz c = 2 ^ e)
  /\ (p_aligned pol = true \/ (p_auto pol = true /\ 4000 < (last - first) * c_sz c)).

(** No element of the range, nor its end, is at an aligned address. *)
Definition no_aligned_address (c : cfg) (w first last : Z) : Prop :=
  forall a, first <= a <= last -> ~ is_aligned c a w.

(** The prologue leaves nothing for transform_reduce's main part: no element of the range is at an
    aligned address, and the policy asks for a prologue (auto_prologue also for few elements if it
    happens to end with the range). *)
Definition takes_all (c : cfg) (pol : policy) (w first last : Z) : Prop :=
  1 < w /\ (exists e, 0 <= e /\ w * c_sz c = 2 ^ e)
  /\ (p_aligned pol = true
      \/ (p_auto pol = true /\ (4000 < (last - first) * c_sz c \/ is_aligned c last w)))
  /\ forall a, first <= a < last -> ~ is_aligned c a w.
