(** Specification for C76: the algorithms on the simd type of this library. *)
From Verif Require Import Base ExecModel TraitModel.

(** The alignment of k-element simds is the one of [stdx::memory_alignment] (simd.h 568-582) for some element
    type [e]; no type is aligned more strictly than its size. *)
Definition own_simd (c : cfg) : Prop :=
  exists alignof e, is_vectorizable e = true /\ 0 < alignof e <= c_sz c
    /\ forall k, 0 < k -> memory_alignment alignof (Simd e (if k =? 1 then AbiScalar else AbiFixed k)) e = Some (c_malign c k).

(** Two machines that differ in addresses only. *)
Definition same_elsewhere (c c' : cfg) : Prop := c_sz c = c_sz c' /\ c_osize c = c_osize c' /\ c_ce c = c_ce c'.

(** Two policies that differ in prefer_aligned and auto_prologue only. *)
Definition same_otherwise (p q : policy) : Prop :=
  p_match p = p_match q /\ p_unroll p = p_unroll q /\ p_size p = p_size q.
