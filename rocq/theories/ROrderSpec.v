(** Specification vocabulary for the order of evaluation in reduce(simd, op) (C82). *)
From Verif Require Import Base.

(** The operations answer without looking at the state. *)
Definition stateless2 {St X R : Type} (op : St -> X -> X -> St * R) : Prop := forall s s' x y, snd (op s x y) = snd (op s' x y).
Definition stateless1 {St X R : Type} (op : St -> X -> St * R) : Prop := forall s s' x, snd (op s x) = snd (op s' x).
