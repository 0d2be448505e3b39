(** Specification vocabulary for vir::transform_reduce and vir::reduce. *)
From Verif Require Import Base ExecModel ExecSpec.

(** Called with [n] chunks of [k] elements each, [tr] applies the element operation [g] lane by lane. *)
Definition transforms_at {T A} (g : list T -> A) (tr : list (list T) -> list A) (n : nat)
           (k : Z) : Prop :=
  forall chunks, length chunks = n -> Forall (fun ch => Z.of_nat (length ch) = k) chunks ->
    Z.of_nat (length (tr chunks)) = k /\
    forall i args, Forall2 (fun ch x => nth_error ch i = Some x) chunks args ->
                   nth_error (tr chunks) i = Some (g args).

(** [vals] lists the transformed elements g(x_0,y_0,...), ..., g(x_(n-1),y_(n-1),...). *)
Definition transformed_are {T A} (g : list T -> A) (m : mem T) (srcs : list Z) (n : Z)
           (vals : list A) : Prop :=
  Z.of_nat (length vals) = n /\
  forall i, 0 <= i < n ->
    exists args, Forall2 (fun p x => m (p + i) = Some x) srcs args
                 /\ nth_error vals (Z.to_nat i) = Some (g args).

(** Whenever the policy runs a prologue, something is left after it: with prefer_aligned an
    aligned address lies inside the range, with auto_prologue the first one is not the end. *)
Definition prologue_room (c : cfg) (pol : policy) (w first last : Z) : Prop :=
  (p_aligned pol = true -> 1 < w -> (exists e, 0 <= e /\ w * c_sz c = 2 ^ e) ->
   exists a, first <= a < last /\ is_aligned c a w) /\
  (p_auto pol = true -> w * c_sz c <= 4000 /\
   (is_aligned c last w -> exists a, first <= a < last /\ is_aligned c a w)).

(** The chunks of a run over [n] elements, [d] of them in front of the main part: position and number of lanes.
    One for each binary digit of [d], full ones, and one for each binary digit of what is left. *)
Definition tr_chunk (w d n p k : Z) : Prop :=
  (exists i, 0 <= i /\ Z.testbit d i = true /\ p = d mod 2 ^ i /\ k = 2 ^ i)
  \/ (k = w /\ d <= p /\ (w | p - d) /\ p + w <= n)
  \/ (exists i, 0 <= i /\ Z.testbit ((n - d) mod w) i = true /\ p = n - ((n - d) mod w) mod 2 ^ (i + 1) /\ k = 2 ^ i).
