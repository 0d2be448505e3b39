(** Specification vocabulary for the algorithms of simd_execution.h.  Nothing here refers to the
    control flow of the model: only to memory contents, byte addresses and invocation logs. *)
From Verif Require Import Base ExecModel.
From Coq Require Import Sorted.

(** [l] is what the memory holds in [first,last). *)
Definition range_is {T} (m : mem T) (first last : Z) (l : list T) : Prop :=
  Z.of_nat (length l) = last - first /\
  forall i, (i < length l)%nat -> nth_error l i = m (first + Z.of_nat i).

Definition mapped {T} (m : mem T) (first last : Z) : Prop :=
  forall a, first <= a < last -> exists x, m a = Some x.

(** Exactly the elements of [first,last) replaced by their image under [g]. *)
Definition map_range {T} (g : T -> T) (m : mem T) (first last : Z) : mem T :=
  fun a => if (first <=? a) && (a <? last) then option_map g (m a) else m a.

(** All elements an invocation log shows, in order. *)
Definition seen {T} (tr : list (list (list T))) : list T := concat (concat tr).

(** Byte address of an element, and the alignment requirement of a k-element simd. *)
Definition address (c : cfg) (p : Z) : Z := c_base c + p * c_sz c.
Definition is_aligned (c : cfg) (p k : Z) : Prop := (c_malign c k | address c p).

(** The environment: either libstdc++'s rule for [memory_alignment] and naturally aligned
    elements, or vir's fallback rule. *)
Definition target_ok (c : cfg) : Prop :=
  0 < c_sz c /\
  ((address c 0 mod c_sz c = 0 /\ forall k, 0 < k -> c_malign c k = bit_ceil (k * c_sz c))
   \/ (forall k, 0 < k -> 0 < c_malign c k <= c_sz c)).

(** What every constructible policy satisfies (see C12). *)
Definition policy_ok (pol : policy) : Prop :=
  (p_aligned pol = true -> p_auto pol = false) /\ (p_aligned pol = true -> p_match pol = false)
  /\ (p_auto pol = true -> p_match pol = false).

Definition plain (pol : policy) : Prop := p_aligned pol = false /\ p_auto pol = false.

Definition width_ok (w : Z) : Prop := 1 <= w < 2 ^ 64.
Definition range_ok (first last : Z) : Prop := first <= last /\ last - first < 2 ^ 64.

(** The range reaches the next aligned address, if the policy insists on one; for
    auto_prologue, vectors are at most 4000 bytes. *)
Definition reaches_alignment (c : cfg) (pol : policy) (w first last : Z) : Prop :=
  (p_aligned pol = true -> 1 < w -> (exists e, 0 <= e /\ w * c_sz c = 2 ^ e) ->
   exists a, first <= a <= last /\ is_aligned c a w) /\
  (p_auto pol = true -> w * c_sz c <= 4000).

Definition size_matches (pol : policy) (w first last : Z) : Prop :=
  p_match pol = true -> exists n, last - first = n * w.

(** A callable gets simd objects: it can change their lanes, not the number of lanes. *)
Definition keeps_lanes {T St} (f : St -> list (list T) -> St * list (list T)) : Prop :=
  forall st ch, map (@length T) (snd (f st ch)) = map (@length T) ch.

(** The callable updates each lane with [g]. *)
Definition lanewise {T St} (g : T -> T) (f : St -> list (list T) -> St * list (list T)) : Prop :=
  forall st ch, snd (f st ch) = map (map g) ch.

(** The state the callable ends in, having seen a log, and what it left in its arguments. *)
Fixpoint state_after {T St} (f : St -> list (list T) -> St * list (list T)) (st : St)
         (tr : list (list (list T))) : St :=
  match tr with [] => st | x :: tr' => state_after f (fst (f st x)) tr' end.
Fixpoint left_behind {T St} (f : St -> list (list T) -> St * list (list T)) (st : St)
         (tr : list (list (list T))) : list (list (list T)) :=
  match tr with [] => [] | x :: tr' => snd (f st x) :: left_behind f (fst (f st x)) tr' end.

(** Shapes of the invocations: increasing powers of two, full-width calls (unrolled ones first),
    decreasing powers of two. *)
Definition shapes_ok {T} (w : nat) (unroll : nat) (tr : list (list (list T))) : Prop :=
  exists pre a b post,
    map (map (@length T)) tr
    = map (fun e => [Nat.pow 2 e]) pre ++ repeat (repeat w unroll) a ++ repeat [w] b
      ++ map (fun e => [Nat.pow 2 e]) post
    /\ StronglySorted lt pre /\ StronglySorted gt post
    /\ Forall (fun e => Nat.pow 2 e < w)%nat (pre ++ post)
    /\ (unroll <= 1 -> a = 0)%nat.
