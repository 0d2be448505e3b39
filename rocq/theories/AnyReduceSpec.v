(** Specification vocabulary for C74: transform_reduce with a transform operation that mixes lanes. *)
From Verif Require Import Base ExecModel ExecSpec TReduceSpec CallsSpec.

(** Given [n] chunks of k lanes, the operation returns k lanes. *)
Definition keeps_lanes {T A} (tr : list (list T) -> list A) (n : nat) : Prop :=
  forall k chunks, length chunks = n -> Forall (fun ch => Z.of_nat (length ch) = k) chunks ->
    Z.of_nat (length (tr chunks)) = k.

(** [vals] lists what the operation returns for the chunks, one after the other. *)
Definition chunk_values {T A} (tr : list (list T) -> list A) (m : mem T) (srcs : list Z) (w d n : Z)
    (vals : list A) : Prop :=
  Z.of_nat (length vals) = n /\
  forall p k, tr_chunk w d n p k -> exists ch, given m srcs p k ch /\ Z.of_nat (length (tr ch)) = k
    /\ forall i, (i < Z.to_nat k)%nat -> nth_error vals (Z.to_nat p + i) = nth_error (tr ch) i.

(** A predicate on chunks that returns a mask for the chunk. *)
Definition keeps_mask {T} (pred : list T -> list bool) : Prop := forall l, length (pred l) = length l.

(** The chunks are the elements at these places. *)
Definition chunks_at {T} (m : mem T) (first : Z) (ps : list (Z * Z)) (chunks : list (list T)) : Prop :=
  Forall2 (fun at_ ch => range_is m (first + fst at_) (first + fst at_ + snd at_) ch) ps chunks.

(** The number of true values in all the masks. *)
Definition true_values {T} (pred : list T -> list bool) (chunks : list (list T)) : Z :=
  Z.of_nat (length (filter (fun b => b) (concat (map pred chunks)))).
