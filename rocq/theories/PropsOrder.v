(** Property theorems C69: the grouping of vir::transform_reduce and vir::reduce. *)
From Verif Require Import Base ExecModel ExecSpec ExecExamples TransformModel ReduceModel ReduceSpec
  TReduceModel TReduceSpec TReduceExamples ScheduleSpec OrderSpec OrderThm OrderExamples.

(** Any operation, associative or not: the result is the expression [grouped] of the elements.
    (Nothing left after the prologue: C08.) *)
Theorem C69_grouping :
  forall (T A : Type) (g : list T -> A) (tr : list (list T) -> list A) (op : A -> A -> A)
         c pol w first last srcs2 (m : mem T) vals init d,
    target_ok c -> c_ce c = false -> policy_ok pol -> width_ok w -> range_ok first last ->
    size_matches pol w first last ->
    prologue_length c pol w first (last - first) d -> (first = last \/ d < last - first) ->
    (forall k, 0 < k -> transforms_at g tr (S (length srcs2)) k) ->
    transformed_are g m (first :: srcs2) (last - first) vals ->
    transform_reduce c op tr m pol w first last srcs2 init
    = Ok (grouped op (Z.to_nat w) (Z.to_nat (p_unroll pol)) d init vals).
Proof. exact @transform_reduce_order. Qed.
Print Assumptions C69_grouping.

Theorem C69_grouping_reduce :
  forall (T : Type) (op : T -> T -> T) c pol w first last (m : mem T) l init d,
    target_ok c -> c_ce c = false -> policy_ok pol -> width_ok w -> range_ok first last ->
    size_matches pol w first last ->
    prologue_length c pol w first (last - first) d -> (first = last \/ d < last - first) ->
    range_is m first last l ->
    reduce_alg c op m pol w first last init
    = Ok (grouped op (Z.to_nat w) (Z.to_nat (p_unroll pol)) d init l).
Proof. exact @reduce_alg_order. Qed.
Print Assumptions C69_grouping_reduce.

(** There always is such a number of elements in front of the main loop (only one, by C66). *)
Theorem C69_prologue_length_exists :
  forall c pol w first n, target_ok c -> width_ok w -> exists d, prologue_length c pol w first n d.
Proof. exact prologue_length_exists. Qed.
Print Assumptions C69_prologue_length_exists.

(** Without prefer_aligned and auto_prologue, neither the addresses nor the element size matter. *)
Theorem C69_grouping_plain :
  forall (T A : Type) (g : list T -> A) (tr : list (list T) -> list A) (op : A -> A -> A)
         c pol w first last srcs2 (m : mem T) vals init,
    target_ok c -> c_ce c = false -> plain pol -> width_ok w -> range_ok first last ->
    size_matches pol w first last ->
    (forall k, 0 < k -> transforms_at g tr (S (length srcs2)) k) ->
    transformed_are g m (first :: srcs2) (last - first) vals ->
    transform_reduce c op tr m pol w first last srcs2 init
    = Ok (grouped op (Z.to_nat w) (Z.to_nat (p_unroll pol)) 0 init vals).
Proof. exact @transform_reduce_order_plain. Qed.
Print Assumptions C69_grouping_plain.

(** Two runs on the same values agree, whatever the types, targets, addresses and other policies. *)
Theorem C69_reproducible :
  forall (T1 T2 A : Type) (op : A -> A -> A)
         (g1 : list T1 -> A) tr1 c1 pol1 first1 last1 srcs1 (m1 : mem T1)
         (g2 : list T2 -> A) tr2 c2 pol2 first2 last2 srcs2 (m2 : mem T2) w vals init d,
    target_ok c1 -> c_ce c1 = false -> policy_ok pol1 -> range_ok first1 last1 ->
    size_matches pol1 w first1 last1 ->
    target_ok c2 -> c_ce c2 = false -> policy_ok pol2 -> range_ok first2 last2 ->
    size_matches pol2 w first2 last2 ->
    width_ok w -> p_unroll pol1 = p_unroll pol2 ->
    prologue_length c1 pol1 w first1 (last1 - first1) d ->
    prologue_length c2 pol2 w first2 (last2 - first2) d ->
    (first1 = last1 \/ d < last1 - first1) ->
    (forall k, 0 < k -> transforms_at g1 tr1 (S (length srcs1)) k) ->
    (forall k, 0 < k -> transforms_at g2 tr2 (S (length srcs2)) k) ->
    transformed_are g1 m1 (first1 :: srcs1) (last1 - first1) vals ->
    transformed_are g2 m2 (first2 :: srcs2) (last2 - first2) vals ->
    transform_reduce c1 op tr1 m1 pol1 w first1 last1 srcs1 init
    = transform_reduce c2 op tr2 m2 pol2 w first2 last2 srcs2 init.
Proof. exact @transform_reduce_reproducible. Qed.
Print Assumptions C69_reproducible.

(** What the expression is for whole chunks without unrolling: each lane adds up its column from
    top to bottom, then the lanes are combined, and the initial value comes in front. *)
Theorem C69_columns :
  forall (A : Type) (op : A -> A -> A) w u init (vals : list A) q,
    (1 <= w)%nat -> (u <= 1)%nat -> (1 <= q)%nat -> length vals = (q * w)%nat ->
    grouped op w u 0 init vals
    = op init (across op init (map (fun i => fold1 op init (column vals w q i init)) (seq 0 w))).
Proof. exact @grouped_columns. Qed.
Print Assumptions C69_columns.

Theorem C69_one_lane :
  forall (A : Type) (op : A -> A -> A) u init (x : A) (l : list A), (u <= 1)%nat ->
    grouped op 1 u 0 init (x :: l) = op init (fold_left op l x).
Proof. exact @grouped_scalar. Qed.
Print Assumptions C69_one_lane.

(** 45 elements in lanes of eight, two accumulators, five elements in front; and a free operation
    on seven elements in lanes of three: the third lane, an epilogue of one element. *)
Example C69_instance :
  ex_run 12 (pol_aligned_unroll 2) 8 45 = Ok (grouped Node 8 2 5 (Leaf 0) (ex_leaves 45))
  /\ ex_run 12 (pol_aligned_unroll 2) 8 45 <> Ok (grouped Node 8 2 0 (Leaf 0) (ex_leaves 45))
  /\ prologue_length (ex_cfg 12 false false) (pol_aligned_unroll 2) 8 0 45 5
  /\ transforms_at (fun args => Leaf (hd 0 args)) (fun ch => map Leaf (hd [] ch)) 1 8
  /\ ex_run 4 pol0 3 7 = Ok (grouped Node 3 0 0 (Leaf 0) (ex_leaves 7))
  /\ grouped Node 3 0 0 (Leaf 0) (ex_leaves 7)
     = Node (Node (Leaf 0) (Node (Leaf 102) (Leaf 105)))
            (Node (Node (Node (Leaf 100) (Leaf 103)) (Node (Leaf 101) (Leaf 104))) (Leaf 106))
  /\ grouped Node 2 0 0 (Leaf 0) (ex_leaves 4)
     = Node (Leaf 0) (Node (Node (Leaf 100) (Leaf 102)) (Node (Leaf 101) (Leaf 103))).
Proof.
  split; [vm_compute; reflexivity|]. split; [vm_compute; discriminate|]. split; [exact ex_length|].
  split; [apply ex_transforms|]. repeat split; vm_compute; reflexivity.
Qed.

(** Findings: for an operation that is not associative the result depends on more than the elements
    and the policy: constant evaluation (from left to right, C07) gives another result than run time, *)
Theorem C69_consteval_same_refuted :
  exists c1 c2 pol w first last (m : mem Z) l x y,
    target_ok c1 /\ target_ok c2 /\ c_ce c1 = false /\ c_ce c2 = true /\ plain pol /\ width_ok w
    /\ range_ok first last /\ range_is m first last l
    /\ reduce_alg c1 Z.sub m pol w first last 0 = Ok x
    /\ reduce_alg c2 Z.sub m pol w first last 0 = Ok y /\ x <> y.
Proof. exact consteval_order_refuted. Qed.
Print Assumptions C69_consteval_same_refuted.

(** and with prefer_aligned the same elements give another result at another address. *)
Theorem C69_same_at_every_address_refuted :
  exists c1 c2 pol w first last (m : mem Z) l x y,
    target_ok c1 /\ target_ok c2 /\ c_ce c1 = false /\ c_ce c2 = false /\ c_sz c1 = c_sz c2
    /\ policy_ok pol /\ width_ok w
    /\ range_ok first last /\ range_is m first last l
    /\ reduce_alg c1 Z.sub m pol w first last 0 = Ok x
    /\ reduce_alg c2 Z.sub m pol w first last 0 = Ok y /\ x <> y.
Proof. exact alignment_order_refuted. Qed.
Print Assumptions C69_same_at_every_address_refuted.

(** Unrolling changes it, too. *)
Theorem C69_same_for_every_unroll_refuted :
  exists c pol1 pol2 w first last (m : mem Z) l x y,
    target_ok c /\ c_ce c = false /\ plain pol1 /\ plain pol2 /\ p_unroll pol1 = 0 /\ p_unroll pol2 = 2
    /\ width_ok w /\ range_ok first last /\ range_is m first last l
    /\ reduce_alg c Z.sub m pol1 w first last 0 = Ok x
    /\ reduce_alg c Z.sub m pol2 w first last 0 = Ok y /\ x <> y.
Proof. exact unroll_order_refuted. Qed.
Print Assumptions C69_same_for_every_unroll_refuted.
