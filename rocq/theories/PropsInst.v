(** Property theorems C71: the calls a callable has to support. *)
From Verif Require Import Base ExecModel ExecSpec ExecThm TransformModel TransformSpec ThrowModel CallsModel CallsSpec
  TReduceModel TReduceSpec ScheduleSpec CountModel AcceptModel AcceptSpec AcceptProofs InstModel InstSpec InstCallsSpec
  InstProofs AnyReduceSpec InstCalls.
#[local] Open Scope nat_scope.

(** C71.  A callable that supports the documented calls is enough, for transform and transform_reduce exactly if the
    policy does not assume matching sizes (or has one lane), *)
Theorem C71_transform_enough_iff :
  forall p t c, policy_fits c ->
    ((forall ok, (forall n, announced_width c n -> ok n = true) ->
       well_formed (transform_sites p t (of_widths t ok) c) = true)
     <-> c_size c = 1 \/ c_matching c = false).
Proof. exact transform_enough_iff. Qed.
Print Assumptions C71_transform_enough_iff.

Theorem C71_transform_reduce_enough_iff :
  forall p t c, policy_fits c ->
    ((forall ok1 ok2, (forall n, announced_width c n -> ok1 n = true /\ ok2 n = true) ->
       well_formed (transform_reduce_sites p t (of_widths t ok1) (reduce_of_widths t ok2 true) c) = true)
     <-> c_size c = 1 \/ c_matching c = false).
Proof. exact transform_reduce_enough_iff. Qed.
Print Assumptions C71_transform_reduce_enough_iff.

(** for for_each and count_if only from 32 lanes on. *)
Theorem C71_for_each_enough_iff :
  forall osize c, policy_fits c ->
    ((forall f, (forall k n, announced c k n -> f k n = true) -> for_each_compiles osize c f = true)
     <-> c_size c = 1 \/ (c_matching c = false /\ 32 <= c_size c)).
Proof. exact for_each_enough_iff. Qed.
Print Assumptions C71_for_each_enough_iff.

Theorem C71_count_if_enough_iff :
  forall osize c, policy_fits c ->
    ((forall pred, (forall n, announced_width c n -> pred n = true) -> count_if_compiles osize c pred = true)
     <-> c_size c = 1 \/ (c_matching c = false /\ 32 <= c_size c)).
Proof. exact count_if_enough_iff. Qed.
Print Assumptions C71_count_if_enough_iff.

(** So the claim is false, without assume_matching_size: for_each with a policy of 4 lanes. *)
Theorem C71_wider_refuted :
  exists c f, policy_fits c /\ c_matching c = false
    /\ (forall k n, announced c k n -> f k n = true) /\ for_each_compiles false c f = false.
Proof.
  exists (mkconfig 4 1 false None), (fun _ n => Nat.leb n 4). split; [|split; [reflexivity|split] ].
  - repeat split; cbn; try lia; discriminate.
  - intros k n [[-> _]|(_ & _ & L & _)]; apply Nat.leb_le; cbn in *; lia.
  - vm_compute. reflexivity.
Qed.
Print Assumptions C71_wider_refuted.

(** And with it, in every policy and for every algorithm: a callable for the one simd type does not compile. *)
Theorem C71_matching_refuted :
  forall osize p t c f ok, policy_fits c -> c_matching c = true -> 1 < c_size c -> f 1 1 = false -> ok 1 = false ->
    for_each_compiles osize c f = false
    /\ count_if_compiles osize c ok = false
    /\ well_formed (transform_sites p t (of_widths t ok) c) = false
    /\ (forall reduce_op, well_formed (transform_reduce_sites p t (of_widths t ok) reduce_op c) = false)
    /\ (forall ok1 el, well_formed (transform_reduce_sites p t (of_widths t ok1) (reduce_of_widths t ok el) c) = false).
Proof.
  intros osize p t c f ok F M N A B. repeat split; try intros r; try intros el; apply not_true_iff_false; intros H.
  - apply (for_each_iff osize c f F) in H as (_ & _ & H). specialize (H N 0 ltac:(left; cbn; lia)).
    change (Nat.pow 2 0) with 1 in H. congruence.
  - apply (count_if_iff osize c ok F) in H as (_ & H). specialize (H N 0 ltac:(left; cbn; lia)).
    change (Nat.pow 2 0) with 1 in H. congruence.
  - apply (transform_widths_iff p t ok c F) in H as (_ & H & _). congruence.
  - unfold transform_reduce_sites in H. apply wf_app in H as [H _]. cbn [well_formed forallb snd] in H.
    unfold of_widths in H. rewrite B in H. discriminate.
  - apply (transform_reduce_widths_iff p t r ok el c F) in H as (_ & _ & _ & H & _). congruence.
Qed.
Print Assumptions C71_matching_refuted.

(** The calls that have to be possible, exactly: for_each, *)
Theorem C71_for_each_iff :
  forall osize c f, policy_fits c ->
    (for_each_compiles osize c f = true
     <-> f 1 (c_size c) = true /\ (1 < c_unroll c -> f (c_unroll c) (c_size c) = true)
         /\ (1 < c_size c -> forall j, Nat.pow 2 j <= 32 \/ Nat.pow 2 j < c_size c -> f 1 (Nat.pow 2 j) = true)).
Proof. exact for_each_iff. Qed.
Print Assumptions C71_for_each_iff.

(** count_if, *)
Theorem C71_count_if_iff :
  forall osize c pred, policy_fits c ->
    (count_if_compiles osize c pred = true
     <-> pred (c_size c) = true
         /\ (1 < c_size c -> forall j, Nat.pow 2 j <= 32 \/ Nat.pow 2 j < c_size c -> pred (Nat.pow 2 j) = true)).
Proof. exact count_if_iff. Qed.
Print Assumptions C71_count_if_iff.

(** transform, *)
Theorem C71_transform_iff :
  forall p t ok c, policy_fits c ->
    (well_formed (transform_sites p t (of_widths t ok) c) = true
     <-> ok (c_size c) = true /\ ok 1 = true
         /\ (forall k j, c_prologue c = Some k -> j < k -> ok (Nat.pow 2 j) = true)
         /\ (c_matching c = false -> forall j, Nat.pow 2 j < c_size c -> ok (Nat.pow 2 j) = true)).
Proof. exact transform_widths_iff. Qed.
Print Assumptions C71_transform_iff.

(** and both callables of transform_reduce; reduce_op is also called with two elements. *)
Theorem C71_transform_reduce_iff :
  forall p t ok1 ok2 el c, policy_fits c ->
    (well_formed (transform_reduce_sites p t (of_widths t ok1) (reduce_of_widths t ok2 el) c) = true
     <-> ok1 (c_size c) = true /\ ok2 (c_size c) = true /\ ok1 1 = true /\ ok2 1 = true
         /\ (forall j, Nat.pow 2 j < c_size c -> ok1 (Nat.pow 2 j) = true /\ ok2 (Nat.pow 2 j) = true)
         /\ (1 < c_size c -> el = true)).
Proof. exact transform_reduce_widths_iff. Qed.
Print Assumptions C71_transform_reduce_iff.

(** Optimising for size does not change what for_each demands. *)
Theorem C71_optimize_size :
  forall c f, policy_fits c -> for_each_compiles true c f = for_each_compiles false c f.
Proof.
  intros c f F. apply eq_iff_eq_true. rewrite !(for_each_iff _ c f F). reflexivity.
Qed.
Print Assumptions C71_optimize_size.

(** All calls for_each makes (under the preconditions of C11) are announced, *)
Theorem C71_for_each_announced :
  forall (T St : Type) (f : St -> list (list T) -> St * list (list T)) c pol w wb first last m st d,
    target_ok c -> c_ce c = false -> policy_ok pol -> width_ok w -> range_ok first last ->
    size_matches pol w first last -> reaches_alignment c pol w first last ->
    ExecSpec.keeps_lanes f -> mapped m first last -> policy_fits d -> describes d pol w ->
    exists s, run_for_each f c pol w wb first last m st = Ok s
      /\ Forall (fun chunks => exists n, announced d (length chunks) n /\ Forall (fun v => length v = n) chunks)
                (s_trace s).
Proof. exact for_each_announced. Qed.
Print Assumptions C71_for_each_announced.

(** and supported by callables that compile. *)
Theorem C71_calls_supported :
  forall (T St : Type) (f : St -> list (list T) -> St * list (list T)) c pol w wb first last m st osize d ok,
    target_ok c -> c_ce c = false -> policy_ok pol -> width_ok w -> range_ok first last ->
    size_matches pol w first last -> reaches_alignment c pol w first last ->
    ExecSpec.keeps_lanes f -> mapped m first last -> policy_fits d -> describes d pol w ->
    for_each_compiles osize d ok = true ->
    exists s, run_for_each f c pol w wb first last m st = Ok s
      /\ Forall (fun chunks => exists n, Forall (fun v => length v = n) chunks /\ ok (length chunks) n = true)
                (s_trace s).
Proof. exact for_each_calls_supported. Qed.
Print Assumptions C71_calls_supported.

(** The same for transform, *)
Theorem C71_transform_announced :
  forall (T St : Type) (op : St -> list (list T) -> St * option (list T)) order
         c pol w first last dst srcs2 (m : mem T) st d,
    target_ok c -> c_ce c = false -> policy_ok pol -> width_ok w -> range_ok first last ->
    size_matches pol w first last -> reaches_alignment c pol w dst (dst + (last - first)) ->
    keeps_count op -> any_order order ->
    Forall (fun p => mapped m p (p + (last - first))) (dst :: first :: srcs2) ->
    no_clobber dst (last - first) (first :: srcs2) -> policy_fits d -> describes d pol w ->
    exists e, run_transform_in op order c pol w first last dst srcs2 m st
        = Ok (e, returned_iterator (dst + (last - first)) e)
      /\ Forall (fun chunks => exists n, announced_width d n /\ Forall (fun v => length v = n) chunks) (all_calls e).
Proof. exact @transform_announced. Qed.
Print Assumptions C71_transform_announced.

Theorem C71_transform_calls_supported :
  forall (T St : Type) (op : St -> list (list T) -> St * option (list T)) order
         c pol w first last dst srcs2 (m : mem T) st d p t ok,
    target_ok c -> c_ce c = false -> policy_ok pol -> width_ok w -> range_ok first last ->
    size_matches pol w first last -> reaches_alignment c pol w dst (dst + (last - first)) ->
    keeps_count op -> any_order order ->
    Forall (fun p => mapped m p (p + (last - first))) (dst :: first :: srcs2) ->
    no_clobber dst (last - first) (first :: srcs2) -> policy_fits d -> describes d pol w ->
    well_formed (transform_sites p t (of_widths t ok) d) = true ->
    exists e, run_transform_in op order c pol w first last dst srcs2 m st
        = Ok (e, returned_iterator (dst + (last - first)) e)
      /\ Forall (fun chunks => exists n, Forall (fun v => length v = n) chunks /\ ok n = true) (all_calls e).
Proof. exact transform_calls_supported. Qed.
Print Assumptions C71_transform_calls_supported.

(** for transform_op of transform_reduce: what it does with chunks of other widths has no effect. *)
Theorem C71_transform_reduce_calls_supported :
  forall (T A : Type) (op : A -> A -> A) (tr tr' : list (list T) -> list A)
         c pol w first last srcs2 (m : mem T) init front d p t ok1 ok2 el,
    target_ok c -> c_ce c = false -> policy_ok pol -> width_ok w -> range_ok first last ->
    size_matches pol w first last ->
    prologue_length c pol w first (last - first) front -> (first = last \/ front < last - first)%Z ->
    AnyReduceSpec.keeps_lanes tr (S (length srcs2)) -> AnyReduceSpec.keeps_lanes tr' (S (length srcs2)) ->
    Forall (fun p => mapped m p (p + (last - first))) (first :: srcs2) ->
    policy_fits d -> describes d pol w ->
    well_formed (transform_reduce_sites p t (of_widths t ok1) (reduce_of_widths t ok2 el) d) = true ->
    same_where (fun n => ok1 n = true) tr tr' ->
    exists r, transform_reduce c op tr m pol w first last srcs2 init = Ok r
      /\ transform_reduce c op tr' m pol w first last srcs2 init = Ok r.
Proof. exact transform_reduce_calls_supported. Qed.
Print Assumptions C71_transform_reduce_calls_supported.

(** and for the predicate of count_if. *)
Theorem C71_count_if_calls_supported :
  forall (T : Type) (pred pred' : list T -> list bool) c lib pol w first last m osize d ok,
    keeps_mask pred -> keeps_mask pred' ->
    target_ok c -> c_ce c = false -> policy_ok pol -> width_ok w -> range_ok first last ->
    size_matches pol w first last -> reaches_alignment c pol w first last -> mapped m first last ->
    policy_fits d -> describes d pol w -> count_if_compiles osize d ok = true ->
    (forall l, ok (length l) = true -> pred l = pred' l) ->
    count_if pred c lib pol w first last m = count_if pred' c lib pol w first last m.
Proof. exact count_if_calls_supported. Qed.
Print Assumptions C71_count_if_calls_supported.

(** A policy for these: 8 lanes, unrolled by 2, a prologue. *)
Example C71_calls_case :
  describes (mkconfig 8 2 false (Some 3)) (mkpol true false false 2 0) 8
  /\ for_each_compiles false (mkconfig 8 2 false (Some 3)) (fun k n => Nat.leb n 32) = true
  /\ well_formed (transform_sites lp64_platform Float (of_widths Float (fun n => Nat.leb n 8)) (mkconfig 8 2 false (Some 3))) = true
  /\ count_if_compiles false (mkconfig 8 2 false (Some 3)) (fun n => Nat.leb n 32) = true.
Proof. repeat split; vm_compute; reflexivity. Qed.

(** A policy of 8 lanes, unrolled by 2, with a prologue of up to 7 elements: all that for_each, and all that
    transform demands; then the same with assume_matching_size. *)
Example C71_case :
  policy_fits (mkconfig 8 2 false (Some 3))
  /\ nodup (pair_dec)
       (map (fun s => (snd (fst s), snd s)) (for_each_sites false (mkconfig 8 2 false (Some 3))))
     = [(2, 8); (1, 2); (1, 4); (1, 8); (1, 16); (1, 32); (1, 1)]
  /\ nodup (pair_dec)
       (map (fun s => (snd (fst s), snd s)) (for_each_sites false (mkconfig 8 2 true None)))
     = [(1, 2); (1, 4); (1, 16); (1, 32); (1, 1); (2, 8); (1, 8)]
  /\ nodup Nat.eq_dec (map (fun s => snd (fst s))
       (transform_sites lp64_platform Float (of_widths Float (fun _ => true)) (mkconfig 8 2 false None)))
     = [8; 4; 2; 1]
  /\ nodup Nat.eq_dec (map (fun s => snd (fst s))
       (transform_sites lp64_platform Float (of_widths Float (fun _ => true)) (mkconfig 8 2 true None)))
     = [1; 8].
Proof.
  split; [|repeat split; vm_compute; reflexivity]. repeat split; cbn; try lia; inversion H; cbn; lia.
Qed.
