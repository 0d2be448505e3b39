(** Property theorems C64: for_each and transform when the callable throws. *)
From Verif Require Import Base ExecModel ExecSpec ExecThm ExecExamples
  TransformModel TransformSpec TransformExamples ThrowModel ThrowSpec ThrowProofs ThrowExamples.

(** C64 for for_each: if the invocation on [p,q) throws, [first,p) is as the invocations that
    returned left it, and all of memory from [p] on (and before [first]) is untouched. *)
Theorem C64_for_each :
  forall (T St : Type) (f : St -> list (list T) -> St * option (list (list T)))
         c pol w wb first last (m : mem T) st,
    target_ok c -> c_ce c = false -> policy_ok pol -> width_ok w -> range_ok first last ->
    size_matches pol w first last -> reaches_alignment c pol w first last ->
    lanes_kept f -> mapped m first last ->
    exists e, run_for_each_throwing f c pol w wb first last m st = Ok e /\
      match e with
      | Returned s => done_up_to f wb first last m st (s_trace s) (s_mem s) (s_st s)
      | Threw s ch => exists p q st0, first <= p < q /\ q <= last
          /\ done_up_to f wb first p m st (s_trace s) (s_mem s) st0
          /\ range_is m p q (concat ch)
          /\ f st0 ch = (s_st s, None)
      end.
Proof. exact @for_each_throwing. Qed.
Print Assumptions C64_for_each.

(** For a callable that updates lanes with [g]: a prefix of whole chunks is updated, once. *)
Theorem C64_for_each_map :
  forall (T St : Type) (f : St -> list (list T) -> St * option (list (list T))) (g : T -> T)
         c pol w first last (m : mem T) st,
    target_ok c -> c_ce c = false -> policy_ok pol -> width_ok w -> range_ok first last ->
    size_matches pol w first last -> reaches_alignment c pol w first last ->
    maps_lanes g f -> mapped m first last ->
    exists e, run_for_each_throwing f c pol w true first last m st = Ok e /\
      match e with
      | Returned s => forall a, s_mem s a = map_range g m first last a
      | Threw s ch => exists p q, first <= p < q /\ q <= last
          /\ (forall a, s_mem s a = map_range g m first p a)
          /\ range_is m p q (concat ch)
      end.
Proof. exact @for_each_throwing_map. Qed.
Print Assumptions C64_for_each_map.

(** A callable that does not throw sees no difference. *)
Theorem C64_for_each_nothrow :
  forall (T St : Type) (g : St -> list (list T) -> St * list (list T)) c pol w wb first last m st,
    run_for_each_throwing (fun s ch => (fst (g s ch), Some (snd (g s ch))))
                          c pol w wb first last m st
    = bindR (run_for_each g c pol w wb first last m st) (fun s => Ok (Returned s)).
Proof. exact @for_each_nothrow. Qed.
Print Assumptions C64_for_each_nothrow.

(** There is no strong guarantee: what was updated stays updated. *)
Theorem C64_for_each_strong_refuted :
  exists c pol w first last (m : mem Z) s ch,
    target_ok c /\ c_ce c = false /\ policy_ok pol /\ width_ok w /\ range_ok first last
    /\ size_matches pol w first last /\ reaches_alignment c pol w first last
    /\ mapped m first last
    /\ run_for_each_throwing (tex_f 106) c pol w true first last m 0 = Ok (Threw s ch)
    /\ s_mem s first <> m first.
Proof. exact for_each_strong_refuted. Qed.
Print Assumptions C64_for_each_strong_refuted.

(** C64 for transform: the first [n] elements of the output are final, nothing else has changed,
    and the operation that threw was given input elements [i, i+k) as they were, at most
    w * (unroll - 1) elements after those [n] (so without unrolling: the very next ones). *)
Theorem C64_transform :
  forall (T : Type) (op : list T -> T) (opv : list (list T) -> option (list T))
         c pol w first last dst srcs2 (m : mem T),
    target_ok c -> c_ce c = false -> policy_ok pol -> width_ok w -> range_ok first last ->
    size_matches pol w first last -> reaches_alignment c pol w dst (dst + (last - first)) ->
    lanewise_or_throws op opv ->
    Forall (fun p => mapped m p (p + (last - first))) (dst :: first :: srcs2) ->
    no_clobber dst (last - first) (first :: srcs2) ->
    exists e r, run_transform_throwing opv c pol w first last dst srcs2 m = Ok (e, r) /\
      match e with
      | Returned m' => r = Some (dst + (last - first))
          /\ transformed op (first :: srcs2) dst (last - first) m m'
      | Threw m' chunks => r = None /\ opv chunks = None
          /\ exists n i k, 0 <= n <= i /\ 0 < k /\ i + k <= last - first
             /\ i - n <= w * (Z.max 1 (p_unroll pol) - 1)
             /\ transformed op (first :: srcs2) dst n m m'
             /\ Forall2 (fun p ch => range_is m (p + i) (p + i + k) ch) (first :: srcs2) chunks
      end.
Proof. exact @transform_throwing. Qed.
Print Assumptions C64_transform.

Theorem C64_transform_nothrow :
  forall (T : Type) (opv : list (list T) -> list T) c pol w first last dst srcs2 m,
    run_transform_throwing (fun ch => Some (opv ch)) c pol w first last dst srcs2 m
    = bindR (run_transform opv c pol w first last dst srcs2 m)
            (fun r => Ok (Returned (fst r), Some (snd r))).
Proof. exact @transform_nothrow. Qed.
Print Assumptions C64_transform_nothrow.

(** With unrolling, results of operations that have returned are lost: the operation on elements
    [w,2w) threw, and the result for elements [0,w) is not in the output. *)
Theorem C64_transform_lost_refuted :
  exists c pol w first last dst (m : mem Z) m' ch r,
    target_ok c /\ c_ce c = false /\ policy_ok pol /\ width_ok w /\ range_ok first last
    /\ size_matches pol w first last
    /\ reaches_alignment c pol w dst (dst + (last - first))
    /\ Forall (fun p => mapped m p (p + (last - first))) [dst; first; 1000]
    /\ no_clobber dst (last - first) [first; 1000]
    /\ run_transform_throwing (tex_op 106) c pol w first last dst [1000] m = Ok (Threw m' ch, r)
    /\ Forall2 (fun p ch => range_is m (p + w) (p + w + w) ch) [first; 1000] ch
    /\ tex_op 106 [[100; 101; 102; 103]; [1100; 1101; 1102; 1103]] = Some [1200; 1202; 1204; 1206]
    /\ range_is m first (first + w) [100; 101; 102; 103]
    /\ range_is m 1000 (1000 + w) [1100; 1101; 1102; 1103]
    /\ m' dst = m dst /\ m dst <> Some 1200.
Proof. exact transform_lost_refuted. Qed.
Print Assumptions C64_transform_lost_refuted.

(** 10 elements, width 4, a throw in the second invocation: 4 elements are updated, not 6. *)
Example C64_for_each_example :
  tex_obs 0 10 (run_for_each_throwing (tex_f 106) (ex_cfg 0 false false) pol0 4 true 0 10 (ex_mem 0 10) 0)
  = Some ([ [ [100; 101; 102; 103] ] ], 2,
          Some [200; 202; 204; 206; 104; 105; 106; 107; 108; 109], Some [ [104; 105; 106; 107] ]).
Proof. vm_compute. reflexivity. Qed.
Example C64_for_each_hypotheses :
  target_ok (ex_cfg 0 false false) /\ policy_ok pol0 /\ width_ok 4 /\ range_ok 0 10
  /\ maps_lanes (Z.mul 2) (tex_f 106) /\ mapped (ex_mem 0 10) 0 10.
Proof.
  split; [now apply ex_target|]. split; [repeat split; first [reflexivity|discriminate]|].
  split; [unfold width_ok; lia|]. split; [unfold range_ok; lia|].
  split; [apply tex_f_maps|apply ex_mapped].
Qed.
(** In an unrolled step both chunks are lost; without unrolling only the one that threw. *)
Example C64_transform_example :
  tex_tobs 2000 16 (run_transform_throwing (tex_op 106) (ex_cfg 0 false false) (pol_unroll 2) 4 0 16
                                           2000 [1000] (ex_mem3 16))
  = Some (Some (map (fun i => 2100 + Z.of_nat i) (seq 0 16)), None,
          Some [ [104; 105; 106; 107]; [1104; 1105; 1106; 1107] ])
  /\ tex_tobs 2000 6 (run_transform_throwing (tex_op 106) (ex_cfg 0 false false) pol0 4 0 16
                                           2000 [1000] (ex_mem3 16))
  = Some (Some [1200; 1202; 1204; 1206; 2104; 2105], None,
          Some [ [104; 105; 106; 107]; [1104; 1105; 1106; 1107] ])
  /\ lanewise_or_throws ex_sum (tex_op 106).
Proof. split; [vm_compute; reflexivity|]. split; [vm_compute; reflexivity|]. apply tex_op_lanewise. Qed.
