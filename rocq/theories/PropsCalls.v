(** Property theorems C73: the calls vir::transform makes to its callable. *)
From Verif Require Import Base ExecModel ExecSpec ExecExamples TransformModel TransformSpec TransformExamples ScheduleSpec
  ThrowModel CallsModel CallsSpec CallsThm CallsExamples.
From Coq Require Import Permutation.

(** C73: for a callable that may keep state, throw, and mix the lanes of its arguments.  The calls are those of the
    schedule of C66, step after step, each with the elements at its place; in an unrolled step in some order.  The
    results go to the place the arguments came from, when the whole step has returned. *)
Theorem C73_transform :
  forall (T St : Type) (op : St -> list (list T) -> St * option (list T)) order
         c pol w first last dst srcs2 (m : mem T) st d,
    target_ok c -> c_ce c = false -> policy_ok pol -> width_ok w -> range_ok first last ->
    size_matches pol w first last -> reaches_alignment c pol w dst (dst + (last - first)) ->
    prologue_length c pol w dst (last - first) d ->
    keeps_count op -> any_order order ->
    Forall (fun p => mapped m p (p + (last - first))) (dst :: first :: srcs2) ->
    no_clobber dst (last - first) (first :: srcs2) ->
    exists e, run_transform_in op order c pol w first last dst srcs2 m st
        = Ok (e, returned_iterator (dst + (last - first)) e)
      /\ account op m (first :: srcs2) dst st (places 0 (schedule w (p_unroll pol) d (last - first))) e.
Proof. exact @transform_calls. Qed.
Print Assumptions C73_transform.

(** The places are disjoint, in ascending order, and cover the range. *)
Theorem C73_places :
  forall c pol w first last dst d,
    target_ok c -> width_ok w -> range_ok first last ->
    reaches_alignment c pol w dst (dst + (last - first)) ->
    prologue_length c pol w dst (last - first) d ->
    let ps := concat (places 0 (schedule w (p_unroll pol) d (last - first))) in
    (forall x, 0 <= x < last - first -> exists p k, In (p, k) ps /\ p <= x < p + k)
    /\ ForallOrdPairs (fun a b => fst a + snd a <= fst b) ps
    /\ Forall (fun a => 0 <= fst a /\ 0 < snd a /\ fst a + snd a <= last - first) ps.
Proof. exact transform_places. Qed.
Print Assumptions C73_places.

(** Without unroll_by the calls are made in ascending order, and no result is lost. *)
Theorem C73_in_order :
  forall (T St : Type) (op : St -> list (list T) -> St * option (list T)) order
         c pol w first last dst srcs2 (m : mem T) st d,
    target_ok c -> c_ce c = false -> policy_ok pol -> width_ok w -> range_ok first last ->
    size_matches pol w first last -> reaches_alignment c pol w dst (dst + (last - first)) ->
    prologue_length c pol w dst (last - first) d -> p_unroll pol <= 1 ->
    keeps_count op -> any_order order ->
    Forall (fun p => mapped m p (p + (last - first))) (dst :: first :: srcs2) ->
    no_clobber dst (last - first) (first :: srcs2) ->
    exists e, run_transform_in op order c pol w first last dst srcs2 m st
        = Ok (e, returned_iterator (dst + (last - first)) e)
      /\ account_in_order op m (first :: srcs2) dst st
           (concat (places 0 (schedule w (p_unroll pol) d (last - first)))) e.
Proof. exact @transform_calls_in_order. Qed.
Print Assumptions C73_in_order.

(** In constant evaluation: full chunks, then single elements, whatever the policy. *)
Theorem C73_consteval :
  forall (T St : Type) (op : St -> list (list T) -> St * option (list T)) order
         c pol w first last dst srcs2 (m : mem T) st,
    c_ce c = true -> width_ok w -> range_ok first last -> size_matches pol w first last ->
    keeps_count op -> any_order order ->
    Forall (fun p => mapped m p (p + (last - first))) (dst :: first :: srcs2) ->
    no_clobber dst (last - first) (first :: srcs2) ->
    exists e, run_transform_in op order c pol w first last dst srcs2 m st
        = Ok (e, returned_iterator (dst + (last - first)) e)
      /\ account_in_order op m (first :: srcs2) dst st
           (place_group 0 (repeat (Z.to_nat w) (Z.to_nat ((last - first) / w))
                           ++ repeat 1%nat (Z.to_nat ((last - first) mod w)))) e.
Proof. exact @transform_calls_consteval_in_order. Qed.
Print Assumptions C73_consteval.

(** If the answers of the callable do not depend on its state, nobody can tell from the output in which order the
    compiler makes the calls of an unrolled step, not even if the callable throws. *)
Theorem C73_order_unobservable :
  forall (T St : Type) (op : St -> list (list T) -> St * option (list T)) order order'
         c pol w first last dst srcs2 (m : mem T) st,
    target_ok c -> c_ce c = false -> policy_ok pol -> width_ok w -> range_ok first last ->
    size_matches pol w first last -> reaches_alignment c pol w dst (dst + (last - first)) ->
    keeps_count op -> stateless op -> any_order order -> any_order order' ->
    Forall (fun p => mapped m p (p + (last - first))) (dst :: first :: srcs2) ->
    no_clobber dst (last - first) (first :: srcs2) ->
    exists e e' r, run_transform_in op order c pol w first last dst srcs2 m st = Ok (e, r)
      /\ run_transform_in op order' c pol w first last dst srcs2 m st = Ok (e', r) /\ same_end e e'.
Proof. exact @transform_order_unobservable. Qed.
Print Assumptions C73_order_unobservable.

(** With unroll_by, a callable with state can give different outputs for two orders the language allows. *)
Theorem C73_ascending_refuted :
  exists c pol w first last dst (m : mem Z) order order' s s' r,
    target_ok c /\ c_ce c = false /\ policy_ok pol /\ width_ok w /\ range_ok first last
    /\ size_matches pol w first last /\ reaches_alignment c pol w dst (dst + (last - first))
    /\ keeps_count (numbering 0) /\ any_order order /\ any_order order'
    /\ Forall (fun p => mapped m p (p + (last - first))) [dst; first; 1000]
    /\ no_clobber dst (last - first) [first; 1000]
    /\ run_transform_in (numbering 0) order c pol w first last dst [1000] m 0 = Ok (Returned s, r)
    /\ run_transform_in (numbering 0) order' c pol w first last dst [1000] m 0 = Ok (Returned s', r)
    /\ s_mem s dst = Some 0 /\ s_mem s' dst = Some 1.
Proof. exact ascending_refuted. Qed.
Print Assumptions C73_ascending_refuted.

(** 11 elements, width 4, unroll_by<2>: two chunks in one step, then one of 2 and one of 1.  From left to right, from
    right to left, and with an exception from element 6, in the second chunk of the step. *)
Example C73_cases :
  calls_obs 2000 11 (run_transform_in (numbering 0) ltr (ex_cfg 0 false false) (pol_unroll 2) 4 0 11 2000 [1000] (ex_mem3 11) 0)
  = Some ([[100; 101; 102; 103]; [104; 105; 106; 107]; [108; 109]; [110]], 4,
          Some [0; 0; 0; 0; 1; 1; 1; 1; 2; 2; 3], Some 2011, None)
  /\ calls_obs 2000 11 (run_transform_in (numbering 0) rtl (ex_cfg 0 false false) (pol_unroll 2) 4 0 11 2000 [1000] (ex_mem3 11) 0)
  = Some ([[104; 105; 106; 107]; [100; 101; 102; 103]; [108; 109]; [110]], 4,
          Some [1; 1; 1; 1; 0; 0; 0; 0; 2; 2; 3], Some 2011, None)
  /\ calls_obs 2000 4 (run_transform_in (adding 106) ltr (ex_cfg 0 false false) (pol_unroll 2) 4 0 11 2000 [1000] (ex_mem3 11) 0)
  = Some ([[100; 101; 102; 103]], 2, Some [2100; 2101; 2102; 2103], None,
          Some [[104; 105; 106; 107]; [1104; 1105; 1106; 1107]])
  /\ calls_obs 2000 4 (run_transform_in (adding 106) rtl (ex_cfg 0 false false) (pol_unroll 2) 4 0 11 2000 [1000] (ex_mem3 11) 0)
  = Some ([], 1, Some [2100; 2101; 2102; 2103], None, Some [[104; 105; 106; 107]; [1104; 1105; 1106; 1107]])
  /\ places 0 (schedule 4 2 0 11) = [[(0, 4); (4, 4)]; [(8, 2)]; [(10, 1)]]
  /\ calls_obs 2000 6 (run_transform_in (numbering 0) rtl (ex_cfg 0 false true) (pol_unroll 2) 4 0 6 2000 [1000] (ex_mem3 6) 0)
  = Some ([[100; 101; 102; 103]; [104]; [105]], 3, Some [0; 0; 0; 0; 1; 2], Some 2006, None).
Proof. vm_compute. repeat split. Qed.

Example C73_not_vacuous :
  target_ok (ex_cfg 0 false false) /\ policy_ok (pol_unroll 2) /\ width_ok 4 /\ range_ok 0 11
  /\ size_matches (pol_unroll 2) 4 0 11 /\ reaches_alignment (ex_cfg 0 false false) (pol_unroll 2) 4 2000 2011
  /\ prologue_length (ex_cfg 0 false false) (pol_unroll 2) 4 2000 11 0
  /\ keeps_count (numbering 0) /\ stateless (adding 106) /\ any_order ltr /\ any_order rtl
  /\ Forall (fun p => mapped (ex_mem3 11) p (p + 11)) [2000; 0; 1000] /\ no_clobber 2000 11 [0; 1000].
Proof.
  split; [now apply ex_target|]. split; [repeat split; first [reflexivity|discriminate]|].
  split; [unfold width_ok; lia|]. split; [unfold range_ok; lia|]. split; [discriminate|]. split; [split; discriminate|].
  split; [right; split; [reflexivity|]; right; split; [reflexivity|]; discriminate|].
  split; [apply numbering_keeps|]. split; [apply adding_stateless|]. split; [apply ltr_any|]. split; [apply rtl_any|].
  split; [apply ex_mem3_mapped; lia|repeat constructor; lia].
Qed.
