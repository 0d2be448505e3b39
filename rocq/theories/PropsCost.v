(** Property theorems C81: how many simd objects and invocations the algorithms need. *)
From Verif Require Import Base ExecModel ExecSpec ExecExamples ScheduleSpec TransformModel CostSpec CostThm CostExamples.

(** C81: for widths that are powers of two, no way to cover the range by simd objects of the width or of a smaller power
    of two needs fewer objects than for_each hands out: without prologue, and with auto_prologue() up to 4000 bytes. *)
Theorem C81_for_each_fewest :
  forall (T St : Type) (f : St -> list (list T) -> St * list (list T)) c pol w wb first last (m : mem T) st k,
    target_ok c -> c_ce c = false -> policy_ok pol -> width_ok w -> w = 2 ^ Z.of_nat k -> range_ok first last ->
    size_matches pol w first last ->
    plain pol \/ (p_auto pol = true /\ (last - first) * c_sz c <= 4000) ->
    keeps_lanes f -> mapped m first last ->
    exists s, run_for_each f c pol w wb first last m st = Ok s
      /\ fewest w (last - first) (length (concat (s_trace s))).
Proof. exact @for_each_fewest. Qed.
Print Assumptions C81_for_each_fewest.

Theorem C81_for_each_consteval_fewest :
  forall (T St : Type) (f : St -> list (list T) -> St * list (list T)) c pol w wb first last (m : mem T) st k,
    c_ce c = true -> width_ok w -> w = 2 ^ Z.of_nat k -> range_ok first last -> size_matches pol w first last ->
    (w = 2 -> first = last \/ (last - first) mod 2 <> 0) ->
    keeps_lanes f -> mapped m first last ->
    exists s, run_for_each f c pol w wb first last m st = Ok s
      /\ fewest w (last - first) (length (concat (s_trace s))).
Proof. exact @for_each_ce_fewest. Qed.
Print Assumptions C81_for_each_consteval_fewest.

(** A prologue costs at most log2 w more. *)
Theorem C81_for_each_price :
  forall (T St : Type) (f : St -> list (list T) -> St * list (list T)) c pol w wb first last (m : mem T) st k j,
    target_ok c -> c_ce c = false -> policy_ok pol -> width_ok w -> w = 2 ^ Z.of_nat k -> range_ok first last ->
    size_matches pol w first last -> reaches_alignment c pol w first last ->
    keeps_lanes f -> mapped m first last -> fewest w (last - first) j ->
    exists s, run_for_each f c pol w wb first last m st = Ok s
      /\ (length (concat (s_trace s)) <= j + k)%nat.
Proof. exact @for_each_price. Qed.
Print Assumptions C81_for_each_price.

(** The price is as high as that for 8 elements 4 bytes behind an aligned address. *)
Example C81_price_instance :
  fewest 8 8 1 /\ 8 = 2 ^ Z.of_nat 3 /\ target_ok (ex_cfg 4 false false) /\ policy_ok pol_aligned
  /\ reaches_alignment (ex_cfg 4 false false) pol_aligned 8 0 8
  /\ option_map (fun x => length (concat (fst (fst x))))
       (ex_obs 0 8 (run_for_each ex_f (ex_cfg 4 false false) pol_aligned 8 false 0 8 (ex_mem 0 8) 0)) = Some (1 + 3)%nat.
Proof.
  split; [exact fewest_eight|]. split; [reflexivity|]. split; [now apply ex_target|].
  split; [repeat split; first [reflexivity|discriminate]|]. split; [exact (proj1 price_attained)|].
  vm_compute. reflexivity.
Qed.

(** For other widths there can be a better way. *)
Theorem C81_any_width_refuted :
  exists c pol w first last (m : mem Z) s,
    target_ok c /\ c_ce c = false /\ policy_ok pol /\ plain pol /\ width_ok w /\ range_ok first last
    /\ size_matches pol w first last /\ keeps_lanes ex_f /\ mapped m first last
    /\ run_for_each ex_f c pol w false first last m 0 = Ok s
    /\ ~ fewest w (last - first) (length (concat (s_trace s))).
Proof. exact width_five_not_fewest. Qed.
Print Assumptions C81_any_width_refuted.

(** The number of invocations, for every width: between n / (w u) and that many plus u - 1 plus log2 w for each of
    prologue and epilogue. *)
Theorem C81_for_each_calls :
  forall (T St : Type) (f : St -> list (list T) -> St * list (list T)) c pol w wb first last (m : mem T) st,
    target_ok c -> c_ce c = false -> policy_ok pol -> width_ok w -> range_ok first last ->
    size_matches pol w first last -> reaches_alignment c pol w first last ->
    keeps_lanes f -> mapped m first last ->
    let n := last - first in
    let u := Z.max 1 (p_unroll pol) in
    exists s, run_for_each f c pol w wb first last m st = Ok s
      /\ let calls := Z.of_nat (length (s_trace s)) in
         n <= w * u * calls
         /\ calls <= n / (w * u) + (u - 1) + 2 * Z.log2_up w
         /\ (plain pol -> calls <= n / (w * u) + (u - 1) + Z.log2_up w).
Proof. exact @for_each_calls. Qed.
Print Assumptions C81_for_each_calls.

(** At most w - 1 elements in front of the full chunks and w - 1 behind them are in smaller objects. *)
Theorem C81_for_each_narrow :
  forall (T St : Type) (f : St -> list (list T) -> St * list (list T)) c pol w wb first last (m : mem T) st,
    target_ok c -> c_ce c = false -> policy_ok pol -> width_ok w -> range_ok first last ->
    size_matches pol w first last -> reaches_alignment c pol w first last ->
    keeps_lanes f -> mapped m first last ->
    exists s, run_for_each f c pol w wb first last m st = Ok s
      /\ let narrow := Z.of_nat (list_sum (filter (fun k => Z.of_nat k <? w) (map (@length T) (concat (s_trace s))))) in
         narrow <= 2 * (w - 1) /\ (plain pol -> narrow <= w - 1).
Proof. exact @for_each_narrow. Qed.
Print Assumptions C81_for_each_narrow.

(** 46 elements of 4 bytes from byte address 4 on, 8 per simd, unrolled twice: 7 in front, two groups of two, 7 behind. *)
Example C81_calls_instance :
  reaches_alignment (ex_cfg 4 false false) (pol_aligned_unroll 2) 8 0 46
  /\ option_map (fun x => (map (map (@length Z)) (fst (fst x))))
       (ex_obs 0 46 (run_for_each ex_f (ex_cfg 4 false false) (pol_aligned_unroll 2) 8 false 0 46 (ex_mem 0 46) 0))
     = Some [[1]; [2]; [4]; [8; 8]; [8; 8]; [4]; [2]; [1]]%nat
  /\ 46 / (8 * 2) + (2 - 1) + 2 * Z.log2_up 8 = 9.
Proof.
  split; [|split; [vm_compute|]; reflexivity]. split; [|discriminate]. intros _ _ _. exists 7.
  split; [lia|]. exists 1. reflexivity.
Qed.

(** transform: the number of calls of the operation. *)
Theorem C81_transform_fewest :
  forall c pol w first last dst srcs2 k,
    target_ok c -> c_ce c = false -> policy_ok pol -> width_ok w -> w = 2 ^ Z.of_nat k -> range_ok first last ->
    size_matches pol w first last ->
    plain pol \/ (p_auto pol = true /\ (last - first) * c_sz c <= 4000) ->
    fewest w (last - first) (list_sum (map t_n (fst (transform c pol w first last dst srcs2)))).
Proof. exact transform_fewest. Qed.
Print Assumptions C81_transform_fewest.

Theorem C81_transform_price :
  forall c pol w first last dst srcs2 k j,
    target_ok c -> c_ce c = false -> policy_ok pol -> width_ok w -> w = 2 ^ Z.of_nat k -> range_ok first last ->
    size_matches pol w first last -> reaches_alignment c pol w dst (dst + (last - first)) ->
    fewest w (last - first) j ->
    (list_sum (map t_n (fst (transform c pol w first last dst srcs2))) <= j + k)%nat.
Proof. exact transform_price. Qed.
Print Assumptions C81_transform_price.

(** 47 elements from byte address 4 on: 7 in front of the aligned address instead of 7 at the end, eight calls. *)
Example C81_transform_instance :
  map (fun s => (t_k s, t_n s)) (fst (transform (ex_cfg 4 false false) pol_auto 8 0 47 0 []))
  = [(1, 1%nat); (2, 1%nat); (4, 1%nat); (8, 1%nat); (8, 1%nat); (8, 1%nat); (8, 1%nat); (8, 1%nat)]
  /\ p_auto pol_auto = true /\ (47 - 0) * c_sz (ex_cfg 4 false false) <= 4000.
Proof. split; [vm_compute; reflexivity|]. split; [reflexivity|]. cbn. lia. Qed.
