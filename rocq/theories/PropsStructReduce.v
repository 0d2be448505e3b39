(** Property theorems C54: vir::transform_reduce when some of the ranges hold structs. *)
From Verif Require Import Base SimdizeModel SimdizeSpec ExecModel ExecSpec ExecExamples ReduceSpec TReduceSpec
  StructRunModel StructRunSpec StructRunExamples StructTransformModel StructTransformSpec StructTransformExamples
  StructReduceModel StructReduceSpec StructReduceThm StructReduceExamples ScheduleSpec OrderSpec ChunkProofs StructReduceOrder.

(** C54 at run time: a generalised sum of init and g(x_i, y_i, ...) for all i.  Missing: objects of 8 lanes when
    some, but not all of the ranges hold structs of three floats (below). *)
Theorem C54_transform_reduce_structs_partial :
  forall (W A : Type) (zero : W) (g : list (list W) -> A) (tr : list (list (list W)) -> list A) (op : A -> A -> A)
         c pol w rs first last srcs2 (m : mem W) vals init kd,
    sreduce_runs c pol w first last kd -> c_ce c = false -> option_map r_kind (hd_error rs) = Some kd ->
    Forall (fun r => kind_ok (r_kind r) (r_k r)) rs -> length rs = S (length srcs2) ->
    same_order rs w (last - first) ->
    (forall k, 0 < k <= w -> (p_match pol = true -> k = w) -> transforms_structs (map r_k rs) g tr k) ->
    values_are g m (combine rs (first :: srcs2)) (last - first) vals ->
    exists x, stransform_reduce zero tr c op rs m pol w first last srcs2 init = Ok x /\ gsum op (init :: vals) x.
Proof. exact @sreduce_runtime. Qed.
Print Assumptions C54_transform_reduce_structs_partial.

(** In constant evaluation: the sequential fold, without exception. *)
Theorem C54_transform_reduce_structs_consteval :
  forall (W A : Type) (zero : W) (g : list (list W) -> A) (tr : list (list (list W)) -> list A) (op : A -> A -> A)
         c pol w rs first last srcs2 (m : mem W) vals init,
    c_ce c = true -> width_ok w -> range_ok first last -> size_matches pol w first last ->
    Forall (fun r => kind_ok (r_kind r) (r_k r)) rs -> length rs = S (length srcs2) ->
    transforms_structs (map r_k rs) g tr 1 ->
    values_are g m (combine rs (first :: srcs2)) (last - first) vals ->
    stransform_reduce zero tr c op rs m pol w first last srcs2 init = Ok (seq_sum op init vals).
Proof. exact @sreduce_consteval. Qed.
Print Assumptions C54_transform_reduce_structs_consteval.

(** With one range the order in which it is read does not matter. *)
Theorem C54_transform_reduce_one_range :
  forall (W A : Type) (zero : W) (g : list (list W) -> A) (tr : list (list (list W)) -> list A) (op : A -> A -> A)
         c pol w r first last (m : mem W) vals init,
    sreduce_runs c pol w first last (r_kind r) -> c_ce c = false -> kind_ok (r_kind r) (r_k r) ->
    (forall k, 0 < k <= w -> (p_match pol = true -> k = w) -> transforms_structs [r_k r] g tr k) ->
    values_are g m [(r, first)] (last - first) vals ->
    exists x, stransform_reduce zero tr c op [r] m pol w first last [] init = Ok x /\ gsum op (init :: vals) x.
Proof. exact @sreduce_one_range. Qed.
Print Assumptions C54_transform_reduce_one_range.

(** Any ranges, without that hypothesis: the result is a generalised sum of init and g(x_i, y_i, ...) with the
    elements order(i) of the ranges of the unordered type in place of i.  order keeps every chunk and
    turns around the lanes of those that have 8.  grouped (as in C69) says in which order op is applied. *)
Theorem C54_transform_reduce_structs_any_order :
  forall (W A : Type) (zero : W) (g : list (list W) -> A) (tr : list (list (list W)) -> list A) (op : A -> A -> A)
         c pol w rs first last srcs2 (m : mem W) init kd d,
    sreduce_runs c pol w first last kd -> c_ce c = false -> option_map r_kind (hd_error rs) = Some kd ->
    Forall (fun r => kind_ok (r_kind r) (r_k r)) rs -> length rs = S (length srcs2) ->
    Forall (fun rp => range_mapped m (fst rp) (snd rp) (last - first)) (combine rs (first :: srcs2)) ->
    (forall k, 0 < k <= w -> (p_match pol = true -> k = w) -> transforms_structs (map r_k rs) g tr k) ->
    prologue_length c pol w first (last - first) d ->
    exists order vals x, (first < last -> chunk_order w d (last - first) order) /\ rearranges (last - first) order
      /\ values_in_order order g m (combine rs (first :: srcs2)) (last - first) vals
      /\ stransform_reduce zero tr c op rs m pol w first last srcs2 init = Ok x /\ gsum op (init :: vals) x
      /\ x = grouped op (Z.to_nat w) (Z.to_nat (p_unroll pol)) d init vals.
Proof. exact @sreduce_any_order. Qed.
Print Assumptions C54_transform_reduce_structs_any_order.

(** The chunks cover the range without overlap, so that there is one such order: every element at its place with fewer
    than 8 lanes or elements; with 8 lanes those after the first d in blocks. *)
Theorem C54_chunks_cover :
  forall w d n i, 1 <= w -> 0 <= d <= n -> 0 <= i < n -> exists p k, tr_chunk w d n p k /\ p <= i < p + k.
Proof. intros w d n i Hw Hd. exact (chunk_cover w d n Hw Hd i). Qed.
Print Assumptions C54_chunks_cover.

Theorem C54_chunks_disjoint :
  forall w d n p k p' k', 1 <= w -> 0 <= d <= n -> tr_chunk w d n p k -> tr_chunk w d n p' k' ->
    p < p' + k' -> p' < p + k -> p = p' /\ k = k'.
Proof. intros w d n p k p' k' Hw Hd. exact (chunk_disjoint w d n Hw Hd p k p' k'). Qed.
Print Assumptions C54_chunks_disjoint.

Theorem C54_order_few :
  forall w d n order, 1 <= w -> 0 <= d <= n -> d < w -> w < 8 \/ n < 8 -> chunk_order w d n order ->
    forall i, 0 <= i < n -> order i = i.
Proof. intros w d n order Hw Hd. exact (chunk_order_id w d n Hw Hd order). Qed.
Print Assumptions C54_order_few.

Theorem C54_order_eight :
  forall d n order, 0 <= d <= n -> d < 8 -> chunk_order 8 d n order ->
    forall i, 0 <= i < n -> order i = if i <? d then i else d + shuffle_index (n - d) (i - d).
Proof. intros d n order Hd. exact (chunk_order_eight 8 d n ltac:(lia) Hd order eq_refl). Qed.
Print Assumptions C54_order_eight.

(** Points (three floats) and weights: the moment is computed with the weights of other points. *)
Theorem C54_transform_reduce_structs_refuted :
  sreduce_runs cfg12 pol0 8 0 8 (RStruct kind_3f) /\ (forall k, transforms_structs [3; 1] moment moments k)
  /\ exists vals x, values_are moment (words 500) (combine [points; weights] [0; 300]) (8 - 0) vals
     /\ stransform_reduce 0 moments cfg12 Z.add [points; weights] (words 500) pol0 8 0 8 [300] 0 = Ok x
     /\ ~ gsum Z.add (0 :: vals) x.
Proof. exact moments_mispaired. Qed.
Print Assumptions C54_transform_reduce_structs_refuted.

(** Int points and weights, in order; constant evaluation with float points. *)
Example C54_instance :
  sreduce_runs cfg12 (pol_unroll 2) 8 0 43 (RStruct kind_3i)
  /\ option_map r_kind (hd_error [points_int; weights]) = Some (RStruct kind_3i)
  /\ Forall (fun r => kind_ok (r_kind r) (r_k r)) [points_int; weights]
  /\ same_order [points_int; weights] 8 (43 - 0)
  /\ (forall k, transforms_structs (map r_k [points_int; weights]) moment moments k)
  /\ values_are moment (words 500) (combine [points_int; weights] [0; 300]) (43 - 0) (list_up 43 (fun i => 3 * i * (300 + i)))
  /\ stransform_reduce 0 moments cfg12 Z.add [points_int; weights] (words 500) (pol_unroll 2) 8 0 43 [300] 7 = Ok 889462
  /\ seq_sum Z.add 7 (list_up 43 (fun i => 3 * i * (300 + i))) = 889462
  /\ stransform_reduce 0 moments (mkcfg 12 0 (fun _ => 4) false true) Z.add [points; weights] (words 500) pol0 8 0 8 [300] 0 = Ok 25620.
Proof.
  split; [apply cfg12_sruns; [now repeat split|split; lia|split; lia|discriminate]|]. split; [reflexivity|].
  split; [repeat constructor; cbn; lia|].
  split; [left; right; right; constructor; [|constructor; [|constructor] ]; [intros (_ & _ & _ & E & _); discriminate|intros [] ]|].
  split; [exact moments_lanewise|]. split; [apply (moment_values 43); [reflexivity|reflexivity|lia]|].
  split; [vm_compute; reflexivity|]. split; vm_compute; reflexivity.
Qed.

(** Float points alone. *)
Example C54_one_range_instance :
  sreduce_runs cfg12 (pol_unroll 2) 8 0 43 (r_kind points) /\ unordered_range points
  /\ (forall k, transforms_structs [r_k points] total totals k)
  /\ values_are total (words 500) [(points, 0)] (43 - 0) (list_up 43 (fun i => 9 * i + 3))
  /\ stransform_reduce 0 totals cfg12 Z.add [points] (words 500) (pol_unroll 2) 8 0 43 [] 7 = Ok 8263
  /\ seq_sum Z.add 7 (list_up 43 (fun i => 9 * i + 3)) = 8263.
Proof.
  split; [apply cfg12_sruns; [now repeat split|split; lia|split; lia|discriminate]|]. split; [repeat split|].
  split; [exact totals_lanewise|]. split; [apply (total_values 43); lia|]. split; vm_compute; reflexivity.
Qed.

(** Float points and weights: eleven elements in lanes of eight. *)
Example C54_any_order_instance :
  sreduce_runs cfg12 pol0 8 0 11 (RStruct kind_3f) /\ unordered_range points /\ ~ unordered_range weights
  /\ Forall (fun rp => range_mapped (words 500) (fst rp) (snd rp) 11) (combine [points; weights] [0; 300])
  /\ stransform_reduce 0 moments cfg12 Z.add [points; weights] (words 500) pol0 8 0 11 [300] 7
     = Ok (seq_sum Z.add 7 (list_up 11 (fun i => 3 * shuffle_index 11 i * (300 + i))))
  /\ map (shuffle_index 11) [0; 1; 2; 3; 4; 5; 6; 7; 8; 9; 10] = [0; 3; 6; 1; 4; 7; 2; 5; 8; 9; 10]
  /\ tr_chunk 8 0 11 0 8 /\ tr_chunk 8 0 11 8 2 /\ tr_chunk 8 0 11 10 1.
Proof.
  split; [apply cfg12_sruns; [now repeat split|split; lia|split; lia|discriminate]|]. split; [repeat split|].
  split; [intros [] |]. split.
  { repeat constructor; intros a Ha; cbn in Ha; unfold words;
      (destruct (Z.leb_spec 0 a); [|lia]); (destruct (Z.ltb_spec a 500); [discriminate|lia]). }
  split; [vm_compute; reflexivity|]. split; [vm_compute; reflexivity|]. split; [|split].
  - right. left. repeat split; try lia. now exists 0.
  - right. right. exists 1. repeat split; lia.
  - right. right. exists 0. repeat split; lia.
Qed.
