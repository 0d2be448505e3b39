(** Property theorems C52: vir::transform when some of the ranges hold structs. *)
From Verif Require Import Base SimdizeModel SimdizeSpec SimdizeProofs ExecModel ExecSpec ExecExamples
  StructRunModel StructRunSpec StructRunExamples StructTransformModel StructTransformSpec StructTransformThm
  StructTransformExamples.

(** C52.  out[i] = op(in1[i], in2[i], ...), nothing else changes, the returned iterator is the end of the
    output.  Missing: inputs of three floats with objects of 8 lanes (below). *)
Theorem C52_transform_structs_partial :
  forall (W : Type) (zero : W) (op : list (list W) -> list W) (opv : list (list (list W)) -> list (list W))
         c pol w rs kd ko first last dst srcs2 m,
    stransform_runs c pol w first last dst kd ko -> lanewise_structs (map r_k rs) ko op opv ->
    Forall (fun r => kind_ok (r_kind r) (r_k r)) rs -> length rs = S (length srcs2) ->
    structs_mapped m ko dst (dst + (last - first)) ->
    Forall (fun rp => range_mapped m (fst rp) (snd rp) (last - first)) (combine rs (first :: srcs2)) ->
    Forall (not_overwritten ko dst (last - first)) (combine rs (first :: srcs2)) ->
    ranges_in_order rs w (last - first) ->
    exists m', run_stransform zero opv c pol w rs kd ko first last dst srcs2 m = Ok (m', dst + (last - first))
      /\ stransformed_in_order op (combine rs (first :: srcs2)) ko dst (last - first) m m'.
Proof. exact @stransform_ordered. Qed.
Print Assumptions C52_transform_structs_partial.

(** In general the unordered inputs are read in some other order, the same for all of them; with 8 lanes
    and no prologue it is known. *)
Theorem C52_transform_structs_any_order :
  forall (W : Type) (zero : W) (op : list (list W) -> list W) (opv : list (list (list W)) -> list (list W))
         c pol w rs kd ko first last dst srcs2 m,
    stransform_runs c pol w first last dst kd ko -> lanewise_structs (map r_k rs) ko op opv ->
    Forall (fun r => kind_ok (r_kind r) (r_k r)) rs -> length rs = S (length srcs2) ->
    structs_mapped m ko dst (dst + (last - first)) ->
    Forall (fun rp => range_mapped m (fst rp) (snd rp) (last - first)) (combine rs (first :: srcs2)) ->
    Forall (not_overwritten ko dst (last - first)) (combine rs (first :: srcs2)) ->
    exists m' order, run_stransform zero opv c pol w rs kd ko first last dst srcs2 m = Ok (m', dst + (last - first))
      /\ rearranges (last - first) order
      /\ stransformed order op (combine rs (first :: srcs2)) ko dst (last - first) m m'
      /\ (w < 8 \/ last - first < 8 -> forall i, 0 <= i < last - first -> order i = i)
      /\ (w = 8 -> c_ce c = false -> plain pol \/ kd <> RScalar ->
          forall i, 0 <= i < last - first -> order i = shuffle_index (last - first) i).
Proof. exact @stransform_all. Qed.
Print Assumptions C52_transform_structs_any_order.

(** Points (three floats) and weights: point 3 is combined with weight 1 and the result stored at 1. *)
Theorem C52_transform_structs_refuted :
  stransform_runs cfg4 pol0 8 0 8 400 RScalar 1 /\ lanewise_structs [3; 1] 1 weigh weigh_v
  /\ elem (words 500) points (0 + 1) [3; 4; 5] /\ elem (words 500) weights (300 + 1) [301]
  /\ exists m', run_stransform 0 weigh_v cfg4 pol0 8 [points; weights] RScalar 1 0 8 400 [300] (words 500) = Ok (m', 408)
     /\ load m' 401 1 = Some [1000 * 9 + 301] /\ weigh [[3; 4; 5]; [301]] = [1000 * 3 + 301].
Proof. exact points_mispaired. Qed.
Print Assumptions C52_transform_structs_refuted.

(** Int points and weights, aligned stores with prologue and epilogue. *)
Example C52_instance_ordered :
  stransform_runs cfg4 (pol_aligned_unroll 2) 8 0 30 401 RScalar 1 /\ lanewise_structs (map r_k [points_int; weights]) 1 weigh weigh_v
  /\ ranges_in_order [points_int; weights] 8 (30 - 0)
  /\ structs_mapped (words 500) 1 401 (401 + (30 - 0))
  /\ Forall (fun rp => range_mapped (words 500) (fst rp) (snd rp) (30 - 0)) (combine [points_int; weights] [0; 300])
  /\ Forall (not_overwritten 1 401 (30 - 0)) (combine [points_int; weights] [0; 300])
  /\ tobserved 401 30 (run_stransform 0 weigh_v cfg4 (pol_aligned_unroll 2) 8 [points_int; weights] RScalar 1 0 30 401 [300] (words 500))
     = Some (Some (map (fun i => 1000 * (3 * Z.of_nat i) + (300 + Z.of_nat i)) (seq 0 30)), 431).
Proof.
  split.
  { apply cfg4_runs; [now repeat split|split; lia|split; lia|discriminate|].
    split; [|discriminate]. intros _ _ _. exists 408. split; [lia|]. exists 51. reflexivity. }
  split; [exact weigh_lanewise|].
  split; [right; right; constructor; [|constructor; [|constructor] ]; [intros (_ & _ & _ & E & _); discriminate|intros [] ]|].
  split; [now apply words_mapped|].
  split; [repeat constructor; intros a Ha; cbn in Ha; unfold words; destruct (Z.leb_spec 0 a); destruct (Z.ltb_spec a 500);
          cbn; try discriminate; lia|].
  split; [repeat constructor; cbn; lia|]. vm_compute. reflexivity.
Qed.

(** In place, 3-float structs, 8 lanes. *)
Example C52_instance_shuffled :
  stransform_runs cfg12 pol0 8 0 9 0 (RStruct kind_3f) 3 /\ lanewise_structs (map r_k [points]) 3 shift_point shift_points
  /\ unordered_range points /\ ~ ranges_in_order [points] 8 (9 - 0)
  /\ Forall (not_overwritten 3 0 (9 - 0)) (combine [points] [0])
  /\ tobserved 0 27 (run_stransform 0 shift_points cfg12 pol0 8 [points] (RStruct kind_3f) 3 0 9 0 [] (words 27))
     = Some (Some (map (Z.add 1) [0; 1; 2; 9; 10; 11; 18; 19; 20; 3; 4; 5; 12; 13; 14; 21; 22; 23; 6; 7; 8; 15; 16; 17; 24; 25; 26]), 9).
Proof.
  split; [split; [split; cbn; [lia|intros; lia]|split; [cbn; lia|split; [now repeat split|split; [split; lia|split; [split; lia|split; discriminate] ] ] ] ]|].
  split; [exact shift_lanewise|]. split; [repeat split|]. split.
  { intros [H|[H|H] ]; [lia|lia|]. inversion H as [|? ? N _]; subst. apply N. repeat split. }
  split; [repeat constructor; cbn; lia|]. vm_compute. reflexivity.
Qed.
