(** Examples and counterexamples for transform_reduce over structs (C54). *)
From Verif Require Import Base BaseFacts PermuteModel SimdizeModel SimdizeSpec SimdizeProofs
  ExecModel ExecSpec ExecExamples ReduceModel ReduceSpec ReduceProofs TReduceModel TReduceSpec StructRunModel StructRunSpec
  StructRunExamples StructTransformModel StructTransformSpec StructTransformExamples StructReduceModel
  StructReduceSpec.
From Coq Require Import Permutation.

(** x * weight. *)
Definition moment (args : list (list Z)) : Z :=
  match args with [[x; _; _]; [w]] => x * w | _ => 0 end.
Fixpoint mul_lanes (xs ws : list Z) : list Z :=
  match xs, ws with x :: xs', w :: ws' => x * w :: mul_lanes xs' ws' | _, _ => [] end.
Definition moments (os : list (list (list Z))) : list Z :=
  match os with [[xs; _; _]; [ws]] => mul_lanes xs ws | _ => [] end.

Lemma mul_lanes_nth xs : forall ws i, nth_error (mul_lanes xs ws) i =
  match nth_error xs i, nth_error ws i with Some x, Some w => Some (x * w) | _, _ => None end.
Proof.
  induction xs as [|x xs IH]; intros [|w ws] [|i]; cbn; try reflexivity; [now destruct (nth_error xs i)|apply IH].
Qed.

Lemma mul_lanes_length xs : forall ws, length xs = length ws -> length (mul_lanes xs ws) = length xs.
Proof. induction xs as [|x xs IH]; intros [|w ws] L; try discriminate; [reflexivity|]. cbn in *. now rewrite IH by lia. Qed.

Lemma moments_lanewise n : transforms_structs [3; 1] moment moments n.
Proof.
  intros os F. inversion F as [|? o1 ? os1 [L1 H1] F1]; subst. inversion F1 as [|? o2 ? os2 [L2 H2] F2]; subst. inversion F2; subst.
  destruct o1 as [|xs [|ys [|zs [|? ?] ] ] ]; cbn in L1; try lia. destruct o2 as [|ws [|? ?] ]; cbn in L2; try lia.
  pose proof (H1 xs (or_introl eq_refl)). pose proof (H2 ws (or_introl eq_refl)). cbn [moments]. split.
  - rewrite mul_lanes_length; lia.
  - intros i args Hi G. inversion G as [|? x ? args1 [Lx Nx] G1]; subst. inversion G1 as [|? w ? args2 [Lw Nw] G2]; subst. inversion G2; subst.
    cbn in Lx, Lw. destruct x as [|x [|y [|z [|? ?] ] ] ]; try discriminate. destruct w as [|w [|? ?] ]; try discriminate.
    specialize (Nx 0%nat _ eq_refl). specialize (Nw 0%nat _ eq_refl). cbn in Nx, Nw. cbn [moment].
    rewrite mul_lanes_nth, <- Nx, <- Nw. reflexivity.
Qed.

(** The sum of the coordinates. *)
Definition total (args : list (list Z)) : Z := match args with [[x; y; z]] => x + y + z | _ => 0 end.
Fixpoint add_lanes (xs ys zs : list Z) : list Z :=
  match xs, ys, zs with x :: xs', y :: ys', z :: zs' => x + y + z :: add_lanes xs' ys' zs' | _, _, _ => [] end.
Definition totals (os : list (list (list Z))) : list Z :=
  match os with [[xs; ys; zs]] => add_lanes xs ys zs | _ => [] end.

Lemma add_lanes_nth xs : forall ys zs i, nth_error (add_lanes xs ys zs) i =
  match nth_error xs i, nth_error ys i, nth_error zs i with
  | Some x, Some y, Some z => Some (x + y + z) | _, _, _ => None end.
Proof.
  induction xs as [|x xs IH]; intros [|y ys] [|z zs] [|i]; cbn; try reflexivity;
    try (now destruct (nth_error xs i)); try (destruct (nth_error xs i); [now destruct (nth_error ys i)|reflexivity]). apply IH.
Qed.

Lemma add_lanes_length xs : forall ys zs, length xs = length ys -> length xs = length zs -> length (add_lanes xs ys zs) = length xs.
Proof.
  induction xs as [|x xs IH]; intros [|y ys] [|z zs] L1 L2; try discriminate; [reflexivity|]. cbn in *. now rewrite IH by lia.
Qed.

Lemma totals_lanewise n : transforms_structs [3] total totals n.
Proof.
  intros os F. inversion F as [|? o1 ? os1 [L1 H1] F1]; subst. inversion F1; subst.
  destruct o1 as [|xs [|ys [|zs [|? ?] ] ] ]; cbn in L1; try lia.
  pose proof (H1 xs (or_introl eq_refl)) as Hx. pose proof (H1 ys (or_intror (or_introl eq_refl))) as Hy.
  pose proof (H1 zs (or_intror (or_intror (or_introl eq_refl)))) as Hz. cbn [totals]. split.
  - rewrite add_lanes_length; lia.
  - intros i args Hi G. inversion G as [|? x ? args1 [Lx Nx] G1]; subst. inversion G1; subst.
    cbn in Lx. destruct x as [|x [|y [|z [|? ?] ] ] ]; try discriminate.
    pose proof (Nx 0%nat _ eq_refl) as N0. pose proof (Nx 1%nat _ eq_refl) as N1. pose proof (Nx 2%nat _ eq_refl) as N2.
    cbn in N0, N1, N2. cbn [total]. rewrite add_lanes_nth, <- N0, <- N1, <- N2. reflexivity.
Qed.

Definition list_up (n : nat) (f : Z -> Z) : list Z := map (fun i => f (Z.of_nat i)) (seq 0 n).

Lemma word_at n a : 0 <= a < n -> words n a = Some a.
Proof. intros H. unfold words. destruct (Z.leb_spec 0 a); [|lia]. destruct (Z.ltb_spec a n); [reflexivity|lia]. Qed.

Lemma words_load1 n a : 0 <= a < n -> load (words n) a (Z.to_nat 1) = Some [a].
Proof. intros H. change (Z.to_nat 1) with 1%nat. cbn [load]. now rewrite word_at. Qed.

Lemma words_load3 n a : 0 <= a -> a + 3 <= n -> load (words n) a (Z.to_nat 3) = Some [a; a + 1; a + 2].
Proof.
  intros H1 H2. change (Z.to_nat 3) with 3%nat. cbn [load]. rewrite !word_at by lia. now replace (a + 1 + 1) with (a + 2) by lia.
Qed.

Lemma moment_values n (r : srange) : r_k r = 3 -> r_base r = 0 -> 0 <= n <= 100 ->
  values_are moment (words 500) (combine [r; weights] [0; 300]) (n - 0) (list_up (Z.to_nat n) (fun i => 3 * i * (300 + i))).
Proof.
  intros Hk Hb Hn. unfold list_up. split; [rewrite map_length, seq_length; lia|]. intros i Hi. cbn [combine].
  exists [[3 * i; 3 * i + 1; 3 * i + 2]; [300 + i]]. split.
  - constructor; [|constructor; [|constructor] ]; unfold elem; cbn [fst snd weights r_k r_base].
    + rewrite Hk, Hb. replace (0 + 3 * (0 + i)) with (3 * i) by lia. apply words_load3; lia.
    + replace (0 + 1 * (300 + i)) with (300 + i) by lia. apply words_load1. lia.
  - rewrite nth_error_map. replace (nth_error (seq 0 (Z.to_nat n)) (Z.to_nat i)) with (Some (Z.to_nat i)).
    2:{ symmetry. rewrite (nth_error_nth' _ 0%nat) by (rewrite seq_length; lia). now rewrite seq_nth by lia. }
    cbn [option_map moment]. f_equal. rewrite Z2Nat.id by lia. reflexivity.
Qed.

Lemma total_values n : 0 <= n <= 100 ->
  values_are total (words 500) [(points, 0)] (n - 0) (list_up (Z.to_nat n) (fun i => 9 * i + 3)).
Proof.
  intros Hn. unfold list_up. split; [rewrite map_length, seq_length; lia|]. intros i Hi.
  exists [[3 * i; 3 * i + 1; 3 * i + 2]]. split.
  - constructor; [|constructor]; unfold elem; cbn [fst snd points r_k r_base].
    replace (0 + 3 * (0 + i)) with (3 * i) by lia. apply words_load3; lia.
  - rewrite nth_error_map. replace (nth_error (seq 0 (Z.to_nat n)) (Z.to_nat i)) with (Some (Z.to_nat i)).
    2:{ symmetry. rewrite (nth_error_nth' _ 0%nat) by (rewrite seq_length; lia). now rewrite seq_nth by lia. }
    cbn [option_map total]. f_equal. lia.
Qed.

Lemma cfg12_sruns pol w first last kd : policy_ok pol -> width_ok w -> range_ok first last -> size_matches pol w first last ->
  sreduce_runs cfg12 pol w first last (RStruct kd).
Proof. intros. split; [split; cbn; [lia|intros; lia]|]. repeat (split; [assumption|]). discriminate. Qed.

(** The moments are computed with the weights of other points. *)
Lemma moments_mispaired :
  sreduce_runs cfg12 pol0 8 0 8 (RStruct kind_3f) /\ (forall k, transforms_structs [3; 1] moment moments k)
  /\ exists vals x, values_are moment (words 500) (combine [points; weights] [0; 300]) (8 - 0) vals
     /\ stransform_reduce 0 moments cfg12 Z.add [points; weights] (words 500) pol0 8 0 8 [300] 0 = Ok x
     /\ ~ gsum Z.add (0 :: vals) x.
Proof.
  split; [apply cfg12_sruns; [now repeat split|split; lia|split; lia|discriminate]|].
  split; [exact moments_lanewise|]. eexists _, _.
  split; [apply (moment_values 8); [reflexivity|reflexivity|lia]|]. split; [vm_compute; reflexivity|].
  intros G. apply gsum_fold in G; [|split; intros; lia]. vm_compute in G. discriminate.
Qed.
