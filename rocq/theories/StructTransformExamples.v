(** Examples and counterexamples for transform over structs (C52). *)
From Verif Require Import Base BaseFacts PermuteModel SimdizeModel SimdizeSpec SimdizeProofs
  ExecModel ExecSpec ExecExamples StructRunModel StructRunSpec StructRunExamples
  StructTransformModel StructTransformSpec StructTransformProofs StructTransformThm.

(** Points at 0.., weights at 300.., output weighted x coordinates at 400... *)
Definition points : srange := mksr (RStruct kind_3f) 3 0.
Definition points_int : srange := mksr (RStruct kind_3i) 3 0.
Definition weights : srange := mksr RScalar 1 0.
Definition cfg4 : cfg := mkcfg 4 0 (fun n => bit_ceil (n * 4)) false false.

(** 1000 * x + weight. *)
Definition weigh (args : list (list Z)) : list Z :=
  match args with [[x; _; _]; [w]] => [1000 * x + w] | _ => [] end.
Fixpoint weigh_lanes (xs ws : list Z) : list Z :=
  match xs, ws with x :: xs', w :: ws' => 1000 * x + w :: weigh_lanes xs' ws' | _, _ => [] end.
Definition weigh_v (os : list (list (list Z))) : list (list Z) :=
  match os with [[xs; _; _]; [ws]] => [weigh_lanes xs ws] | _ => [] end.

Lemma weigh_lanes_nth xs : forall ws i, nth_error (weigh_lanes xs ws) i =
  match nth_error xs i, nth_error ws i with Some x, Some w => Some (1000 * x + w) | _, _ => None end.
Proof.
  induction xs as [|x xs IH]; intros [|w ws] [|i]; cbn; try reflexivity; [now destruct (nth_error xs i)|apply IH].
Qed.

Lemma weigh_lanes_length xs : forall ws, length xs = length ws -> length (weigh_lanes xs ws) = length xs.
Proof. induction xs as [|x xs IH]; intros [|w ws] L; try discriminate; [reflexivity|]. cbn in *. now rewrite IH by lia. Qed.

Lemma weigh_lanewise : lanewise_structs [3; 1] 1 weigh weigh_v.
Proof.
  intros n os Hn F. inversion F as [|? o1 ? os1 [L1 H1] F1]; subst. inversion F1 as [|? o2 ? os2 [L2 H2] F2]; subst. inversion F2; subst.
  destruct o1 as [|xs [|ys [|zs [|? ?] ] ] ]; cbn in L1; try lia. destruct o2 as [|ws [|? ?] ]; cbn in L2; try lia.
  pose proof (H1 xs (or_introl eq_refl)). pose proof (H2 ws (or_introl eq_refl)). cbn [weigh_v]. split.
  - split; [reflexivity|]. intros v [<-|[] ]. rewrite weigh_lanes_length; lia.
  - intros i args Hi G. inversion G as [|? x ? args1 [Lx Nx] G1]; subst. inversion G1 as [|? w ? args2 [Lw Nw] G2]; subst. inversion G2; subst.
    cbn in Lx, Lw. destruct x as [|x [|y [|z [|? ?] ] ] ]; try discriminate. destruct w as [|w [|? ?] ]; try discriminate.
    specialize (Nx 0%nat _ eq_refl). specialize (Nw 0%nat _ eq_refl). cbn in Nx, Nw. cbn [weigh]. split; [reflexivity|].
    intros [|[|j] ] v Ev; try discriminate. cbn in Ev. injection Ev as <-. rewrite weigh_lanes_nth, <- Nx, <- Nw. reflexivity.
Qed.

(** Adds 1 to each member. *)
Definition shift_point (args : list (list Z)) : list Z := match args with [x] => map (Z.add 1) x | _ => [] end.
Definition shift_points (os : list (list (list Z))) : list (list Z) := match os with [o] => map (map (Z.add 1)) o | _ => [] end.

Lemma shift_lanewise : lanewise_structs [3] 3 shift_point shift_points.
Proof.
  intros n os Hn F. inversion F as [|? o ? os1 [L1 H1] F1]; subst. inversion F1; subst. cbn [shift_points]. split.
  - split; [now rewrite map_length|]. intros v Hv. apply in_map_iff in Hv as (u & <- & Hu). rewrite map_length. now apply H1.
  - intros i args Hi G. inversion G as [|? x ? args1 [Lx Nx] G1]; subst. inversion G1; subst. cbn [shift_point].
    split; [now rewrite !map_length|]. intros j v Ej. rewrite nth_error_map in Ej.
    destruct (nth_error o j) as [u|] eqn:Eu; [|discriminate]. injection Ej as <-. rewrite !nth_error_map, (Nx j u Eu). reflexivity.
Qed.

Definition tobserved (p : Z) (n : nat) (r : res (mem Z * Z)) : option (option (list Z) * Z) :=
  match r with Ok (m, d) => Some (load m p n, d) | Stop _ => None end.

Lemma cfg4_runs pol w first last dst : policy_ok pol -> width_ok w -> range_ok first last -> size_matches pol w first last ->
  reaches_alignment cfg4 pol w dst (dst + (last - first)) -> stransform_runs cfg4 pol w first last dst RScalar 1.
Proof.
  intros. split; [split; [reflexivity|left; split; [reflexivity|reflexivity] ]|]. split; [reflexivity|]. repeat (split; [assumption|]). auto.
Qed.

Lemma plain_reach c w a b : reaches_alignment c pol0 w a b.
Proof. split; discriminate. Qed.

(** The points are paired with the weights of other points. *)
Lemma points_mispaired :
  stransform_runs cfg4 pol0 8 0 8 400 RScalar 1 /\ lanewise_structs [3; 1] 1 weigh weigh_v
  /\ elem (words 500) points (0 + 1) [3; 4; 5] /\ elem (words 500) weights (300 + 1) [301]
  /\ exists m', run_stransform 0 weigh_v cfg4 pol0 8 [points; weights] RScalar 1 0 8 400 [300] (words 500) = Ok (m', 408)
     /\ load m' 401 1 = Some [1000 * 9 + 301] /\ weigh [[3; 4; 5]; [301]] = [1000 * 3 + 301].
Proof.
  assert (Hrun : stransform_runs cfg4 pol0 8 0 8 400 RScalar 1).
  { apply cfg4_runs; [now repeat split|split; lia|split; lia|discriminate|apply plain_reach]. }
  split; [exact Hrun|]. split; [exact weigh_lanewise|]. split; [reflexivity|]. split; [reflexivity|].
  destruct (stransform_all 0 weigh weigh_v cfg4 pol0 8 [points; weights] RScalar 1 0 8 400 [300] (words 500))
    as (m' & order & E & _ & [V _] & _ & Ho); try assumption.
  - exact weigh_lanewise.
  - repeat constructor; cbn; lia.
  - reflexivity.
  - now apply words_mapped.
  - repeat constructor; intros a Ha; cbn in Ha; unfold words; destruct (Z.leb_spec 0 a); destruct (Z.ltb_spec a 500); cbn; try discriminate; lia.
  - repeat constructor; cbn; lia.
  - exists m'. split; [exact E|]. split; [|reflexivity].
    apply (V 1 [[9; 10; 11]; [301]] ltac:(lia)). constructor; [left; split; [repeat split|]|constructor; [right; split; [intros []|reflexivity]|constructor] ].
    rewrite (Ho eq_refl eq_refl ltac:(left; now split)) by lia. reflexivity.
Qed.
