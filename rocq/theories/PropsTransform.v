(** Property theorems C03, C04, C06, C10: vir::transform with any number of inputs. *)
From Verif Require Import Base ExecModel ExecSpec ExecThm ExecExamples
  TransformModel TransformSpec TransformThm TransformExamples ExactSpec TransformExact AlignedProofs
  WriteBackExact MatchSame.

(** C06 at run time.  The output may coincide with (or precede) any input.  Memory may be
    unmapped outside the ranges. *)
Theorem C06_transform_runtime :
  forall (T : Type) (op : list T -> T) (opv : list (list T) -> list T)
         c pol w first last dst srcs2 (m : mem T),
    target_ok c -> c_ce c = false -> policy_ok pol -> width_ok w -> range_ok first last ->
    size_matches pol w first last -> reaches_alignment c pol w dst (dst + (last - first)) ->
    lanewise_op op opv ->
    Forall (fun p => mapped m p (p + (last - first))) (dst :: first :: srcs2) ->
    no_clobber dst (last - first) (first :: srcs2) ->
    exists m', run_transform opv c pol w first last dst srcs2 m = Ok (m', dst + (last - first))
               /\ transformed op (first :: srcs2) dst (last - first) m m'.
Proof. exact @transform_runtime. Qed.
Print Assumptions C06_transform_runtime.

(** C06 without a prologue: no condition on alignment. *)
Theorem C06_transform_plain :
  forall (T : Type) (op : list T -> T) (opv : list (list T) -> list T)
         c pol w first last dst srcs2 (m : mem T),
    target_ok c -> c_ce c = false -> policy_ok pol -> plain pol -> width_ok w -> range_ok first last ->
    size_matches pol w first last -> lanewise_op op opv ->
    Forall (fun p => mapped m p (p + (last - first))) (dst :: first :: srcs2) ->
    no_clobber dst (last - first) (first :: srcs2) ->
    exists m', run_transform opv c pol w first last dst srcs2 m = Ok (m', dst + (last - first))
               /\ transformed op (first :: srcs2) dst (last - first) m m'.
Proof. exact @transform_plain. Qed.
Print Assumptions C06_transform_plain.

(** Finding: if the output does not reach an aligned address (C03_transform_inside_iff is the exact
    extent) and memory goes on behind it, elements behind it are overwritten and the returned iterator
    is not its end. *)
Theorem C06_transform_short_output_refuted :
  exists c pol w first last dst (m m' : mem Z) d,
    target_ok c /\ c_ce c = false /\ policy_ok pol /\ width_ok w /\ range_ok first last
    /\ size_matches pol w first last /\ (forall a, m a <> None)
    /\ no_clobber dst (last - first) [first; 1000] /\ lanewise_op ex_sum (ex_lift ex_sum)
    /\ run_transform (ex_lift ex_sum) c pol w first last dst [1000] m = Ok (m', d)
    /\ d = dst + (last - first) + 8 /\ m' (dst + (last - first)) <> m (dst + (last - first)).
Proof. exact transform_short_output_refuted. Qed.
Print Assumptions C06_transform_short_output_refuted.

(** C06 in constant evaluation. *)
Theorem C06_transform_consteval :
  forall (T : Type) (op : list T -> T) (opv : list (list T) -> list T)
         c pol w first last dst srcs2 (m : mem T),
    c_ce c = true -> width_ok w -> range_ok first last -> size_matches pol w first last ->
    lanewise_op op opv ->
    Forall (fun p => mapped m p (p + (last - first))) (dst :: first :: srcs2) ->
    no_clobber dst (last - first) (first :: srcs2) ->
    exists m', run_transform opv c pol w first last dst srcs2 m = Ok (m', dst + (last - first))
               /\ transformed op (first :: srcs2) dst (last - first) m m'.
Proof. exact @transform_consteval. Qed.
Print Assumptions C06_transform_consteval.

(** [transformed] determines the memory completely. *)
Theorem C06_transformed_determines_memory :
  forall (T : Type) (op : list T -> T) srcs dst n (m m1 m2 : mem T),
    Forall (fun p => mapped m p (p + n)) srcs ->
    transformed op srcs dst n m m1 -> transformed op srcs dst n m m2 -> forall a, m1 a = m2 a.
Proof. exact @transformed_unique. Qed.
Print Assumptions C06_transformed_determines_memory.

Example C06_instance :
  ex_tobs 2000 9 (run_transform (ex_lift ex_sum) (ex_cfg 4 false false) (pol_aligned_unroll 2) 4
                                0 9 2000 [1000] (ex_mem3 9))
  = Some (Some [1200;1202;1204;1206;1208;1210;1212;1214;1216], 2009)
  /\ ex_tobs 1000 9 (run_transform (ex_lift ex_sum) (ex_cfg 4 false true) pol0 4
                                0 9 1000 [1000; 2000] (ex_mem3 9))
     = Some (Some [3300;3303;3306;3309;3312;3315;3318;3321;3324], 1009)
  /\ lanewise_op ex_sum (ex_lift ex_sum)
  /\ Forall (fun p => mapped (ex_mem3 9) p (p + (9 - 0))) [2000; 0; 1000]
  /\ no_clobber 1000 9 [0; 1000; 2000]
  /\ reaches_alignment (ex_cfg 4 false false) (pol_aligned_unroll 2) 4 2000 (2000 + (9 - 0)).
Proof.
  split; [vm_compute; reflexivity|]. split; [vm_compute; reflexivity|].
  split; [apply ex_lift_lanewise|]. split; [apply ex_mem3_mapped; lia|].
  split; [repeat constructor; lia|]. split; [|discriminate].
  intros _ _ _. exists 2003. split; [lia|]. exists 501. reflexivity.
Qed.

(** C03 for transform: nothing outside the ranges needs to be mapped (C06), provided the output
    range reaches an aligned address.  Without that proviso it is false: *)
Theorem C03_transform_prefer_aligned_refuted :
  exists c pol w first last dst (m : mem Z),
    target_ok c /\ c_ce c = false /\ policy_ok pol /\ width_ok w /\ range_ok first last
    /\ p_match pol = false
    /\ Forall (fun p => mapped m p (p + (last - first))) [dst; first; 1000]
    /\ no_clobber dst (last - first) [first; 1000]
    /\ lanewise_op ex_sum (ex_lift ex_sum)
    /\ run_transform (ex_lift ex_sum) c pol w first last dst [1000] m = Stop SUB.
Proof. exact transform_prefer_aligned_refuted. Qed.
Print Assumptions C03_transform_prefer_aligned_refuted.

(** C03, the exact extent of the finding: with nothing mapped behind the output range, transform does its
    work unless the range is not empty, the policy asks for alignment, and neither an element nor the end of
    the output range is at an aligned address; then it is undefined. *)
Theorem C03_transform_inside_iff :
  forall (T : Type) (op : list T -> T) (opv : list (list T) -> list T)
         c pol w first last dst srcs2 (m : mem T),
    libstdcxx_target c -> c_ce c = false -> policy_ok pol -> width_ok w -> range_ok first last ->
    (last - first) * c_sz c < 2 ^ 64 -> size_matches pol w first last -> lanewise_op op opv ->
    Forall (fun p => mapped m p (p + (last - first))) (dst :: first :: srcs2) ->
    no_clobber dst (last - first) (first :: srcs2) -> m (dst + (last - first)) = None ->
    ((exists m', run_transform opv c pol w first last dst srcs2 m = Ok (m', dst + (last - first))
                 /\ transformed op (first :: srcs2) dst (last - first) m m')
       <-> first = last \/ ~ (aligns c pol w dst (dst + (last - first))
                              /\ no_aligned_address c w dst (dst + (last - first))))
    /\ ((exists r, run_transform opv c pol w first last dst srcs2 m = Ok r)
        \/ run_transform opv c pol w first last dst srcs2 m = Stop SUB).
Proof. exact @transform_inside_iff. Qed.
Print Assumptions C03_transform_inside_iff.

(** The first aligned address is 2007: six elements from 2000 are overrun, seven are not. *)
Example C03_transform_inside_iff_instance :
  libstdcxx_target (ex_cfg 4 false false)
  /\ Forall (fun p => mapped (ex_mem3 6) p (p + 6)) [2000; 0; 1000] /\ no_clobber 2000 6 [0; 1000]
  /\ ex_mem3 6 2006 = None
  /\ aligns (ex_cfg 4 false false) pol_aligned 8 2000 2006
  /\ no_aligned_address (ex_cfg 4 false false) 8 2000 2006
  /\ run_transform (ex_lift ex_sum) (ex_cfg 4 false false) pol_aligned 8 0 6 2000 [1000] (ex_mem3 6) = Stop SUB
  /\ ~ no_aligned_address (ex_cfg 4 false false) 8 2000 2007
  /\ ex_tobs 2000 7 (run_transform (ex_lift ex_sum) (ex_cfg 4 false false) pol_aligned 8 0 7 2000 [1000] (ex_mem3 7))
     = Some (Some [1200;1202;1204;1206;1208;1210;1212], 2007).
Proof.
  split; [now repeat split|]. split; [apply ex_mem3_mapped; lia|]. split; [repeat constructor; lia|].
  split; [reflexivity|]. split; [split; [lia|]; split; [now exists 5|now left]|].
  split; [|split; [vm_compute; reflexivity|split; [|vm_compute; reflexivity] ] ].
  - intros a Ha [q Hq]. unfold address in Hq. cbn [c_base c_sz c_malign ex_cfg] in Hq. change (bit_ceil (8 * 4)) with 32 in Hq. lia.
  - intros H. apply (H 2007); [lia|]. now exists 251.
Qed.

(** C04 for transform: every vector_aligned store is aligned, for every length. *)
Theorem C04_transform_aligned_stores :
  forall c pol w first last dst srcs2,
    target_ok c -> policy_ok pol -> width_ok w -> range_ok first last ->
    forall s i, In s (fst (transform c pol w first last dst srcs2)) -> t_al s = true ->
    (i < t_n s)%nat -> 0 < t_k s -> is_aligned c (t_dst s + t_k s * Z.of_nat i) (t_k s).
Proof. exact transform_aligned_any. Qed.
Print Assumptions C04_transform_aligned_stores.

Example C04_transform_instance :
  transform (ex_cfg 8 false false) (pol_aligned_unroll 2) 4 0 13 2000 [1000]
  = ([mkstep [0; 1000] 2000 2 1 true; mkstep [2; 1002] 2002 4 2 true;
      mkstep [10; 1010] 2010 2 1 true; mkstep [12; 1012] 2012 1 1 true], Ok 2013)
  /\ is_aligned (ex_cfg 8 false false) (2002 + 4 * 1) 4
  /\ ~ is_aligned (ex_cfg 8 false false) 2000 4.
Proof.
  split; [vm_compute; reflexivity|]. split.
  - exists 502. reflexivity.
  - intros [q Hq]. cbn in Hq. change (bit_ceil 16) with 16 in Hq. lia.
Qed.

(** C10 for transform. *)
Theorem C10_transform_mismatch_traps_first :
  forall (T : Type) (opv : list (list T) -> list T) c pol w first last dst srcs2 (m : mem T),
    p_match pol = true -> width_ok w -> first <= last -> (forall n, last - first <> n * w) ->
    run_transform opv c pol w first last dst srcs2 m = Stop STrap
    /\ fst (transform c pol w first last dst srcs2) = [].
Proof. exact @transform_trap. Qed.
Print Assumptions C10_transform_mismatch_traps_first.

Theorem C10_transform_matching_uniform_chunks :
  forall (T : Type) (op : list T -> T) (opv : list (list T) -> list T)
         c pol w first last dst srcs2 (m : mem T),
    target_ok c -> policy_ok pol -> width_ok w -> range_ok first last ->
    p_match pol = true -> (exists n, last - first = n * w) -> lanewise_op op opv ->
    Forall (fun p => mapped m p (p + (last - first))) (dst :: first :: srcs2) ->
    no_clobber dst (last - first) (first :: srcs2) ->
    Forall (fun s => t_k s = w) (fst (transform c pol w first last dst srcs2)) /\
    exists m' m'',
      run_transform opv c pol w first last dst srcs2 m = Ok (m', dst + (last - first))
      /\ run_transform opv c (mkpol (p_aligned pol) (p_auto pol) false (p_unroll pol) (p_size pol))
                       w first last dst srcs2 m = Ok (m'', dst + (last - first))
      /\ forall a, m' a = m'' a.
Proof. exact @transform_match_uniform. Qed.
Print Assumptions C10_transform_matching_uniform_chunks.

Theorem C10_transform_matching_same :
  forall (T : Type) (opv : list (list T) -> list T) c pol w first last dst srcs2 (m : mem T),
    policy_ok pol -> width_ok w -> first <= last -> size_matches pol w first last ->
    run_transform opv c pol w first last dst srcs2 m
    = run_transform opv c (mkpol (p_aligned pol) (p_auto pol) false (p_unroll pol) (p_size pol))
                    w first last dst srcs2 m.
Proof. exact @run_transform_matching_same. Qed.
Print Assumptions C10_transform_matching_same.

Example C10_transform_instance :
  transform (ex_cfg 8 false false) pol_match 3 0 6 2000 [1000]
  = ([mkstep [0; 1000] 2000 3 1 false; mkstep [3; 1003] 2003 3 1 false], Ok 2006)
  /\ run_transform (ex_lift ex_sum) (ex_cfg 8 false false) pol_match 4 0 6 2000 [1000] (fun _ => None)
     = Stop STrap.
Proof. split; vm_compute; reflexivity. Qed.
