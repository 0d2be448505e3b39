(** Property theorems C66: the exact sequence of simd sizes. *)
From Verif Require Import Base ExecModel ExecSpec ExecExamples TransformModel
  ScheduleSpec ScheduleProofs ScheduleThm ScheduleMore.

(** C66: for_each. Whenever the prologue fits into the range, the sizes are those of the
    schedule. *)
Theorem C66_for_each_schedule :
  forall (T St : Type) (f : St -> list (list T) -> St * list (list T)) c pol w wb first last m st,
    target_ok c -> c_ce c = false -> policy_ok pol -> width_ok w -> range_ok first last ->
    size_matches pol w first last ->
    (forall d, prologue_length c pol w first (last - first) d -> d <= last - first) ->
    keeps_lanes f -> mapped m first last ->
    exists s d, run_for_each f c pol w wb first last m st = Ok s
      /\ prologue_length c pol w first (last - first) d
      /\ map (map (@length T)) (s_trace s) = schedule w (p_unroll pol) d (last - first).
Proof. exact @for_each_schedule_fits. Qed.
Print Assumptions C66_for_each_schedule.

(** The same from the preconditions of C01. *)
Theorem C66_for_each_schedule_reaching :
  forall (T St : Type) (f : St -> list (list T) -> St * list (list T)) c pol w wb first last m st,
    target_ok c -> c_ce c = false -> policy_ok pol -> width_ok w -> range_ok first last ->
    size_matches pol w first last -> reaches_alignment c pol w first last ->
    keeps_lanes f -> mapped m first last ->
    exists s d, run_for_each f c pol w wb first last m st = Ok s
      /\ prologue_length c pol w first (last - first) d
      /\ map (map (@length T)) (s_trace s) = schedule w (p_unroll pol) d (last - first).
Proof. exact @for_each_schedule. Qed.
Print Assumptions C66_for_each_schedule_reaching.

(** The number of elements in front of the main loop is a function of the policy, the width,
    the address and the number of elements, and less than a full chunk. *)
Theorem C66_prologue_length_unique :
  forall c pol w first n d e,
    prologue_length c pol w first n d -> prologue_length c pol w first n e -> d = e.
Proof. exact prologue_length_unique. Qed.
Print Assumptions C66_prologue_length_unique.

Theorem C66_prologue_below_width :
  forall c w first d, can_align c w -> next_aligned c w first d -> d < w.
Proof. exact next_aligned_below. Qed.
Print Assumptions C66_prologue_below_width.

(** 45 elements of 4 bytes from byte address 12 on, 8 per simd: 5 elements up to address 32,
    two groups of two and a single full chunk. Without the prologue there is an epilogue of
    5 = 4 + 1 instead. *)
Example C66_instance :
  option_map (fun x => map (map (@length Z)) (fst (fst x)))
    (ex_obs 0 45 (run_for_each ex_f (ex_cfg 12 false false) (pol_aligned_unroll 2) 8 true 0 45 (ex_mem 0 45) 0))
  = Some (schedule 8 2 5 45)
  /\ schedule 8 2 5 45 = [[1]; [4]; [8;8]; [8;8]; [8]]%nat
  /\ schedule 8 2 0 45 = [[8;8]; [8;8]; [8]; [4]; [1]]%nat
  /\ prologue_length (ex_cfg 12 false false) (pol_aligned_unroll 2) 8 0 45 5.
Proof.
  split; [vm_compute; reflexivity|]. split; [reflexivity|]. split; [reflexivity|].
  left. split; [split; [lia|]; split; [exists 5; split; [lia|reflexivity]|reflexivity]|].
  split; [|left; reflexivity].
  split; [lia|]. split; [exists 1; reflexivity|].
  intros e He [q Hq]. unfold address in Hq. cbn [ex_cfg c_base c_sz c_malign] in Hq.
  change (bit_ceil (8 * 4)) with 32 in Hq. lia.
Qed.

(** Neither the jump tables nor -Os change anything: with the same element size, address and
    alignment rule, the invocations, the callable and the memory are the same. *)
Theorem C66_optimize_for_size :
  forall (T St : Type) (f : St -> list (list T) -> St * list (list T)) c c' pol w wb first last m st,
    c_base c = c_base c' -> c_sz c = c_sz c' -> (forall k, c_malign c k = c_malign c' k) ->
    target_ok c -> c_ce c = false -> c_ce c' = false -> policy_ok pol -> width_ok w ->
    range_ok first last -> size_matches pol w first last -> reaches_alignment c pol w first last ->
    keeps_lanes f -> mapped m first last ->
    exists s s', run_for_each f c pol w wb first last m st = Ok s
      /\ run_for_each f c' pol w wb first last m st = Ok s'
      /\ s_trace s = s_trace s' /\ s_st s = s_st s' /\ forall a, s_mem s a = s_mem s' a.
Proof. exact @for_each_size_independent. Qed.
Print Assumptions C66_optimize_for_size.

Example C66_instance_size :
  ex_obs 0 45 (run_for_each ex_f (ex_cfg 12 false false) pol_auto 8 true 0 45 (ex_mem 0 45) 0)
  = ex_obs 0 45 (run_for_each ex_f (ex_cfg 12 true false) pol_auto 8 true 0 45 (ex_mem 0 45) 0).
Proof. vm_compute. reflexivity. Qed.

(** Constant evaluation ignores the policy: full chunks one by one, then the binary digits of
    what remains. This is what a plain policy without unrolling does at run time. *)
Theorem C66_consteval_schedule :
  forall (T St : Type) (f : St -> list (list T) -> St * list (list T)) c pol w wb first last m st,
    c_ce c = true -> width_ok w -> range_ok first last -> size_matches pol w first last ->
    (w = 2 -> first = last \/ (last - first) mod 2 <> 0) ->
    keeps_lanes f -> mapped m first last ->
    exists s, run_for_each f c pol w wb first last m st = Ok s
      /\ map (map (@length T)) (s_trace s) = schedule w 1 0 (last - first).
Proof.
  intros T St f c pol w wb first last m st H1 H2 H3 H4 H5 H6 H7.
  destruct (for_each_ce_schedule f c pol w wb first last m st H1 H2 H3 H4 H5 H6 H7) as (s & E & Hs & _).
  exists s. auto.
Qed.
Print Assumptions C66_consteval_schedule.

Theorem C66_consteval_as_plain :
  forall (T St : Type) (f : St -> list (list T) -> St * list (list T))
         c c' pol pol' w wb first last m st,
    c_ce c = true -> target_ok c' -> c_ce c' = false -> policy_ok pol' -> plain pol' ->
    p_unroll pol' <= 1 -> width_ok w -> range_ok first last ->
    size_matches pol w first last -> size_matches pol' w first last ->
    (w = 2 -> first = last \/ (last - first) mod 2 <> 0) ->
    keeps_lanes f -> mapped m first last ->
    exists s s', run_for_each f c pol w wb first last m st = Ok s
      /\ run_for_each f c' pol' w wb first last m st = Ok s'
      /\ s_trace s = s_trace s' /\ s_st s = s_st s' /\ forall a, s_mem s a = s_mem s' a.
Proof. exact @for_each_ce_as_plain. Qed.
Print Assumptions C66_consteval_as_plain.

Example C66_instance_consteval :
  ex_obs 0 21 (run_for_each ex_f (ex_cfg 12 false true) (pol_aligned_unroll 2) 8 true 0 21 (ex_mem 0 21) 0)
  = ex_obs 0 21 (run_for_each ex_f (ex_cfg 12 false false) pol0 8 true 0 21 (ex_mem 0 21) 0)
  /\ schedule 8 1 0 21 = [[8]; [8]; [4]; [1]]%nat.
Proof. split; vm_compute; reflexivity. Qed.

(** The unroll factor only groups the simd objects into invocations. *)
Theorem C66_unroll_groups :
  forall (T St : Type) (f : St -> list (list T) -> St * list (list T)) c pol pol' w wb first last m st,
    p_aligned pol = p_aligned pol' -> p_auto pol = p_auto pol' -> p_match pol = p_match pol' ->
    target_ok c -> c_ce c = false -> policy_ok pol -> width_ok w -> range_ok first last ->
    size_matches pol w first last -> reaches_alignment c pol w first last ->
    keeps_lanes f -> mapped m first last ->
    exists s s', run_for_each f c pol w wb first last m st = Ok s
      /\ run_for_each f c pol' w wb first last m st = Ok s'
      /\ concat (s_trace s) = concat (s_trace s').
Proof. exact @for_each_unroll_groups. Qed.
Print Assumptions C66_unroll_groups.

Example C66_instance_unroll :
  option_map (fun x => fst (fst x))
    (ex_obs 0 11 (run_for_each ex_f (ex_cfg 0 false false) (pol_unroll 2) 4 true 0 11 (ex_mem 0 11) 0))
  = Some [[[100;101;102;103];[104;105;106;107]]; [[108;109]]; [[110]]]
  /\ option_map (fun x => fst (fst x))
    (ex_obs 0 11 (run_for_each ex_f (ex_cfg 0 false false) pol0 4 true 0 11 (ex_mem 0 11) 0))
  = Some [[[100;101;102;103]];[[104;105;106;107]]; [[108;109]]; [[110]]].
Proof. split; vm_compute; reflexivity. Qed.

(** On ranges of at most 4000 bytes auto_prologue makes exactly as many invocations as it would
    without a prologue. *)
Theorem C66_auto_prologue_free :
  forall (T St : Type) (f : St -> list (list T) -> St * list (list T)) c pol w wb first last m st,
    target_ok c -> c_ce c = false -> policy_ok pol -> p_auto pol = true -> width_ok w ->
    range_ok first last -> (last - first) * c_sz c <= 4000 -> keeps_lanes f -> mapped m first last ->
    exists s, run_for_each f c pol w wb first last m st = Ok s
      /\ length (s_trace s) = length (schedule w (p_unroll pol) 0 (last - first)).
Proof. exact @for_each_auto_free. Qed.
Print Assumptions C66_auto_prologue_free.

(** 13 = 8 + 4 + 1 elements, 5 = 4 + 1 of them in front of the aligned address: three chunks
    either way. With 12 elements the prologue would cost one more and is left out. *)
Example C66_instance_auto :
  option_map (fun x => map (map (@length Z)) (fst (fst x)))
    (ex_obs 0 13 (run_for_each ex_f (ex_cfg 12 false false) pol_auto 8 true 0 13 (ex_mem 0 13) 0))
  = Some [[1]; [4]; [8]]%nat
  /\ schedule 8 0 0 13 = [[8]; [4]; [1]]%nat
  /\ option_map (fun x => map (map (@length Z)) (fst (fst x)))
    (ex_obs 0 12 (run_for_each ex_f (ex_cfg 12 false false) pol_auto 8 true 0 12 (ex_mem 0 12) 0))
  = Some [[8]; [4]]%nat.
Proof. repeat split; vm_compute; reflexivity. Qed.

(** C66: transform follows the schedule given by the alignment of its output range. *)
Theorem C66_transform_schedule :
  forall c pol w first last dst srcs2,
    target_ok c -> c_ce c = false -> policy_ok pol -> width_ok w -> range_ok first last ->
    size_matches pol w first last ->
    (forall d, prologue_length c pol w dst (last - first) d -> d <= last - first) ->
    exists d, prologue_length c pol w dst (last - first) d
      /\ snd (transform c pol w first last dst srcs2) = Ok (dst + (last - first))
      /\ map (fun s => repeat (Z.to_nat (t_k s)) (t_n s)) (fst (transform c pol w first last dst srcs2))
         = schedule w (p_unroll pol) d (last - first).
Proof. exact transform_schedule_fits. Qed.
Print Assumptions C66_transform_schedule.

Theorem C66_transform_schedule_reaching :
  forall c pol w first last dst srcs2,
    target_ok c -> c_ce c = false -> policy_ok pol -> width_ok w -> range_ok first last ->
    size_matches pol w first last -> reaches_alignment c pol w dst (dst + (last - first)) ->
    exists d, prologue_length c pol w dst (last - first) d
      /\ snd (transform c pol w first last dst srcs2) = Ok (dst + (last - first))
      /\ map (fun s => repeat (Z.to_nat (t_k s)) (t_n s)) (fst (transform c pol w first last dst srcs2))
         = schedule w (p_unroll pol) d (last - first).
Proof. exact transform_schedule. Qed.
Print Assumptions C66_transform_schedule_reaching.

(** In constant evaluation transform handles the remainder element by element, unlike
    for_each. *)
Theorem C66_transform_consteval :
  forall c pol w first last dst srcs2,
    c_ce c = true -> width_ok w -> range_ok first last -> size_matches pol w first last ->
    snd (transform c pol w first last dst srcs2) = Ok (dst + (last - first))
    /\ map (fun s => repeat (Z.to_nat (t_k s)) (t_n s)) (fst (transform c pol w first last dst srcs2))
       = repeat [Z.to_nat w] (Z.to_nat ((last - first) / w))
         ++ repeat [1%nat] (Z.to_nat ((last - first) mod w)).
Proof. exact transform_ce_schedule. Qed.
Print Assumptions C66_transform_consteval.

Example C66_instance_transform :
  map (fun s => repeat (Z.to_nat (t_k s)) (t_n s))
      (fst (transform (ex_cfg 12 false false) (pol_aligned_unroll 2) 8 100 145 0 [1000]))
  = schedule 8 2 5 45
  /\ map (fun s => repeat (Z.to_nat (t_k s)) (t_n s))
      (fst (transform (ex_cfg 12 false true) (pol_aligned_unroll 2) 8 100 119 0 [1000]))
  = [[8]; [8]; [1]; [1]; [1]]%nat.
Proof. split; vm_compute; reflexivity. Qed.
