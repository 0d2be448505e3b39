(** Property theorems C55: count_if over ranges of structs. *)
From Verif Require Import Base SimdizeModel SimdizeSpec ExecModel ExecSpec ExecExamples CountModel
  StructRunModel StructRunSpec StructRunExamples StructCountModel StructCountThm StructCountExamples.

(** C55.  The number of structs that satisfy the predicate, or undefined behaviour if int cannot hold it.
    [runs_on] leaves out constant evaluation with two lanes and an even number of structs only (below). *)
Theorem C55_count_if_structs :
  forall (W : Type) (zero : W) (p : list W -> bool) (pred : list (list W) -> list bool)
         kd k c lib pol w first last m xs,
    1 <= k -> (forall o xs, lanes_are k o xs -> pred o = map p xs) -> runs_on c pol w first last ->
    structs_are m k first last xs ->
    struct_count_if zero pred kd k c lib pol w first last m
    = (if Z.of_nat (length (filter p xs)) <=? int_max then Ok (Z.of_nat (length (filter p xs))) else Stop SUB).
Proof. exact @struct_count_ok. Qed.
Print Assumptions C55_count_if_structs.

(** There the last struct counts twice. *)
Theorem C55_count_if_structs_consteval_width_two :
  forall (W : Type) (zero : W) (p : list W -> bool) (pred : list (list W) -> list bool)
         kd k c lib pol first last m xs x,
    1 <= k -> (forall o xs, lanes_are k o xs -> pred o = map p xs) -> c_ce c = true -> range_ok first last ->
    first < last -> (last - first) mod 2 = 0 -> structs_are m k first last (xs ++ [x]) ->
    struct_count_if zero pred kd k c lib pol 2 first last m
    = (if Z.of_nat (length (filter p (xs ++ [x; x]))) <=? int_max
       then Ok (Z.of_nat (length (filter p (xs ++ [x; x])))) else Stop SUB).
Proof. exact @struct_count_two. Qed.
Print Assumptions C55_count_if_structs_consteval_width_two.

(** Eleven structs of three words; three floats (shuffled loads), three ints, and simd_tuple. *)
Example C55_instance :
  (forall o xs, lanes_are 3 o xs -> lane_mask even_sum o = map even_sum xs)
  /\ runs_on cfg12 (pol_unroll 2) 4 0 11 /\ structs_are (words 33) 3 0 11 (triples 11)
  /\ Z.of_nat (length (filter even_sum (triples 11))) = 5
  /\ struct_count_if 0 (lane_mask even_sum) kind_3f 3 cfg12 true pol0 8 0 11 (words 33) = Ok 5
  /\ struct_count_if 0 (lane_mask even_sum) kind_3i 3 cfg12 true (pol_unroll 2) 4 0 11 (words 33) = Ok 5
  /\ struct_count_if 0 (lane_mask even_sum) KTuple 3 cfg12 false pol_aligned 4 0 11 (words 33) = Ok 5.
Proof.
  split; [intros o xs H; exact (lane_mask_ok even_sum 3 o xs ltac:(lia) H)|].
  split; [apply cfg12_runs; [now repeat split|split; lia|split; lia|discriminate]|].
  split; [exact (words_are 11)|]. split; [reflexivity|]. split; [vm_compute; reflexivity|]. split; vm_compute; reflexivity.
Qed.

Example C55_width_two_instance :
  structs_are (words 12) 3 0 4 ([[0; 1; 2]; [3; 4; 5]; [6; 7; 8] ] ++ [[9; 10; 11] ])
  /\ struct_count_if 0 (lane_mask even_sum) kind_3i 3 (mkcfg 12 0 (fun _ => 4) false true) true pol0 2 0 4 (words 12) = Ok 3
  /\ Z.of_nat (length (filter even_sum (triples 4))) = 2.
Proof. split; [exact (words_are 4)|]. split; vm_compute; reflexivity. Qed.
