(** Property theorems C50: vir::for_each over ranges of structs. *)
From Verif Require Import Base SimdizeModel SimdizeSpec SimdizeProofs ExecModel ExecSpec ExecExamples
  StructRunModel StructRunSpec StructRunThm StructRunExamples.
From Coq Require Import Permutation.

(** C50.  Each struct is a lane of exactly one argument, in the order of the range; only the range is
    accessed; what the callable leaves in the lanes is what the structs hold afterwards.  Missing: objects
    of 8 lanes of three floats (below). *)
Theorem C50_struct_visits_in_order_partial :
  forall (W St : Type) (zero : W) (f : St -> list (list (list W)) -> St * list (list (list W)))
         kd k c pol w wb first last m st,
    keeps_objects f -> 1 <= k -> runs_on c pol w first last -> structs_mapped m k first last ->
    in_order kd k w first last ->
    exists s xss, struct_for_each zero f kd k c pol w wb first last m st = Ok s
      /\ Forall2 (lanes_are k) (concat (ss_trace s)) xss /\ structs_are m k first last (concat xss)
      /\ ss_st s = state_after f st (ss_trace s)
      /\ (wb = false -> ss_mem s = m)
      /\ (wb = true -> exists yss, Forall2 (lanes_are k) (concat (left_behind f st (ss_trace s))) yss
                        /\ structs_are (ss_mem s) k first last (concat yss))
      /\ forall p, ~ (k * first <= p < k * last) -> ss_mem s p = m p.
Proof. exact @struct_visits. Qed.
Print Assumptions C50_struct_visits_in_order_partial.

(** A callable that updates each lane updates each struct in place. *)
Theorem C50_struct_update_in_place_partial :
  forall (W St : Type) (zero : W) (f : St -> list (list (list W)) -> St * list (list (list W)))
         g kd k c pol w first last m st,
    updates_lanes g f -> 1 <= k -> runs_on c pol w first last -> structs_mapped m k first last ->
    in_order kd k w first last ->
    exists s zs, struct_for_each zero f kd k c pol w true first last m st = Ok s
      /\ structs_are m k first last zs /\ structs_are (ss_mem s) k first last (map g zs)
      /\ forall p, ~ (k * first <= p < k * last) -> ss_mem s p = m p.
Proof. exact @struct_updates. Qed.
Print Assumptions C50_struct_update_in_place_partial.

(** Whatever the type: each struct is passed exactly once, *)
Theorem C50_struct_visits_all :
  forall (W St : Type) (zero : W) (f : St -> list (list (list W)) -> St * list (list (list W)))
         kd k c pol w wb first last m st,
    keeps_objects f -> 1 <= k -> runs_on c pol w first last -> structs_mapped m k first last ->
    exists s zs xss, struct_for_each zero f kd k c pol w wb first last m st = Ok s
      /\ structs_are m k first last zs
      /\ Forall2 (lanes_are k) (concat (ss_trace s)) xss /\ Permutation (concat xss) zs
      /\ ss_st s = state_after f st (ss_trace s)
      /\ (wb = false -> ss_mem s = m)
      /\ forall p, ~ (k * first <= p < k * last) -> ss_mem s p = m p.
Proof. exact @struct_visits_all. Qed.
Print Assumptions C50_struct_visits_all.

(** and the updated structs are the images of the old ones, in some order. *)
Theorem C50_struct_updates_all :
  forall (W St : Type) (zero : W) (f : St -> list (list (list W)) -> St * list (list (list W)))
         g kd k c pol w first last m st,
    updates_lanes g f -> 1 <= k -> runs_on c pol w first last -> structs_mapped m k first last ->
    exists s zs ys, struct_for_each zero f kd k c pol w true first last m st = Ok s
      /\ structs_are m k first last zs /\ structs_are (ss_mem s) k first last ys /\ Permutation ys (map g zs)
      /\ forall p, ~ (k * first <= p < k * last) -> ss_mem s p = m p.
Proof. exact @struct_updates_all. Qed.
Print Assumptions C50_struct_updates_all.

(** With 8 lanes of three floats the order is known: within each full block of 8, struct i ends up with
    the image of struct 0, 3, 6, 1, 4, 7, 2, 5. *)
Theorem C50_three_floats_shuffled :
  forall (W St : Type) (zero : W) (f : St -> list (list (list W)) -> St * list (list (list W)))
         g kd k c pol first last m st,
    updates_lanes g f -> unordered_kind kd k -> c_ce c = false -> runs_on c pol 8 first last ->
    structs_mapped m k first last ->
    exists s, struct_for_each zero f kd k c pol 8 true first last m st = Ok s
      /\ (forall i, 0 <= i < last - first -> exists z,
            load m (k * (first + shuffle_index (last - first) i)) (Z.to_nat k) = Some z
            /\ load (ss_mem s) (k * (first + i)) (Z.to_nat k) = Some (g z))
      /\ forall p, ~ (k * first <= p < k * last) -> ss_mem s p = m p.
Proof. exact @struct_shuffles. Qed.
Print Assumptions C50_three_floats_shuffled.

(** An idle callable (taking its argument by reference) moves structs. *)
Theorem C50_update_in_place_refuted : exists s, updates_lanes (fun x => x) idle /\
  struct_for_each 0 idle kind_3f 3 cfg12 pol0 8 true 0 8 (words 24) 0 = Ok s
  /\ load (words 24) (3 * 1) 3 = Some [3; 4; 5] /\ load (ss_mem s) (3 * 1) 3 = Some [9; 10; 11].
Proof. destruct structs_moved as [s H]. exists s. split; [exact idle_updates|exact H]. Qed.
Print Assumptions C50_update_in_place_refuted.

Example C50_instance_three_ints :
  updates_lanes (map (Z.add 100)) bump /\ runs_on cfg12 (pol_aligned_unroll 2) 4 0 11
  /\ structs_mapped (words 33) 3 0 11 /\ in_order kind_3i 3 4 0 11
  /\ observed 33 (struct_for_each 0 bump kind_3i 3 cfg12 (pol_aligned_unroll 2) 4 true 0 11 (words 33) 0)
     = Some (3, Some (map (Z.add 100) (map Z.of_nat (seq 0 33)))).
Proof.
  split; [exact bump_updates|]. split; [apply cfg12_runs; [now repeat split|split; lia|split; lia|discriminate]|].
  split; [now apply words_mapped|]. split; [right; left; reflexivity|vm_compute; reflexivity].
Qed.

Example C50_instance_three_floats :
  unordered_kind kind_3f 3 /\ runs_on cfg12 pol0 8 0 11 /\ structs_mapped (words 33) 3 0 11
  /\ ~ in_order kind_3f 3 8 0 11
  /\ observed 33 (struct_for_each 0 idle kind_3f 3 cfg12 pol0 8 true 0 11 (words 33) 0)
     = Some (3, Some [0; 1; 2; 9; 10; 11; 18; 19; 20; 3; 4; 5; 12; 13; 14; 21; 22; 23; 6; 7; 8; 15; 16; 17;
                      24; 25; 26; 27; 28; 29; 30; 31; 32]).
Proof.
  split; [repeat split|]. split; [apply cfg12_runs; [now repeat split|split; lia|split; lia|discriminate]|].
  split; [now apply words_mapped|]. split; [intros [H|[H|H] ]; [apply H; repeat split|lia|lia]|vm_compute; reflexivity].
Qed.

Example C50_instance_tuple :
  in_order KTuple 3 8 0 11
  /\ observed 33 (struct_for_each 0 bump KTuple 3 cfg12 pol0 8 true 0 11 (words 33) 0)
     = Some (3, Some (map (Z.add 100) (map Z.of_nat (seq 0 33)))).
Proof. split; [left; intros []|vm_compute; reflexivity]. Qed.
