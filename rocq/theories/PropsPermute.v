(** Property theorems C23 to C26 (simd_permute.h). *)
From Verif Require Import Base PermuteModel PermuteSpec PermuteProofs PermuteThm PermuteExact.

(** C23.  Every environment [e], i.e. every code path, except even rotations of 8 floats on AVX2
    (see C24). *)
Theorem C23_permute_obeys_index :
  forall (T : Type) (zero : T) e f v n,
    size_ok v -> no_avx2 e f v -> 0 <= n ->
    (forall i, 0 <= i < n -> exists j, index_is f (Z.of_nat (length v)) i j
                                       /\ valid_index (Z.of_nat (length v)) j) ->
    exists r, simd_permute zero e f v n = Ok r /\ Z.of_nat (length r) = n /\
      forall i j, 0 <= i < n -> index_is f (Z.of_nat (length v)) i j ->
        exists l, nth_error r (Z.to_nat i) = Some l /\ selects zero v j l.
Proof. exact @permute_obeys_index. Qed.
Print Assumptions C23_permute_obeys_index.

Example C23_instance :
  let f := mkpf (Some (fun i => Ok (if i =? 0 then 2147483647 else if i =? 1 then -1 else i - 2))) None None in
  simd_permute 0 env_plain f [10; 20; 30; 40] 4 = Ok [Val 0; Val 40; Val 10; Val 20]
  /\ simd_permute 0 env_plain f [10; 20; 30; 40] 6 = Ok [Val 0; Val 40; Val 10; Val 20; Val 30; Val 40]
  /\ size_ok [10; 20; 30; 40] /\ no_avx2 env_plain f [10; 20; 30; 40]
  /\ (forall i, 0 <= i < 4 -> exists j, index_is f 4 i j /\ valid_index 4 j).
Proof.
  cbv zeta. split; [reflexivity|]. split; [reflexivity|]. split; [split; reflexivity|]. split; [exact I|].
  intros i Hi. eexists. split; [left; eexists; split; reflexivity|]. unfold valid_index.
  destruct (Z.eqb_spec i 0); [lia|]. destruct (Z.eqb_spec i 1); lia.
Qed.

(** Any other index is rejected at compile time. *)
Theorem C23_permute_rejects_bad_index :
  forall (T : Type) (zero : T) e f v n,
    size_ok v -> no_avx2 e f v ->
    (forall i, 0 <= i < n -> constant_index f (Z.of_nat (length v)) i) ->
    (exists i, 0 <= i < n /\ forall j, index_is f (Z.of_nat (length v)) i j ->
                                       ~ valid_index (Z.of_nat (length v)) j) ->
    simd_permute zero e f v n = Stop SIllFormed.
Proof. exact @permute_rejects_bad_index. Qed.
Print Assumptions C23_permute_rejects_bad_index.

Example C23_rejects_instance :
  simd_permute 0 env_plain (mkpf (Some (fun i => Ok (i + 1))) None None) [10; 20; 30; 40] 4 = Stop SIllFormed
  /\ ~ valid_index 4 (3 + 1).
Proof. split; [reflexivity|]. unfold valid_index. lia. Qed.

Theorem C23_paths_agree :
  forall (T : Type) (zero : T) e1 e2 f v n,
    size_ok v -> no_avx2 e1 f v -> no_avx2 e2 f v -> simd_permute zero e1 f v n = simd_permute zero e2 f v n.
Proof. exact @paths_agree. Qed.
Print Assumptions C23_paths_agree.

(** The generic path and the shuffle path really are different programs; both are reachable. *)
Example C23_paths_instance :
  let ce := mkpenv true true true true true 8 4 in
  simd_permute 0 env_avx2 reverse [1; 2; 3; 4] 4 = permute_shuffle 0 reverse [1; 2; 3; 4] 4
  /\ simd_permute 0 ce reverse [1; 2; 3; 4] 4 = permute_generic 0 reverse [1; 2; 3; 4] 4
  /\ simd_permute 0 ce reverse [1; 2; 3; 4] 4 = Ok [Val 4; Val 3; Val 2; Val 1].
Proof. repeat split. Qed.

Theorem C23_scalar_is_one_lane :
  forall (T : Type) (zero : T) e f x, pf_rot f = None ->
    simd_permute zero e f [x] 1 = bindR (permute_scalar zero f x) (fun l => Ok [l]).
Proof. exact @scalar_is_one_lane. Qed.
Print Assumptions C23_scalar_is_one_lane.

Example C23_scalar_instance :
  permute_scalar 0 reverse 7 = Ok (Val 7) /\ permute_scalar 0 (broadcast 1) 7 = Stop SIllFormed.
Proof. split; reflexivity. Qed.

(** Finding: changing the number of lanes while rotating does not compile on AVX2. *)
Theorem C23_avx2_resize_refuted :
  exists v n r, size_ok v /\ simd_permute 0 env_plain (rotate 2) v n = Ok r
    /\ simd_permute 0 env_avx2 (rotate 2) v n = Stop SIllFormed.
Proof. exact rotate_avx2_resize_refuted. Qed.
Print Assumptions C23_avx2_resize_refuted.

(** C24.  Partial: [rotation_supported] excludes negative offsets for sizes that are not a power of
    two, and even offsets outside [0, 8] on the AVX2 path; both are refuted below. *)
Theorem C24_rotate_partial :
  forall (T : Type) (zero : T) e v ofs, size_ok v -> rotation_supported e v ofs ->
    exists r, simd_permute zero e (rotate ofs) v (Z.of_nat (length v)) = Ok r
      /\ lanes_are (Z.of_nat (length v)) (fun i => at_lane zero v ((i + ofs) mod Z.of_nat (length v))) r.
Proof. exact @rotate_lanes. Qed.
Print Assumptions C24_rotate_partial.

Example C24_instance :
  simd_permute 0 env_avx2 (rotate 6) (ex_v 8) 8
    = Ok [Val 106; Val 107; Val 100; Val 101; Val 102; Val 103; Val 104; Val 105]
  /\ simd_permute 0 env_avx2 (rotate (-1)) (ex_v 4) 4 = Ok [Val 103; Val 100; Val 101; Val 102]
  /\ simd_permute 0 env_plain (rotate 4) (ex_v 3) 3 = Ok [Val 101; Val 102; Val 100]
  /\ size_ok (ex_v 8) /\ rotation_supported env_avx2 (ex_v 8) 6 /\ rotation_supported env_avx2 (ex_v 4) (-1).
Proof.
  split; [vm_compute; reflexivity|]. split; [vm_compute; reflexivity|]. split; [vm_compute; reflexivity|].
  split; [split; reflexivity|]. split.
  - split; [discriminate|]. split; [discriminate|]. split; [left; discriminate|].
    intros _ _. split; [split; discriminate|reflexivity].
  - split; [discriminate|]. split; [discriminate|]. split; [right; exists 2; split; [discriminate|reflexivity]|].
    intros H. discriminate H.
Qed.

Theorem C24_rotate_compose_partial :
  forall (T : Type) (zero : T) e1 e2 e3 v w a b, size_ok v ->
    rotation_supported e1 v a -> rotation_supported e2 v b -> rotation_supported e3 v (a + b) ->
    simd_permute zero e1 (rotate a) v (Z.of_nat (length v)) = Ok (map Val w) ->
    simd_permute zero e2 (rotate b) w (Z.of_nat (length w))
    = simd_permute zero e3 (rotate (a + b)) v (Z.of_nat (length v)).
Proof. exact @rotate_compose. Qed.
Print Assumptions C24_rotate_compose_partial.

Theorem C24_rotate_inverse_partial :
  forall (T : Type) (zero : T) e1 e2 v w a, size_ok v ->
    rotation_supported e1 v a -> rotation_supported e2 v (- a) ->
    simd_permute zero e1 (rotate a) v (Z.of_nat (length v)) = Ok (map Val w) ->
    simd_permute zero e2 (rotate (- a)) w (Z.of_nat (length w)) = Ok (map Val v).
Proof. exact @rotate_inverse. Qed.
Print Assumptions C24_rotate_inverse_partial.

Example C24_inverse_instance :
  simd_permute 0 env_avx2 (rotate 3) (ex_v 8) 8
    = Ok (map Val [103; 104; 105; 106; 107; 100; 101; 102])
  /\ simd_permute 0 env_avx2 (rotate (-3)) [103; 104; 105; 106; 107; 100; 101; 102] 8 = Ok (map Val (ex_v 8))
  /\ rotation_supported env_avx2 (ex_v 8) 3 /\ rotation_supported env_avx2 (ex_v 8) (- 3).
Proof.
  split; [vm_compute; reflexivity|]. split; [vm_compute; reflexivity|]. split.
  - split; [discriminate|]. split; [discriminate|]. split; [left; discriminate|]. intros H. discriminate H.
  - split; [discriminate|]. split; [discriminate|]. split; [right; exists 3; split; [discriminate|reflexivity]|].
    intros H. discriminate H.
Qed.

(** Finding: rotate<-1> of three elements; the int sum is converted to std::size_t before %. *)
Theorem C24_rotate_negative_refuted :
  exists v ofs r, size_ok v /\ -2147483648 <= ofs <= 2147483647 /\
    simd_permute 0 env_plain (rotate ofs) v (Z.of_nat (length v)) = Ok r /\
    exists i, 0 <= i < Z.of_nat (length v) /\
      nth_error r (Z.to_nat i) <> Some (Val (at_lane 0 v ((i + ofs) mod Z.of_nat (length v)))).
Proof. exact rotate_negative_refuted. Qed.
Print Assumptions C24_rotate_negative_refuted.

(** Finding: rotate<10> of 8 floats on AVX2; the first field of the control is not reduced mod 4. *)
Theorem C24_rotate_avx2_large_refuted :
  exists v ofs r, size_ok v /\ 0 <= ofs <= 2147483647 /\
    simd_permute 0 env_avx2 (rotate ofs) v (Z.of_nat (length v)) = Ok r /\
    exists i, 0 <= i < Z.of_nat (length v) /\
      nth_error r (Z.to_nat i) <> Some (Val (at_lane 0 v ((i + ofs) mod Z.of_nat (length v)))).
Proof. exact rotate_avx2_large_refuted. Qed.
Print Assumptions C24_rotate_avx2_large_refuted.

(** Finding: rotate<-2> of 8 floats does not compile on AVX2 (control out of range). *)
Theorem C24_rotate_avx2_negative_refuted :
  exists v ofs, size_ok v /\ pow2_size v /\ -2147483648 <= ofs < 0 /\
    simd_permute 0 env_avx2 (rotate ofs) v (Z.of_nat (length v)) = Stop SIllFormed.
Proof. exact rotate_avx2_negative_refuted. Qed.
Print Assumptions C24_rotate_avx2_negative_refuted.

(** Where exactly the claim fails.  Generic and shuffle path, lanes pairwise different: correct if
    and only if the offset is not negative or the size is a power of two. *)
Theorem C24_rotate_correct_iff :
  forall (T : Type) (zero : T) e v ofs, size_ok v -> NoDup v ->
    -2147483648 <= ofs -> ofs + Z.of_nat (length v) <= 2147483648 ->
    (Z.rem ofs 2 = 0 -> ~ is_avx2_case e v) ->
    ((exists r, simd_permute zero e (rotate ofs) v (Z.of_nat (length v)) = Ok r
        /\ lanes_are (Z.of_nat (length v)) (fun i => at_lane zero v ((i + ofs) mod Z.of_nat (length v))) r)
     <-> 0 <= ofs \/ pow2_size v).
Proof. exact @rotate_correct_iff. Qed.
Print Assumptions C24_rotate_correct_iff.

Example C24_iff_instance :
  size_ok (ex_v 6) /\ NoDup (ex_v 6) /\ (Z.rem (-5) 2 = 0 -> ~ is_avx2_case env_plain (ex_v 6))
  /\ ~ pow2_size (ex_v 6)
  /\ simd_permute 0 env_plain (rotate (-5)) (ex_v 6) 6
     = Ok [Val 105; Val 100; Val 101; Val 102; Val 103; Val 100].
Proof.
  repeat split; try (cbn; lia).
  - repeat constructor; cbn; lia.
  - intros [k [Hk E] ]. change (Z.of_nat (length (ex_v 6))) with 6 in E.
    assert (k = 0 \/ k = 1 \/ k = 2 \/ 3 <= k) as [->|[->|[->|H] ] ] by lia; try discriminate.
    pose proof (Z.pow_le_mono_r 2 3 k ltac:(lia) H). change (2 ^ 3) with 8 in *. lia.
Qed.

(** 8 floats with AVX2, even offset [2 * q]: it compiles if and only if 0 <= q <= 255 ... *)
Theorem C24_rotate_avx2_accepted :
  forall (T : Type) (zero : T) e v q,
    e_gnuc e = true -> e_ce e = false -> 8 <= e_native e -> e_sizeof e = 4 -> length v = 8%nat ->
    e_avx2 e = true -> e_float e = true ->
    (0 <= q <= 255 <-> exists r, simd_permute zero e (rotate (2 * q)) v 8 = Ok r).
Proof. exact @rotate_avx2_accepted. Qed.
Print Assumptions C24_rotate_avx2_accepted.

(** ... and is correct for the following [q] only. *)
Theorem C24_rotate_avx2_correct_iff :
  forall (T : Type) (zero : T) e v q,
    e_gnuc e = true -> e_ce e = false -> 8 <= e_native e -> e_sizeof e = 4 -> length v = 8%nat ->
    e_avx2 e = true -> e_float e = true -> NoDup v ->
    ((exists r, simd_permute zero e (rotate (2 * q)) v 8 = Ok r
        /\ lanes_are 8 (fun i => at_lane zero v ((i + 2 * q) mod 8)) r)
     <-> In q [0; 1; 2; 3; 4; 6; 9; 10; 14; 17; 19; 25; 32; 33; 36; 41; 49; 57; 64; 66; 68; 70; 74; 78; 96; 100; 128;
               131; 132; 147; 160; 164; 192; 196; 224; 228]).
Proof. exact @rotate_avx2_correct_iff. Qed.
Print Assumptions C24_rotate_avx2_correct_iff.

Example C24_avx2_iff_instance :
  NoDup (ex_v 8)
  /\ (e_gnuc env_avx2, e_ce env_avx2, e_sizeof env_avx2, e_avx2 env_avx2, e_float env_avx2) = (true, false, 4, true, true)
  /\ 8 <= e_native env_avx2
  /\ simd_permute 0 env_avx2 (rotate 12) (ex_v 8) 8
     = Ok [Val 104; Val 105; Val 106; Val 107; Val 100; Val 101; Val 102; Val 103]
  /\ simd_permute 0 env_avx2 (rotate 510) (ex_v 8) 8
     <> Ok [Val 106; Val 107; Val 100; Val 101; Val 102; Val 103; Val 104; Val 105]
  /\ simd_permute 0 env_avx2 (rotate 512) (ex_v 8) 8 = Stop SIllFormed.
Proof. repeat split; try discriminate. repeat constructor; cbn; lia. Qed.

(** C25 *)
Theorem C25_swap_neighbors :
  forall (T : Type) (zero : T) e v N, size_ok v -> 0 < N -> (2 * N | Z.of_nat (length v)) ->
    exists r, simd_permute zero e (swap_neighbors N) v (Z.of_nat (length v)) = Ok r
      /\ lanes_are (Z.of_nat (length v))
           (fun i => at_lane zero v (if i mod (2 * N) <? N then i + N else i - N)) r.
Proof. exact @swap_lanes. Qed.
Print Assumptions C25_swap_neighbors.

Theorem C25_swap_neighbors_involution :
  forall (T : Type) (zero : T) e1 e2 v w N, size_ok v -> 0 < N -> (2 * N | Z.of_nat (length v)) ->
    simd_permute zero e1 (swap_neighbors N) v (Z.of_nat (length v)) = Ok (map Val w) ->
    simd_permute zero e2 (swap_neighbors N) w (Z.of_nat (length w)) = Ok (map Val v).
Proof. exact @swap_involution. Qed.
Print Assumptions C25_swap_neighbors_involution.

(** Any other size is rejected. *)
Theorem C25_swap_neighbors_rejects :
  forall (T : Type) (zero : T) e v N, size_ok v -> 0 < N < 2 ^ 31 -> ~ (2 * N | Z.of_nat (length v)) ->
    simd_permute zero e (swap_neighbors N) v (Z.of_nat (length v)) = Stop SIllFormed.
Proof. exact @swap_rejects. Qed.
Print Assumptions C25_swap_neighbors_rejects.

Example C25_swap_instance :
  simd_permute 0 env_avx2 (swap_neighbors 3) (ex_v 6) 6
    = Ok [Val 103; Val 104; Val 105; Val 100; Val 101; Val 102]
  /\ simd_permute 0 env_avx2 (swap_neighbors 2) (ex_v 8) 8
    = Ok [Val 102; Val 103; Val 100; Val 101; Val 106; Val 107; Val 104; Val 105]
  /\ simd_permute 0 env_avx2 (swap_neighbors 4) (ex_v 4) 4 = Stop SIllFormed
  /\ (2 * 3 | Z.of_nat (length (ex_v 6))) /\ ~ (2 * 4 | Z.of_nat (length (ex_v 4))).
Proof.
  split; [reflexivity|]. split; [reflexivity|]. split; [reflexivity|]. split; [exists 1; reflexivity|].
  intros [q Hq]. cbn in Hq. lia.
Qed.

Theorem C25_reverse :
  forall (T : Type) (zero : T) e v, size_ok v ->
    exists r, simd_permute zero e reverse v (Z.of_nat (length v)) = Ok r
      /\ lanes_are (Z.of_nat (length v)) (fun i => at_lane zero v (Z.of_nat (length v) - 1 - i)) r.
Proof. exact @reverse_lanes. Qed.
Print Assumptions C25_reverse.

Theorem C25_reverse_involution :
  forall (T : Type) (zero : T) e1 e2 v w, size_ok v ->
    simd_permute zero e1 reverse v (Z.of_nat (length v)) = Ok (map Val w) ->
    simd_permute zero e2 reverse w (Z.of_nat (length w)) = Ok (map Val v).
Proof. exact @reverse_involution. Qed.
Print Assumptions C25_reverse_involution.

Example C25_reverse_instance :
  simd_permute 0 env_avx2 reverse [1; 2; 3] 3 = Ok (map Val [3; 2; 1]).
Proof. reflexivity. Qed.

Theorem C25_duplicate_even :
  forall (T : Type) (zero : T) e v, size_ok v ->
    exists r, simd_permute zero e duplicate_even v (Z.of_nat (length v)) = Ok r
      /\ lanes_are (Z.of_nat (length v)) (fun i => at_lane zero v (i - i mod 2)) r.
Proof. exact @duplicate_even_lanes. Qed.
Print Assumptions C25_duplicate_even.

Theorem C25_duplicate_even_idempotent :
  forall (T : Type) (zero : T) e1 e2 v w, size_ok v ->
    simd_permute zero e1 duplicate_even v (Z.of_nat (length v)) = Ok (map Val w) ->
    simd_permute zero e2 duplicate_even w (Z.of_nat (length w)) = Ok (map Val w).
Proof. exact @duplicate_even_idem. Qed.
Print Assumptions C25_duplicate_even_idempotent.

Theorem C25_duplicate_odd :
  forall (T : Type) (zero : T) e v, size_ok v -> Z.of_nat (length v) mod 2 = 0 ->
    exists r, simd_permute zero e duplicate_odd v (Z.of_nat (length v)) = Ok r
      /\ lanes_are (Z.of_nat (length v)) (fun i => at_lane zero v (i - i mod 2 + 1)) r.
Proof. exact @duplicate_odd_lanes. Qed.
Print Assumptions C25_duplicate_odd.

Theorem C25_duplicate_odd_idempotent :
  forall (T : Type) (zero : T) e1 e2 v w, size_ok v -> Z.of_nat (length v) mod 2 = 0 ->
    simd_permute zero e1 duplicate_odd v (Z.of_nat (length v)) = Ok (map Val w) ->
    simd_permute zero e2 duplicate_odd w (Z.of_nat (length w)) = Ok (map Val w).
Proof. exact @duplicate_odd_idem. Qed.
Print Assumptions C25_duplicate_odd_idempotent.

Theorem C25_duplicate_odd_rejects :
  forall (T : Type) (zero : T) e v, size_ok v -> Z.of_nat (length v) mod 2 = 1 ->
    simd_permute zero e duplicate_odd v (Z.of_nat (length v)) = Stop SIllFormed.
Proof. exact @duplicate_odd_rejects. Qed.
Print Assumptions C25_duplicate_odd_rejects.

Example C25_duplicate_instance :
  simd_permute 0 env_avx2 duplicate_even (ex_v 4) 4 = Ok [Val 100; Val 100; Val 102; Val 102]
  /\ simd_permute 0 env_avx2 duplicate_odd (ex_v 4) 4 = Ok [Val 101; Val 101; Val 103; Val 103]
  /\ simd_permute 0 env_avx2 duplicate_odd (ex_v 3) 3 = Stop SIllFormed.
Proof. repeat split. Qed.

Theorem C25_broadcast :
  forall (T : Type) (zero : T) e v p n, size_ok v -> 0 <= n ->
    - Z.of_nat (length v) <= p < Z.of_nat (length v) ->
    exists r, simd_permute zero e (broadcast p) v n = Ok r
      /\ lanes_are n (fun _ => at_lane zero v (if p <? 0 then Z.of_nat (length v) + p else p)) r.
Proof. exact @broadcast_lanes. Qed.
Print Assumptions C25_broadcast.

Example C25_broadcast_instance :
  simd_permute 0 env_avx2 (broadcast (-1)) (ex_v 4) 4 = Ok [Val 103; Val 103; Val 103; Val 103].
Proof. reflexivity. Qed.

(** C26 *)
Theorem C26_shift :
  forall (T : Type) (zero : T) e v ofs, size_ok v ->
    (-2147483648 <= ofs /\ ofs + Z.of_nat (length v) <= 2147483648) ->
    exists r, simd_permute zero e (shift ofs) v (Z.of_nat (length v)) = Ok r
      /\ lanes_are (Z.of_nat (length v))
           (fun i => if (0 <=? i + ofs) && (i + ofs <? Z.of_nat (length v))
                     then at_lane zero v (i + ofs) else zero) r.
Proof. exact @shift_lanes. Qed.
Print Assumptions C26_shift.

Example C26_shift_instance :
  simd_permute 0 env_avx2 (shift 1) (ex_v 4) 4 = Ok [Val 101; Val 102; Val 103; Val 0]
  /\ simd_permute 0 env_avx2 (shift (-3)) (ex_v 4) 4 = Ok [Val 0; Val 0; Val 0; Val 100]
  /\ simd_permute 0 env_avx2 (shift 9) (ex_v 4) 4 = Ok [Val 0; Val 0; Val 0; Val 0].
Proof. repeat split. Qed.

(** Partial: non-negative offsets only; negative ones are refuted below.  [at_lane] of an index
    beyond the concatenation is zero. *)
Theorem C26_shift_in_partial :
  forall (T : Type) (zero : T) ofs a more, size_ok a -> 0 <= ofs ->
    Forall (fun u => length u = length a) more ->
    ofs + Z.of_nat (length a) <= 2147483648 ->
    Z.of_nat (length a) * (1 + Z.of_nat (length more)) < 2147483648 ->
    exists r, shift_in zero ofs a more = Ok r /\ length r = length a
      /\ forall i, 0 <= i < Z.of_nat (length a) ->
           nth_error r (Z.to_nat i) = Some (at_lane zero (concat (a :: more)) (i + ofs)).
Proof. exact @shift_in_lanes. Qed.
Print Assumptions C26_shift_in_partial.

Theorem C26_shift_in_is_shift_partial :
  forall (T : Type) (zero : T) e v ofs, size_ok v -> 0 <= ofs ->
    ofs + Z.of_nat (length v) <= 2147483648 ->
    exists w, shift_in zero ofs v [] = Ok w
      /\ simd_permute zero e (shift ofs) v (Z.of_nat (length v)) = Ok (map Val w).
Proof. exact @shift_in_is_shift. Qed.
Print Assumptions C26_shift_in_is_shift_partial.

Example C26_shift_in_instance :
  shift_in 0 1 [1; 2; 3] [[4; 5; 6]] = Ok [2; 3; 4]
  /\ shift_in 0 4 [1; 2; 3] [[4; 5; 6]] = Ok [5; 6; 0]
  /\ shift_in 0 1 [1; 2; 3] [] = Ok [2; 3; 0].
Proof. repeat split. Qed.

(** Finding: simd_shift_in<-1>(a) wraps the last element around instead of inserting 0. *)
Theorem C26_shift_in_negative_refuted :
  exists v ofs w, size_ok v /\ -2147483648 <= ofs < 0 /\ shift_in 0 ofs v [] = Ok w /\
    simd_permute 0 env_plain (shift ofs) v (Z.of_nat (length v)) = Ok [Val 0; Val 100; Val 101; Val 102] /\
    w = [103; 100; 101; 102].
Proof. exact shift_in_negative_refuted. Qed.
Print Assumptions C26_shift_in_negative_refuted.

(** Every offset: a lane left of the first argument takes an element from its end, and zero only if
    it is more than one whole vector to the left. *)
Theorem C26_shift_in_every_offset :
  forall (T : Type) (zero : T) ofs a more, size_ok a -> -2147483648 <= ofs ->
    Forall (fun u => length u = length a) more ->
    ofs + Z.of_nat (length a) <= 2147483648 ->
    Z.of_nat (length a) * (1 + Z.of_nat (length more)) < 2147483648 ->
    exists r, shift_in zero ofs a more = Ok r /\ length r = length a
      /\ forall i, 0 <= i < Z.of_nat (length a) -> nth_error r (Z.to_nat i) = Some
           (if 0 <=? i + ofs then at_lane zero (concat (a :: more)) (i + ofs)
            else if - Z.of_nat (length a) <=? i + ofs then at_lane zero a (i + ofs + Z.of_nat (length a)) else zero).
Proof. exact @shift_in_exact. Qed.
Print Assumptions C26_shift_in_every_offset.

Example C26_shift_in_every_offset_instance :
  shift_in 0 (-4) [1; 2; 3] [[4; 5; 6]] = Ok [0; 1; 2]
  /\ shift_in 0 (-1) [1; 2; 3] [[4; 5; 6]] = Ok [3; 1; 2].
Proof. repeat split. Qed.
