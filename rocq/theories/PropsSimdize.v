(** Property theorems C31, C32, C33 and C42. *)
From Verif Require Import Base PermuteModel PermuteThm LaneModel SimdizeModel SimdizeSpec SimdizeProofs FlatSpec FlatExact.

(** C31.  v[i] is it[i] for every lane, on every path but one (refuted below): any number of members,
    any size, any target. *)
Theorem C31_load_is_array_partial :
  forall {W} (zero : W) s (m : mem W) p k n, 1 <= k -> 1 <= n -> defined_at m p (k * n) -> ~ unordered_path s k n ->
    exists vs, load_elements zero s m p k n = Ok (map (map Val) vs) /\ shaped vs k n
      /\ forall i, 0 <= i < n -> exists x, element vs i = Ok x /\ load m (p + k * i) (Z.to_nat k) = Some x.
Proof. exact @load_is_array. Qed.
Print Assumptions C31_load_is_array_partial.

(** Member by member. *)
Theorem C31_load_members_partial :
  forall {W} (zero : W) s (m : mem W) p k n, 1 <= k -> 1 <= n -> defined_at m p (k * n) -> ~ unordered_path s k n ->
    exists vs, load_elements zero s m p k n = Ok (map (map Val) vs) /\ shaped vs k n /\ lanes_from m p k n vs.
Proof. exact @load_elements_lanes. Qed.
Print Assumptions C31_load_members_partial.

(** simd_tuple *)
Theorem C31_tuple_load_is_array :
  forall {W} (zero : W) (m : mem W) p k n, 1 <= k -> 1 <= n -> defined_at m p (k * n) ->
    exists vs, tuple_load m p k n = Ok vs /\ shaped vs k n
      /\ forall i, 0 <= i < n -> exists x, tuple_element vs i = Ok x /\ load m (p + k * i) (Z.to_nat k) = Some x.
Proof. exact @tuple_load_is_array. Qed.
Print Assumptions C31_tuple_load_is_array.

(** Eight lanes of three floats: every lane is a whole struct, but the order is 0, 3, 6, 1, 4, 7, 2, 5. *)
Theorem C31_load_unordered_structs :
  forall {W} (zero : W) s (m : mem W) p, unordered_path s 3 8 -> defined_at m p 24 ->
    exists vs, load_elements zero s m p 3 8 = Ok (map (map Val) vs) /\ shaped vs 3 8
      /\ forall i, 0 <= i < 8 -> exists x, element vs i = Ok x
           /\ load m (p + 3 * nth (Z.to_nat i) [0; 3; 6; 1; 4; 7; 2; 5] 0) 3 = Some x.
Proof. exact @load_unordered_structs. Qed.
Print Assumptions C31_load_unordered_structs.

Theorem C31_lane_order_refuted : exists (m : mem Z) p vs x, defined_at m p 24 /\
  load_elements 0 env_3f m p 3 8 = Ok (map (map Val) vs) /\
  element vs 1 = Ok x /\ load m (p + 3 * 1) 3 = Some [3; 4; 5] /\ x = [9; 10; 11].
Proof. exact lane_order_refuted. Qed.
Print Assumptions C31_lane_order_refuted.

Example C31_instance_three_ints :
  defined_at (ramp 24) 100 (3 * 8) /\ ~ unordered_path env_int 3 8 /\
  load_elements 0 env_int (ramp 24) 100 3 8 = Ok (map (map Val)
    [[0; 3; 6; 9; 12; 15; 18; 21]; [1; 4; 7; 10; 13; 16; 19; 22]; [2; 5; 8; 11; 14; 17; 20; 23]]).
Proof.
  split; [apply ramp_defined; discriminate|]. split; [intros (_ & _ & _ & Q & _); discriminate|]. now vm_compute.
Qed.

Example C31_instance_four_floats :
  ~ unordered_path env_3f 3 4 /\
  load_elements 0 env_3f (ramp 12) 100 3 4 = Ok (map (map Val) [[0; 3; 6; 9]; [1; 4; 7; 10]; [2; 5; 8; 11]]).
Proof. split; [intros (_ & _ & _ & _ & _ & _ & Q); discriminate|now vm_compute]. Qed.

Example C31_instance_two_members :
  ~ unordered_path env_int 2 4 /\
  load_elements 0 env_int (ramp 8) 100 2 4 = Ok (map (map Val) [[0; 2; 4; 6]; [1; 3; 5; 7]]).
Proof. split; [intros (_ & _ & _ & Q & _); discriminate|now vm_compute]. Qed.

Example C31_instance_unordered : unordered_path env_3f 3 8.
Proof. repeat split. Qed.

(** C32.  copy_to writes member j of lane i to member j of struct i and nothing else, on every path. *)
Theorem C32_store_is_array :
  forall {W} s (vs : list (list W)) m p k n, shaped vs k n -> 1 <= k -> 1 <= n -> defined_at m p (k * n) ->
    exists m', store_elements s vs m p k n = Ok m' /\ stored m m' p k n vs.
Proof. exact @store_elements_ok. Qed.
Print Assumptions C32_store_is_array.

Theorem C32_tuple_store_is_array :
  forall {W} (vs : list (list W)) m p k n, shaped vs k n -> 1 <= k -> 1 <= n -> defined_at m p (k * n) ->
    exists m', tuple_store vs p k 0 (Z.to_nat n) m = Ok m' /\ stored m m' p k n vs.
Proof. exact @tuple_store_ok. Qed.
Print Assumptions C32_tuple_store_is_array.

(** copy_from then copy_to changes nothing, except on the unordered path (refuted below). *)
Theorem C32_round_trip_partial :
  forall {W} (zero : W) s (m : mem W) p k n, 1 <= k -> 1 <= n -> defined_at m p (k * n) -> ~ unordered_path s k n ->
    exists vs m', load_elements zero s m p k n = Ok (map (map Val) vs) /\ store_elements s vs m p k n = Ok m'
      /\ forall a, m' a = m a.
Proof. exact @round_trip. Qed.
Print Assumptions C32_round_trip_partial.

Theorem C32_tuple_round_trip :
  forall {W} (zero : W) (m : mem W) p k n, 1 <= k -> 1 <= n -> defined_at m p (k * n) ->
    exists vs m', tuple_load m p k n = Ok vs /\ tuple_store vs p k 0 (Z.to_nat n) m = Ok m' /\ forall a, m' a = m a.
Proof. exact @tuple_round_trip. Qed.
Print Assumptions C32_tuple_round_trip.

Theorem C32_round_trip_refuted : exists (m m' : mem Z) p vs, defined_at m p 24 /\
  load_elements 0 env_3f m p 3 8 = Ok (map (map Val) vs) /\ store_elements env_3f vs m p 3 8 = Ok m' /\
  load m (p + 3) 3 = Some [3; 4; 5] /\ load m' (p + 3) 3 = Some [9; 10; 11].
Proof. exact round_trip_refuted. Qed.
Print Assumptions C32_round_trip_refuted.

Example C32_instance :
  shaped [[1; 4; 7; 10]; [2; 5; 8; 11]; [3; 6; 9; 12]] 3 4 /\ defined_at (ramp 12) 100 (3 * 4) /\
  bindR (store_elements env_int [[1; 4; 7; 10]; [2; 5; 8; 11]; [3; 6; 9; 12]] (ramp 12) 100 3 4)
    (fun m => of_option (load m 100 12)) = Ok [1; 2; 3; 4; 5; 6; 7; 8; 9; 10; 11; 12].
Proof.
  split; [|split; [apply ramp_defined; discriminate|now vm_compute]].
  split; [reflexivity|]. intros v [<-|[<-|[<-|[] ] ] ]; reflexivity.
Qed.

(** C33.  flat_member_count is the number of scalar members. *)
Theorem C33_flat_member_count :
  forall {A} (t : tree A), populated t -> flat_member_count t = Ok (length (leaves t)).
Proof. exact @flat_member_count_ok. Qed.
Print Assumptions C33_flat_member_count.

(** Where the I-th type exists it is the one of the I-th scalar member (missing: that it exists for
    every I; refuted below). *)
Theorem C33_flat_element_partial :
  forall {A} (t : tree A), populated t -> forall i x, flat_element i t = Ok x ->
    exists a, leaves x = [a] /\ nth_error (leaves t) i = Some a.
Proof. exact @flat_element_ok. Qed.
Print Assumptions C33_flat_element_partial.

(** Where both exist, flat_get<I> and flat_element_t<I> are the same member. *)
Theorem C33_flat_get_partial :
  forall {A} fuel i (t : tree A) x y, flat_get fuel i 0 t = Ok y -> flat_element i t = Ok x -> y = x.
Proof. exact @flat_get_element. Qed.
Print Assumptions C33_flat_get_partial.

(** In aggregates of scalars every index works. *)
Theorem C33_flat_get_flat_partial :
  forall {A} (ms : list (tree A)) fuel i, populated (Struct ms) -> length (leaves (Struct ms)) = length ms ->
    (i < length ms)%nat ->
    exists x a, flat_get (S fuel) i 0 (Struct ms) = Ok x /\ flat_element i (Struct ms) = Ok x
      /\ leaves x = [a] /\ nth_error (leaves (Struct ms)) i = Some a.
Proof. exact @flat_get_flat. Qed.
Print Assumptions C33_flat_get_flat_partial.

(** flat_get<2> of three pairs is scalar 4. *)
Theorem C33_flat_get_refuted : exists t x, populated t /\ nth_error (leaves t) 2 = Some 2 /\
  flat_get 10 2 0 t = Ok x /\ leaves x = [4].
Proof. exact flat_get_refuted. Qed.
Print Assumptions C33_flat_get_refuted.

(** Index 2 of two pairs, and of a pair and a scalar, is rejected. *)
Theorem C33_flat_get_rejects_refuted : exists t u, populated t /\ populated u /\
  nth_error (leaves t) 2 = Some 2 /\ flat_get 10 2 0 t = Stop SIllFormed /\ flat_element 2 t = Stop SIllFormed /\
  nth_error (leaves u) 2 = Some 2 /\ flat_get 10 2 0 u = Stop SIllFormed /\ flat_element 2 u = Stop SIllFormed.
Proof. exact flat_get_rejects_refuted. Qed.
Print Assumptions C33_flat_get_rejects_refuted.

(** The element of a wrapper is the wrapper, not the scalar. *)
Theorem C33_flat_element_wrapper_refuted :
  exists t x, populated t /\ flat_element 0 t = Ok x /\ x <> Leaf 0 /\ leaves t = [0].
Proof. exact flat_element_wrapper_refuted. Qed.
Print Assumptions C33_flat_element_wrapper_refuted.

Example C33_instance :
  let t := Struct [pair 0 1; Struct [Leaf 2; pair 3 4]; Leaf 5] in
  flat_member_count t = Ok 6%nat /\ leaves t = [0; 1; 2; 3; 4; 5] /\
  flat_element 1 t = Ok (Leaf 1) /\ flat_get 9 1 0 t = Ok (Leaf 1).
Proof. now vm_compute. Qed.

(** The exact extent.  All types exist exactly for [accessible] types ... *)
Theorem C33_flat_element_iff :
  forall {A} (t : tree A), populated t ->
    ((forall i, (i < length (leaves t))%nat -> exists x, flat_element i t = Ok x) <-> accessible t).
Proof. exact @element_iff. Qed.
Print Assumptions C33_flat_element_iff.

(** ... for these flat_get is right too (vectorizable_struct_template asks for all types, so
    vectorized_struct meets no others) ... *)
Theorem C33_accessible_get :
  forall {A} (ms : list (tree A)), populated (Struct ms) -> accessible (Struct ms) ->
    forall i, (i < length (leaves (Struct ms)))%nat ->
    exists fuel x a, flat_get fuel i 0 (Struct ms) = Ok x /\ flat_element i (Struct ms) = Ok x
      /\ leaves x = [a] /\ nth_error (leaves (Struct ms)) i = Some a.
Proof. exact @accessible_get. Qed.
Print Assumptions C33_accessible_get.

(** ... and it is right for every index exactly for [reachable] types. *)
Theorem C33_flat_get_iff :
  forall {A} (t : tree A), populated t -> NoDup (leaves t) ->
    ((forall i, (i < length (leaves t))%nat -> gets t i) <-> reachable t).
Proof. exact @gets_iff. Qed.
Print Assumptions C33_flat_get_iff.

Theorem C33_fuel_irrelevant :
  forall {A} g fuel i ofs (t : tree A) x, flat_get fuel i ofs t = Ok x -> flat_get (fuel + g) i ofs t = Ok x.
Proof. exact @get_mono. Qed.
Print Assumptions C33_fuel_irrelevant.

Example C33_instance_iff :
  accessible (Struct [Struct [Leaf 0; Struct [Leaf 1]]]) /\ reachable (Struct [Struct [Leaf 0]; pair 1 2; pair 3 4])
  /\ ~ reachable (Struct [pair 0 1; pair 2 3]).
Proof.
  split; [|split].
  - apply acc_wrap, acc_flat. intros x [<-|[<-|[]]]; reflexivity.
  - apply reach_steps; [intros x [<-|[<-|[<-|[]]]]; apply reach_flat; intros x Hx; cbn in Hx; intuition (subst; reflexivity)|].
    intros [|[|[|j]]] x Ex Hj; cbn in Ex, Hj; injection Ex as <- || lia; try reflexivity; lia.
  - intros H. inversion H as [ms Hm|ms _ Hs]; subst.
    + specialize (Hm (pair 0 1) (or_introl eq_refl)). discriminate.
    + specialize (Hs O (pair 0 1) eq_refl). cbn in Hs. specialize (Hs (le_n _)). discriminate.
Qed.

(** C42.  simdize_size is positive only if all scalar members are simds of that size, and finds it if they are;
    default_simdize_size is the largest native size. *)
Theorem C42_simdize_size :
  forall t, populated t -> (forall c, In c (leaves t) -> 0 <= c) ->
    exists n, simdize_size t = Ok n /\ (0 < n -> forall c, In c (leaves t) -> c = n)
      /\ (forall c, 0 < c -> (forall d, In d (leaves t) -> d = c) -> n = c) /\ 0 <= n.
Proof. exact simdize_size_ok. Qed.
Print Assumptions C42_simdize_size.

Theorem C42_default_simdize_size :
  forall t, populated t -> (forall c, In c (leaves t) -> 0 < c) ->
    exists n, default_simdize_size t = Ok n /\ In n (leaves t) /\ forall c, In c (leaves t) -> c <= n.
Proof. exact default_simdize_size_ok. Qed.
Print Assumptions C42_default_simdize_size.

Example C42_instance :
  simdize_size (Struct [Leaf 8; Struct [Leaf 8; Leaf 8]]) = Ok 8 /\
  simdize_size (Struct [Leaf 8; Struct [Leaf 8; Leaf 4]]) = Ok 0 /\
  default_simdize_size (Struct [Leaf 8; Struct [Leaf 4; Leaf 16]]) = Ok 16.
Proof. now vm_compute. Qed.
