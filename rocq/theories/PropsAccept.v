(** Property theorems C61: the callables and initial values the algorithms accept. *)
From Verif Require Import Base ValueModel AcceptModel AcceptSpec AcceptProofs.

(** C61.  transform takes a callable that returns simds exactly if they are simds of the output's value type. *)
Theorem C61_transform :
  forall p t op c u, valid c -> returns_simd op u ->
    (well_formed (transform_sites p t op c) = true <-> u = t).
Proof. exact transform_simd_iff. Qed.
Print Assumptions C61_transform.

(** Against 1191: it also takes a callable that returns a single value, which is stored once per element of the
    chunk, if the value can be broadcast. *)
Theorem C61_transform_broadcast :
  forall p t op c u, valid c -> returns_element op u ->
    (well_formed (transform_sites p t op c) = true <-> converts p (Elem u) (Simd t 1) = true).
Proof. exact transform_element_iff. Qed.
Print Assumptions C61_transform_broadcast.

Example C61_transform_case :
  well_formed (transform_sites lp64_platform Float (fun n => Some (Simd Float n)) (mkconfig 8 2 false (Some 3%nat))) = true
  /\ well_formed (transform_sites lp64_platform Float (fun n => Some (Simd Short n)) (mkconfig 8 2 false (Some 3%nat)))
     = false
  /\ well_formed (transform_sites lp64_platform Float (fun n => Some (Elem Int)) (mkconfig 8 2 false (Some 3%nat))) = true
  /\ well_formed (transform_sites lp64_platform Float (fun n => Some (Elem Double)) (mkconfig 8 2 false (Some 3%nat)))
     = false.
Proof. repeat split; vm_compute; reflexivity. Qed.

(** transform_reduce and reduce take the callables they document, given that reduce_op can also be called with two
    values of the aggregation type.  Missing: without that condition the claim is false, below. *)
Theorem C61_documented_partial :
  forall p t transform_op reduce_op c, valid c -> documented transform_op reduce_op t -> takes_elements reduce_op t ->
    well_formed (transform_reduce_sites p t transform_op reduce_op c) = true.
Proof.
  intros p t top op c V [R L] T.
  apply (transform_reduce_iff p t top op c t (Some t) V R L). auto.
Qed.
Print Assumptions C61_documented_partial.

(** A reduce_op that takes simds only. *)
Theorem C61_documented_refuted :
  exists p t transform_op reduce_op c, valid c /\ documented transform_op reduce_op t
    /\ well_formed (transform_reduce_sites p t transform_op reduce_op c) = false.
Proof.
  exists lp64_platform, Float, (fun n => Some (Simd Float n)),
    (fun a b => match a, b with Simd _ _, Simd _ _ => Some a | _, _ => None end), (mkconfig 4 1 false None).
  split; [|split; [split; intros n; reflexivity|vm_compute; reflexivity] ].
  repeat split; cbn; try lia; discriminate.
Qed.
Print Assumptions C61_documented_refuted.

(** Exactly which are taken, among those that return simds. *)
Theorem C61_transform_reduce_iff :
  forall p t transform_op reduce_op c u r, valid c -> returns_simd transform_op u -> lanewise reduce_op t r ->
    (well_formed (transform_reduce_sites p t transform_op reduce_op c) = true
     <-> u = t /\ r = Some t /\ ((1 < c_size c)%nat -> takes_elements reduce_op t)).
Proof. exact transform_reduce_iff. Qed.
Print Assumptions C61_transform_reduce_iff.

(** The policy does not matter for these, as long as there is more than one lane. *)
Theorem C61_policy_partial :
  forall p t transform_op reduce_op c c' u r, valid c -> valid c' -> (1 < c_size c)%nat -> (1 < c_size c')%nat ->
    returns_simd transform_op u -> lanewise reduce_op t r ->
    well_formed (transform_reduce_sites p t transform_op reduce_op c)
    = well_formed (transform_reduce_sites p t transform_op reduce_op c').
Proof.
  intros p t top op c c' u r V V' N N' R L. apply eq_iff_eq_true.
  rewrite (transform_reduce_iff p t top op c u r V R L), (transform_reduce_iff p t top op c' u r V' R L). tauto.
Qed.
Print Assumptions C61_policy_partial.

(** It does for a callable that returns a single value: accepted without unrolling, rejected with. *)
Theorem C61_policy_refuted :
  exists p t transform_op reduce_op size, (1 < size)%nat
    /\ well_formed (transform_reduce_sites p t transform_op reduce_op (mkconfig size 1 false None)) = true
    /\ well_formed (transform_reduce_sites p t transform_op reduce_op (mkconfig size 2 false None)) = false
    /\ well_formed (transform_reduce_sites p t transform_op reduce_op (mkconfig size 1 false (Some 2%nat))) = false.
Proof.
  exists lp64_platform, Int, (fun _ => Some (Elem Int)), (simd_operator lp64_platform), 4%nat.
  split; [lia|repeat split; vm_compute; reflexivity].
Qed.
Print Assumptions C61_policy_refuted.

(** Exactly when it is accepted, given that reduce_op takes an accumulator and a value in this order. *)
Theorem C61_value_iff :
  forall p t transform_op reduce_op c u, valid c -> returns_element transform_op u ->
    lanewise reduce_op t (Some t) -> takes_elements reduce_op t ->
    (forall n, reduce_op (Simd t n) (Elem u) = Some (Simd t n)) ->
    (well_formed (transform_reduce_sites p t transform_op reduce_op c) = true
     <-> converts p (Elem u) (Simd t 1) = true /\ c_unroll c = 1%nat /\ c_prologue c = None).
Proof. exact value_iff. Qed.
Print Assumptions C61_value_iff.

(** A reduce_op that cannot be called with the value first. *)
Example C61_value_case :
  let op a b := match a, b with
                | Elem _, Simd _ _ => None
                | _, _ => Some a
                end in
  returns_element (fun _ => Some (Elem Int)) Int /\ lanewise op Float (Some Float) /\ takes_elements op Float
  /\ (forall n, op (Simd Float n) (Elem Int) = Some (Simd Float n))
  /\ well_formed (transform_reduce_sites lp64_platform Float (fun _ => Some (Elem Int)) op (mkconfig 4 1 false None))
     = true
  /\ well_formed (transform_reduce_sites lp64_platform Float (fun _ => Some (Elem Double)) op (mkconfig 4 1 false None))
     = false.
Proof.
  cbv zeta. repeat split; try (vm_compute; reflexivity).
  - exists Float. reflexivity.
Qed.

(** A reduce_op that returns a single value for two simds with one element is never taken. *)
Theorem C61_reduce_op_value :
  forall p t transform_op reduce_op c e, reduce_op (Simd t 1) (Simd t 1) = Some (Elem e) ->
    well_formed (transform_reduce_sites p t transform_op reduce_op c) = false.
Proof. exact reduce_value. Qed.
Print Assumptions C61_reduce_op_value.

Example C61_reduce_op_value_case :
  let sites op := transform_reduce_sites lp64_platform Float (fun _ => Some (Elem Float)) op (mkconfig 1 1 false None) in
  filter (fun s => negb (snd s)) (sites (fun _ _ => Some (Elem Float))) = [(1064, 1, false)]%nat
  /\ well_formed (sites (fun a _ => Some a)) = true.
Proof. split; vm_compute; reflexivity. Qed.

(** reduce with an initial value takes only one of the range's own type. *)
Theorem C61_reduce_iff :
  forall p v t c, valid c -> (well_formed (reduce_sites p v t (simd_operator p) c) = true <-> v = t).
Proof. exact reduce_plus_iff. Qed.
Print Assumptions C61_reduce_iff.

(** So std::reduce(first, last, 0) on shorts, std::reduce(first, last, 0.) on floats have no replacement. *)
Theorem C61_drop_in_refuted :
  forall p c, valid c ->
    well_formed (reduce_sites p Short Int (simd_operator p) c) = false
    /\ well_formed (reduce_sites p Float Double (simd_operator p) c) = false
    /\ well_formed (inner_product_sites p Float Float Double c) = false.
Proof.
  intros p c V. split; [|split].
  - destruct (well_formed _) eqn:E; [|reflexivity]. apply (reduce_plus_iff p _ _ c V) in E. discriminate.
  - destruct (well_formed _) eqn:E; [|reflexivity]. apply (reduce_plus_iff p _ _ c V) in E. discriminate.
  - destruct (well_formed _) eqn:E; [|reflexivity]. apply (inner_product_iff p _ _ _ c V) in E as [E _].
    discriminate.
Qed.
Print Assumptions C61_drop_in_refuted.

(** reduce without an initial value is well-formed for every range. *)
Theorem C61_sum :
  forall p v c, valid c -> well_formed (sum_sites p v c) = true.
Proof. intros p v c V. now apply reduce_plus_iff. Qed.
Print Assumptions C61_sum.

(** The inner product takes ranges of one type, and an initial value of that type. *)
Theorem C61_inner_product_iff :
  forall p v w t c, valid c -> (well_formed (inner_product_sites p v w t c) = true <-> v = t /\ w = t).
Proof. exact inner_product_iff. Qed.
Print Assumptions C61_inner_product_iff.

(** The reason: where simd<u> converts to simd<t>, only the simds with one element stand in the way. *)
Theorem C61_width_one :
  forall p u t, (forall n, n <> 1%nat -> converts p (Simd u n) (Simd t n) = true) ->
    (forall n, converts p (Simd t n) (Simd u n) = false) ->
    forall c line width, (0 < c_size c)%nat -> (c_unroll c <= 1)%nat ->
      In (line, width, false) (reduce_sites p u t (simd_operator p) c) -> width = 1%nat.
Proof. exact fails. Qed.
Print Assumptions C61_width_one.

Example C61_width_one_case :
  (forall n, n <> 1%nat -> converts lp64_platform (Simd Float n) (Simd Double n) = true)
  /\ (forall n, converts lp64_platform (Simd Double n) (Simd Float n) = false)
  /\ filter (fun s => negb (snd s)) (reduce_sites lp64_platform Float Double (simd_operator lp64_platform)
                                       (mkconfig 4 1 false (Some 2%nat)))
     = [(974, 1, false); (853, 1, false); (853, 1, false); (905, 1, false)]%nat.
Proof.
  repeat split.
  - intros n N. unfold converts. rewrite Nat.eqb_refl. apply Nat.eqb_neq in N. rewrite N. vm_compute. reflexivity.
  - intros n. unfold converts. rewrite Nat.eqb_refl. destruct (Nat.eqb n 1); vm_compute; reflexivity.
Qed.

Example C61_reduce_case :
  valid (mkconfig 4 2 false (Some 2%nat))
  /\ documented (fun n => Some (Simd Float n)) (simd_operator lp64_platform) Float
  /\ takes_elements (simd_operator lp64_platform) Float
  /\ well_formed (sum_sites lp64_platform Float (mkconfig 4 2 false (Some 2%nat))) = true
  /\ length (sum_sites lp64_platform Float (mkconfig 4 2 false (Some 2%nat))) = 28%nat.
Proof.
  split; [|split; [|split; [|split; [vm_compute; reflexivity|vm_compute; reflexivity] ] ] ].
  - repeat split; cbn; try lia; inversion H; lia.
  - split; [intros n; reflexivity|apply operator_lanewise].
  - apply operator_elements.
Qed.
