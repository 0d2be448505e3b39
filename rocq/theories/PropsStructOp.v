(** Property theorems C62: operators on simdized structs. *)
From Verif Require Import Base StructOpModel StructOpSpec StructOpProofs StructOpMoreProofs.

(** C62.  Between structs, simdized or broadcast, an operator gives on every lane what it gives on the structs, and is
    well-formed exactly if it is for the structs. *)
Theorem C62_structs :
  forall (A R : Type) (zero dummy : A) (o : @operators A R) n m x y,
    has_lanes n x -> has_lanes n y -> struct_like x -> struct_like y -> vectorized x \/ vectorized y ->
    agrees dummy o n x y (vector_op zero o n m x y).
Proof. exact @structs_agree. Qed.
Print Assumptions C62_structs.

(** The result is a vectorized_struct again where the struct's operator returns the struct. *)
Theorem C62_closed :
  forall (A R : Type) (zero : A) (o : @operators A R) n m x y rs k,
    struct_like x -> struct_like y -> vectorized x \/ vectorized y ->
    vector_op zero o n m x y = Ok (rs, k) -> k = true.
Proof. exact @structs_closed. Qed.
Print Assumptions C62_closed.

Example C62_structs_case :
  vector_op 0 (mkoperators (Some (false, zip_with Z.add)) None None) 2 2 (VecArg [[1; 2]; [3; 4] ]) (StructArg [10; 20])
  = Ok ([[11; 22]; [13; 24] ], true).
Proof. vm_compute. reflexivity. Qed.

(** What [scalar_op] accepts is what the same overload resolution accepts for scalar operands. *)
Theorem C62_scalar_same_rules :
  forall (A R : Type) (o : @operators A R) x y, scalar_operand x -> scalar_operand y ->
    (exists s, x = StructArg s) \/ (exists s, y = StructArg s) ->
    (scalar_op o x y <> None <->
     exists s, resolve (declared_of o) (kind_of x) (kind_of y) = Some (UserScalar s)).
Proof. exact @scalar_same_rules. Qed.
Print Assumptions C62_scalar_same_rules.

(** With operands of the base type the friends are not found and nothing is wrong: elements and simds act on every lane,
    next to an operator between structs as well (but the result is of the base type). *)
Theorem C62_base_element :
  forall (A R : Type) (zero dummy : A) (o : @operators A R) n m l y,
    length l = n -> has_lanes n y -> element_like y ->
    ((forall g, o_se o <> Some (true, g)) \/ (exists v, y = SimdArg v) ->
     agrees dummy o n (BaseArg l) y (vector_op zero o n m (BaseArg l) y))
    /\ ((forall g, o_es o <> Some (true, g)) \/ (exists v, y = SimdArg v) ->
        agrees dummy o n y (BaseArg l) (vector_op zero o n m y (BaseArg l))).
Proof.
  intros A R zero dummy o n m l y L H E. split; intros T; [now apply base_element_right|now apply base_element_left].
Qed.
Print Assumptions C62_base_element.

Theorem C62_base_base :
  forall (A R : Type) (zero dummy : A) (o : @operators A R) n m l l', length l = n -> length l' = n ->
    agrees dummy o n (BaseArg l) (BaseArg l') (vector_op zero o n m (BaseArg l) (BaseArg l'))
    /\ forall rs k, vector_op zero o n m (BaseArg l) (BaseArg l') = Ok (rs, k) -> k = false.
Proof. exact @base_base. Qed.
Print Assumptions C62_base_base.

Example C62_base_case :
  vector_op 0 (mkoperators (Some (false, zip_with Z.mul)) (Some (false, fun s a => map (Z.mul a) s)) None) 2 2
    (BaseArg [[1; 2]; [3; 4] ]) (SameArg 2) = Ok ([[2; 4]; [6; 8] ], false).
Proof. vm_compute. reflexivity. Qed.

(** Elements and simds act on every lane if the struct has no operator between structs, and the one with
    elements is not a template.  Missing: the other structs, where this is false. *)
Theorem C62_element_right_partial :
  forall (A R : Type) (zero dummy : A) (o : @operators A R) n m l y,
    has_lanes n (VecArg l) -> has_lanes n y -> element_like y ->
    o_ss o = None -> (forall g, o_se o <> Some (true, g)) ->
    agrees dummy o n (VecArg l) y (vector_op zero o n m (VecArg l) y).
Proof. exact @element_right_agrees. Qed.
Print Assumptions C62_element_right_partial.

Theorem C62_element_left_partial :
  forall (A R : Type) (zero dummy : A) (o : @operators A R) n m l x,
    has_lanes n (VecArg l) -> has_lanes n x -> element_like x ->
    o_ss o = None -> (forall g, o_es o <> Some (true, g)) ->
    agrees dummy o n x (VecArg l) (vector_op zero o n m x (VecArg l)).
Proof. exact @element_left_agrees. Qed.
Print Assumptions C62_element_left_partial.

Example C62_element_case :
  vector_op 0 (mkoperators None (Some (false, fun s a => map (Z.mul a) s)) None) 2 2 (VecArg [[1; 2]; [3; 4] ]) (SameArg 2)
  = Ok ([[2; 4]; [6; 8] ], false)
  /\ vector_op 0 (mkoperators None (Some (false, fun s a => map (Z.mul a) s)) None) 2 2 (VecArg [[1; 2]; [3; 4] ])
       (SimdArg [2; 3]) = Ok ([[2; 4]; [9; 12] ], false).
Proof. split; vm_compute; reflexivity. Qed.

(** Next to an operator between structs, the value is taken for a struct: the first member, and zeros. *)
Theorem C62_value_is_first_member :
  forall (A R : Type) (zero : A) (o : @operators A R) n m l a t f, length l = n -> o_ss o = Some (t, f) ->
    vector_op zero o n m (VecArg l) (SameArg a) = Ok (map (fun s => f s (a :: repeat zero (m - 1))) l, true)
    /\ vector_op zero o n m (SameArg a) (VecArg l) = Ok (map (fun s => f (a :: repeat zero (m - 1)) s) l, true)
    /\ vector_op zero o n m (VecArg l) (IntArg a) = Ok (map (fun s => f s (a :: repeat zero (m - 1))) l, true)
    /\ vector_op zero o n m (IntArg a) (VecArg l) = Ok (map (fun s => f (a :: repeat zero (m - 1)) s) l, true).
Proof.
  intros A R zero o n m l a t f L E.
  destruct (element_right_hijacked zero o n m l a t f L E) as [H1 H2].
  destruct (element_left_hijacked zero o n m l a t f L E) as [H3 H4]. auto.
Qed.
Print Assumptions C62_value_is_first_member.

(** So is a simd, where there is no operator for it. *)
Theorem C62_simd_is_first_member :
  forall (A R : Type) (zero : A) (o : @operators A R) n m l v t f, o_ss o = Some (t, f) ->
    (o_se o = None -> vector_op zero o n m (VecArg l) (SimdArg v)
       = Ok (map (fun p => f (fst p) (snd p :: repeat zero (m - 1))) (combine l v), true))
    /\ (o_es o = None -> vector_op zero o n m (SimdArg v) (VecArg l)
       = Ok (map (fun p => f (fst p :: repeat zero (m - 1)) (snd p)) (combine v l), true)).
Proof. exact @simd_first_member. Qed.
Print Assumptions C62_simd_is_first_member.

(** So p * 2 scales the first member only and clears the others, although the struct has the right operator; and p + 1
    is accepted although it is not for the struct. *)
Theorem C62_value_refuted :
  (exists (o : @operators Z (list Z)) l a rs k, o_se o <> None
     /\ vector_op 0 o 1 2 (VecArg l) (SameArg a) = Ok (rs, k)
     /\ nth_error rs 0 <> scalar_op o (lane 0 0 (VecArg l)) (SameArg a)
     /\ scalar_op o (lane 0 0 (VecArg l)) (SameArg a) <> None)
  /\ (exists (o : @operators Z (list Z)) l a rs k,
        vector_op 0 o 1 2 (VecArg l) (SameArg a) = Ok (rs, k)
        /\ scalar_op o (lane 0 0 (VecArg l)) (SameArg a) = None).
Proof.
  split.
  - exists (mkoperators (Some (false, zip_with Z.mul)) (Some (false, fun s a => map (Z.mul a) s)) None),
      [[3; 5] ], 2, [[6; 0] ], true.
    repeat split; try discriminate; vm_compute; discriminate.
  - exists (mkoperators (Some (false, zip_with Z.add)) None None), [[3; 5] ], 1, [[4; 5] ], true.
    split; vm_compute; reflexivity.
Qed.
Print Assumptions C62_value_refuted.

(** A simd next to both operators is ambiguous. *)
Theorem C62_simd_ambiguous :
  forall (A R : Type) (zero : A) (o : @operators A R) n m l v, o_ss o <> None ->
    (o_se o <> None -> vector_op zero o n m (VecArg l) (SimdArg v) = Stop SIllFormed)
    /\ (o_es o <> None -> vector_op zero o n m (SimdArg v) (VecArg l) = Stop SIllFormed).
Proof. exact @simd_ambiguous. Qed.
Print Assumptions C62_simd_ambiguous.

(** Values that do not broadcast (p * 2. for a struct of floats), and templates deducing T from both operands, are
    rejected whatever the struct's code does with them. *)
Theorem C62_rejected :
  forall (A R : Type) (zero : A) (o : @operators A R) n m l a,
    vector_op zero o n m (VecArg l) (OtherArg a) = Stop SIllFormed
    /\ vector_op zero o n m (OtherArg a) (VecArg l) = Stop SIllFormed
    /\ (o_ss o = None -> (exists g, o_se o = Some (true, g)) ->
        vector_op zero o n m (VecArg l) (SameArg a) = Stop SIllFormed).
Proof.
  intros A R zero o n m l a. destruct (other_rejected zero o n m l a) as [H1 H2].
  split; [exact H1|split; [exact H2|] ]. intros E (g & F). exact (template_rejected zero o n m l a g E F).
Qed.
Print Assumptions C62_rejected.

Theorem C62_rejected_refuted :
  exists (o : @operators Z (list Z)) l a,
    vector_op 0 o 1 2 (VecArg l) (SameArg a) = Stop SIllFormed
    /\ scalar_op o (lane 0 0 (VecArg l)) (SameArg a) <> None
    /\ exists o' : @operators Z (list Z),
         vector_op 0 o' 1 2 (VecArg l) (OtherArg a) = Stop SIllFormed
         /\ scalar_op o' (lane 0 0 (VecArg l)) (OtherArg a) <> None.
Proof.
  exists (mkoperators None (Some (true, fun s a => map (Z.mul a) s)) None), [[3; 5] ], 2.
  split; [vm_compute; reflexivity|split; [discriminate|] ].
  exists (mkoperators None (Some (false, fun s a => map (Z.mul a) s)) None).
  split; [vm_compute; reflexivity|discriminate].
Qed.
Print Assumptions C62_rejected_refuted.
