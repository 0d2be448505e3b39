(** Property theorems C59: which overload of an algorithm a call selects, and what it is asked to do. *)
From Verif Require Import Base SigModel SigSpec SigProofs.

(** C59.  A documented call selects the overload documented for it: iterators that over iterators, ranges that over
    ranges.  Missing: two (for transform, three) built-in arrays, the inputs of one element type. *)
Theorem C59_overload_partial :
  forall a args o, documented a args o -> (forall o', ~ array_clash a args o') -> resolve a args = Chosen o.
Proof.
  intros a args o H N. apply (overload_iff a args o H). intros [o' C]. exact (N o' C).
Qed.
Print Assumptions C59_overload_partial.

(** int a[8], b[8], c[8]: transform(simd, a, b, c, op) is the unary transform of [a, b), and
    transform_reduce(simd, a, b, init, red, tr) the unary one. *)
Theorem C59_overload_refuted :
  exists a b c op : arg,
    documented ATransform [a; b; c; op] TRange2
    /\ resolve ATransform [a; b; c; op] = Chosen TIter1
    /\ documented ATransformReduce [a; b; op; op; op] TRRange2
    /\ resolve ATransformReduce [a; b; op; op; op] = Chosen TRIter1.
Proof.
  exists (mkarg (Array 0 8) true), (mkarg (Array 0 8) true), (mkarg (Array 0 8) true), (mkarg (Class KOther 0) false).
  split; [|split; [reflexivity|split; [|reflexivity] ] ]; constructor;
    unfold an_output, a_range, a_value, range_type, value_type; cbn; eauto.
Qed.
Print Assumptions C59_overload_refuted.

(** Every documented call: right exactly if it has no such arrays. *)
Theorem C59_overload_iff :
  forall a args o, documented a args o -> (resolve a args = Chosen o <-> ~ exists o', array_clash a args o').
Proof. exact overload_iff. Qed.
Print Assumptions C59_overload_iff.

(** With such arrays the overload over iterators is selected; it takes the second input for the end of the first. *)
Theorem C59_array_clash :
  forall a args o, array_clash a args o ->
    resolve a args = Chosen o
    /\ exists c t, body o = Some c /\ task_of c = Some t /\ t_first t = EArg 0 /\ t_last t = EArg 1 /\ t_more t = [].
Proof.
  intros a args o C. split; [exact (clash_resolution a args o C)|].
  destruct C; do 2 eexists; repeat split.
Qed.
Print Assumptions C59_array_clash.

(** Calls with iterators are always right. *)
Theorem C59_iterators :
  forall a args o, documented a args o -> iterator_task o <> None -> resolve a args = Chosen o.
Proof. exact iterators_resolved. Qed.
Print Assumptions C59_iterators.

(** Whatever the call: the selected overload gets iterators, ranges and pairs where it is documented to take them. *)
Theorem C59_selected_takes :
  forall a args o, resolve a args = Chosen o ->
    In o (overloads a) /\ Forall2 plays (roles o) args /\ pair_of_iterators o args.
Proof. exact selected_takes. Qed.
Print Assumptions C59_selected_takes.

(** No call is ambiguous, whatever its arguments. *)
Theorem C59_never_ambiguous : forall a args, resolve a args <> Ambiguous.
Proof. exact never_ambiguous. Qed.
Print Assumptions C59_never_ambiguous.

(** The overloads over iterators, of vir and of std, do what is documented with their arguments. *)
Theorem C59_iterator_bodies :
  forall o t, iterator_task o = Some t ->
    exists c, body o = Some c /\ std_body o = Some c /\ task_of c = Some t.
Proof. exact iterator_bodies. Qed.
Print Assumptions C59_iterator_bodies.

(** The overloads over ranges do what those over iterators do with begin and end of the ranges. *)
Theorem C59_range_bodies :
  forall o o' s, as_iterators o = Some (o', s) -> same_call (body o) (body o') s.
Proof. exact range_bodies. Qed.
Print Assumptions C59_range_bodies.

(** The selected overload over ranges compiles exactly if the first range has one type for begin and end, which
    simd_execution_range does not ask. *)
Theorem C59_common_range_iff :
  forall a args o, documented a args o -> o <> TZip ->
    (body_deducible args o = true <-> (forall r, nth_error args 0 = Some r -> is_common r)).
Proof. exact body_common. Qed.
Print Assumptions C59_common_range_iff.

(** E.g. for_each over a take_while view of a vector: selected, then ill-formed. *)
Theorem C59_common_range_refuted :
  exists r fn, documented AForEach [r; fn] FERange /\ resolve AForEach [r; fn] = Chosen FERange
               /\ body_deducible [r; fn] FERange = false.
Proof.
  exists (mkarg (Class (KRange false) 0) false), (mkarg (Class KOther 0) false).
  split; [|split; reflexivity]. constructor; unfold a_range, a_value, range_type, value_type; cbn; eauto.
Qed.
Print Assumptions C59_common_range_refuted.

(** Class ranges, arrays of different element types, and iterators. *)
Example C59_example_classes :
  resolve ATransform [mkarg (Class (KRange true) 0) true; mkarg (Class (KRange true) 0) true;
                      mkarg (Class (KRange true) 1) true; mkarg (Class KOther 0) false] = Chosen TRange2
  /\ resolve ATransform [mkarg (Array 0 8) true; mkarg (Array 1 8) true;
                         mkarg (Array 0 8) true; mkarg (Class KOther 0) false] = Chosen TRange2
  /\ resolve ATransformReduce [mkarg (Array 0 8) true; mkarg (Array 0 9) true; mkarg (Class KOther 1) false]
     = Chosen TRRangeInner
  /\ resolve AReduce [mkarg (Ptr 0) true; mkarg (Ptr 0) false; mkarg (Class KOther 1) false] = Chosen RIterInit
  /\ resolve ATransform [mkarg (Class KZip 0) false; mkarg (Array 0 8) true; mkarg (Class KOther 0) false]
     = Chosen TZip
  /\ resolve AForEach [mkarg (Ptr 0) true; mkarg (Ptr 1) true; mkarg (Class KOther 0) false] = NoMatch.
Proof. repeat split. Qed.
