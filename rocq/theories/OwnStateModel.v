(** Function objects with state of their own, passed by value: which calls act on which copy. *)
From Verif Require Import Base ExecModel TransformModel ThrowModel CallsModel RCallsModel RThrowModel.

(** The state [S * W]: what the callable refers to and what is inside the function object.  simdized_load_and_invoke and
    simdized_load_flag1_and_invoke, simd_execution.h:618-634, have the parameter [auto op]: the call acts on a copy of
    the object, which is gone after it. *)
Definition on_copy {S W X R : Type} (op : S * W -> X -> (S * W) * R) (st : S * W) (x : X) : (S * W) * R :=
  let (st', r) := op st x in ((fst st', snd st), r).

(** The overloads of transform: iterators and ranges, simd_execution.h:1213-1247 and 1552-1568, hand the object on to
    detail::transform, all calls of which are in simdized_load_and_invoke (657, 689, 698, 744, 751, 778, 790).  The one
    for a zip_view, 1250-1270, hands on a lambda with a reference to the object ([&op], 1262). *)
Variant overload := Ranges | Zipped.
Definition transform_object {T S W : Type} (o : overload) (op : S * W -> list (list T) -> (S * W) * option (list T)) :=
  run_transform_in (match o with Ranges => on_copy op | Zipped => op end).

(** The object [reduce_op] has no state inside here: a callable that has the state [S] only, next to an object with
    state [W]. *)
Definition beside1 {S W X Y R : Type} (op : S -> X -> Y -> S * R) (st : S * W) (x : X) (y : Y) : (S * W) * R :=
  let (s', r) := op (fst st) x y in ((s', snd st), r).

(** detail::transform_reduce, simd_execution.h:939-1088: all calls of transform_op are in simdized_load_and_invoke
    (974) and simdized_load_flag1_and_invoke (823, 854, 905, 1013, 1028, 1050, 1060). *)
Definition transform_reduce_object {T A S W : Type} {EO : eval_order} (c : cfg) (rop : S -> list A -> list A -> S * option (list A))
           (sop : S -> A -> A -> S * option A) (tr : S * W -> list (list T) -> (S * W) * option (list A)) :=
  transform_reduce_throwing c (beside1 rop) (beside1 sop) (on_copy tr).
