(** C59: what the documentation of the algorithms (simd_execution.h 1091-1108, 1183-1211, 1275-1333, 1398-1414,
    1476-1491) promises about calls: iterators select the algorithm over iterators, ranges the one over ranges. *)
From Verif Require Import Base SigModel.

(** Kinds of arguments. *)
Definition iterator_type (t : ty) : Prop := (exists e, t = Ptr e) \/ (exists c, t = Class KIter c).
Definition range_type (t : ty) : Prop := (exists e n, t = Array e n) \/ (exists b c, t = Class (KRange b) c).
Definition value_type (t : ty) : Prop := exists c, t = Class KOther c.

Definition an_iterator (a : arg) : Prop := iterator_type (arg_ty a).
Definition a_range (a : arg) : Prop := range_type (arg_ty a).
(** Output ranges are variables. *)
Definition an_output (a : arg) : Prop := range_type (arg_ty a) /\ arg_lvalue a = true.
Definition a_value (a : arg) : Prop := value_type (arg_ty a).
Definition a_zip (a : arg) : Prop := exists c, arg_ty a = Class KZip c.

(** The documented calls and the overload each means. *)
Inductive documented : algorithm -> list arg -> overload -> Prop :=
  | d_for_each_it f l fn : an_iterator f -> arg_ty f = arg_ty l -> a_value fn -> documented AForEach [f; l; fn] FEIter
  | d_for_each_rg r fn : a_range r -> a_value fn -> documented AForEach [r; fn] FERange
  | d_transform_it1 f l d op :
      an_iterator f -> arg_ty f = arg_ty l -> an_iterator d -> a_value op -> documented ATransform [f; l; d; op] TIter1
  | d_transform_it2 f l g d op :
      an_iterator f -> arg_ty f = arg_ty l -> an_iterator g -> an_iterator d -> a_value op ->
      documented ATransform [f; l; g; d; op] TIter2
  | d_transform_rg1 r d op : a_range r -> an_output d -> a_value op -> documented ATransform [r; d; op] TRange1
  | d_transform_rg2 r s d op :
      a_range r -> a_range s -> an_output d -> a_value op -> documented ATransform [r; s; d; op] TRange2
  | d_transform_zip z d op : a_zip z -> an_output d -> a_value op -> documented ATransform [z; d; op] TZip
  | d_tr_inner_it f l g init :
      an_iterator f -> arg_ty f = arg_ty l -> an_iterator g -> a_value init ->
      documented ATransformReduce [f; l; g; init] TRIterInner
  | d_tr_it2 f l g init red tr :
      an_iterator f -> arg_ty f = arg_ty l -> an_iterator g -> a_value init -> a_value red -> a_value tr ->
      documented ATransformReduce [f; l; g; init; red; tr] TRIter2
  | d_tr_it1 f l init red tr :
      an_iterator f -> arg_ty f = arg_ty l -> a_value init -> a_value red -> a_value tr ->
      documented ATransformReduce [f; l; init; red; tr] TRIter1
  | d_tr_inner_rg r s init :
      a_range r -> a_range s -> a_value init -> documented ATransformReduce [r; s; init] TRRangeInner
  | d_tr_rg2 r s init red tr :
      a_range r -> a_range s -> a_value init -> a_value red -> a_value tr ->
      documented ATransformReduce [r; s; init; red; tr] TRRange2
  | d_tr_rg1 r init red tr :
      a_range r -> a_value init -> a_value red -> a_value tr -> documented ATransformReduce [r; init; red; tr] TRRange1
  | d_reduce_it f l : an_iterator f -> arg_ty f = arg_ty l -> documented AReduce [f; l] RIter
  | d_reduce_it_init f l init :
      an_iterator f -> arg_ty f = arg_ty l -> a_value init -> documented AReduce [f; l; init] RIterInit
  | d_reduce_it_op f l init op :
      an_iterator f -> arg_ty f = arg_ty l -> a_value init -> a_value op ->
      documented AReduce [f; l; init; op] RIterOp
  | d_reduce_rg r : a_range r -> documented AReduce [r] RRange
  | d_reduce_rg_init r init : a_range r -> a_value init -> documented AReduce [r; init] RRangeInit
  | d_reduce_rg_op r init op : a_range r -> a_value init -> a_value op -> documented AReduce [r; init; op] RRangeOp
  | d_count_it f l p : an_iterator f -> arg_ty f = arg_ty l -> a_value p -> documented ACountIf [f; l; p] CIter
  | d_count_rg r p : a_range r -> a_value p -> documented ACountIf [r; p] CRange.

(** Two built-in arrays of the same element type as the two inputs (and, for transform, a third as output). *)
Definition array_of (e : nat) (a : arg) : Prop := exists n, arg_ty a = Array e n.

Inductive array_clash : algorithm -> list arg -> overload -> Prop :=
  | clash_transform e e' r s d op :
      array_of e r -> array_of e s -> array_of e' d -> array_clash ATransform [r; s; d; op] TIter1
  | clash_transform_reduce e r s init red tr :
      array_of e r -> array_of e s -> array_clash ATransformReduce [r; s; init; red; tr] TRIter1.

(** What an algorithm is asked to do: the first input from begin to end, the begins of further inputs, where results
    go, the initial value, and the operations. *)
Record task := mktask {
  t_first : expr; t_last : expr; t_more : list expr; t_out : option expr; t_init : option expr; t_ops : list expr }.

(** The parameters of the implementations, by the names they have in 713, 942-943, 1113, 1496. *)
Definition task_of (c : core * list expr) : option task :=
  match c with
  | (CoreForEach, [first; last; fn]) | (CoreCountIf, [first; last; fn]) =>
      Some (mktask first last [] None None [fn])
  | (CoreTransform, first :: last :: d :: op :: more) => Some (mktask first last more (Some d) None [op])
  | (CoreTransformReduce, first :: last :: init :: red :: tr :: more) =>
      Some (mktask first last more None (Some init) [red; tr])
  | _ => None
  end.

(** The documented tasks of the overloads over iterators; the arguments are numbered as in the documentation. *)
Definition iterator_task (o : overload) : option task :=
  match o with
  | FEIter | CIter => Some (mktask (EArg 0) (EArg 1) [] None None [EArg 2])
  | TIter1 => Some (mktask (EArg 0) (EArg 1) [] (Some (EArg 2)) None [EArg 3])
  | TIter2 => Some (mktask (EArg 0) (EArg 1) [EArg 2] (Some (EArg 3)) None [EArg 4])
  | TRIterInner => Some (mktask (EArg 0) (EArg 1) [EArg 2] None (Some (EArg 3)) [EPlus; EMultiplies])
  | TRIter2 => Some (mktask (EArg 0) (EArg 1) [EArg 2] None (Some (EArg 3)) [EArg 4; EArg 5])
  | TRIter1 => Some (mktask (EArg 0) (EArg 1) [] None (Some (EArg 2)) [EArg 3; EArg 4])
  | RIter => Some (mktask (EArg 0) (EArg 1) [] None (Some (EZero 0)) [EPlus; EIdentity])
  | RIterInit => Some (mktask (EArg 0) (EArg 1) [] None (Some (EArg 2)) [EPlus; EIdentity])
  | RIterOp => Some (mktask (EArg 0) (EArg 1) [] None (Some (EArg 2)) [EArg 3; EIdentity])
  | _ => None
  end.

(** A call with ranges as the call with iterators it stands for: begin and end of the first range, begin of every
    other, in the same order, then the rest. *)
Definition as_iterators (o : overload) : option (overload * list expr) :=
  match o with
  | FERange => Some (FEIter, [EBegin 0; EEnd 0; EArg 1])
  | CRange => Some (CIter, [EBegin 0; EEnd 0; EArg 1])
  | TRange1 => Some (TIter1, [EBegin 0; EEnd 0; EBegin 1; EArg 2])
  | TRange2 => Some (TIter2, [EBegin 0; EEnd 0; EBegin 1; EBegin 2; EArg 3])
  | TRRangeInner => Some (TRIterInner, [EBegin 0; EEnd 0; EBegin 1; EArg 2])
  | TRRange2 => Some (TRIter2, [EBegin 0; EEnd 0; EBegin 1; EArg 2; EArg 3; EArg 4])
  | TRRange1 => Some (TRIter1, [EBegin 0; EEnd 0; EArg 1; EArg 2; EArg 3])
  | RRange => Some (RIter, [EBegin 0; EEnd 0])
  | RRangeInit => Some (RIterInit, [EBegin 0; EEnd 0; EArg 1])
  | RRangeOp => Some (RIterOp, [EBegin 0; EEnd 0; EArg 1; EArg 2])
  | _ => None
  end.

(** Replace argument i of a call by the i-th of these expressions.  The value type of begin(r) is that of r. *)
Definition subst_expr (s : list expr) (x : expr) : option expr :=
  match x with
  | EArg i => nth_error s i
  | EZero i => match nth_error s i with
               | Some (EBegin j) | Some (EArg j) => Some (EZero j)
               | _ => None
               end
  | EPlus | EMultiplies | EIdentity => Some x
  | _ => None
  end.

(** The call of the implementation that the call with iterators makes. *)
Definition same_call (b b' : option (core * list expr)) (s : list expr) : Prop :=
  exists c xs ys, b = Some (c, xs) /\ b' = Some (c, ys) /\ map (subst_expr s) ys = map Some xs.

(** Every input range has one type for begin and end. *)
Definition is_common (a : arg) : Prop := forall b c, arg_ty a = Class (KRange b) c -> b = true.

(** What an overload is documented to take, argument by argument: the first and second of a pair of iterators, another
    iterator, an input range, an output range, a zip_view, anything.  An array is also its pointer. *)
Inductive role := First | Last | OtherIterator | Input | Output | Zipped | Anything.

Definition roles (o : overload) : list role :=
  match o with
  | FEIter | CIter => [First; Last; Anything]
  | FERange | CRange => [Input; Anything]
  | TIter1 => [First; Last; OtherIterator; Anything]
  | TIter2 => [First; Last; OtherIterator; OtherIterator; Anything]
  | TRange1 => [Input; Output; Anything]
  | TRange2 => [Input; Input; Output; Anything]
  | TZip => [Zipped; Input; Anything]
  | TRIterInner => [First; Last; OtherIterator; Anything]
  | TRIter2 => [First; Last; OtherIterator; Anything; Anything; Anything]
  | TRIter1 => [First; Last; Anything; Anything; Anything]
  | TRRangeInner => [Input; Input; Anything]
  | TRRange2 => [Input; Input; Anything; Anything; Anything]
  | TRRange1 => [Input; Anything; Anything; Anything]
  | RIter => [First; Last]
  | RIterInit => [First; Last; Anything]
  | RIterOp => [First; Last; Anything; Anything]
  | RRange => [Input]
  | RRangeInit => [Input; Anything]
  | RRangeOp => [Input; Anything; Anything]
  end.

Definition iterator_or_array (a : arg) : Prop := an_iterator a \/ exists e, array_of e a.

Definition plays (r : role) (a : arg) : Prop :=
  match r with
  | First | Last | OtherIterator => iterator_or_array a
  | Input => a_range a
  | Output => an_output a
  | Zipped => a_zip a
  | Anything => True
  end.

(** Both ends of a pair have one type. *)
Definition pair_of_iterators (o : overload) (args : list arg) : Prop :=
  forall f l, nth_error (roles o) 1 = Some Last -> nth_error args 0 = Some f -> nth_error args 1 = Some l ->
    decay (arg_ty f) = decay (arg_ty l).
