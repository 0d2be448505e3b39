(** simd_execution.h 399-415, 1109-1532: the signatures of the algorithms, which of them a call selects, and the
    arguments the selected one hands to the implementation.  The policy, first parameter of every signature, is
    left out.  Overload resolution is the language's: deduction ([temp.deduct.call]), constraints, partial
    ordering ([temp.deduct.partial]).  Conversions never decide: every parameter takes its argument by identity or
    by array-to-pointer conversion, and those are equally good ([over.ics.rank]). *)
From Verif Require Import Base.

(** What a class type is to the concepts.  A range may have an end of a type other than its begin's
    (not [common]).  A class that is an iterator and a range at once is left out. *)
Inductive kind := KIter | KRange (common : bool) | KZip | KOther.

(** Types of arguments, without reference and top-level cv: pointer to and array of element type e (which includes
    the element's cv), and classes, closures and arithmetic types. *)
Inductive ty := Ptr (e : nat) | Array (e n : nat) | Class (k : kind) (c : nat).

(** An argument: its type, and whether it is an lvalue.  Const rvalues are left out. *)
Record arg := mkarg { arg_ty : ty; arg_lvalue : bool }.

Definition kind_eqb (j k : kind) : bool :=
  match j, k with
  | KIter, KIter | KZip, KZip | KOther, KOther => true
  | KRange a, KRange b => Bool.eqb a b
  | _, _ => false
  end.

Definition ty_eqb (s t : ty) : bool :=
  match s, t with
  | Ptr e, Ptr f => Nat.eqb e f
  | Array e n, Array f m => Nat.eqb e f && Nat.eqb n m
  | Class j c, Class k d => kind_eqb j k && Nat.eqb c d
  | _, _ => false
  end.

(** Parameters by value see pointers, not arrays. *)
Definition decay (t : ty) : ty := match t with Array e _ => Ptr e | _ => t end.

(** Concepts simd_execution_iterator, 412-415, and simd_execution_range, 404-407; vir::simdize takes every type. *)
Definition simd_execution_iterator (t : ty) : bool :=
  match t with Ptr _ | Class KIter _ => true | _ => false end.

Definition simd_execution_range (t : ty) : bool :=
  match t with Array _ _ | Class (KRange _) _ => true | _ => false end.

Inductive constraint := Any | Iterator | Range.

Definition satisfies (c : constraint) (t : ty) : bool :=
  match c with Any => true | Iterator => simd_execution_iterator t | Range => simd_execution_range t end.

(** A parameter: of type template parameter v, by value, v&& or v&, or the const zip_view<Rs...>& of 1253. *)
Inductive form := ByValue | Forward | LRef.
Inductive param := Par (f : form) (v : nat) (c : constraint) | ZipRef.

(** The type deduced for v from one argument; None: the argument cannot be taken. *)
Definition deduced (f : form) (a : arg) : option ty :=
  match f with
  | ByValue => Some (decay (arg_ty a))
  | Forward => Some (arg_ty a)
  | LRef => if arg_lvalue a then Some (arg_ty a) else None
  end.

Fixpoint lookup {A} (v : nat) (env : list (nat * A)) : option A :=
  match env with
  | [] => None
  | (w, t) :: env' => if Nat.eqb v w then Some t else lookup v env'
  end.

(** Deduction from all arguments; a template parameter deduced twice must be deduced the same. *)
Fixpoint deducible (ps : list param) (args : list arg) (env : list (nat * ty)) : bool :=
  match ps, args with
  | [], [] => true
  | Par f v c :: ps', a :: args' =>
      match deduced f a with
      | None => false
      | Some t =>
          satisfies c t
          && match lookup v env with
             | None => deducible ps' args' ((v, t) :: env)
             | Some u => ty_eqb u t && deducible ps' args' env
             end
      end
  | ZipRef :: ps', a :: args' =>
      match arg_ty a with Class KZip _ => deducible ps' args' env | _ => false end
  | _, _ => false
  end.

(** The types partial ordering invents for the parameters: a unique type per template parameter. *)
Inductive unique := UParam (v : nat) | UZip.

Definition unique_of (p : param) : unique := match p with Par _ v _ => UParam v | ZipRef => UZip end.

Definition unique_eqb (s t : unique) : bool :=
  match s, t with
  | UParam v, UParam w => Nat.eqb v w
  | UZip, UZip => true
  | _, _ => false
  end.

(** Whether the parameters ps can be deduced from the invented types. *)
Fixpoint accepts (ps : list param) (us : list unique) (env : list (nat * unique)) : bool :=
  match ps, us with
  | [], [] => true
  | Par _ v _ :: ps', u :: us' =>
      match lookup v env with
      | None => accepts ps' us' ((v, u) :: env)
      | Some w => unique_eqb w u && accepts ps' us' env
      end
  | ZipRef :: ps', UZip :: us' => accepts ps' us' env
  | _, _ => false
  end.

Definition more_specialized (ps qs : list param) : bool :=
  accepts qs (map unique_of ps) [] && negb (accepts ps (map unique_of qs) []).

(** The overloads of namespace vir. *)
Inductive overload :=
  | FEIter | FERange
  | TIter1 | TIter2 | TRange1 | TRange2 | TZip
  | TRIterInner | TRIter2 | TRIter1 | TRRangeInner | TRRange2 | TRRange1
  | RIter | RIterInit | RIterOp | RRange | RRangeInit | RRangeOp
  | CIter | CRange.

Definition signature (o : overload) : list param :=
  match o with
  (* for_each, 1110-1113 and 1175-1178 *)
  | FEIter => [Par ByValue 0 Iterator; Par ByValue 0 Iterator; Par Forward 1 Any]
  | FERange => [Par Forward 0 Range; Par Forward 1 Any]
  (* transform, 1213-1216, 1220-1225, 1229-1232, 1239-1243, 1251-1254 *)
  | TIter1 => [Par ByValue 0 Iterator; Par ByValue 0 Iterator; Par ByValue 1 Iterator; Par ByValue 2 Any]
  | TIter2 => [Par ByValue 0 Iterator; Par ByValue 0 Iterator; Par ByValue 1 Iterator; Par ByValue 2 Iterator;
               Par ByValue 3 Any]
  | TRange1 => [Par Forward 0 Range; Par LRef 1 Range; Par ByValue 2 Any]
  | TRange2 => [Par Forward 0 Range; Par Forward 1 Range; Par LRef 2 Range; Par ByValue 3 Any]
  | TZip => [ZipRef; Par Forward 0 Range; Par ByValue 1 Any]
  (* transform_reduce, 1335-1338, 1345-1350, 1356-1360, 1364-1367, 1374-1379, 1386-1390 *)
  | TRIterInner => [Par ByValue 0 Iterator; Par ByValue 0 Iterator; Par ByValue 1 Iterator; Par ByValue 2 Any]
  | TRIter2 => [Par ByValue 0 Iterator; Par ByValue 0 Iterator; Par ByValue 1 Iterator; Par ByValue 2 Any;
                Par ByValue 3 Any; Par ByValue 4 Any]
  | TRIter1 => [Par ByValue 0 Iterator; Par ByValue 0 Iterator; Par ByValue 1 Any; Par ByValue 2 Any;
                Par ByValue 3 Any]
  | TRRangeInner => [Par Forward 0 Range; Par Forward 1 Range; Par ByValue 2 Any]
  | TRRange2 => [Par Forward 0 Range; Par Forward 1 Range; Par ByValue 2 Any; Par ByValue 3 Any; Par ByValue 4 Any]
  | TRRange1 => [Par Forward 0 Range; Par ByValue 1 Any; Par ByValue 2 Any; Par ByValue 3 Any]
  (* reduce, 1416-1418, 1425-1428, 1435-1438, 1445-1447, 1455-1458, 1465-1468 *)
  | RIter => [Par ByValue 0 Iterator; Par ByValue 0 Iterator]
  | RIterInit => [Par ByValue 0 Iterator; Par ByValue 0 Iterator; Par ByValue 1 Any]
  | RIterOp => [Par ByValue 0 Iterator; Par ByValue 0 Iterator; Par ByValue 1 Any; Par ByValue 2 Any]
  | RRange => [Par Forward 0 Range]
  | RRangeInit => [Par Forward 0 Range; Par ByValue 1 Any]
  | RRangeOp => [Par Forward 0 Range; Par ByValue 1 Any; Par ByValue 2 Any]
  (* count_if, 1493-1496 and 1525-1528 *)
  | CIter => [Par ByValue 0 Iterator; Par ByValue 0 Iterator; Par Forward 1 Any]
  | CRange => [Par Forward 0 Range; Par Forward 1 Any]
  end.

Inductive algorithm := AForEach | ATransform | ATransformReduce | AReduce | ACountIf.

(** The overload sets, in the order of the source. *)
Definition overloads (a : algorithm) : list overload :=
  match a with
  | AForEach => [FEIter; FERange]
  | ATransform => [TIter1; TIter2; TRange1; TRange2; TZip]
  | ATransformReduce => [TRIterInner; TRIter2; TRIter1; TRRangeInner; TRRange2; TRRange1]
  | AReduce => [RIter; RIterInit; RIterOp; RRange; RRangeInit; RRangeOp]
  | ACountIf => [CIter; CRange]
  end.

Definition viable (args : list arg) (o : overload) : bool := deducible (signature o) args [].

Inductive resolution := Chosen (o : overload) | Ambiguous | NoMatch.

(** The viable overload more specialised than every other viable one.  Overloads that differ only in their
    constraints would need a further rule; there are none. *)
Definition resolve (a : algorithm) (args : list arg) : resolution :=
  match filter (viable args) (overloads a) with
  | [] => NoMatch
  | [o] => Chosen o
  | os =>
      match filter (fun o => forallb (fun o' => accepts (signature o) (map unique_of (signature o')) []
                                                && accepts (signature o') (map unique_of (signature o)) []
                                                || more_specialized (signature o) (signature o')) os) os with
      | [o] => Chosen o
      | _ => Ambiguous
      end
  end.

(** Arguments of the calls in the bodies: argument i, std::ranges::begin and end of it, std::plus<>(),
    std::multiplies<>(), [](auto const& x) { return x; }, and a value-initialised value of the iterator's or range's
    value type. *)
Inductive expr := EArg (i : nat) | EBegin (i : nat) | EEnd (i : nat) | EPlus | EMultiplies | EIdentity | EZero (i : nat).

(** The implementations: vir::for_each 1113, detail::transform 713, detail::transform_reduce 942-943,
    vir::count_if 1496.  The iterator overloads of for_each and count_if are the implementations. *)
Inductive core := CoreForEach | CoreTransform | CoreTransformReduce | CoreCountIf.

(** The bodies.  None: the zip overload, modelled in ZipModel. *)
Definition body (o : overload) : option (core * list expr) :=
  match o with
  | FEIter => Some (CoreForEach, [EArg 0; EArg 1; EArg 2])
  | FERange => Some (CoreForEach, [EBegin 0; EEnd 0; EArg 1])                                      (* 1179 *)
  | TIter1 => Some (CoreTransform, [EArg 0; EArg 1; EArg 2; EArg 3])                               (* 1217 *)
  | TIter2 => Some (CoreTransform, [EArg 0; EArg 1; EArg 3; EArg 4; EArg 2])                       (* 1226 *)
  | TRange1 => Some (CoreTransform, [EBegin 0; EEnd 0; EBegin 1; EArg 2])                          (* 1234-1235 *)
  | TRange2 => Some (CoreTransform, [EBegin 0; EEnd 0; EBegin 2; EArg 3; EBegin 1])                (* 1245-1246 *)
  | TZip => None
  | TRIterInner => Some (CoreTransformReduce, [EArg 0; EArg 1; EArg 3; EPlus; EMultiplies; EArg 2]) (* 1340-1341 *)
  | TRIter2 => Some (CoreTransformReduce, [EArg 0; EArg 1; EArg 3; EArg 4; EArg 5; EArg 2])        (* 1352 *)
  | TRIter1 => Some (CoreTransformReduce, [EArg 0; EArg 1; EArg 2; EArg 3; EArg 4])                (* 1361 *)
  | TRRangeInner =>                                                                                (* 1369-1370 *)
      Some (CoreTransformReduce, [EBegin 0; EEnd 0; EArg 2; EPlus; EMultiplies; EBegin 1])
  | TRRange2 =>                                                                                    (* 1381-1382 *)
      Some (CoreTransformReduce, [EBegin 0; EEnd 0; EArg 2; EArg 3; EArg 4; EBegin 1])
  | TRRange1 => Some (CoreTransformReduce, [EBegin 0; EEnd 0; EArg 1; EArg 2; EArg 3])             (* 1392-1393 *)
  | RIter => Some (CoreTransformReduce, [EArg 0; EArg 1; EZero 0; EPlus; EIdentity])               (* 1420-1421 *)
  | RIterInit => Some (CoreTransformReduce, [EArg 0; EArg 1; EArg 2; EPlus; EIdentity])            (* 1430-1431 *)
  | RIterOp => Some (CoreTransformReduce, [EArg 0; EArg 1; EArg 2; EArg 3; EIdentity])             (* 1440-1441 *)
  | RRange => Some (CoreTransformReduce, [EBegin 0; EEnd 0; EZero 0; EPlus; EIdentity])            (* 1449-1451 *)
  | RRangeInit => Some (CoreTransformReduce, [EBegin 0; EEnd 0; EArg 1; EPlus; EIdentity])         (* 1460-1461 *)
  | RRangeOp => Some (CoreTransformReduce, [EBegin 0; EEnd 0; EArg 1; EArg 2; EIdentity])          (* 1470-1471 *)
  | CIter => Some (CoreCountIf, [EArg 0; EArg 1; EArg 2])
  | CRange => Some (CoreCountIf, [EBegin 0; EEnd 0; EArg 1])                                       (* 1530-1531 *)
  end.

(** The overloads for these policies added to namespace std, 1543-1652, as the vir overload each one repeats.
    for_each and count_if call the vir one (1547, 1652), the others repeat its body. *)
Definition std_body (o : overload) : option (core * list expr) :=
  match o with
  | FEIter => Some (CoreForEach, [EArg 0; EArg 1; EArg 2])                                         (* 1547 *)
  | TIter1 => Some (CoreTransform, [EArg 0; EArg 1; EArg 2; EArg 3])                               (* 1557 *)
  | TIter2 => Some (CoreTransform, [EArg 0; EArg 1; EArg 3; EArg 4; EArg 2])                       (* 1568 *)
  | TRIterInner => Some (CoreTransformReduce, [EArg 0; EArg 1; EArg 3; EPlus; EMultiplies; EArg 2]) (* 1580-1581 *)
  | TRIter2 => Some (CoreTransformReduce, [EArg 0; EArg 1; EArg 3; EArg 4; EArg 5; EArg 2])        (* 1594-1595 *)
  | TRIter1 => Some (CoreTransformReduce, [EArg 0; EArg 1; EArg 2; EArg 3; EArg 4])                (* 1607 *)
  | RIter => Some (CoreTransformReduce, [EArg 0; EArg 1; EZero 0; EPlus; EIdentity])               (* 1617-1618 *)
  | RIterInit => Some (CoreTransformReduce, [EArg 0; EArg 1; EArg 2; EPlus; EIdentity])            (* 1629-1630 *)
  | RIterOp => Some (CoreTransformReduce, [EArg 0; EArg 1; EArg 2; EArg 3; EIdentity])             (* 1641-1642 *)
  | CIter => Some (CoreCountIf, [EArg 0; EArg 1; EArg 2])                                          (* 1652 *)
  | _ => None
  end.

(** The implementations take first and last as one template parameter (It, It1): the types must agree.  Unequal only
    for begin and end of a range that is not common.  The iterators of an array are pointers. *)
Definition ends_agree (args : list arg) (first last : expr) : bool :=
  match first, last with
  | EBegin i, EEnd j =>
      Nat.eqb i j && match nth_error args i with
                     | Some a => match arg_ty a with
                                 | Array _ _ => true
                                 | Class (KRange common) _ => common
                                 | _ => false
                                 end
                     | None => false
                     end
  | EArg i, EArg j =>
      match nth_error args i, nth_error args j with
      | Some a, Some b => ty_eqb (decay (arg_ty a)) (decay (arg_ty b))
      | _, _ => false
      end
  | _, _ => false
  end.

(** Whether the call in the body of the chosen overload can be deduced. *)
Definition body_deducible (args : list arg) (o : overload) : bool :=
  match body o with
  | Some (_, first :: last :: _) => ends_agree args first last
  | _ => true
  end.
