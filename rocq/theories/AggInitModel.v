(** Aggregate initialisation as vir/struct_reflect.h uses it to count members:
    anything_but_base_of, any_empty_base_of, brace_constructible_impl, aggregate_with_n_members
    (29-70) and the choice of struct_size_v (373-381, 423-431).

    The rules of the language that decide whether [T{...}] is well-formed ([dcl.init.list],
    [dcl.init.aggr], [dcl.init.ref] of C++20) are written out below for the initialisers that occur.
    Not modelled: unions and members that are closures or functions; overload resolution between the
    constructors of classes that are not aggregates (summarised in [cls]); access control and
    virtual bases (a class with either is not an aggregate). *)
From Verif Require Import Base StructModel.

(** What matters of a class that is not an aggregate: which class it is, std::is_empty, whether
    copy-list-initialisation from { x } with x of type anything_but_base_of is well-formed, whether it
    is from { }, and whether a (non-const) lvalue can be copied. *)
Record cls := mkcls { cid : nat; cempty : bool; ctakes : bool; cdefault : bool; ccopy : bool }.

Inductive refkind := ToMutable (* T& *) | ToConst (* const T& *) | ToRvalue (* T&& *).

(** Types of elements of aggregates.  [Scalar]: arithmetic, enumeration and pointer types (and
    bit-fields).  [Ref k None] refers to such a type, [Ref k (Some c)] to a class.  [Dflt t]: a
    member of type t with a default member initialiser. *)
Inductive ty :=
| Scalar
| Ref (k : refkind) (c : option cls)
| Class (c : cls)
| Array (n : nat) (t : ty)
| Agg (i : nat) (bs ms : list ty)
| Dflt (t : ty).

(** The initialiser clauses that occur in 49-65: [Braced] is { anything_but_base_of<T>() } with its
    own braces, [Bare] the same expression without braces (it is the only clause inside of these
    braces), [AnyBase] is any_empty_base_of<T>(). *)
Inductive clause := Braced | Bare | AnyBase.

(** A class and its bases, direct and indirect. *)
Fixpoint class_ids (t : ty) : list nat :=
  match t with
  | Class c => [cid c]
  | Agg i bs _ => i :: flat_map class_ids bs
  | _ => []
  end.

(** std::is_base_of_v<U, T>, of the class with the number [u]; 37, 45. *)
Definition is_base_of (u : nat) (T : ty) : bool := existsb (Nat.eqb u) (class_ids T).

(** std::is_empty_v, 45. *)
Fixpoint is_empty (t : ty) : bool :=
  match t with
  | Class c => cempty c
  | Agg _ bs ms => match ms with [] => forallb is_empty bs | _ => false end
  | _ => false
  end.

(** Whether the copy constructor is usable: a member that is an rvalue reference deletes it. *)
Fixpoint copyable (t : ty) : bool :=
  match t with
  | Scalar => true
  | Ref ToRvalue _ => false
  | Ref _ _ => true
  | Class c => ccopy c
  | Array _ e => copyable e
  | Agg _ bs ms => forallb copyable bs && forallb copyable ms
  | Dflt t => copyable t
  end.

(** Copy-initialisation from the empty list, which is what happens to elements without initialiser
    ([dcl.init.aggr]/5): references cannot be. *)
Fixpoint from_empty (t : ty) : bool :=
  match t with
  | Scalar => true
  | Ref _ _ => false
  | Class c => cdefault c
  | Array _ e => from_empty e
  | Agg _ bs ms => forallb from_empty bs && forallb from_empty ms
  | Dflt _ => true
  end.

(** Implicit conversion of an expression of type anything_but_base_of<T> (29-39: [operator U&() const&]
    for every U but T and its bases) to an element of type [t].  For a class type the result of the
    conversion function is an lvalue and is copied.  An rvalue reference does not bind to it. *)
Fixpoint anything_converts (T t : ty) : bool :=
  match t with
  | Scalar => true
  | Ref ToRvalue _ => false
  | Ref _ None => true
  | Ref _ (Some c) => negb (is_base_of (cid c) T)
  | Class c => negb (is_base_of (cid c) T) && ccopy c
  | Array _ _ => false
  | Agg i _ _ => negb (is_base_of i T) && copyable t
  | Dflt t => anything_converts T t
  end.

(** The same for any_empty_base_of<T> (41-47: [operator U()] for every empty base U of T). *)
Fixpoint any_base_converts (T t : ty) : bool :=
  match t with
  | Scalar => false
  | Ref ToMutable _ => false
  | Ref _ None => false
  | Ref _ (Some c) => is_base_of (cid c) T && cempty c
  | Class c => is_base_of (cid c) T && cempty c
  | Array _ _ => false
  | Agg i _ _ => is_base_of i T && is_empty t
  | Dflt t => any_base_converts T t
  end.

(** Elements in order, each consuming clauses from the front. *)
Definition in_order (f : ty -> list clause -> option (list clause)) :=
  fix go (es : list ty) (cs : list clause) : option (list clause) :=
    match es with
    | [] => Some cs
    | e :: es' => match f e cs with Some r => go es' r | None => None end
    end.

Definition n_times (f : list clause -> option (list clause)) :=
  fix go (n : nat) (cs : list clause) : option (list clause) :=
    match n with
    | O => Some cs
    | S n' => match f cs with Some r => go n' r | None => None end
    end.

(** Initialisation of one element of type [t] of an object of type [T] from the front of a list of
    clauses; the clauses left over, or None if ill-formed.  The elements of an aggregate are its
    bases and then its members ([dcl.init.aggr]/2).
    - no clause left: as if from { };
    - a clause with braces initialises the whole element: scalars from the expression inside; a
      reference is bound to a prvalue initialised from { x } ([dcl.init.list]/3.10), so T& is
      ill-formed; an aggregate by aggregate initialisation, for which one element has to consume the
      expression;
    - an expression initialises the element if it converts to its type, otherwise the braces around
      the initialisers of a subaggregate are taken to be elided ([dcl.init.aggr]/15-16), unless that
      has no elements. *)
Fixpoint consume (T t : ty) (cs : list clause) {struct t} : option (list clause) :=
  match cs with
  | [] => if from_empty t then Some [] else None
  | Braced :: r =>
      match t with
      | Scalar => Some r
      | Ref ToMutable _ => None
      | Ref _ None => Some r
      | Ref _ (Some c) => if ctakes c then Some r else None
      | Class c => if ctakes c then Some r else None
      | Array n e => match n_times (consume T e) n [Bare] with Some [] => Some r | _ => None end
      | Agg _ bs ms =>
          match in_order (consume T) bs [Bare] with
          | Some rest => match in_order (consume T) ms rest with Some [] => Some r | _ => None end
          | None => None
          end
      | Dflt t => consume T t cs
      end
  | c :: r =>
      if match c with Bare => anything_converts T t | _ => any_base_converts T t end then Some r
      else
        match t with
        | Array (S _ as n) e => n_times (consume T e) n cs
        | Agg _ [] [] => None
        | Agg _ bs ms =>
            match in_order (consume T) bs cs with
            | Some rest => in_order (consume T) ms rest
            | None => None
            end
        | Dflt t => consume T t cs
        | _ => None
        end
  end.

(** std::is_aggregate_v *)
Definition is_aggregate (T : ty) : bool := match T with Array _ _ | Agg _ _ _ => true | _ => false end.

(** [requires { T{clauses...}; }]: all clauses have to be consumed. *)
Definition brace_init (T : ty) (cs : list clause) : bool :=
  match T with
  | Array n e => match n_times (consume T e) n cs with Some [] => true | _ => false end
  | Agg _ bs ms =>
      match in_order (consume T) bs cs with
      | Some rest => match in_order (consume T) ms rest with Some [] => true | _ => false end
      | None => false
      end
  | _ => false
  end.

(** aggregate_with_n_members and brace_constructible_impl, 49-70. *)
Definition aggregate_with_n_members (T : ty) (n : nat) : bool :=
  let members := repeat Braced n in
  brace_init T members
  || brace_init T (AnyBase :: members)
  || brace_init T (AnyBase :: AnyBase :: members)
  || brace_init T (AnyBase :: AnyBase :: AnyBase :: members).

(** struct_size_v, 373-381 and 423-431.  [tuple_size] is the value of std::tuple_size<T> if that is
    specialised.  The specialisations are constrained by has_tuple_size and
    aggregate_without_tuple_size, which exclude each other; a type that satisfies neither is a
    substitution failure.  [sizeof] is sizeof(T). *)
Definition reflect_size (tuple_size : option Z) (T : ty) (fuel : nat) (sizeof : Z) : res Z :=
  match tuple_size with
  | Some n => Ok n
  | None =>
      if is_aggregate T then
        bindR (struct_size_v (fun k => (0 <=? k) && aggregate_with_n_members T (Z.to_nat k)) fuel sizeof)
              (fun '(n, _) => Ok n)
      else Stop SIllFormed
  end.
