(** simd_cvt.h (class cvt) with the constructors, traits and casts of simd.h its conversion function is
    built on.  The arithmetic conversions themselves are a parameter, so that the model covers integer
    and floating-point element types alike. *)
From Verif Require Import Base LaneModel IntModel ValueModel.

(** ** Types *)

(** An arithmetic type: its identity (distinct types may have the same range, e.g. long and long long),
    what the traits of simd.h see of it, and sizeof. *)
Record arith := mkarith { a_id : Z; a_kind : aty; a_size : Z }.
Definition id_int : Z := 0.
Definition id_unsigned : Z := 1.
Definition id_bool : Z := 2.
(** std::is_same *)
Definition same (a b : arith) : bool := a_id a =? a_id b.
(** is_vectorizable, simd.h:288-297 *)
Definition vectorizable (a : arith) : bool := negb (a_id a =? id_bool).

(** simd_abi::scalar and simd_abi::fixed_size<n>; simd_size, simd.h:416-424 and 552-566. *)
Inductive abi := AScalar | AFixed (n : nat).
Definition abi_size (A : abi) : nat := match A with AScalar => 1 | AFixed n => n end.
Definition same_abi (A B : abi) : bool :=
  match A, B with
  | AScalar, AScalar => true
  | AFixed n, AFixed m => (n =? m)%nat
  | _, _ => false
  end.

(** The types a cvt may be made from and converted to: arithmetic types, simd, simd_mask. *)
Inductive ty := Arith (a : arith) | Simd (a : arith) (A : abi) | Mask (a : arith) (A : abi).

Section Cvt.
  (** Values of arithmetic types and the conversion from one arithmetic type to another
      (language semantics; [Stop SUB] where the language gives no value). *)
  Context {V : Type}.
  Variable l : lang.
  (** decltype(declval<T>() + declval<U>()) is T *)
  Variable sum_is_first : arith -> arith -> bool.
  Variable boolty : arith.
  Variable conv : arith -> arith -> V -> res V.

  (** ** simd.h *)

  (** detail::is_value_preserving, detail::ValuePreservingOrInt and detail::is_higher_integer_rank,
      326-396, for arithmetic types. *)
  Definition preserving (a b : arith) : bool := is_value_preserving l (same a b) (a_kind a) (a_kind b).
  Definition preserving_or_int (a b : arith) : bool :=
    value_preserving_or_int l (same a b) (a_id a =? id_int) (a_id a =? id_unsigned) (a_kind a) (a_kind b).
  Definition higher_rank (b a : arith) : bool :=
    is_higher_integer_rank (same b a) (a_size b) (a_size a) (sum_is_first b a).

  (** std::convertible_to<T, U>: implicit conversions.
      Arithmetic to arithmetic: language.  Arithmetic to simd: broadcast constructor, 1263-1267 and
      1574-1579.  Simd to simd: the copy constructor, or the conversion constructor, 1582-1590, which
      only the fixed_size specialisation has.  Mask to mask: the copy constructor, or the conversion
      constructor of the fixed_size specialisation, 806-810.  The broadcast and generator constructors
      of simd_mask are explicit (e.g. 792-803), simd and simd_mask have no conversion functions. *)
  Definition convertible (T U : ty) : bool :=
    match T, U with
    | Arith _, Arith _ => true
    | Arith a, Simd b _ => preserving_or_int a b
    | Simd a A, Simd b B =>
        (same a b && same_abi A B) ||
        match A, B with
        | AFixed n, AFixed m => (n =? m)%nat && preserving a b && higher_rank b a
        | _, _ => false
        end
    | Mask a A, Mask b B =>
        (same a b && same_abi A B) ||
        match A, B with AFixed n, AFixed m => (n =? m)%nat | _, _ => false end
    | _, _ => false
    end.

  (** The value of such a conversion; objects are their lists of lanes (one for arithmetic types). *)
  Definition convert_implicitly (T U : ty) (x : list V) : res (list V) :=
    match T, U with
    | Arith a, Arith b => bindR (lane x 0) (fun v => bindR (conv a b v) (fun w => Ok [w]))
    | Arith a, Simd b B => bindR (lane x 0) (fun v => bindR (conv a b v) (fun w => gen (abi_size B) (fun _ => Ok w)))
    | Simd a A, Simd b B =>
        if same a b && same_abi A B then Ok x
        else gen (abi_size B) (fun i => bindR (subscript x (Z.of_nat i)) (conv a b))
    | Mask a A, Mask b B =>
        if same a b && same_abi A B then Ok x
        else gen (abi_size B) (fun i => subscript x (Z.of_nat i))
    | _, _ => Stop SIllFormed
    end.

  (** The type of static_simd_cast<U>(x) for x of type const T&, 1769-1791, if there is a viable
      overload.  Simd argument: 1769 for vectorizable U, 1775 for simd U (of any size).  Mask argument:
      1781 for vectorizable U, 1787 for any U with the right size(), simd or mask. *)
  Definition static_cast_type (T U : ty) : option ty :=
    match T, U with
    | Simd _ A, Arith b => if vectorizable b then Some (Simd b A) else None
    | Simd _ _, Simd _ _ => Some U
    | Mask _ A, Arith b => if vectorizable b then Some (Mask b A) else None
    | Mask _ A, Simd _ B => if (abi_size B =? abi_size A)%nat then Some U else None
    | Mask _ A, Mask _ B => if (abi_size B =? abi_size A)%nat then Some U else None
    | _, _ => None
    end.

  (** std::is_same for the types above *)
  Definition same_ty (T U : ty) : bool :=
    match T, U with
    | Arith a, Arith b => same a b
    | Simd a A, Simd b B => same a b && same_abi A B
    | Mask a A, Mask b B => same a b && same_abi A B
    | _, _ => false
    end.

  (** The value of static_simd_cast<U>(x) where U is a simd or simd_mask type.  In 1791 with a simd
      type for M the generator returns bool, which the generator constructor converts (1275, and
      1552-1556 through 1598). *)
  Definition static_cast_value (T U : ty) (x : list V) : res (list V) :=
    match T, U with
    | Simd a _, Simd b B => gen (abi_size B) (fun i => bindR (subscript x (Z.of_nat i)) (conv a b))
    | Mask _ _, Simd b B => gen (abi_size B) (fun i => bindR (subscript x (Z.of_nat i)) (conv boolty b))
    | Mask _ _, Mask _ B => gen (abi_size B) (fun i => subscript x (Z.of_nat i))
    | _, _ => Stop SIllFormed
    end.

  (** ** simd_cvt.h *)

  (** The constraint of cvt<T>::operator U, 28-32. *)
  Definition cvt_constraint (T U : ty) : bool :=
    convertible T U || match static_cast_type T U with Some R => same_ty R U | None => false end.

  (** cvt<T>::operator U, 34-40; [x] is the object [ref] refers to. *)
  Definition cvt_operator (T U : ty) (x : list V) : res (list V) :=
    if convertible T U then convert_implicitly T U x else static_cast_value T U x.

  (** ** Initialisation from a cvt object (overload resolution, [dcl.init], [over.match]) *)

  (** U u = cvt (also passing by value and returning); U u(cvt), U(cvt); and binding a reference of type
      const U& or U&& (the assignment operators and compound assignments of simd). *)
  Inductive context := CopyInit | DirectInit | RefBind.
  (** Which function performs the conversion. *)
  Inductive how := ByOperator | ByBroadcast | ByMaskBroadcast.

  (** The broadcast constructor of simd<b, B> called with a cvt<T>: ValuePreservingOrInt<cvt<T>, b>,
      386-396, which for class types From asks is_convertible<From, b> only (378-380). *)
  Definition broadcast_viable (T : ty) (b : arith) : bool := cvt_constraint T (Arith b).

  (** [const_arg]: the cvt expression is const-qualified.
      - Arithmetic targets have no constructors.
      - Copy-initialisation ([over.match.copy]): the candidates are the broadcast constructor and the
        conversion function.  If both are viable the constructor (which binds cvt& or cvt&&) beats the
        conversion function (whose object parameter is const cvt&) by the less cv-qualified reference,
        and neither is better for a const argument.  The constructors of simd_mask that could take a
        cvt are explicit.
      - Direct-initialisation ([over.match.ctor]): the broadcast constructor is an exact match; the
        copy and move constructors (through the conversion function) are not.  simd_mask(bool) needs
        cvt<T> -> bool.
      - Reference binding ([dcl.init.ref]): a conversion function to U is taken if there is one,
        otherwise a temporary is copy-initialised. *)
  Definition resolve (c : context) (const_arg : bool) (T U : ty) : option how :=
    let op := cvt_constraint T U in
    match U with
    | Arith _ => if op then Some ByOperator else None
    | Simd b _ =>
        match c with
        | CopyInit => if broadcast_viable T b
                      then if op && const_arg then None else Some ByBroadcast
                      else if op then Some ByOperator else None
        | DirectInit => if broadcast_viable T b then Some ByBroadcast
                        else if op then Some ByOperator else None
        | RefBind => if op then Some ByOperator else if broadcast_viable T b then Some ByBroadcast else None
        end
    | Mask _ _ =>
        match c with
        | DirectInit => if op then Some ByOperator
                        else if cvt_constraint T (Arith boolty) then Some ByMaskBroadcast else None
        | _ => if op then Some ByOperator else None
        end
    end.

  (** The object of type [U] that results. *)
  Definition init_from_cvt (c : context) (const_arg : bool) (T U : ty) (x : list V) : res (list V) :=
    match resolve c const_arg T U with
    | None => Stop SIllFormed
    | Some ByOperator => cvt_operator T U x
    | Some ByBroadcast =>
        (* data(value), 1266; v = static_cast<value_type>(value), 1578 *)
        match U with
        | Simd b B => bindR (cvt_operator T (Arith b) x) (fun w => bindR (lane w 0) (fun v => gen (abi_size B) (fun _ => Ok v)))
        | _ => Stop SIllFormed
        end
    | Some ByMaskBroadcast =>
        match U with
        | Mask _ B => bindR (cvt_operator T (Arith boolty) x) (fun w => bindR (lane w 0) (fun v => gen (abi_size B) (fun _ => Ok v)))
        | _ => Stop SIllFormed
        end
    end.
End Cvt.
