(** simd.h: reduce over a where-expression (2309-2350), hmin and hmax (2352-2405).
    The order is that of std::min and std::max. *)
From Verif Require Import Base LaneModel MaskModel IntModel ReduceModel ShapeModel.

Section MaskedReduce.
  Context {T : Type}.
  (** T r = binary_op(r, v[i]); includes the conversion back to T. *)
  Variable op : T -> T -> res T.

  (** 2309-2325; k[i] and v[i] for i < V::size(). *)
  Definition masked_reduce (k : list bool) (v : list T) (identity_element : T) : res T :=
    bindR (any_of k) (fun any : bool =>
      if any then
        loop 0 (length v) (fun i r =>
          bindR (subscript k (Z.of_nat i)) (fun b : bool =>
            if b then bindR (subscript v (Z.of_nat i)) (fun x => op r x) else Ok r)) identity_element
      else Ok identity_element).
End MaskedReduce.

(** The overloads with a default identity element, 2327-2350: std::plus, std::multiplies,
    std::bit_and, std::bit_or, std::bit_xor; the int argument is converted to V::value_type. *)
Definition default_identity (l : lang) (t : ity) (o : binop) : option Z :=
  match o with
  | Add | Or | Xor => Some (convert t 0)
  | Mul => Some (convert t 1)
  | And => match expr_compl l t 0 with Ok x => Some (convert t x) | Stop _ => None end
  | _ => None
  end.
Definition masked_reduce_default (l : lang) (t : ity) (o : binop) (k : list bool) (v : list Z) : res Z :=
  match default_identity l t o with
  | Some e => masked_reduce (assign_bin l t o) k v e
  | None => Stop SIllFormed
  end.

Section Horizontal.
  Context {T : Type}.
  Variable lt : T -> T -> bool.

  (** 2352-2370; the lambda calls std::min on elements and simd min (2408-2411) on vectors. *)
  Definition hmin (v : list T) : option T := reduce (std_min lt) v.
  Definition hmax (v : list T) : option T := reduce (std_max lt) v.

  (** std::numeric_limits<T> as far as used. *)
  Record limits := mklimits { l_max : T; l_lowest : T; l_infinity : T; l_neg_infinity : T }.

  (** 2372-2405; [finite_defined]: the macro __FINITE_MATH_ONLY__ is defined (it is, to 0 or 1, by
      GCC and Clang). *)
  Definition hmin_where (finite_defined : bool) (li : limits) (k : list bool) (v : list T) : res T :=
    masked_reduce (fun a b => Ok (std_min lt a b)) k v (if finite_defined then l_max li else l_infinity li).
  Definition hmax_where (finite_defined : bool) (li : limits) (k : list bool) (v : list T) : res T :=
    masked_reduce (fun a b => Ok (std_max lt a b)) k v (if finite_defined then l_lowest li else l_neg_infinity li).
End Horizontal.

(** numeric_limits of an integer type; infinity() is T() (and -T()). *)
Definition int_limits (t : ity) : limits :=
  mklimits (if sgn t then 2 ^ (bits t - 1) - 1 else 2 ^ bits t - 1) (if sgn t then - 2 ^ (bits t - 1) else 0) 0 0.

(** Floating-point values for the ordering: every finite value of a binary format is an integer
    multiple of its smallest positive value; the sign of zero does not matter for the order. *)
Inductive fval := FNaN | FNegInf | FFin (q : Z) | FPosInf.
Definition flt (a b : fval) : bool :=
  match a, b with
  | FNaN, _ | _, FNaN => false
  | FNegInf, FNegInf => false | FNegInf, _ => true
  | FPosInf, _ => false | _, FPosInf => true
  | _, FNegInf => false
  | FFin x, FFin y => x <? y
  end.
(** [qmax]: the largest finite value. *)
Definition float_limits (qmax : Z) : limits := mklimits (FFin qmax) (FFin (- qmax)) FPosInf FNegInf.
Definition in_format (qmax : Z) (a : fval) : Prop := match a with FFin q => - qmax <= q <= qmax | _ => True end.
