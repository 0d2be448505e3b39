(** constexpr_wrapper.h: call, subscript and unary operators, 104-122 and 323-368. *)
From Verif Require Import Base CwOpModel.

Section Call.
  Context {A R : Type}.

  (** How an argument arrives at the wrapped object: as a value, or as an object of a type with a static
      member [value]. *)
  Inductive passed := Value (a : A) | Object (a : A).

  (** An argument whose type is a constexpr_value (37-42), or any other. *)
  Inductive argument := AConst (a : A) | ARun (a : A).

  (** The wrapped object.  [c_scalar]: not of class type, so that the conversion operator (76-78) makes it
      usable where no member operator is viable (for a pointer to function: the surrogate call function of
      [over.call.object]; otherwise the built-in subscript).  [c_compound]: std::is_compound.
      [c_apply]: value(args...) or value[args...], None if that is ill-formed.
      [c_constant]: with these values it is a constant expression that can be a template argument. *)
  Record wrapped := mkwrapped {
    c_scalar : bool; c_compound : bool; c_apply : list passed -> option R; c_constant : list A -> bool }.

  Inductive applied :=
  | AWrapped (r : R)      (* constexpr_wrapper<r> *)
  | APlain (r : R)        (* r itself *)
  | AItself               (* the wrapped value *)
  | AIllFormed.

  (** Args::value... if all arguments have one *)
  Fixpoint constants (args : list argument) : option (list A) :=
    match args with
    | [] => Some []
    | AConst a :: args' => option_map (cons a) (constants args')
    | ARun _ :: _ => None
    end.

  Definition forwarded (x : argument) : passed := match x with AConst a => Object a | ARun a => Value a end.

  (** The first overload: only values, the result is wrapped (324-328 and, for [], 343-347, 356-360). *)
  Definition first_overload (c : wrapped) (args : list argument) : option R :=
    match constants args with
    | Some vs => if c_constant c vs then c_apply c (map Value vs) else None
    | None => None
    end.

  (** The second: at least one argument is no constexpr_value, all are forwarded (330-334; 349-354, 362-367). *)
  Definition second_overload (c : wrapped) (args : list argument) : option R :=
    match constants args with
    | Some _ => None
    | None => c_apply c (map forwarded args)
    end.

  (** No overload: the conversion operator. *)
  Definition converted (c : wrapped) (args : list argument) : applied :=
    if c_scalar c then match c_apply c (map forwarded args) with Some r => APlain r | None => AIllFormed end
    else AIllFormed.

  (** operator(), 324-339.  The third overload (336-339) takes no argument and needs value() to be ill-formed. *)
  Definition call (c : wrapped) (args : list argument) : applied :=
    match first_overload c args, second_overload c args with
    | Some r, _ => AWrapped r
    | None, Some r => APlain r
    | None, None =>
      match args, c_apply c [] with
      | [], None => AItself
      | _, _ => converted c args
      end
    end.

  (** operator[], 341-368: only for compound types. *)
  Definition subscript (c : wrapped) (args : list argument) : applied :=
    if c_compound c then
      match first_overload c args, second_overload c args with
      | Some r, _ => AWrapped r
      | None, Some r => APlain r
      | None, None => converted c args
      end
    else converted c args.
End Call.
Arguments argument : clear implicits.
Arguments passed : clear implicits.
Arguments applied : clear implicits.
Arguments wrapped : clear implicits.

(** operator+, -, ~, ! of a scalar, 104-122: the operator is applied to Xp, not to [value].  Where that is no
    constant expression the conversion operator leads to the built-in operator on [value]. *)
Definition unary (op : constant -> option constant) (w : wrapper) : outcome :=
  match op (w_xty w, w_x w) with
  | Some c => Wrapped (wrap c)
  | None => Plain (match op (w_ty w, w_x w) with Some c => Ok c | None => Stop SUB end)
  end.
