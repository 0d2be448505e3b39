(** constexpr_wrapper.h: which binary operator is used, 37-63 and 154-258. *)
From Verif Require Import Base.

(** A constant of a scalar type: type and value. *)
Definition constant := (Z * Z)%type.

(** constexpr_wrapper<Xp, Tp>, 31-32 and 67-75: the type and value of Xp, and Tp; [value] is Xp as a Tp.
    Written without Tp it is the type of Xp. *)
Record wrapper := mkw { w_xty : Z; w_x : Z; w_ty : Z }.
Definition wrap (c : constant) : wrapper := mkw (fst c) (snd c) (fst c).
Definition weq (a b : wrapper) : bool := (w_xty a =? w_xty b) && (w_x a =? w_x b) && (w_ty a =? w_ty b).

(** An operand type with a static member [value] (o_value).  [o_base]: the specialisation of
    constexpr_wrapper it is or publicly derives from (at most one), if any. *)
Record operand := mko { o_base : option wrapper; o_value : constant }.

(** cw<c>, and std::integral_constant *)
Definition cw (c : constant) : operand := mko (Some (wrap c)) c.
Definition integral_constant (c : constant) : operand := mko None c.
(** constexpr_wrapper<Xp, Tp> spelled with both arguments. *)
Definition explicit_wrapper (w : wrapper) : operand := mko (Some w) (w_ty w, w_x w).

(** std::derived_from<Tp, This> *)
Definition derived_from (o : operand) (this : wrapper) : bool :=
  match o_base o with Some w => weq w this | None => false end.

(** detail::_any_constexpr_wrapper, 50-51 *)
Definition any_wrapper (o : operand) : bool := derived_from o (wrap (o_value o)).

(** detail::_lhs_constexpr_wrapper, 60-62 (every operand here is a constexpr_value, 37-42) *)
Definition lhs_wrapper (o : operand) (this : wrapper) : bool := derived_from o this || negb (any_wrapper o).

(** The friend operators found by argument-dependent lookup: those of the specialisations the operands are or
    derive from. *)
Definition candidates (a b : operand) : list wrapper :=
  match o_base a, o_base b with
  | Some v, Some w => if weq v w then [v] else [v; w]
  | Some v, None => [v]
  | None, Some w => [w]
  | None, None => []
  end.

Inductive outcome :=
| Wrapped (w : wrapper)          (* constexpr_wrapper<Ap::value op Bp::value> *)
| Plain (r : res constant)       (* the built-in operator on the values *)
| Ambiguous.

(** a op b, 154-258: [op] is the built-in operator, None where it is undefined.  A friend whose return type is
    not a constant expression is no candidate; without any candidate the conversion to value_type (76-78)
    leads to the built-in operator. *)
Definition binary (op : constant -> constant -> option constant) (a b : operand) : outcome :=
  match op (o_value a) (o_value b), filter (lhs_wrapper a) (candidates a b) with
  | Some c, [_] => Wrapped (wrap c)
  | Some c, [] => Plain (Ok c)
  | Some _, _ :: _ :: _ => Ambiguous
  | None, _ => Plain (Stop SUB)
  end.
