(** constexpr_wrapper.h: the operators that need more than a value: & and unary *, ++ and -- (124-152),
    -> (95-102), assignment (259-263) and the compound assignments (265-313).  Overload resolution and
    constant evaluation are language rules and written out here; classes are described by the operators
    they declare. *)
From Verif Require Import Base.

(** Constants that can be template arguments: numbers (type and value), objects of class type (type and
    data), and pointers to objects with static storage duration. *)
Inductive value :=
| Num (t x : Z)
| Cls (t d : Z)
| Addr (p : place)
(** Such objects: the template parameter object for a value of class type, the static member [value] of
    constexpr_wrapper<v> (74), and other variables. *)
with place :=
| Param (v : value)
| Member (v : value)
| Static (id : Z).

Inductive unop := AddressOf | Deref | PreInc | PostInc | PreDec | PostDec.
(** =, and the ten compound assignments of 265-313 by number *)
Inductive asgop := Assign | Compound (n : Z).

(** An operator declared for a class (or two): as a member or not; whether it can be called with a const
    object (on the left); and what it returns, None if that is no constant or not of structural type. *)
Record fn := mkfn { f_member : bool; f_const : bool; f_result : option value }.

(** operator-> of a class: callable on a const object; the pointer it returns and whether the pointee is
    const, None if it returns an object of class type. *)
Record arrow_fn := mkarrow { a_const : bool; a_result : option (place * bool) }.

Section Language.
  (** The value of a variable that is usable in constant expressions. *)
  Variable static_value : Z -> option value.
  Variable user1 : unop -> value -> option fn.
  Variable user2 : asgop -> value -> value -> option fn.
  Variable user_arrow : value -> option arrow_fn.

  Inductive eval := IllFormed | NotConstant | Constant (v : value).
  Definition called (f : fn) : eval :=
    if f_const f then match f_result f with Some r => Constant r | None => NotConstant end else IllFormed.

  (** An operand: a prvalue, or a const lvalue naming the object at p. *)
  Inductive category := Prvalue | Lvalue (p : place).

  Definition object_at (p : place) : option value :=
    match p with Param v | Member v => Some v | Static id => static_value id end.

  (** [op e] for an expression e of value v ([expr.unary.op], [expr.pre.incr], [expr.post.incr]). *)
  Definition expr1 (op : unop) (c : category) (v : value) : eval :=
    match v, op, c with
    | Cls _ _, _, _ =>
        match user1 op v, op, c with
        | Some f, _, _ => called f
        | None, AddressOf, Lvalue p => Constant (Addr p)
        | None, _, _ => IllFormed
        end
    | _, AddressOf, Lvalue p => Constant (Addr p)
    | Addr p, Deref, _ => match object_at p with Some x => Constant x | None => NotConstant end
    | _, _, _ => IllFormed
    end.

  (** [e1 op e2] for constants; the built-in operators need something modifiable on the left. *)
  Definition expr2 (op : asgop) (v w : value) : eval :=
    match user2 op v w with Some f => called f | None => IllFormed end.

  (** ** The library *)

  (** What an expression with wrappers gives: a wrapper; something else computed from the values (after
      the conversion to value_type, 76-78); the address of the wrapper object; the wrapper object itself. *)
  Inductive outcome := RWrapped (v : value) | RPlain | RAddress | RSelf | RIllFormed.

  (** The template parameter Yp, initialised with Xp, in an expression: an lvalue if it is of class type. *)
  Definition nttp (v : value) : category := match v with Cls _ _ => Lvalue (Param v) | _ => Prvalue end.

  (** An operator that is not a member is found by argument-dependent lookup (value_type is a template
      argument) and takes the converted operand, a prvalue. *)
  Definition by_conversion (f : option fn) : bool :=
    match f with Some f => negb (f_member f) && f_const f | None => false end.

  (** Unary op w, 124-152, for w an lvalue or not: the template if op Yp is a constant; otherwise what the
      language does with a class without that operator. *)
  Definition unary (lvalue : bool) (op : unop) (v : value) : outcome :=
    match expr1 op (nttp v) v with
    | Constant r => RWrapped r
    | _ =>
        if match v with Cls _ _ => by_conversion (user1 op v) | _ => false end then RPlain
        else match op, v with
             | AddressOf, _ => if lvalue then RAddress else RIllFormed
             | Deref, Addr _ => RPlain
             | _, _ => RIllFormed
             end
    end.

  (** Operands of assignments: cw<v>; another type with a static member [value], such as
      std::integral_constant; a variable or other expression without constant value. *)
  Inductive operand := OWrap (v : value) | OConst (v : value) | ORun (v : value).
  (** Tp::value, if Tp is a constexpr_value, 37-42 *)
  Definition constant_of (a : operand) : option value :=
    match a with OWrap v | OConst v => Some v | ORun _ => None end.
  Definition converted (a : operand) : value := match a with OWrap v | OConst v | ORun v => v end.
  Definition is_wrap (a : operand) : bool := match a with OWrap _ => true | _ => false end.

  (** The built-in operators on a variable of type v's on the left: arithmetic types, or p += n and
      p -= n (numbers 0 and 1). *)
  Definition built_in_assign (op : asgop) (v w : value) : bool :=
    match v, w, op with
    | Num _ _, Num _ _, _ => true
    | Addr _, Num _ _, Compound n => (n =? 0) || (n =? 1)
    | Addr _, Addr _, Assign => true
    | _, _, _ => false
    end.

  (** Without a viable operator of constexpr_wrapper: a variable on the left is modified (built-in operator
      or one of its class); a wrapper on the left only converts for operators that are not members. *)
  Definition without_wrapper (op : asgop) (a b : operand) : outcome :=
    match a with
    | ORun v =>
        if built_in_assign op v (converted b) then RPlain else
        match user2 op (converted a) (converted b) with Some _ => RPlain | None => RIllFormed end
    | _ => if by_conversion (user2 op (converted a) (converted b)) then RPlain else RIllFormed
    end.

  (** a op= b, 265-313, one of them a wrapper. *)
  Definition compound (n : Z) (a b : operand) : outcome :=
    match constant_of a, constant_of b with
    | Some x, Some y =>
        match expr2 (Compound n) x y with
        | Constant r => RWrapped r
        | _ => without_wrapper (Compound n) a b
        end
    | _, _ => without_wrapper (Compound n) a b
    end.

  (** w = b for w of type (const) constexpr_wrapper<v>: the implicitly declared assignment operator if b
      has the same type and w is not const ([same]); it is better than the template, 259-263, whose object
      parameter is const. *)
  Definition assign (const same : bool) (v : value) (b : operand) : outcome :=
    if negb const && same then RSelf
    else match constant_of b with
         | Some y => match expr2 Assign v y with Constant r => RWrapped r | _ => RIllFormed end
         | None => RIllFormed
         end.

  (** operator->, 95-102: where the returned pointer points to; its pointee is const (const auto* ). *)
  Definition arrow (v : value) : res (place * bool) :=
    match user_arrow v with
    | Some f =>
        if a_const f
        then match a_result f with Some (p, _) => Ok (p, true) | None => Stop SIllFormed end
        else Ok (Member v, true)
    | None => Ok (Member v, true)
    end.

  (** value->, for the static member itself, in so far as a single operator-> returns the pointer. *)
  Definition native_arrow (v : value) : option (place * bool) :=
    match user_arrow v with
    | Some f => if a_const f then a_result f else None
    | None => None
    end.
End Language.
