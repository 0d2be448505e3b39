(** struct_reflect.h: the types of struct_get, struct_element, to_tuple(_ref), to_pair(_ref), as_tuple and
    as_pair, i.e. which qualifiers and references they add or drop (119-260, 383-395, 432-530). *)
From Verif Require Import Base.

(** An object type: its cv-qualifiers and the unqualified type. *)
Record qtype (B : Type) := mkq { q_const : bool; q_volatile : bool; q_base : B }.
Arguments mkq {B}. Arguments q_const {B}. Arguments q_volatile {B}. Arguments q_base {B}.

Inductive refkind := NoRef | LRef | RRef.

(** A type: an object type or a reference to one. *)
Record type (B : Type) := mkt { t_ref : refkind; t_obj : qtype B }.
Arguments mkt {B}. Arguments t_ref {B}. Arguments t_obj {B}.

Section Qual.
  Context {B : Type}.

  (** A non-static data member, or an element of a tuple-like type: the type it is declared with. *)
  Record member := mkmember { m_type : type B; m_mutable : bool }.

  (** The argument: an lvalue or an rvalue of a possibly cv-qualified class type. *)
  Record arg := mkarg { a_lvalue : bool; a_const : bool; a_volatile : bool }.

  (** The name m bound to a member by "auto&& [m] = obj" or "const auto& [m] = obj", as an expression: an
      lvalue, of the type the member has in an object of these qualifiers ([dcl.struct.bind], [expr.ref]). *)
  Definition bound (c v : bool) (m : member) : qtype B :=
    match t_ref (m_type m) with
    | NoRef => let q := t_obj (m_type m) in
               mkq (q_const q || (c && negb (m_mutable m))) (q_volatile q || v) (q_base q)
    | _ => t_obj (m_type m)
    end.

  (** [const T& obj] binds: an lvalue, or an rvalue that is not volatile ([dcl.init.ref]). *)
  Definition const_ref_binds (a : arg) : bool := a_lvalue a || negb (a_volatile a).
  (** [T& obj] binds: an lvalue, or (T deduced const) a const rvalue that is not volatile. *)
  Definition ref_binds (a : arg) : bool := a_lvalue a || (a_const a && negb (a_volatile a)).

  (** detail::struct_get<1>::get, 168-184.  The argument of [const T&] is const inside; of two viable
      overloads [T&] has the less qualified parameter if the argument is not const, and else [const T&] is
      the more specialised template.  The first returns [const auto&], the second [auto&]. *)
  Definition get_one (a : arg) (m : member) : option (qtype B) :=
    let first := let q := bound true (a_volatile a) m in Some (mkq true (q_volatile q) (q_base q)) in
    let second := Some (bound (a_const a) (a_volatile a) m) in
    match const_ref_binds a, ref_binds a with
    | true, true => if a_const a then first else second
    | true, false => first
    | false, true => second
    | false, false => None
    end.

  (** detail::struct_get<2>::get, 224-231, and 255-262 for 3 to 50: [T&&] takes every argument, obj is an
      lvalue in the body, forward_as_tuple has lvalue references, [auto&] keeps the qualifiers. *)
  Definition get_many (a : arg) (m : member) : option (qtype B) :=
    Some (bound (a_const a) (a_volatile a) m).

  (** vir::struct_get, 436-443: an lvalue reference to the type, or ill-formed. *)
  Definition struct_get_type (N : nat) (a : arg) (ms : list member) : option (qtype B) :=
    match nth_error ms N with
    | None => None
    | Some m => if (length ms =? 1)%nat then get_one a m
                else if (length ms <=? 50)%nat then get_many a m else None
    end.

  (** to_tuple_ref, to_pair_ref (151-157, 190-196, 207-213, 238-244): lvalue references to these types. *)
  Definition to_tuple_ref_type (a : arg) (ms : list member) : option (list (qtype B)) :=
    if (length ms <=? 50)%nat then Some (map (bound (a_const a) (a_volatile a)) ms) else None.


  (** to_tuple, to_pair (159-166, 198-205, 215-222, 246-253): T is deduced from [const T&], so without const;
      the elements are those of to_tuple_ref for an rvalue of it, references removed.  struct_get<0> takes
      and returns nothing (134-146). *)
  Definition to_tuple_type (a : arg) (ms : list member) : option (list (qtype B)) :=
    if const_ref_binds a then to_tuple_ref_type (mkarg false false (a_volatile a)) ms else None.

  (** std::declval<T>(), T a class type or a reference to one. *)
  Definition declval {C} (T : type C) : arg :=
    mkarg (match t_ref T with LRef => true | _ => false end) (q_const (t_obj T)) (q_volatile (t_obj T)).
  (** std::declval<T&>() *)
  Definition declval_ref {C} (T : type C) : arg := mkarg true (q_const (t_obj T)) (q_volatile (t_obj T)).

  (** struct_element_t, 445-460: the reference struct_get returns is removed. *)
  Definition struct_element_type {C} (N : nat) (T : type C) (ms : list member) : option (qtype B) :=
    struct_get_type N (declval_ref T) ms.

  (** copy_cvref, 385-395. *)
  Definition copy_cvref {C D} (From : type C) (To : qtype D) : type D :=
    let with_const := if q_const (t_obj From) then mkq true (q_volatile To) (q_base To) else To in
    let with_volatile := if q_volatile (t_obj From) then mkq (q_const with_const) true (q_base with_const)
                         else with_const in
    match t_ref From with
    | LRef => mkt LRef with_volatile
    | RRef => mkt RRef with_volatile
    | NoRef => mkt NoRef with_volatile
    end.

  (** as_tuple, 485-496, and as_pair, 520-530: std::tuple<...> as the unqualified type. *)
  Definition as_tuple_type {C} (T : type C) (ms : list member) : option (type (list (qtype B))) :=
    option_map (fun elements => copy_cvref T (mkq false false elements)) (to_tuple_type (declval T) ms).
End Qual.
Arguments member : clear implicits.
