(** What the remaining operators of a wrapper should do. *)
From Verif Require Import Base CwModifyModel.

(** The constant itself, as the object [value] of its wrapper. *)
Definition named (v : value) : category := Lvalue (Member v).

Definition is_class (v : value) : bool := match v with Cls _ _ => true | _ => false end.

(** Addresses of two objects with the same value. *)
Definition same_object (p q : place) : Prop := p = q.

(** The operand has the constant v as its static member: a wrapper, or such as std::integral_constant. *)
Definition has_constant (a : operand) (v : value) : Prop := a = OWrap v \/ a = OConst v.

(** The operator applied to the constants x and y gives the constant r. *)
Definition gives (u2 : asgop -> value -> value -> option fn) (op : asgop) (x y r : value) : Prop :=
  exists f, u2 op x y = Some f /\ f_const f = true /\ f_result f = Some r.

(** The built-in compound assignments: arithmetic types; pointer += n and pointer -= n. *)
Inductive built_in (n : Z) : value -> value -> Prop :=
| built_in_arithmetic t x t' y : built_in n (Num t x) (Num t' y)
| built_in_pointer p t y : n = 0 \/ n = 1 -> built_in n (Addr p) (Num t y).
