(** Specification: the type of the expression obj.m ([expr.ref]), for C57. *)
From Verif Require Import Base QualModel.

(** [q] is the type of member [m] in an object that is const / volatile: what a reference refers to; else the
    declared type, const also if the object is const and the member is not mutable, volatile also if the
    object is volatile. *)
Definition denotes {B} (c v : bool) (m : member B) (q : qtype B) : Prop :=
  (t_ref (m_type m) <> NoRef -> q = t_obj (m_type m))
  /\ (t_ref (m_type m) = NoRef ->
      q_base q = q_base (t_obj (m_type m))
      /\ (q_const q = true <-> q_const (t_obj (m_type m)) = true \/ (c = true /\ m_mutable m = false))
      /\ (q_volatile q = true <-> q_volatile (t_obj (m_type m)) = true \/ v = true)).

(** A member that is no reference and not mutable. *)
Definition plain {B} (m : member B) : Prop := t_ref (m_type m) = NoRef /\ m_mutable m = false.

(** [q] is what is expected, or that with const added. *)
Definition same_but_const {B} (q expected : qtype B) : Prop :=
  q_base q = q_base expected /\ q_volatile q = q_volatile expected /\ (q_const expected = true -> q_const q = true).
