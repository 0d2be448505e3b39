(** simd.h: loads, stores, construction and access of simd (1264-1312, 1575-1641), and
    const_where_expression / where_expression (1947-2230), element type abstract. *)
From Verif Require Import Base LaneModel MaskModel.

Section LoadStore.
  (** Element type, memory element type and the conversions between them; a conversion may be
      undefined (floating point to integer). *)
  Context {A U : Type}.
  Variable from_mem : U -> res A.
  Variable to_mem : A -> res U.

  (** mem[i] *)
  Definition mem_at (m : mem U) (p : Z) (i : nat) : res U := of_option (m (p + Z.of_nat i)).

  (** The load constructor, 1601-1606 (scalar: 1278-1283, one lane). *)
  Definition load_ctor (m : mem U) (p : Z) (n : nat) : res (list A) :=
    gen n (fun i => bindR (mem_at m p i) from_mem).

  (** copy_from, 1610-1616 (scalar: 1286-1289). *)
  Definition copy_from (v : list A) (m : mem U) (p : Z) : res (list A) :=
    loop 0 (length v) (fun i cur => bindR (mem_at m p i) (fun u => bindR (from_mem u) (fun a =>
      Ok (set_lane cur i a)))) v.

  (** mem[i] = u; only elements of an object can be written. *)
  Definition write (m : mem U) (p : Z) (i : nat) (u : U) : res (mem U) :=
    bindR (mem_at m p i) (fun _ => Ok (upd m (p + Z.of_nat i) u)).

  (** copy_to, 1619-1625 (scalar: 1292-1295). *)
  Definition copy_to (v : list A) (m : mem U) (p : Z) : res (mem U) :=
    loop 0 (length v) (fun i cur => bindR (lane v i) (fun a => bindR (to_mem a) (fun u => write cur p i u))) m.

  (** The broadcast constructor, 1574-1579 (scalar: 1264-1267). *)
  Definition broadcast (n : nat) (a : A) : res (list A) := gen n (fun _ => Ok a).

  (** Access through the non-const operator[], v[i] = x. *)
  Definition subscript_set (v : list A) (i : Z) (x : A) : res (list A) :=
    if (0 <=? i) && (i <? Z.of_nat (length v)) then Ok (set_lane v (Z.to_nat i) x) else Stop STrap.
End LoadStore.

Section Where.
  Context {A U : Type}.

  (** "for (size_t i = 0; i < V::size(); ++i) if (m_k[i]) m_value[i] = f(i, m_value[i])" *)
  Definition where_loop (k : list bool) (v : list A) (f : nat -> A -> res A) : res (list A) :=
    loop 0 (length v) (fun i cur => bindR (lane k i) (fun b : bool =>
      if b then bindR (lane cur i) (fun a => bindR (f i a) (fun r => Ok (set_lane cur i r))) else Ok cur)) v.

  (** operator=, 2097-2108; as_simd (2074-2087) copies the operand first, so it cannot alias. *)
  Definition where_assign (k : list bool) (v rhs : list A) : res (list A) :=
    where_loop k v (fun i _ => lane rhs i).

  (** operator op=, 2110-2132; [op a b] is the element expression "a op= b". *)
  Definition where_op (op : A -> A -> res A) (k : list bool) (v rhs : list A) : res (list A) :=
    where_loop k v (fun i a => bindR (lane rhs i) (op a)).

  (** ++ and --, prefix and postfix, 2134-2168. *)
  Definition where_step (step : A -> res A) (k : list bool) (v : list A) : res (list A) :=
    where_loop k v (fun _ a => step a).

  (** where_expression::copy_from, 2171-2180. *)
  Definition where_copy_from (from_mem : U -> res A) (k : list bool) (v : list A) (m : mem U) (p : Z) : res (list A) :=
    where_loop k v (fun i _ => bindR (mem_at m p i) from_mem).

  (** where(k, k) op= x on masks: the mask itself is the left operand, 2248-2252. *)
  Definition where_self (op : bool -> bool -> res bool) (k rhs : list bool) : res (list bool) :=
    loop 0 (length k) (fun i cur => bindR (lane cur i) (fun b : bool =>
      if b then bindR (lane cur i) (fun a => bindR (bindR (lane rhs i) (op a)) (fun r => Ok (set_lane cur i r)))
      else Ok cur)) k.

  (** const_where_expression: unary minus 1976-1983, copy_from 1985-1992, copy_to 1994-2003. *)
  Definition c_where_neg (neg : A -> res A) (k : list bool) (v : list A) : res (list A) :=
    gen (length v) (fun i => bindR (lane k i) (fun b : bool =>
      if b then bindR (lane v i) neg else lane v i)).
  Definition c_where_copy_from (from_mem : U -> res A) (k : list bool) (v : list A) (m : mem U) (p : Z) : res (list A) :=
    gen (length v) (fun i => bindR (lane k i) (fun b : bool =>
      if b then bindR (mem_at m p i) from_mem else lane v i)).
  Definition where_copy_to (to_mem : A -> res U) (k : list bool) (v : list A) (m : mem U) (p : Z) : res (mem U) :=
    loop 0 (length v) (fun i cur => bindR (lane k i) (fun b : bool =>
      if b then bindR (lane v i) (fun a => bindR (to_mem a) (fun u => write cur p i u)) else Ok cur)) m.

  (** The bool specialisations, 2006-2053 and 2183-2234, on one value. *)
  Definition b_where_assign (k : bool) (v x : A) : res A := if k then Ok x else Ok v.
  Definition b_where_op (op : A -> A -> res A) (k : bool) (v x : A) : res A := if k then op v x else Ok v.
  Definition b_where_step (step : A -> res A) (k : bool) (v : A) : res A := if k then step v else Ok v.
  Definition b_where_copy_from (from_mem : U -> res A) (k : bool) (v : A) (m : mem U) (p : Z) : res A :=
    if k then bindR (mem_at m p 0) from_mem else Ok v.
  Definition b_c_where_neg (neg : A -> res A) (k : bool) (v : A) : res A := if k then neg v else Ok v.
  Definition b_where_copy_to (to_mem : A -> res U) (k : bool) (v : A) (m : mem U) (p : Z) : res (mem U) :=
    if k then bindR (to_mem v) (fun u => write m p 0 u) else Ok m.
End Where.

(** The masked load constructor of simd_mask: fixed_size 818-822; the scalar one, 665-669, uses the
    mask object itself as a condition, which is ill-formed because simd_mask<T, scalar> (623-755) has
    no conversion to bool. *)
Definition mask_load_ctor_masked (m : mem bool) (p : Z) (k : list bool) : res (list bool) :=
  gen (length k) (fun i => bindR (lane k i) (fun b : bool => if b then mem_at m p i else Ok false)).
