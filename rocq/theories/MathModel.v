(** simd.h: the math functions (2430-2596), element types abstract.  [f] is the scalar function of
    <cmath>/<cstdlib>; [Stop SUB] where that is undefined.  Rounding modes and errno are not modelled. *)
From Verif Require Import Base LaneModel IntModel.

Section Math.
  Context {A B C R Out : Type}.

  (** SIMD_MATH_1ARG and SIMD_MATH_1ARG_FIXED, 2431-2441: R([&x](size_t i) { return std::name(x[i]); }) *)
  Definition math1 (f : A -> res R) (x : list A) : res (list R) :=
    gen (length x) (fun i => bindR (lane x i) f).

  (** SIMD_MATH_2ARG, 2443-2459, and scalbln, scalbn, ldexp, 2542-2558. *)
  Definition math2 (f : A -> B -> res R) (x : list A) (y : list B) : res (list R) :=
    gen (length x) (fun i => bindR (lane x i) (fun a => bindR (lane y i) (f a))).

  (** SIMD_MATH_3ARG, 2461-2487. *)
  Definition math3 (f : A -> B -> C -> res R) (x : list A) (y : list B) (z : list C) : res (list R) :=
    gen (length x) (fun i => bindR (lane x i) (fun a => bindR (lane y i) (fun b => bindR (lane z i) (f a b)))).

  (** The generator with a side effect: [body i out] returns lane i and the value stored through
      the pointer &( *out)[i]; the lanes are initialised from left to right. *)
  Fixpoint out_gen (i n : nat) (body : nat -> list Out -> res (R * Out)) (out : list Out) : res (list R * list Out) :=
    match n with
    | O => Ok ([], out)
    | S n' => bindR (body i out) (fun '(r, o) =>
              bindR (lane out i) (fun _ =>
              bindR (out_gen (S i) n' body (set_lane out i o)) (fun '(rs, out') => Ok (r :: rs, out'))))
    end.

  (** modf and frexp, 2531-2540, with an output object distinct from x. *)
  Definition math1_out (f : A -> res (R * Out)) (x : list A) (out : list Out) : res (list R * list Out) :=
    out_gen 0 (length x) (fun i _ => bindR (lane x i) f) out.

  (** remquo, 2505-2509. *)
  Definition math2_out (f : A -> B -> res (R * Out)) (x : list A) (y : list B) (out : list Out) : res (list R * list Out) :=
    out_gen 0 (length x) (fun i _ => bindR (lane x i) (fun a => bindR (lane y i) (f a))) out.

  (** modf(x, &x): the argument is read from the object that is written. *)
  Definition modf_alias (f : Out -> res (R * Out)) (x : list Out) : res (list R * list Out) :=
    out_gen 0 (length x) (fun i cur => bindR (lane cur i) f) x.
End Math.

(** std::abs for signed integers: the overload for the promoted type; undefined if not representable. *)
Definition std_abs (l : lang) (t : ity) (x : Z) : res Z := if x <? 0 then expr_neg l t x else Ok x.

(** abs, 2489-2492; the generator constructor converts to T. *)
Definition simd_abs (l : lang) (t : ity) (x : list Z) : res (list Z) :=
  gen_conv t (length x) (fun i => bindR (lane x i) (std_abs l t)).
