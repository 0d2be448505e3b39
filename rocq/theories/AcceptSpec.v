(** What the documentation of the algorithms asks of the callables (simd_execution.h 1183-1211, 1275-1332,
    1398-1413). *)
From Verif Require Import Base IntModel ValueModel AcceptModel.

(** Called with simds of width n, the callable returns a simd<u> of width n. *)
Definition returns_simd (op : nat -> option vt) (u : elt) : Prop := forall n, op n = Some (Simd u n).

(** ... a value of type u. *)
Definition returns_element (op : nat -> option vt) (u : elt) : Prop := forall n, op n = Some (Elem u).

(** Called with two simd<t> of the same width, op returns a simd<r> of that width; [None]: it cannot be called. *)
Definition lanewise (op : vt -> vt -> option vt) (t : elt) (r : option elt) : Prop :=
  forall n, op (Simd t n) (Simd t n) = option_map (fun r => Simd r n) r.

(** op can be called with two values of type t and returns an arithmetic type. *)
Definition takes_elements (op : vt -> vt -> option vt) (t : elt) : Prop :=
  exists e, op (Elem t) (Elem t) = Some (Elem e).

(** 1282-1284, 1300, 1407-1408: both callables are called with simd arguments, the result of transform_op is input of
    reduce_op, init determines the aggregation type t. *)
Definition documented (transform_op : nat -> option vt) (reduce_op : vt -> vt -> option vt) (t : elt) : Prop :=
  returns_simd transform_op t /\ lanewise reduce_op t (Some t).

(** Policies: a positive width, the loops unrolled at least once, a prologue only for several lanes. *)
Definition valid (c : config) : Prop :=
  (0 < c_size c)%nat /\ (0 < c_unroll c)%nat
  /\ (forall k, c_prologue c = Some k -> (1 < c_size c /\ 0 < k)%nat).

(** x86-64 (and other LP64 platforms): char is signed, the formats are IEEE binary32, binary64 and x87's. *)
Definition lp64_sum (a b : elt) : elt :=
  match a, b with
  | LDouble, _ | _, LDouble => LDouble
  | Double, _ | _, Double => Double
  | Float, _ | _, Float => Float
  | ULLong, _ | _, ULLong => ULLong
  | ULong, LLong | LLong, ULong => ULLong
  | LLong, _ | _, LLong => LLong
  | ULong, _ | _, ULong => ULong
  | Long, _ | _, Long => Long
  | UInt, _ | _, UInt => UInt
  | _, _ => Int
  end.

Definition lp64_platform : platform :=
  mkplatform (mklang 32 true)
    (fun e => match e with
              | Char | SChar => AInt (mkity 8 true) | UChar => AInt (mkity 8 false)
              | Short => AInt (mkity 16 true) | UShort => AInt (mkity 16 false)
              | Int => AInt (mkity 32 true) | UInt => AInt (mkity 32 false)
              | Long | LLong => AInt (mkity 64 true) | ULong | ULLong => AInt (mkity 64 false)
              | Float => AFloat 24 127 | Double => AFloat 53 1023 | LDouble => AFloat 64 16383
              end)
    (fun e => match e with
              | Char | SChar | UChar => 1 | Short | UShort => 2 | Int | UInt | Float => 4
              | LDouble => 16 | _ => 8
              end)
    lp64_sum.
