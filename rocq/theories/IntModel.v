(** simd.h: element-wise operators of simd<T> for integer T, fallback implementation
    (scalar_simd_int_base 1108-1228, simd<T, scalar> 1230-1416, fixed_simd_int_base 1418-1520,
    simd<T, fixed_size<N>> 1522-1766), on top of the scalar C++ operators. *)
From Verif Require Import Base LaneModel.

(** ** Scalar C++ integer expressions (language semantics, trusted) *)

(** An integer type: width and signedness (two's complement). *)
Record ity := mkity { bits : Z; sgn : bool }.

Definition in_type (t : ity) (x : Z) : bool :=
  if sgn t then (- 2 ^ (bits t - 1) <=? x) && (x <? 2 ^ (bits t - 1)) else (0 <=? x) && (x <? 2 ^ bits t).

(** Conversion to [t] (static_cast, also the implicit conversion of an initialiser). *)
Definition convert (t : ity) (x : Z) : Z :=
  if sgn t then (x + 2 ^ (bits t - 1)) mod 2 ^ bits t - 2 ^ (bits t - 1) else x mod 2 ^ bits t.

(** The width of int, and whether the C++20 rules for shifts apply. *)
Record lang := mklang { l_int : Z; l_cxx20 : bool }.

(** Integral promotion ([conv.prom]). *)
Definition promote (l : lang) (t : ity) : ity := if bits t <? l_int l then mkity (l_int l) true else t.

(** A computed value of promoted type [p] ([expr.pre]/4, [basic.fundamental]/2). *)
Definition computed (p : ity) (x : Z) : res Z :=
  if sgn p then if in_type p x then Ok x else Stop SUB else Ok (x mod 2 ^ bits p).

Inductive binop := Add | Sub | Mul | Div | Rem | And | Or | Xor | Shl | Shr.

(** Shifts: [x] of promoted type [p], any count [y]. *)
Definition shift_left (l : lang) (p : ity) (x y : Z) : res Z :=
  if (0 <=? y) && (y <? bits p) then
    if sgn p && negb (l_cxx20 l) then
      (* C++17 [expr.shift]/2: undefined if negative or not representable as unsigned *)
      if (0 <=? x) && (x * 2 ^ y <? 2 ^ bits p) then Ok (convert p (x * 2 ^ y)) else Stop SUB
    else Ok (convert p (x * 2 ^ y))
  else Stop SUB.
Definition shift_right (p : ity) (x y : Z) : res Z :=
  if (0 <=? y) && (y <? bits p) then Ok (x / 2 ^ y) else Stop SUB.

(** [x op y] where both operands have (promoted) type [p]. *)
Definition eval_bin (l : lang) (p : ity) (o : binop) (x y : Z) : res Z :=
  match o with
  | Add => computed p (x + y) | Sub => computed p (x - y) | Mul => computed p (x * y)
  | Div => if y =? 0 then Stop SUB else computed p (Z.quot x y)
  | Rem => if y =? 0 then Stop SUB else bindR (computed p (Z.quot x y)) (fun _ => Ok (Z.rem x y))
  | And => Ok (Z.land x y) | Or => Ok (Z.lor x y) | Xor => Ok (Z.lxor x y)
  | Shl => shift_left l p x y | Shr => shift_right p x y
  end.

(** The expression [x op y] for operands of type [t]. *)
Definition expr_bin (l : lang) (t : ity) (o : binop) (x y : Z) : res Z := eval_bin l (promote l t) o x y.
(** [x << n], [x >> n] with an int count (the count is not converted to the left type). *)
Definition expr_shift_int (l : lang) (t : ity) (left : bool) (x n : Z) : res Z :=
  if left then shift_left l (promote l t) x n else shift_right (promote l t) x n.
(** [-x] and [~x]. *)
Definition expr_neg (l : lang) (t : ity) (x : Z) : res Z := computed (promote l t) (- x).
Definition expr_compl (l : lang) (t : ity) (x : Z) : res Z := Ok (convert (promote l t) (Z.lnot x)).

Inductive cmpop := CEq | CNe | CLt | CLe | CGt | CGe.
(** Comparisons: the promotion keeps values. *)
Definition expr_cmp (o : cmpop) (x y : Z) : bool :=
  match o with
  | CEq => x =? y | CNe => negb (x =? y) | CLt => x <? y | CLe => x <=? y | CGt => y <? x | CGe => y <=? x
  end.

(** [x op= y], i.e. x = static_cast<T>(x op y) ([expr.ass]/6), and ++x/--x as x += 1 / x -= 1. *)
Definition assign_bin (l : lang) (t : ity) (o : binop) (x y : Z) : res Z :=
  bindR (expr_bin l t o x y) (fun r => Ok (convert t r)).
Definition incr (l : lang) (t : ity) (x : Z) : res Z := assign_bin l t Add x 1.
Definition decr (l : lang) (t : ity) (x : Z) : res Z := assign_bin l t Sub x 1.

(** ** simd<T, fixed_size<N>> *)
Section Fixed.
  Variable l : lang.
  Variable t : ity.

  (** The generator constructor, 1552-1556 and 1594-1600: data {static_cast<value_type>(init(i))...};
      [g i] is the value of the expression the lambda returns.  (A lambda with "-> T" converts to the
      same type before.) *)
  Definition gen_conv (n : nat) (g : nat -> res Z) : res (list Z) :=
    gen n (fun i => bindR (g i) (fun r => Ok (convert t r))).

  (** operator op, 1485-1508 and 1725-1739. *)
  Definition f_bin (o : binop) (x y : list Z) : res (list Z) :=
    gen_conv (length x) (fun i => bindR (lane x i) (fun a => bindR (lane y i) (expr_bin l t o a))).
  (** operator<<(v, int), operator>>(v, int), 1509-1515 *)
  Definition f_shift_int (left : bool) (x : list Z) (n : Z) : res (list Z) :=
    gen_conv (length x) (fun i => bindR (lane x i) (fun a => expr_shift_int l t left a n)).
  (** operator~ 1517-1519, unary - 1687-1689 *)
  Definition f_compl (x : list Z) : res (list Z) :=
    gen_conv (length x) (fun i => bindR (lane x i) (expr_compl l t)).
  Definition f_neg (x : list Z) : res (list Z) :=
    gen_conv (length x) (fun i => bindR (lane x i) (expr_neg l t)).
  (** operator!, 1679-1681 *)
  Definition f_lnot (x : list Z) : res (list bool) :=
    gen (length x) (fun i => bindR (lane x i) (fun a => Ok (a =? 0))).
  (** comparisons, 1742-1765 *)
  Definition f_cmp (o : cmpop) (x y : list Z) : res (list bool) :=
    gen (length x) (fun i => bindR (lane x i) (fun a => bindR (lane y i) (fun b => Ok (expr_cmp o a b)))).

  (** operator op=, 1437-1483 and 1692-1722, with [alias] if the right operand is the left object. *)
  Definition f_assign (o : binop) (alias : bool) (lhs x : list Z) : res (list Z) :=
    loop 0 (length lhs) (fun i cur =>
      bindR (lane cur i) (fun a => bindR (lane (if alias then cur else x) i) (fun b =>
      bindR (assign_bin l t o a b) (fun r => Ok (set_lane cur i r))))) lhs.
  (** ++v and --v, 1644-1650 and 1661-1667: the new value. *)
  Definition f_incr (v : list Z) : res (list Z) :=
    loop 0 (length v) (fun i cur => bindR (lane cur i) (fun a =>
      bindR (incr l t a) (fun r => Ok (set_lane cur i r)))) v.
  Definition f_decr (v : list Z) : res (list Z) :=
    loop 0 (length v) (fun i cur => bindR (lane cur i) (fun a =>
      bindR (decr l t a) (fun r => Ok (set_lane cur i r)))) v.
  (** v++ and v--, 1652-1659 and 1669-1676: (returned value, new value). *)
  Definition f_post_incr (v : list Z) : res (list Z * list Z) := bindR (f_incr v) (fun v' => Ok (v, v')).
  Definition f_post_decr (v : list Z) : res (list Z * list Z) := bindR (f_decr v) (fun v' => Ok (v, v')).

  (** ** simd<T, scalar> *)

  (** operator op, 1169-1209 and 1376-1390: through the compound assignment of the element. *)
  Definition s_bin (o : binop) (x y : Z) : res Z := assign_bin l t o x y.
  (** 1211-1223 *)
  Definition s_shift_int (left : bool) (x n : Z) : res Z :=
    bindR (expr_shift_int l t left x n) (fun r => Ok (convert t r)).
  (** operator op=, 1127-1167 directly, 1359-1373 through the binary operator. *)
  Definition s_assign (o : binop) (x y : Z) : res Z := assign_bin l t o x y.
  (** 1315-1343 *)
  Definition s_incr (x : Z) : res Z := incr l t x.
  Definition s_decr (x : Z) : res Z := decr l t x.
  (** operator~ 1225-1227; unary - 1354-1356, through the broadcast constructor 1264-1267. *)
  Definition s_compl (x : Z) : res Z := bindR (expr_compl l t x) (fun r => Ok (convert t r)).
  Definition s_neg (x : Z) : res Z := bindR (expr_neg l t x) (fun r => Ok (convert t r)).
  (** 1346-1348 *)
  Definition s_lnot (x : Z) : bool := x =? 0.
  (** 1393-1415 *)
  Definition s_cmp (o : cmpop) (x y : Z) : bool := expr_cmp o x y.
End Fixed.
