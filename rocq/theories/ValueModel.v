(** simd.h: detail::is_higher_integer_rank (326-350), is_value_preserving (352-380),
    ValuePreservingOrInt (386-396), and the constructors and casts that use them (1264-1276,
    1574-1600, 1794-1799). *)
From Verif Require Import Base LaneModel IntModel ShapeModel.

(** ** Arithmetic types and their values (language semantics, trusted) *)

(** An arithmetic type other than [AInt] (an integer type): bool, or a binary floating-point format
    with [p] digits and maximum exponent [emax] (IEEE: the minimum exponent is 1 - emax, subnormals
    included).  [size] is sizeof. *)
Inductive aty := AInt (t : ity) | ABool | AFloat (p emax : Z).

(** A value m * 2^e, or an infinity. *)
Inductive ext := Fin (m e : Z) | PInf | NInf.

(** m1 * 2^e1 <= m2 * 2^e2 *)
Definition ext_le (a b : ext) : bool :=
  match a, b with
  | NInf, _ => true | _, PInf => true
  | PInf, _ => false | _, NInf => false
  | Fin m1 e1, Fin m2 e2 => let k := Z.min e1 e2 in m1 * 2 ^ (e1 - k) <=? m2 * 2 ^ (e2 - k)
  end.

(** std::numeric_limits *)
Definition digits (a : aty) : Z :=
  match a with AInt t => if sgn t then bits t - 1 else bits t | ABool => 1 | AFloat p _ => p end.
Definition max_value (a : aty) : ext :=
  match a with AInt _ | ABool => Fin (2 ^ digits a - 1) 0 | AFloat p emax => Fin (2 ^ p - 1) (emax - p + 1) end.
Definition lowest_value (a : aty) : ext :=
  match a with
  | AInt t => Fin (if sgn t then - 2 ^ (bits t - 1) else 0) 0
  | ABool => Fin 0 0
  | AFloat p emax => Fin (- (2 ^ p - 1)) (emax - p + 1)
  end.
(** std::is_signed_v, std::is_unsigned_v *)
Definition is_signed_ty (a : aty) : bool := match a with AInt t => sgn t | ABool => false | AFloat _ _ => true end.
Definition is_unsigned_ty (a : aty) : bool := negb (is_signed_ty a).

(** Conversion of an integer to a floating-point format, rounding to nearest, ties to even. *)
Definition round_int (p emax z : Z) : ext :=
  let a := Z.abs z in
  if a <? 2 ^ p then Fin z 0
  else
    let k := Z.log2 a + 1 - p in
    let q := a / 2 ^ k in
    let r := a mod 2 ^ k in
    let q' := if (2 ^ k <? 2 * r) || ((2 * r =? 2 ^ k) && Z.odd q) then q + 1 else q in
    if ext_le (Fin q' k) (max_value (AFloat p emax)) then Fin (Z.sgn z * q') k
    else if 0 <? z then PInf else NInf.

(** The usual arithmetic conversions of two integer types (equal width: the unsigned one). *)
Definition common (l : lang) (t u : ity) : ity :=
  let t := promote l t in
  let u := promote l u in
  if Bool.eqb (sgn t) (sgn u) then if bits t <? bits u then u else t
  else
    let s := if sgn t then t else u in
    let n := if sgn t then u else t in
    if bits s <=? bits n then n else s.

Definition int_of (l : lang) (a : aty) : option ity :=
  match a with AInt t => Some t | ABool => Some (mkity (l_int l) true) | AFloat _ _ => None end.

(** [x <= y] where x, y are (finite, for integers: exponent 0) values of type a, b. *)
Definition cmp_le (l : lang) (a : aty) (x : ext) (b : aty) (y : ext) : bool :=
  match int_of l a, int_of l b, x, y with
  | Some t, Some u, Fin m1 _, Fin m2 _ => let c := common l t u in convert c m1 <=? convert c m2
  | Some _, None, Fin m1 _, _ => match b with AFloat p emax => ext_le (round_int p emax m1) y | _ => false end
  | None, Some _, _, Fin m2 _ => match a with AFloat p emax => ext_le x (round_int p emax m2) | _ => false end
  | _, _, _, _ => ext_le x y
  end.

(** ** The traits *)

(** 352-380; [same]: From and To are the same type.  The order of the specialisations: <bool, bool>,
    <T, T>, <T, bool>, then the primary one. *)
Definition is_value_preserving (l : lang) (same : bool) (from to : aty) : bool :=
  if same then true
  else match to with
       | ABool => false
       | _ => (digits from <=? digits to) && cmp_le l from (max_value from) to (max_value to)
              && cmp_le l to (lowest_value to) from (lowest_value from)
              && negb (is_signed_ty from && is_unsigned_ty to)
       end.

(** 386-396 for arithmetic From (convertible to every arithmetic To); [is_int], [is_uint]: From is
    int, unsigned. *)
Definition value_preserving_or_int (l : lang) (same is_int is_uint : bool) (from to : aty) : bool :=
  same || is_int || (is_uint && is_unsigned_ty to) || is_value_preserving l same from to.

(** 326-350: sizes in bytes; [sum_is_first]: decltype(declval<T>() + declval<U>()) is T. *)
Definition is_higher_integer_rank (same : bool) (size_t size_u : Z) (sum_is_first : bool) : bool :=
  if same then true else if size_u <? size_t then true else if size_t =? size_u then sum_is_first else false.

(** The conversion constructor simd(const simd<U, abi_type>&), 1581-1591, for integer types: ill-formed
    unless both traits hold. *)
Definition conversion_ctor (l : lang) (same : bool) (to from : ity) (size_to size_from : Z) (sum_is_first : bool)
  (x : list Z) : res (list Z) :=
  if is_value_preserving l same (AInt from) (AInt to) && is_higher_integer_rank same size_to size_from sum_is_first
  then static_simd_cast (fun a => Ok (convert to a)) x else Stop SIllFormed.
(** simd_cast, 1794-1799, likewise. *)
Definition simd_cast (l : lang) (same : bool) (to from : ity) (x : list Z) : res (list Z) :=
  if is_value_preserving l same (AInt from) (AInt to) then static_simd_cast (fun a => Ok (convert to a)) x
  else Stop SIllFormed.
