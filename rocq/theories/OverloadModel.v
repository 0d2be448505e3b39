(** Which calls of [where] and of the reductions of scalars compile: simd.h 254-264 (ExactBool), 1080-1106
    (reductions), 2236-2276 (where), with the implicit conversions of simd_mask, 805-810.

    Overload resolution as in [over.match.best], [over.ics.rank], [over.match.copy], as far as these
    declarations need it. *)
From Verif Require Import Base.

(** Types of a condition that is not a mask. *)
Inductive scalar : Type :=
| SBool
| SInt
| SSmall          (* promotes to int: char, short, uint16_t, unscoped enumerations that do *)
| SArith          (* other arithmetic types and unscoped enumerations: unsigned, long, float, double, ... *)
| SPointer        (* object, function and member pointers *)
| SNull           (* std::nullptr_t *)
| SScoped         (* enum class *)
| SClassBool      (* a class with an implicit conversion to bool or to a type that converts to bool *)
| SClass.         (* any other class (that does not convert to a mask or to ExactBool) *)

Inductive abi : Type := AScalar | AFixed (n : Z).
Definition abi_eqb (a b : abi) : bool :=
  match a, b with AScalar, AScalar => true | AFixed m, AFixed n => m =? n | _, _ => false end.

(** A condition: a scalar or simd_mask<T, A> (T a number). *)
Inductive cond : Type := CScalar (s : scalar) | CMask (t : Z) (a : abi).

(** The type of the value: simd, simd_mask or anything else; and how it is passed. *)
Inductive vtype : Type := VSimd (t : Z) (a : abi) | VMask (t : Z) (a : abi) | VOther (t : Z).
Inductive category : Type := Lvalue | ConstLvalue | Rvalue.

(** Ranks of standard conversions. *)
Inductive rank : Type := Exact | Promotion | Conversion.
Definition rank_num (r : rank) : Z := match r with Exact => 0 | Promotion => 1 | Conversion => 2 end.

(** Standard conversion to bool and to int, in copy-initialisation. *)
Definition to_bool (s : scalar) : option rank :=
  match s with
  | SBool => Some Exact
  | SInt | SSmall | SArith | SPointer => Some Conversion
  | SNull | SScoped | SClassBool | SClass => None
  end.
Definition to_int (s : scalar) : option rank :=
  match s with
  | SInt => Some Exact
  | SBool | SSmall => Some Promotion
  | SArith => Some Conversion
  | SPointer | SNull | SScoped | SClassBool | SClass => None
  end.

(** Implicit conversion sequences: standard, by a usable constructor or conversion function, by a deleted
    one, ambiguous. *)
Inductive ics : Type := Std (r : rank) | User | UserDeleted | UserAmbiguous.

(** Scalar to ExactBool, simd.h 259-261: the better of ExactBool(bool) and ExactBool(int) = delete.  A class
    would need a second user-defined conversion. *)
Definition exact_bool (s : scalar) : option ics :=
  match to_bool s, to_int s with
  | None, None => None
  | Some _, None => Some User
  | None, Some _ => Some UserDeleted
  | Some b, Some i => Some (if rank_num b <? rank_num i then User
                            else if rank_num i <? rank_num b then UserDeleted else UserAmbiguous)
  end.

(** Condition to a parameter of type ExactBool, bool, simd_mask<T, A>. *)
Definition cond_exact_bool (k : cond) : option ics :=
  match k with CScalar s => exact_bool s | CMask _ _ => None end.
Definition cond_bool (k : cond) : option ics :=
  match k with
  | CScalar SClassBool => Some User
  | CScalar s => match to_bool s with Some r => Some (Std r) | None => None end
  | CMask _ _ => None
  end.
(** The broadcast and generator constructors are explicit (645-657, 791-803); masks of the same fixed_size
    convert (805-810), scalar ones do not. *)
Definition cond_mask (k : cond) (t : Z) (a : abi) : option ics :=
  match k with
  | CScalar _ => None
  | CMask u b => if (u =? t) && abi_eqb a b then Some (Std Exact)
                 else match a with AFixed _ => if abi_eqb a b then Some User else None | AScalar => None end
  end.

(** What a call yields: where_expression (writable) or const_where_expression, with mask type bool
    ([None]) or simd_mask. *)
Record expression : Type := mkexpr { e_writable : bool; e_mask : option (Z * abi); e_value : vtype }.
Inductive outcome : Type := Accepted (e : expression) | Rejected.

(** A viable candidate: the conversion of the condition, whether the parameter adds const to the value,
    whether it is the more specialised of two templates ([const Tp&] against [Tp&] with Tp const), and
    the result; [None] for a deleted function. *)
Record candidate : Type := mkcand { n_cond : ics; n_const : bool; n_special : bool; n_result : option expression }.

(** [over.ics.rank]: standard before user-defined; two user-defined ones by different constructors cannot be
    told apart. *)
Definition ics_better (x y : ics) : bool :=
  match x, y with
  | Std a, Std b => rank_num a <? rank_num b
  | Std _, _ => true
  | _, _ => false
  end.

(** [over.match.best]: no argument worse and one better, or all alike and more specialised. *)
Definition better (x y : candidate) : bool :=
  let kb := ics_better (n_cond x) (n_cond y) in
  let kw := ics_better (n_cond y) (n_cond x) in
  let vb := negb (n_const x) && n_const y in
  let vw := n_const x && negb (n_const y) in
  negb kw && negb vw && (kb || vb || (n_special x && negb (n_special y))).

(** The best of the viable candidates, if there is one. *)
Fixpoint others_worse (x : candidate) (l : list candidate) : bool :=
  match l with [] => true | y :: r => better x y && others_worse x r end.
Fixpoint best_of (before after : list candidate) : option candidate :=
  match after with
  | [] => None
  | x :: r => if others_worse x (before ++ r) then Some x else best_of (before ++ [x]) r
  end.

(** The call of the chosen function. *)
Definition call_best (l : list candidate) : outcome :=
  match best_of [] l with
  | Some c => match n_cond c, n_result c with
              | (Std _ | User), Some e => Accepted e
              | _, _ => Rejected
              end
  | None => Rejected
  end.

Definition viable (k : option ics) (binds const special : bool) (r : option expression) : list candidate :=
  match k with Some i => if binds then [mkcand i const special r] else [] | None => [] end.

(** The eight declarations of where, simd.h 2237-2276.  A parameter [T&] binds non-const lvalues, or const
    ones if T can be deduced as const (2260-2263). *)
Definition where_candidates (k : cond) (v : vtype) (c : category) : list candidate :=
  let lv := match c with Lvalue => true | _ => false end in
  let clv := match c with ConstLvalue => true | _ => false end in
  match v with
  | VSimd t a =>
      viable (cond_mask k t a) lv false false (Some (mkexpr true (Some (t, a)) v))      (* 2237-2240 *)
      ++ viable (cond_mask k t a) true true false (Some (mkexpr false (Some (t, a)) v)) (* 2242-2246 *)
  | VMask t a =>
      viable (cond_mask k t a) lv false false (Some (mkexpr true (Some (t, a)) v))      (* 2248-2252 *)
      ++ viable (cond_mask k t a) true true false (Some (mkexpr false (Some (t, a)) v)) (* 2254-2258 *)
  | VOther _ => []
  end
  ++ viable (cond_exact_bool k) (lv || clv) clv false (Some (mkexpr true None v))       (* 2260-2263 *)
  ++ viable (cond_exact_bool k) true true true (Some (mkexpr false None v))             (* 2265-2268 *)
  ++ match v with
     | VSimd _ _ => viable (cond_bool k) lv false false None                            (* 2270-2272 *)
                    ++ viable (cond_bool k) true true false None                        (* 2274-2276 *)
     | _ => []
     end.

Definition where_call (k : cond) (v : vtype) (c : category) : outcome := call_best (where_candidates k v c).

(** all_of(x), any_of(x), none_of(x), some_of(x), popcount(x), find_first_set(x), find_last_set(x) of a
    scalar, simd.h 1080-1106: one candidate (the templates for masks do not match). *)
Definition reduction_accepts (s : scalar) : bool :=
  match exact_bool s with Some (Std _ | User) => true | _ => false end.
