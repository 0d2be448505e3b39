(** simd_execution.h 618-708, 710-806, 808-1088, 1415-1472, 1334-1394: the types the algorithms initialise, assign and
    return, and so which callables they can be instantiated with; simd.h 1262-1276, 1573-1599 (constructors),
    1376-1390, 1725-1740 (operators), 2279-2307 (reduce). *)
From Verif Require Import Base LaneModel IntModel ShapeModel ValueModel.

(** The vectorizable types (simd.h 288-297) without wchar_t, char8_t, char16_t and char32_t. *)
Inductive elt :=
  Char | SChar | UChar | Short | UShort | Int | UInt | Long | ULong | LLong | ULLong | Float | Double | LDouble.

Definition elt_code (e : elt) : nat :=
  match e with
  | Char => 0 | SChar => 1 | UChar => 2 | Short => 3 | UShort => 4 | Int => 5 | UInt => 6 | Long => 7 | ULong => 8
  | LLong => 9 | ULLong => 10 | Float => 11 | Double => 12 | LDouble => 13
  end%nat.

(** std::is_same *)
Definition elt_eqb (a b : elt) : bool := Nat.eqb (elt_code a) (elt_code b).

(** The implementation's arithmetic types: what they represent, sizeof, and the type of a sum. *)
Record platform := mkplatform {
  p_lang : lang;
  p_aty : elt -> aty;
  p_size : elt -> Z;
  p_sum : elt -> elt -> elt
}.

(** simdize<e, n> = simd<e, deduce_t<e, n>> (simdize.h 104-109, detail.h 178-179), of ABI scalar if n = 1 and
    fixed_size<n> otherwise (simd.h 449-454), and the arithmetic types. *)
Inductive vt := Simd (e : elt) (n : nat) | Elem (e : elt).

Definition vt_eqb (a b : vt) : bool :=
  match a, b with
  | Simd e n, Simd f m => elt_eqb e f && Nat.eqb n m
  | Elem e, Elem f => elt_eqb e f
  | _, _ => false
  end.

(** Copy-initialisation of the second type from the first.
    Between simds: fixed_size has an implicit conversion constructor (1581-1590), scalar has none.
    From an arithmetic type: the broadcast constructors 1263-1267, 1574-1579. *)
Definition converts (p : platform) (from to : vt) : bool :=
  match from, to with
  | Simd e n, Simd f m =>
      Nat.eqb n m
      && (elt_eqb e f
          || (negb (Nat.eqb n 1) && is_value_preserving (p_lang p) false (p_aty p e) (p_aty p f)
              && is_higher_integer_rank false (p_size p f) (p_size p e) (elt_eqb (p_sum p f e) f)))
  | Elem e, Simd f _ =>
      value_preserving_or_int (p_lang p) (elt_eqb e f) (elt_eqb e Int) (elt_eqb e UInt) (p_aty p e) (p_aty p f)
  | Simd _ _, Elem _ => false
  | Elem _, Elem _ => true
  end.

(** What std::invoke returns; [None]: the callable cannot be invoked with these arguments. *)
Definition initialises (p : platform) (from : option vt) (to : vt) : bool :=
  match from with Some f => converts p f to | None => false end.

(** x[0] is well-formed and converts to an arithmetic type *)
Definition subscriptable (r : option vt) : bool := match r with Some (Simd _ _) => true | _ => false end.

(** x + y, x * y: the operators are friends of simd and take two simds of the same type (1376-1390, 1725-1740). *)
Definition simd_operator (p : platform) (a b : vt) : option vt :=
  match a, b with
  | Elem e, Elem f => Some (Elem (p_sum p e f))
  | _, _ =>
      match converts p b a, converts p a b with
      | true, false => Some a
      | false, true => Some b
      | true, true => if vt_eqb a b then Some a else None
      | false, false => None
      end
  end.

(** reduce(simd<e, n>, op), simd.h 2279-2307: well-formed.  [fuel] bounds the recursion; n is enough.
    Simplification: an [op] whose result has another width than its arguments counts as ill-formed. *)
Fixpoint reduce_ok (p : platform) (op : vt -> vt -> option vt) (fuel n : nat) (e : elt) : bool :=
  match fuel with
  | O => false
  | S fuel' =>
      if Nat.ltb 3 n then
        let n2 := Nat.pow 2 (Nat.log2 (n / 2)) in
        match op (Simd e n2) (Simd e n2) with
        | Some (Simd f m) =>
            Nat.eqb m n2 && reduce_ok p op fuel' n2 f
            && (if Nat.eqb (n - 2 * n2) 0 then true
                else reduce_ok p op fuel' (n - 2 * n2) e && initialises p (op (Elem f) (Elem e)) (Elem e))
        | _ => false
        end
      else initialises p (op (Elem e) (Elem e)) (Elem e) (* 2304, instantiated for n = 1 too *)
  end.

(** reduce of a value of type r: only for simds *)
Definition reduce_of (p : platform) (op : vt -> vt -> option vt) (r : option vt) : option vt :=
  match r with Some (Simd e n) => if reduce_ok p op n n e then Some (Elem e) else None | _ => None end.

Definition is_some {A} (o : option A) : bool := match o with Some _ => true | None => false end.

(** A place in the source that needs a conversion, the width of the simd involved, and whether it is well-formed. *)
Definition site : Type := nat * nat * bool.
Definition well_formed (s : list site) : bool := forallb snd s.

(** The policy as far as it selects code: the simd width, _unroll_by, _assume_matching_size, and whether
    the prologue is instantiated (571-608), then with log2 of its max_elements. *)
Record config := mkconfig { c_size : nat; c_unroll : nat; c_matching : bool; c_prologue : option nat }.

(** bit_ceil(size) / 2 = 2 ^ half_log size for size > 1 *)
Definition half_log (size : nat) : nat := Nat.log2_up size - 1.

Section transform_reduce.
  Variables (p : platform) (t : elt) (transform_op : nat -> option vt) (reduce_op : vt -> vt -> option vt).

  (** std::invoke(reduce_op, acc, x) where acc is a simdize<t, n> *)
  Definition accumulate (n : nat) (x : option vt) : option vt :=
    match x with Some x => reduce_op (Simd t n) x | None => None end.

  (** simd_transform_reduce_prologue<size, max_size>, 808-834: for size = 2^0 ... 2^k = max_size *)
  Definition reduce_prologue (k : nat) : list site :=
    flat_map (fun j => let n := Nat.pow 2 j in
      [(823, n, initialises p (reduce_of p reduce_op (transform_op n)) (Simd t 1));
       (827, 1, initialises p (accumulate 1 (Some (Simd t 1))) (Simd t 1))]%nat) (seq 0 (S k)).

  (** reduce_op(acc1, A1(reduce(acc, reduce_op)))[0] for an accumulator of width n *)
  Definition finish (n : nat) : bool :=
    is_some (reduce_of p reduce_op (Some (Simd t n))) && subscriptable (accumulate 1 (Some (Simd t 1))).

  (** simd_transform_reduce_epilogue with a vector accumulator, 840-886, A::size() = 2 ^ j *)
  Fixpoint reduce_epilogue2 (j : nat) : list site :=
    let n := Nat.pow 2 j in
    (853, n, initialises p (accumulate n (transform_op n)) (Simd t n))%nat
    :: match j with
       | O => [(858, 1, subscriptable (accumulate 1 (Some (Simd t 1))))]%nat
       | S j' =>
           [(861, n, finish n);
            (867, Nat.pow 2 j', initialises p (accumulate (Nat.pow 2 j') (Some (Simd t (Nat.pow 2 j'))))
                                            (Simd t (Nat.pow 2 j')))]%nat
           ++ reduce_epilogue2 j'
       end.

  (** simd_transform_reduce_epilogue<size> without a vector accumulator, 891-934, size = 2 ^ j *)
  Fixpoint reduce_epilogue1 (j : nat) : list site :=
    let n := Nat.pow 2 j in
    (905, n, initialises p (transform_op n) (Simd t n))%nat
    :: match j with
       | O => [(909, 1, subscriptable (accumulate 1 (Some (Simd t 1))))]%nat
       | S j' =>
           [(912, n, finish n);
            (918, Nat.pow 2 j', initialises p (accumulate (Nat.pow 2 j') (Some (Simd t (Nat.pow 2 j'))))
                                            (Simd t (Nat.pow 2 j')))]%nat
           ++ reduce_epilogue2 j' ++ reduce_epilogue1 j'
       end.

  (** transform_reduce, 939-1088.  Only if constexpr removes code: the branch for constant evaluation (969) is
      always instantiated, and so are both branches of 1065. *)
  Definition transform_reduce_sites (c : config) : list site :=
    let size := c_size c in
    [(974, 1, initialises p (transform_op 1) (Simd t 1));
     (975, 1, initialises p (accumulate 1 (Some (Simd t 1))) (Simd t 1))]%nat
    ++ match c_prologue c with Some k => reduce_prologue k | None => [] end
    ++ (if Nat.ltb 1 (c_unroll c) then
          [(1013, size, initialises p (transform_op size) (Simd t size));
           (1026, size, initialises p (accumulate size (transform_op size)) (Simd t size));
           (1044, size, initialises p (accumulate size (Some (Simd t size))) (Simd t size));
           (* the return type of the lambda is deduced twice, 1047 and 1054 *)
           (1054, size, match transform_op size with Some r => vt_eqb r (Simd t size) | None => false end)]%nat
        else [])
    ++ [(999, size, initialises p (transform_op size) (Simd t size));
        (1059, size, initialises p (accumulate size (transform_op size)) (Simd t size))]%nat
    ++ (if Nat.eqb size 1 then [(1064, 1, subscriptable (accumulate 1 (Some (Simd t 1))))]%nat
        else
          let j := half_log size in
          let lo := Nat.pow 2 j in
          let hi := (size - lo)%nat in
          [(1066, size, finish size)]%nat
          ++ (if Nat.eqb lo hi then [(1072, lo, initialises p (accumulate lo (Some (Simd t lo))) (Simd t lo))]%nat
              else [(1074, hi, is_some (reduce_of p reduce_op (Some (Simd t hi))));
                    (1074, 1, initialises p (accumulate 1 (Some (Simd t 1))) (Simd t 1))]%nat)
          ++ reduce_epilogue2 j ++ reduce_epilogue1 j).
End transform_reduce.

Section transform.
  Variables (p : platform) (t : elt) (op : nat -> option vt).

  (** const simdize<t, n>& result = op(...) *)
  Definition binds (n : nat) : bool := initialises p (op n) (Simd t n).

  (** simd_transform_prologue, 636-669: for size = 2^0 ... 2^(k-1), max_elements = 2^k *)
  Definition transform_prologue (k : nat) : list site :=
    map (fun j => (657%nat, Nat.pow 2 j, binds (Nat.pow 2 j))) (seq 0 k).

  (** simd_transform_epilogue, 671-708, where bit_ceil(size0) / 2 = 2 ^ j; size0 = 2 exactly if j = 0 *)
  Fixpoint transform_epilogue (j : nat) : list site :=
    match j with
    | O => [(689, 1, binds 1); (698, 1, binds 1)]%nat
    | S j' => (698%nat, Nat.pow 2 j, binds (Nat.pow 2 j)) :: transform_epilogue j'
    end.

  (** transform, 710-806 *)
  Definition transform_sites (c : config) : list site :=
    let size := c_size c in
    [(744, size, binds size); (750, 1, binds 1)]%nat
    ++ match c_prologue c with Some k => transform_prologue k | None => [] end
    ++ (if Nat.ltb 1 (c_unroll c) then [(780, size, binds size)]%nat else [])
    ++ [(790, size, binds size)]%nat
    ++ (if Nat.ltb 1 size && negb (c_matching c) then transform_epilogue (half_log size) else []).
End transform.

(** The public functions that supply callables. *)

(** reduce with an initial value of type t over op, 1424-1442, 1454-1472, on a range of v *)
Definition reduce_sites (p : platform) (v t : elt) (op : vt -> vt -> option vt) (c : config) : list site :=
  transform_reduce_sites p t (fun n => Some (Simd v n)) op c.

(** reduce(policy, range), 1415-1422, 1444-1452: init is a value-initialised v *)
Definition sum_sites (p : platform) (v : elt) (c : config) : list site := reduce_sites p v v (simd_operator p) c.

(** The inner product transform_reduce(policy, first1, last1, first2, init), 1334-1342, 1363-1371 *)
Definition inner_product_sites (p : platform) (v1 v2 t : elt) (c : config) : list site :=
  transform_reduce_sites p t (fun n => simd_operator p (Simd v1 n) (Simd v2 n)) (simd_operator p) c.
