(** simd_execution.h 91-356, 1110-1172, 1493-1522: the calls of the callable for_each and count_if are instantiated
    with, whether they are executed or not.  Only if constexpr removes code: what follows an
    [if constexpr (...) { ...; return; }] or an [if constexpr (...) unreachable();] is instantiated, and so are both
    branches of [if (std::is_constant_evaluated())].
    transform and transform_reduce: AcceptModel.v, with callables that take some widths only.
    Simplification: simdize<T, n> is a simd type for every n that occurs (so in the fallback, simd.h 449-454). *)
From Verif Require Import Base ExecModel AcceptModel.
#[local] Open Scope nat_scope.

(** A place in the source, and the number and the width of the chunks it hands over. *)
Definition call_site : Type := nat * nat * nat.

(** The cases of a jump table, 109-171 and 241-303: none depends on the bound (103-104, 235-236). *)
Definition table_sites (line : nat) (t : list (Z * Z)) : list call_site :=
  map (fun e => (line, 1, Z.to_nat (fst e - snd e))) t.

(** simd_for_each_prologue<V, write_back, max_elements>, 182-219, max_elements = 2 ^ k, for V::size() = 2^0 ... 2^(k-1) *)
Definition for_each_prologue_sites (osize : bool) (k : nat) : list call_site :=
  flat_map (fun j => let n := Nat.pow 2 j in
    (if Nat.eqb (Nat.pow 2 k) 2 then [(199, 1, n)] else [])
    ++ (if negb osize && Nat.eqb n 1 && Nat.ltb (Nat.pow 2 k) 64 then table_sites 105 prologue_table else [])
    ++ [(211, 1, n)]) (seq 0 k).

(** simd_for_each_epilogue<V0, write_back>, 314-356, V0::size() = size0, std::bit_ceil(size0) / 2 = 2 ^ j *)
Fixpoint for_each_epilogue_sites (osize : bool) (size0 j : nat) : list call_site :=
  let n := Nat.pow 2 j in
  (if Nat.eqb size0 2 then [(326, 1, 1)] else [])
  ++ (if Nat.leb size0 4 then table_sites 237 epilogue_table else [])
  ++ (if negb osize && Nat.leb size0 64 then table_sites 237 epilogue_table else [])
  ++ [(349, 1, n)]
  ++ match j with O => [] | S j' => for_each_epilogue_sites osize n j' end.

(** for_each, 1110-1172 *)
Definition for_each_sites (osize : bool) (c : config) : list call_site :=
  let size := c_size c in
  let epilogue := for_each_epilogue_sites osize size (half_log size) in
  [(1134, 1, size)]
  ++ (if Nat.ltb 1 size then epilogue else [])
  ++ match c_prologue c with Some k => for_each_prologue_sites osize k | None => [] end
  ++ (if Nat.ltb 1 (c_unroll c) then [(1157, c_unroll c, size)] else [])
  ++ [(1165, 1, size)]
  ++ (if negb (c_matching c) && Nat.ltb 1 size then epilogue else []).

(** A callable: can it be called with k simds of width n? *)
Definition callable : Type := nat -> nat -> bool.

(** for_each(pol, first, last, fun).  (Whether fun takes V&, which selects write_back at 1118-1119, is part of the
    same question: the chunks are lvalues either way, 55.) *)
Definition for_each_compiles (osize : bool) (c : config) (fun_ : callable) : bool :=
  forallb (fun s => fun_ (snd (fst s)) (snd s)) (for_each_sites osize c).

(** count_if(pol, first, last, pred), 1493-1522: the lambda calls pred with each chunk it gets. *)
Definition count_if_compiles (osize : bool) (c : config) (pred : nat -> bool) : bool :=
  forallb (fun s => pred (snd s)) (for_each_sites osize c).

(** A callable for transform or transform_op of transform_reduce that takes simds of some widths and returns
    simd<t> of that width. *)
Definition of_widths (t : elt) (ok : nat -> bool) (n : nat) : option vt := if ok n then Some (Simd t n) else None.

(** A reduce_op that takes two simd<t> of some widths, and, if [elements], two values of type t. *)
Definition reduce_of_widths (t : elt) (ok : nat -> bool) (elements : bool) (a b : vt) : option vt :=
  match a, b with
  | Simd e n, Simd f m => if elt_eqb e t && elt_eqb f t && Nat.eqb n m && ok n then Some (Simd t n) else None
  | Elem e, Elem f => if elements && elt_eqb e t && elt_eqb f t then Some (Elem t) else None
  | _, _ => None
  end.
