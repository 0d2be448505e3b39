(** simd_execution.h 400-415: the constraints on ranges and iterators; and what for_each (1110-1172), count_if
    (1493-1522), transform (610-806) and transform_reduce (808-1088) demand of the value types, whatever the callables
    take.
    Loads and stores: simd.h (every simd has them) and simdize.h 458-494, 900-929. *)
From Verif Require Import Base SimdizeModel SimdizeTypeModel AcceptModel InstModel.

(** A range or an iterator: does it model std::ranges::contiguous_range (std::contiguous_iterator), and what is its
    value type (without cv, as are range_value_t and iter_value_t)? *)
Record source := mksource { s_contiguous : bool; s_value : tree leaf_type }.

(** simd_execution_range<R>, 404-407, and simd_execution_iterator<It>, 412-415.  [typename simdize<T>] is valid
    whenever simdize_impl<T, 0> has a member type, and it always has one (simdize.h 100-107, 344-359); an error in
    there is not in the immediate context. *)
Definition simd_execution (s : source) : res bool :=
  if s_contiguous s then bindR (simdize (s_value s) 0) (fun _ => Ok true) else Ok false.

(** V(ptr, flags) for V = simdize<T, n>: simds, and simd_tuple and vectorized_struct of simds (a member simd_tuple has
    no constructor from a callable, simdize.h 458-467, C48_load_nested).
    Simplifications: structs with structs as members count as simd_tuple (only templates with a single member can be
    something else, C60_layout_iff); a value type that is left alone has no constructor from a pointer to itself and a
    flag. *)
Definition is_simd (s : stype) : bool := match s with SimdizeTypeModel.Simd _ => true | _ => false end.
Definition loadable (t : tree leaf_type) (n : Z) : bool :=
  match simdize t n with
  | Ok (SimdizeTypeModel.Simd _) => true
  | Ok (Tup _ ms) => forallb is_simd ms
  | _ => false
  end.

(** result.copy_to(ptr, flags) for a simdize<T, n>, simdize.h 485-493 with 444-451 and 921-929: nested structs too. *)
Definition storable (t : tree leaf_type) (n : Z) : bool :=
  match simdize t n with Ok (SimdizeTypeModel.Simd _) | Ok (Tup _ _) => true | _ => false end.

(** simdize<T, n>::size() *)
Definition width_of (t : tree leaf_type) (n : Z) : option Z :=
  match simdize t n with Ok r => size_of r | Stop _ => None end.

(** The policy: _size, _unroll_by, _assume_matching_size and the prologue, as in AcceptModel.config. *)
Record policy := mkpolicy { q_size : Z; q_unroll : nat; q_matching : bool; q_prologue : option nat }.
Definition configured (q : policy) (n : Z) : config := mkconfig (Z.to_nat n) (q_unroll q) (q_matching q) (q_prologue q).

(** for_each over T, 1110-1172, with a callable that takes everything: V::size() at 1117, and the loads. *)
Definition for_each_over (osize : bool) (t : tree leaf_type) (q : policy) : bool :=
  match width_of t (q_size q) with
  | Some n => for_each_compiles osize (configured q n) (fun _ k => loadable t (Z.of_nat k))
  | None => false
  end.

(** count_if over T, 1493-1522: TV::size() at 1500, then for_each with a lambda that takes any number of values *)
Definition count_if_over (osize : bool) (t : tree leaf_type) (q : policy) : bool :=
  match width_of t (q_size q) with
  | Some n => for_each_over osize t q && count_if_compiles osize (configured q n) (fun _ => true)
  | None => false
  end.

(** size in transform, 717-723: [None] if one of the inputs has no size() *)
Fixpoint default_width (ts : list (tree leaf_type)) : option Z :=
  match ts with
  | [] => None
  | [t] => width_of t 0
  | t :: ts' => match width_of t 0, default_width ts' with Some a, Some b => Some (Z.max a b) | _, _ => None end
  end.

(** transform, 710-806, from ranges of T1, T2... to a range of OutT with a callable that takes and returns the right
    types: the loads (618-624) and the store at every place of AcceptModel.transform_sites (the element type there,
    and so the platform, does not matter for such a callable). *)
Definition transform_over (p : platform) (ts : list (tree leaf_type)) (out : tree leaf_type) (q : policy) : bool :=
  match (if 0 <? q_size q then Some (q_size q) else default_width ts) with
  | Some n =>
    well_formed (transform_sites p Int
      (of_widths Int (fun k => forallb (fun t => loadable t (Z.of_nat k)) ts && storable out (Z.of_nat k)))
      (configured q n))
  | None => false
  end.

(** transform_reduce, 939-1088, from ranges of T1, T2... with an init of type T, a transform_op that takes what is
    loaded and returns simdize<T, n>, and a reduce_op that takes two simdize<T, n>.  init is broadcast (960; simdize.h
    407-419, 549-561), lane 0 returned (978, 1064, 1066): either works for whatever simdize turns into simds.
    reduce (1066) and stdx::split (1069) exist for simds only: in the terms of AcceptModel, reduce_op does not take two
    elements unless T is a scalar.  Simplification: a T that is left alone has no [0] that gives a T. *)
Definition transform_reduce_over (p : platform) (ts : list (tree leaf_type)) (acc : tree leaf_type) (q : policy) : bool :=
  match (if 0 <? q_size q then Some (q_size q) else default_width ts) with
  | Some n =>
    well_formed (transform_reduce_sites p Int
      (of_widths Int (fun k => forallb (fun t => loadable t (Z.of_nat k)) ts && storable acc (Z.of_nat k)))
      (reduce_of_widths Int (fun k => storable acc (Z.of_nat k))
         (match simdize acc 1 with Ok r => is_simd r | Stop _ => false end))
      (configured q n))
  | None => false
  end.
