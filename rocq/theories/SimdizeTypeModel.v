(** simdize.h: the type function simdize<T, N>, 100-174 (simdize_impl, recursively_vectorizable,
    default_simdize_size, make_simd_tuple), 344-359 (simdize_impl of aggregates), 1018-1026. *)
From Verif Require Import Base SimdizeModel.

(** A type that is not a reflectable_struct: vectorizable with a native_simd size and the set of widths
    for which deduce_t is well-formed, or anything else (bool, pointers, classes, simd). *)
Inductive leaf_type := Scalar (native : Z) (can : Z -> bool) | Opaque.

(** recursively_vectorizable, 109-135 *)
Fixpoint recursively_vectorizable (t : tree leaf_type) : bool :=
  match t with
  | Leaf (Scalar _ _) => true
  | Leaf Opaque => false
  | Struct [] => false
  | Struct ms => forallb recursively_vectorizable ms
  end.

(** The type found: [Same] is T itself, [Simd n] a simd of n lanes, [Tup n ms] a simd_tuple<T, n> or
    vectorized_struct<T, n> with these member types.  The two classes are not told apart: which one is
    taken depends on the template arguments of T, not on its members (344-359), and
    vectorizable_struct_template asks for the same flattened members (316-340). *)
Inductive stype := Same | Simd (n : Z) | Tup (n : Z) (ms : list stype).

(** type::size(); T itself has none (an aggregate with a static member function of that name is not
    considered). *)
Definition size_of (s : stype) : option Z :=
  match s with Same => None | Simd n => Some n | Tup n _ => Some n end.
Definition has_size (n : Z) (s : stype) : bool :=
  match size_of s with Some k => k =? n | None => false end.

(** std::max({...}) *)
Definition max_list (l : list Z) : res Z :=
  match l with [] => Stop SIllFormed | x :: l' => Ok (fold_left Z.max l' x) end.

(** simdize_impl<T, N>::type, 100-107 and 344-359.  default_simdize_size<T> (147-160) is instantiated
    whatever N is, and outside of the immediate context: a member without size() is an error there.
    make_simd_tuple (165-174) is a constraint: such a member makes it false. *)
Fixpoint simdize_impl (t : tree leaf_type) (n : Z) {struct t} : res stype :=
  match t with
  | Leaf Opaque => Ok Same
  | Leaf (Scalar native can) =>
    let n' := if n =? 0 then native else n in
    Ok (if can n' then Simd n' else Same)
  | Struct ms =>
    if recursively_vectorizable t then
      bindR ((fix sizes (ms : list (tree leaf_type)) : res (list Z) :=
                match ms with
                | [] => Ok []
                | x :: ms' => bindR (simdize_impl x 0) (fun r =>
                  match size_of r with
                  | None => Stop SIllFormed
                  | Some k => bindR (sizes ms') (fun ks => Ok (k :: ks))
                  end)
                end) ms) (fun ks =>
      bindR (max_list ks) (fun dflt =>
      if 0 <? dflt then
        let n' := if n =? 0 then dflt else n in
        if 0 <? n' then
          bindR ((fix members (ms : list (tree leaf_type)) : res (list stype) :=
                    match ms with
                    | [] => Ok []
                    | x :: ms' => bindR (simdize_impl x n') (fun r => bindR (members ms') (fun rs => Ok (r :: rs)))
                    end) ms) (fun rs =>
          Ok (if forallb (has_size n') rs then Tup n' rs else Same))
        else Ok Same
      else Stop SIllFormed))
    else Ok Same
  end.

(** simdize<T, N>, 1018-1019; resize_simdize_t<M, simdize<T, N>>, 1021-1026: the value_type is T. *)
Definition simdize (t : tree leaf_type) (n : Z) : res stype := simdize_impl t n.

(** The lanes of the members, as simdize_size (35-57) sees them. *)
Fixpoint lanes_tree (s : stype) : tree Z :=
  match s with
  | Same => Leaf 0
  | Simd n => Leaf n
  | Tup _ ms => Struct (map lanes_tree ms)
  end.
