(** simd.h: split and concat (1844-1945), static_simd_cast, to_fixed_size, to_native, to_compatible
    (1767-1842); simd_resize.h; simd_iota.h; simd_bitset.h.  Element type abstract. *)
From Verif Require Import Base LaneModel WhereModel.

Section Shape.
  Context {A : Type}.

  (** The data array of a simd object as memory, "const auto* data = x.data". *)
  Definition data_mem (v : list A) : mem A := fun q => if 0 <=? q then nth_error v (Z.to_nat q) else None.

  (** V(data + offset, element_aligned) *)
  Definition part (v : list A) (offset size : nat) : res (list A) :=
    load_ctor (fun a => Ok a) (data_mem v) (Z.of_nat offset) size.

  (** split<V>, 1844-1855 (simd) and 1857-1868 (simd_mask): Parts = N / V::size(), enabled if
      N == Parts * V::size(). *)
  Definition split_array (vs : nat) (v : list A) : res (list (list A)) :=
    let parts := (length v / vs)%nat in
    if (0 <? vs)%nat && (length v =? parts * vs)%nat then mapR (fun i => part v (i * vs) vs) (seq 0 parts)
    else Stop SIllFormed.

  (** split<Sizes...>, 1870-1888: the parameter type requires N == (Sizes + ...); offsets[Is] is the
      sum of the first Is sizes. *)
  Definition split_sizes (sizes : list nat) (v : list A) : res (list (list A)) :=
    if (length v =? list_sum sizes)%nat then
      mapR (fun i => bindR (lane sizes i) (fun s => part v (list_sum (firstn i sizes)) s)) (seq 0 (length sizes))
    else Stop SIllFormed.

  (** split<V>(V), 1890-1895 *)
  Definition split_same (v : list A) : list (list A) := [v].

  (** detail::pack_simd_subscript, 278-286; an empty pack is ill-formed. *)
  Fixpoint pack_simd_subscript (i : nat) (xs : list (list A)) : res A :=
    match xs with
    | [] => Stop SIllFormed
    | x0 :: xs' => if (length x0 <=? i)%nat then pack_simd_subscript (i - length x0) xs'
                   else subscript x0 (Z.of_nat i)
    end.

  (** concat(simd...), 1897-1907, and for masks, 1909-1919. *)
  Definition concat_pack (xs : list (list A)) : res (list A) :=
    gen (list_sum (map (@length A) xs)) (fun i => pack_simd_subscript i xs).

  (** concat(array<simd>), 1921-1932, and for masks, 1934-1945; all elements have K lanes. *)
  Definition concat_array (K : nat) (x : list (list A)) : res (list A) :=
    gen (length x * K) (fun i => bindR (lane x (i / K)) (fun y => subscript y (Z.of_nat (i mod K)))).

  (** simd_resize<N>, simd_resize.h:15-38, and simd_size_cast<V>, 40-68; [zero] is T() or false. *)
  Definition simd_resize (zero : A) (n : nat) (x : list A) : res (list A) :=
    gen n (fun i => if (i <? length x)%nat then subscript x (Z.of_nat i) else Ok zero).
  Definition simd_size_cast (zero : A) (n : nat) (x : list A) : res (list A) :=
    gen n (fun i => if (i <? length x)%nat then subscript x (Z.of_nat i) else Ok zero).

  (** to_fixed_size for fixed_size arguments, 1801-1810. *)
  Definition to_fixed_size (x : list A) : list A := x.
  (** to_fixed_size(simd<T>), 1812-1820, for element types whose simd<T> is not a fixed_size type (the
      call is otherwise matched by two templates): x[0] broadcast into fixed_size<1>. *)
  Definition to_fixed_size_native (x : list A) : res (list A) := bindR (subscript x 0) (broadcast 1).

  (** simd_abi::compatible<T>, 444-447: the number of lanes of simd<T>. *)
  Definition compatible_size (sizeofT : Z) : nat := if 8 <? sizeofT then 1%nat else Z.to_nat (16 / sizeofT).

  (** to_native and to_compatible, 1821-1842: take a fixed_size_simd<T, 1> and return simd<T>
      constructed from x[0]; the broadcast constructor. *)
  Definition to_native (sizeofT : Z) (x : list A) : res (list A) :=
    if (length x =? 1)%nat then bindR (subscript x 0) (broadcast (compatible_size sizeofT)) else Stop SIllFormed.
  Definition to_compatible (sizeofT : Z) (x : list A) : res (list A) := to_native sizeofT x.
End Shape.

(** static_simd_cast<T>, 1769-1773, and static_simd_cast<V>, 1775-1779, where V has [n] lanes; for
    masks 1781-1791 ([cv] the identity). *)
Definition static_simd_cast {A B} (cv : A -> res B) (x : list A) : res (list B) :=
  gen (length x) (fun i => bindR (subscript x (Z.of_nat i)) cv).
Definition static_simd_cast_to {A B} (cv : A -> res B) (n : nat) (x : list A) : res (list B) :=
  gen n (fun i => bindR (subscript x (Z.of_nat i)) cv).
(** The mask form requires equal sizes, 1787-1791. *)
Definition static_mask_cast_to (n : nat) (x : list bool) : res (list bool) :=
  if (n =? length x)%nat then gen n (fun i => subscript x (Z.of_nat i)) else Stop SIllFormed.

(** simd_iota.h: [cv] converts the index to the element type. *)
Section Iota.
  Context {T : Type}.
  Variable cv : Z -> T.
  Variable zero : T.   (** T() *)
  (** 32-35 *)
  Definition iota_scalar : T := zero.
  (** 37-39: the generator takes an int. *)
  Definition iota_simd (n : nat) : res (list T) := gen n (fun i => Ok (cv (Z.of_nat i))).
  (** 41-45 and, through detail::iota_array (20-25), 47-49 *)
  Definition iota_array (n : nat) : list T := map (fun i => cv (Z.of_nat i)) (seq 0 n).
End Iota.

(** simd_bitset.h.  A std::bitset<N> is the number with its bits. *)
Definition bit_at (b : Z) (i : nat) : bool := Z.testbit b (Z.of_nat i).
(** bits[i] = x *)
Definition set_bit (b : Z) (i : nat) (x : bool) : Z :=
  if x then Z.lor b (2 ^ Z.of_nat i) else Z.land b (Z.lnot (2 ^ Z.of_nat i)).
(** to_bitset, 17-34, fallback branch; N == 1: bitset<1>(k[0]). *)
Definition to_bitset (k : list bool) : res Z :=
  if (length k =? 1)%nat then bindR (subscript k 0) (fun b : bool => Ok (if b then 1 else 0))
  else loop 0 (length k) (fun i bits => bindR (subscript k (Z.of_nat i)) (fun b => Ok (set_bit bits i b))) 0.
(** to_simd_mask, 36-60, fallback branch; N == 1: M(bits[0]). *)
Definition to_simd_mask (n : nat) (bits : Z) : res (list bool) :=
  if (n =? 1)%nat then Ok [bit_at bits 0] else gen n (fun i => Ok (bit_at bits i)).

(** ** Ordering, simd.h:2407-2428 *)
Section Order.
  Context {T : Type}.
  Variable lt : T -> T -> bool.

  (** std::min, std::max, std::clamp (trusted); clamp requires !(hi < lo). *)
  Definition std_min (a b : T) : T := if lt b a then b else a.
  Definition std_max (a b : T) : T := if lt a b then b else a.
  Definition std_clamp (v lo hi : T) : res T :=
    if lt hi lo then Stop SUB else Ok (if lt v lo then lo else if lt hi v then hi else v).

  Definition simd_min (a b : list T) : res (list T) :=
    gen (length a) (fun i => bindR (subscript a (Z.of_nat i)) (fun x =>
      bindR (subscript b (Z.of_nat i)) (fun y => Ok (std_min x y)))).
  Definition simd_max (a b : list T) : res (list T) :=
    gen (length a) (fun i => bindR (subscript a (Z.of_nat i)) (fun x =>
      bindR (subscript b (Z.of_nat i)) (fun y => Ok (std_max x y)))).
  Definition simd_minmax (a b : list T) : res (list T * list T) :=
    bindR (simd_min a b) (fun x => bindR (simd_max a b) (fun y => Ok (x, y))).
  Definition simd_clamp (v lo hi : list T) : res (list T) :=
    gen (length v) (fun i => bindR (subscript v (Z.of_nat i)) (fun x =>
      bindR (subscript lo (Z.of_nat i)) (fun y => bindR (subscript hi (Z.of_nat i)) (fun z => std_clamp x y z)))).
End Order.
