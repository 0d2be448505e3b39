(** simdize.h: flattened members (225-299), sizes (35-57, 137-160), blend (82-97), simd_tuple
    (367-494), and the loads and stores of vectorized_struct (571-930). *)
From Verif Require Import Base PermuteModel LaneModel.

(** ** Nested aggregates *)

(** An aggregate type or value: [Leaf] is a type that is not a reflectable_struct (or a value of one),
    [Struct] lists the members in declaration order. *)
Inductive tree (A : Type) := Leaf (a : A) | Struct (ms : list (tree A)).
Arguments Leaf {A} a.
Arguments Struct {A} ms.

Section Tree.
  Context {A : Type}.

  (** flat_member_count, 225-248; a fold over no members is ill-formed. *)
  Fixpoint flat_member_count (t : tree A) : res nat :=
    match t with
    | Leaf _ => Ok 1%nat
    | Struct ms =>
      (fix sum (ms : list (tree A)) : res nat :=
         match ms with
         | [] => Stop SIllFormed
         | [x] => flat_member_count x
         | x :: ms' => bindR (flat_member_count x) (fun a => bindR (sum ms') (fun b => Ok (a + b)%nat))
         end) ms
    end.

  (** struct_element_t<I, T> / struct_get<I>(s) *)
  Definition member (ms : list (tree A)) (i : nat) : res (tree A) :=
    match nth_error ms i with Some x => Ok x | None => Stop SIllFormed end.

  (** flat_element<I, T>, 250-273; an incomplete class if no specialisation matches. *)
  Fixpoint flat_element (i : nat) (t : tree A) : res (tree A) :=
    match t with
    | Leaf _ => if (i =? 0)%nat then Ok t else Stop SIllFormed
    | Struct ms =>
      bindR (flat_member_count t) (fun cnt =>
      if (cnt =? length ms)%nat && (i <? length ms)%nat then member ms i
      else match ms with
           | [] => Stop SIllFormed
           | x :: _ => bindR (flat_member_count x) (fun c0 =>
             if (length ms <? cnt)%nat && (i <? c0)%nat then flat_element i x else Stop SIllFormed)
           end)
    end.

  (** flat_get<I, Offset>(s), 275-298, only for reflectable_struct arguments; [fuel] bounds the template
      recursion. *)
  Fixpoint flat_get (fuel : nat) (i ofs : nat) (t : tree A) : res (tree A) :=
    match fuel with
    | O => Stop SDiverge
    | S fuel' =>
      match t with
      | Leaf _ => Stop SIllFormed
      | Struct ms =>
        bindR (flat_member_count t) (fun cnt =>
        if (cnt =? length ms)%nat then
          if (i <? length ms)%nat && (ofs =? 0)%nat then member ms i else Stop SIllFormed
        else if (length ms <? cnt)%nat then
          bindR (member ms ofs) (fun x => bindR (flat_member_count x) (fun size =>
          if (i <? size)%nat then flat_get fuel' i 0 x
          else flat_get fuel' (i - size) size t))
        else Stop SIllFormed)
      end
    end.
End Tree.

(** simdize_size<T>, 35-52; a leaf is the number of lanes if it is a simd, otherwise 0. *)
Fixpoint simdize_size (t : tree Z) : res Z :=
  match t with
  | Leaf n => Ok n
  | Struct [] => Stop SIllFormed
  | Struct (x :: ms) =>
    bindR (simdize_size x) (fun s0 =>
    bindR ((fix all (ms : list (tree Z)) : res bool :=
              match ms with
              | [] => Ok true
              | y :: ms' => bindR (simdize_size y) (fun s => bindR (all ms') (fun b => Ok ((s0 =? s) && b)))
              end) (x :: ms)) (fun b =>
    Ok (if b then s0 else 0)))
  end.

(** default_simdize_size<T>, 137-160; a leaf is native_simd<T>::size(). *)
Fixpoint default_simdize_size (t : tree Z) : res Z :=
  match t with
  | Leaf n => if 0 <? n then Ok n else Stop SIllFormed
  | Struct ms =>
    bindR ((fix mx (ms : list (tree Z)) : res Z :=
              match ms with
              | [] => Stop SIllFormed
              | [y] => default_simdize_size y
              | y :: ms' => bindR (default_simdize_size y) (fun s => bindR (mx ms') (fun b => Ok (Z.max s b)))
              end) ms) (fun v => if 0 <? v then Ok v else Stop SIllFormed)
  end.

(** ** Loads and stores

    A struct has [k] members and memory holds structs one after the other: member j of the struct i
    places behind address p is element p + k * i + j.  A member is a word (an object representation);
    the shuffles and bit casts of 579-893 move words.  That the members are contiguous and equally
    large where memcpy is used is what the conditions [s_unpadded] and [s_same_size] say. *)
Section Vectorized.
  Context {W : Type}.
  Variable zero : W.

  Definition vec := list (PermuteModel.lane W).

  Definition join (l : PermuteModel.lane (PermuteModel.lane W)) : PermuteModel.lane W :=
    match l with Val x => x | Any => Any end.

  (** __builtin_shufflevector(a, b, idx...) *)
  Definition shuffle (a b : vec) (idx : list Z) : res vec :=
    mapR (fun j => bindR (shuffle_lane a b j) (fun l => Ok (join l))) idx.

  (** simd_permute(v, f) *)
  Definition permute (e : penv) (f : pfun) (v : vec) : res vec :=
    bindR (simd_permute (Val zero) e f v (Z.of_nat (length v))) (fun r => Ok (map join r)).

  (** detail::blend<Indexes...>(a, b), 82-97 *)
  Definition blend (indexes : list Z) (a b : vec) : res vec :=
    let n := Z.of_nat (length a) in
    if (Z.of_nat (length indexes) <=? n) && forallb (fun i => i <=? n) indexes then
      shuffle a b (map (fun i => if existsb (Z.eqb i) indexes then i + n else i) (lanes_of n))
    else Stop SIllFormed.

  (** memcpy from and to an array of words; an indeterminate word is never stored below. *)
  Definition memcpy_in (m : mem W) (p n : Z) : res vec :=
    bindR (of_option (load m p (Z.to_nat n))) (fun l => Ok (map Val l)).
  Definition memcpy_out (m : mem W) (p : Z) (v : vec) : res (mem W) :=
    bindR (mapR (fun l => of_option (lane_val l)) v) (fun l => of_option (store m p l)).

  (** Two members, 595-618 *)
  Definition load2 (m : mem W) (p n : Z) : res (list vec) :=
    let n2 := n / 2 in
    bindR (memcpy_in m p n) (fun x0 =>
    bindR (memcpy_in m (p + 2 * n2) n) (fun x1 =>
    bindR (shuffle x0 x1 (map (fun i => i * 2) (lanes_of n2) ++ map (fun i => n + i * 2) (lanes_of n2))) (fun a =>
    bindR (shuffle x0 x1 (map (fun i => 1 + i * 2) (lanes_of n2) ++ map (fun i => 1 + n + i * 2) (lanes_of n2))) (fun b =>
    Ok [a; b])))).

  (** Three floats, 8 lanes, 656-693 *)
  Definition load3_8 (e : penv) (m : mem W) (p : Z) : res (list vec) :=
    bindR (memcpy_in m p 8) (fun x0 =>
    bindR (memcpy_in m (p + 8) 8) (fun x1 =>
    bindR (memcpy_in m (p + 16) 8) (fun x2 =>
    bindR (blend [1; 4; 7] x0 x1) (fun a0 =>
    bindR (blend [2; 5] a0 x2) (fun a =>
    bindR (blend [2; 5] x0 x1) (fun b0 =>
    bindR (blend [0; 3; 6] b0 x2) (fun b1 =>
    bindR (blend [0; 3; 6] x0 x1) (fun c0 =>
    bindR (blend [1; 4; 7] c0 x2) (fun c1 =>
    bindR (permute e (rotate 1) b1) (fun b =>
    bindR (permute e (rotate 2) c1) (fun c =>
    Ok [a; b; c]))))))))))).

  (** Three floats, 4 lanes, 732-758 *)
  Definition load3_4 (m : mem W) (p : Z) : res (list vec) :=
    bindR (memcpy_in m p 4) (fun abca =>
    bindR (memcpy_in m (p + 4) 4) (fun bcab =>
    bindR (memcpy_in m (p + 8) 4) (fun cabc =>
    bindR (blend [2; 3] cabc bcab) (fun a1 =>
    bindR (shuffle abca a1 [0; 3; 6; 5]) (fun a =>
    bindR (blend [0] abca bcab) (fun b0 =>
    bindR (blend [2] bcab cabc) (fun b1 =>
    bindR (shuffle b0 b1 [1; 0; 7; 6]) (fun b =>
    bindR (blend [2; 3] bcab abca) (fun c0 =>
    bindR (shuffle c0 cabc [2; 1; 4; 7]) (fun c =>
    Ok [a; b; c])))))))))).

  (** Three members, 760-801: member [j]. *)
  Definition load3_member (x0 x1 x2 : vec) (n j : Z) : res vec :=
    bindR (shuffle x0 x1 (map (fun i => if i mod 3 =? j then i else if (i + n) mod 3 =? j then i + n else -1)
                              (lanes_of n))) (fun x01 =>
    shuffle x01 x2 (map (fun i => if i * 3 + j <? n then i * 3 + j else i * 3 - n + j) (lanes_of n))).
  Definition load3 (m : mem W) (p n : Z) : res (list vec) :=
    bindR (memcpy_in m p n) (fun x0 =>
    bindR (memcpy_in m (p + n) n) (fun x1 =>
    bindR (memcpy_in m (p + 2 * n) n) (fun x2 =>
    bindR (load3_member x0 x1 x2 n 0) (fun a =>
    bindR (load3_member x0 x1 x2 n 1) (fun b =>
    bindR (load3_member x0 x1 x2 n 2) (fun c =>
    Ok [a; b; c])))))).

  (** The fallback, 806-811: member j of struct i for every member and lane. *)
  Definition load_fallback (m : mem W) (p k n : Z) : res (list vec) :=
    mapR (fun j => mapR (fun i => bindR (of_option (m (p + k * i + j))) (fun x => Ok (Val x))) (lanes_of n))
         (lanes_of k).

  (** What the conditions look at: VIR_HAVE_WORKING_SHUFFLEVECTOR, constant evaluation,
      sizeof(T) * N == sizeof(base_type), all flat members as large as the first, native_simd<U>::size(),
      as_tuple_t<T> is std::tuple<float, float, float>, and tuple_type is std::tuple<V0, V0, V0> with
      trivially copyable V0; [s_perm]: the environment of simd_permute. *)
  Record senv := mksenv {
    s_shuffle : bool; s_ce : bool; s_unpadded : bool; s_same_size : bool; s_native : Z;
    s_floats : bool; s_tuple3 : bool; s_perm : penv
  }.

  (** _load_elements_via_permute, 579-812; [k] is flat_member_count, [n] is N. *)
  Definition load_elements (s : senv) (m : mem W) (p k n : Z) : res (list vec) :=
    if s_shuffle s && negb (s_ce s) && (1 <? n) && s_unpadded s && (2 <=? k) && has_single_bit n then
      let three :=
        if (k =? 3) && (2 <? n) && s_same_size s && (n <=? s_native s) then load3 m p n
        else load_fallback m p k n in
      if (k =? 2) && (2 <? n) then
        if s_same_size s && (n <=? s_native s) then load2 m p n else three
      else if s_floats s && (k =? 3) then
        if s_tuple3 s && (n =? 8) then load3_8 (s_perm s) m p
        else if s_tuple3 s && (n =? 4) then load3_4 m p
        else three
      else three
    else load_fallback m p k n.

  (** operator[](i), 571-577: all members of lane i. *)
  Definition element (vs : list (list W)) (i : Z) : res (list W) := mapR (fun v => subscript v i) vs.

  (** addr[i] = operator[](i) for i = 0..N-1, 897-898 *)
  Fixpoint store_loop (vs : list (list W)) (p k : Z) (i : Z) (n : nat) (m : mem W) : res (mem W) :=
    match n with
    | O => Ok m
    | S n' => bindR (element vs i) (fun x => bindR (of_option (store m (p + k * i) x)) (fun m' =>
              store_loop vs p k (i + 1) n' m'))
    end.

  (** The idx lambda, 845-858; N3 = N / 3. *)
  Definition idx3 (n i pos a b c : Z) : Z :=
    let n3 := n / 3 in
    if i mod 3 =? 0 then i / 3 + a + pos * n3
    else if i mod 3 =? 1 then i / 3 + b + pos * n3 + n
    else i / 3 + c + ((pos + n mod 3) mod 3) * n3.

  Definition sel3 (n : Z) : list Z := map (fun i => if negb (i mod 3 =? 2) then i else i + n) (lanes_of n).

  (** Three members, 838-893 *)
  Definition store3 (a b c : vec) (m : mem W) (p n : Z) : res (mem W) :=
    let shuf x y pos ia ib ic := shuffle x y (map (fun i => idx3 n i pos ia ib ic) (lanes_of n)) in
    let write x y z :=
      bindR (memcpy_out m p x) (fun m1 => bindR (memcpy_out m1 (p + n) y) (fun m2 => memcpy_out m2 (p + 2 * n) z)) in
    if n mod 3 =? 1 then
      bindR (shuf a b 0 0 0 1) (fun aba =>
      bindR (shuf b c 1 0 0 1) (fun bcb =>
      bindR (shuf c a 2 0 1 0) (fun cac =>
      bindR (shuffle aba cac (sel3 n)) (fun a' =>
      bindR (shuffle bcb aba (sel3 n)) (fun b' =>
      bindR (shuffle cac bcb (sel3 n)) (fun c' => write a' b' c'))))))
    else if n mod 3 =? 2 then
      bindR (shuf a b 0 0 0 2) (fun aba =>
      bindR (shuf c a 1 0 1 0) (fun cac =>
      bindR (shuf b c 2 1 1 1) (fun bcb =>
      bindR (shuffle aba cac (sel3 n)) (fun a' =>
      bindR (shuffle cac bcb (sel3 n)) (fun b' =>
      bindR (shuffle bcb aba (sel3 n)) (fun c' => write a' b' c'))))))
    else Stop SIllFormed.

  (** _store_elements_via_permute, 814-899 *)
  Definition store_elements (s : senv) (vs : list (list W)) (m : mem W) (p k n : Z) : res (mem W) :=
    if s_shuffle s && negb (s_ce s) && (2 <? n) && (2 <=? k) && s_unpadded s && has_single_bit n
       && (k =? 3) && (n <=? s_native s) && s_same_size s then
      match vs with
      | [a; b; c] => store3 (map Val a) (map Val b) (map Val c) m p n
      | _ => Stop SIllFormed
      end
    else store_loop vs p k 0 (Z.to_nat n) m.

  (** simd_tuple: the load constructor and copy_from, 458-478, operator[], 444-451, copy_to, 485-493,
      for members that are simd (a member simd_tuple has no generator constructor). *)
  Definition tuple_load (m : mem W) (p k n : Z) : res (list (list W)) :=
    mapR (fun j => mapR (fun i => of_option (m (p + k * i + j))) (lanes_of n)) (lanes_of k).
  Definition tuple_element (vs : list (list W)) (i : Z) : res (list W) := mapR (fun v => subscript v i) vs.
  Fixpoint tuple_store (vs : list (list W)) (p k : Z) (i : Z) (n : nat) (m : mem W) : res (mem W) :=
    match n with
    | O => Ok m
    | S n' => bindR (tuple_element vs i) (fun x => bindR (of_option (store m (p + k * i) x)) (fun m' =>
              tuple_store vs p k (i + 1) n' m'))
    end.
End Vectorized.
