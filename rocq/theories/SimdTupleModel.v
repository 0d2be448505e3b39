(** simdize.h: construction, conversion and subscript of simd_tuple<T, N>, 390-451 (the broadcast and
    conversion constructor of vectorized_struct, 556-569, is the same on the same members). *)
From Verif Require Import Base LaneModel SimdizeModel.

Section SimdTuple.
  Context {W : Type}.

  (** A member of an aggregate given to the constructor: a scalar, or a simd (its lanes). *)
  Inductive arg := AVal (w : W) | AVec (v : list W).

  (** The object of a simdized type: [Leaf] is a simd, [Struct] a simd_tuple.  [t] is the value_type. *)
  Definition object := tree (list W).

  (** std::tuple_element_t<I, tuple_type>(x): the broadcast, copy or conversion constructor of a simd (one of
      another size does not convert; the conversion between element types is left out), and for a member
      simd_tuple its constructor from a compatible aggregate, 405-419: same number of members, member by
      member. *)
  Fixpoint construct (n : nat) (t : tree unit) (u : tree arg) : res object :=
    match t, u with
    | Leaf _, Leaf (AVal w) => Ok (Leaf (repeat w n))
    | Leaf _, Leaf (AVec v) => if (length v =? n)%nat then Ok (Leaf v) else Stop SIllFormed
    | Struct ts, Struct us =>
      bindR ((fix go (ts : list (tree unit)) (us : list (tree arg)) : res (list object) :=
                match ts, us with
                | [], [] => Ok []
                | t' :: ts', u' :: us' => bindR (construct n t' u') (fun o => bindR (go ts' us') (fun os => Ok (o :: os)))
                | _, _ => Stop SIllFormed
                end) ts us) (fun os => Ok (Struct os))
    | _, _ => Stop SIllFormed
    end.

  (** operator U() const, 421-434: [u] is the structure of U, its members are simds or aggregates of simds. *)
  Fixpoint convert (u : tree unit) (o : object) : res (tree arg) :=
    match u, o with
    | Leaf _, Leaf v => Ok (Leaf (AVec v))
    | Struct us, Struct os =>
      bindR ((fix go (us : list (tree unit)) (os : list object) : res (list (tree arg)) :=
                match us, os with
                | [], [] => Ok []
                | u' :: us', o' :: os' => bindR (convert u' o') (fun a => bindR (go us' os') (fun l => Ok (a :: l)))
                | _, _ => Stop SIllFormed
                end) us os) (fun l => Ok (Struct l))
    | _, _ => Stop SIllFormed
    end.

  (** operator[](i), 444-451 *)
  Fixpoint lane_at (i : Z) (o : object) : res (tree W) :=
    match o with
    | Leaf v => bindR (subscript v i) (fun w => Ok (Leaf w))
    | Struct os =>
      bindR ((fix go (os : list object) : res (list (tree W)) :=
                match os with
                | [] => Ok []
                | o' :: os' => bindR (lane_at i o') (fun w => bindR (go os') (fun ws => Ok (w :: ws)))
                end) os) (fun ws => Ok (Struct ws))
    end.

  (** The load constructor and copy_from, 458-478: every member is constructed from a callable.  A simd has
      such a constructor, simd_tuple and vectorized_struct have none. *)
  Definition load_object (m : mem W) (p : Z) (n : Z) (t : tree unit) : res (list (list W)) :=
    match t with
    | Leaf _ => Stop SIllFormed
    | Struct ts =>
      if forallb (fun t' => match t' with Leaf _ => true | Struct _ => false end) ts
      then tuple_load m p (Z.of_nat (length ts)) n
      else Stop SIllFormed
    end.
End SimdTuple.
Arguments arg W : clear implicits.
Arguments object W : clear implicits.
