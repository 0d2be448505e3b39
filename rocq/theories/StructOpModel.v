(** simdize.h 931-978: the operators of vectorized_struct and overload resolution between them and the operators that
    come with the struct, with the conversions to vectorized_struct of 545-569. *)
From Verif Require Import Base.

(** ** Overload resolution *)

(** Types of operands: the vectorized_struct; its base, the struct template with simd arguments; the struct itself; simds
    of its element type; and values: of the element type, of another type that broadcasts to simds of the element type (int),
    of a type that does not. *)
Inductive okind := OVec | OBase | OStruct | OSimd | OSame | OInt | OOther.

(** The operators a struct template S<T> can bring along: S op S, S op T, T op S. *)
Inductive sig := SelfSelf | SelfEl | ElSelf.

(** How they are declared.  [None]: not at all; [Some false]: as (hidden) friends or members of S<T>;
    [Some true]: as function templates, template <class T> ... operator op(S<T> const&, T const&). *)
Definition declared : Type := sig -> option bool.

(** Candidates: the three friends of vectorized_struct (937-960), [true] for a parameter vectorized_struct const& and
    [false] for base_type const&; the struct's operators with simd arguments, with scalar arguments. *)
Inductive cand := Fwd (l r : bool) | UserVec (s : sig) | UserScalar (s : sig).

Definition cand_eqb (c d : cand) : bool :=
  match c, d with
  | Fwd a b, Fwd a' b' => Bool.eqb a a' && Bool.eqb b b'
  | UserVec SelfSelf, UserVec SelfSelf | UserVec SelfEl, UserVec SelfEl | UserVec ElSelf, UserVec ElSelf => true
  | UserScalar SelfSelf, UserScalar SelfSelf | UserScalar SelfEl, UserScalar SelfEl
  | UserScalar ElSelf, UserScalar ElSelf => true
  | _, _ => false
  end.

Inductive ptype := PVec | PBase | PStruct | PSimd | PElem.

Definition params (c : cand) : ptype * ptype :=
  match c with
  | Fwd l r => (if l then PVec else PBase, if r then PVec else PBase)
  | UserVec SelfSelf => (PBase, PBase)
  | UserVec SelfEl => (PBase, PSimd)
  | UserVec ElSelf => (PSimd, PBase)
  | UserScalar SelfSelf => (PStruct, PStruct)
  | UserScalar SelfEl => (PStruct, PElem)
  | UserScalar ElSelf => (PElem, PStruct)
  end.

Definition is_template (d : declared) (c : cand) : bool :=
  match c with
  | Fwd _ _ => false
  | UserVec s | UserScalar s => match d s with Some b => b | None => false end
  end.

(** Implicit conversion sequences, ranked: 0 exact match, 1 standard conversion, 2 user-defined ([over.ics.rank]; two
    user-defined ones by different functions are indistinguishable).  To a vectorized_struct (545-569): from its base, from
    the struct by broadcast, from simds and values through the variadic constructor, which initialises
    the first member and leaves {} to the others; that constructor is not explicit and takes what initialises the
    aggregate.  An aggregate has no converting constructors.  Parameters of templates must be deduced. *)
Definition conversion (template : bool) (k : okind) (p : ptype) : option nat :=
  match p, k with
  | PVec, OVec => Some 0%nat
  | PVec, (OBase | OStruct | OSimd | OSame | OInt) => Some 2%nat
  | PBase, OVec => Some 1%nat
  | PBase, OBase => Some 0%nat
  | PStruct, OStruct => Some 0%nat
  | PSimd, OSimd => Some 0%nat
  | PSimd, (OSame | OInt) => if template then None else Some 2%nat
  | PElem, OSame => Some 0%nat
  | PElem, (OInt | OOther) => if template then None else Some 1%nat
  | _, _ => None
  end.

(** Argument-dependent lookup: friends of vectorized_struct for such operands only; friends of the struct with simd
    arguments for operands of that type or derived from it; templates for every specialisation of the struct. *)
Definition is_vec (k : okind) : bool := match k with OVec => true | _ => false end.
Definition is_simd_struct (k : okind) : bool := match k with OVec | OBase => true | _ => false end.
Definition is_struct (k : okind) : bool := match k with OStruct => true | _ => false end.

Definition visible (d : declared) (fwd : bool) (x y : okind) (c : cand) : bool :=
  match c with
  | Fwd _ _ => fwd && (is_vec x || is_vec y)
  | UserVec s =>
      match d s with
      | Some t => is_simd_struct x || is_simd_struct y || (t && (is_struct x || is_struct y))
      | None => false
      end
  | UserScalar s =>
      match d s with
      | Some t => is_struct x || is_struct y || (t && (is_simd_struct x || is_simd_struct y))
      | None => false
      end
  end.

Definition ranks (d : declared) (x y : okind) (c : cand) : option (nat * nat) :=
  match conversion (is_template d c) x (fst (params c)), conversion (is_template d c) y (snd (params c)) with
  | Some a, Some b => Some (a, b)
  | _, _ => None
  end.

Definition candidates : list cand :=
  [Fwd true true; Fwd false true; Fwd true false; UserVec SelfSelf; UserVec SelfEl; UserVec ElSelf;
   UserScalar SelfSelf; UserScalar SelfEl; UserScalar ElSelf].

(** [over.match.best] *)
Definition better (d : declared) (x y : okind) (c e : cand) : bool :=
  match ranks d x y c, ranks d x y e with
  | Some (a, b), Some (a', b') =>
      Nat.leb a a' && Nat.leb b b'
      && (Nat.ltb a a' || Nat.ltb b b' || (negb (is_template d c) && is_template d e))
  | _, _ => false
  end.

Definition best (d : declared) (fwd : bool) (x y : okind) : option cand :=
  let viable := filter (fun c => visible d fwd x y c && match ranks d x y c with Some _ => true | None => false end)
                       candidates in
  match filter (fun c => forallb (fun e => cand_eqb c e || better d x y c e) viable) viable with
  | [c] => Some c
  | _ => None
  end.

(** The friends require { x op x } for x of type base_type const& (940, 948, 956). *)
Definition resolve (d : declared) (x y : okind) : option cand :=
  best d (match best d false OBase OBase with Some _ => true | None => false end) x y.

(** ** Values *)

Section values.
  Context {A R : Type} (zero : A).

  (** The struct's operators, generic in the element type; with simd arguments they act lane by lane (an assumption on
      user code: arithmetic of the members with the operators of simd). *)
  Record operators := mkoperators {
    o_ss : option (bool * (list A -> list A -> R));
    o_se : option (bool * (list A -> A -> R));
    o_es : option (bool * (A -> list A -> R))
  }.

  Definition declared_of (o : operators) : declared :=
    fun s => match s with
             | SelfSelf => option_map fst (o_ss o)
             | SelfEl => option_map fst (o_se o)
             | ElSelf => option_map fst (o_es o)
             end.

  (** Operands with their values; simdized structs as the list of their lanes. *)
  Inductive operand :=
    VecArg (lanes : list (list A)) | BaseArg (lanes : list (list A)) | StructArg (s : list A)
  | SimdArg (v : list A) | SameArg (a : A) | IntArg (a : A) | OtherArg (a : A).

  Definition kind_of (x : operand) : okind :=
    match x with
    | VecArg _ => OVec | BaseArg _ => OBase | StructArg _ => OStruct | SimdArg _ => OSimd
    | SameArg _ => OSame | IntArg _ => OInt | OtherArg _ => OOther
    end.

  (** The variadic constructor with one argument: base_type{a} (545-550). *)
  Definition first_member (m : nat) (a : A) : list A := a :: repeat zero (m - 1).

  (** Conversion to vectorized_struct<S, n>, for a struct with m members, 545-569. *)
  Definition to_vec (n m : nat) (x : operand) : list (list A) :=
    match x with
    | VecArg l | BaseArg l => l
    | StructArg s => repeat s n
    | SimdArg v => map (first_member m) v
    | SameArg a | IntArg a | OtherArg a => repeat (first_member m a) n
    end.

  Definition to_simd (n : nat) (x : operand) : list A :=
    match x with
    | SimdArg v => v
    | SameArg a | IntArg a | OtherArg a => repeat a n
    | _ => []
    end.

  Definition zip_with {X Y} (f : X -> Y -> R) (xs : list X) (ys : list Y) : list R :=
    map (fun p => f (fst p) (snd p)) (combine xs ys).

  (** One result for every lane, and whether it is a vectorized_struct if the operator returns the struct
      (_op_return_type, 934-935). *)
  Definition vector_op (o : operators) (n m : nat) (x y : operand) : res (list R * bool) :=
    match resolve (declared_of o) (kind_of x) (kind_of y) with
    | Some (Fwd _ _) => (* base_type op base_type *)
        match o_ss o with Some (_, f) => Ok (zip_with f (to_vec n m x) (to_vec n m y), true) | None => Stop SIllFormed end
    | Some (UserVec SelfSelf) =>
        match o_ss o with Some (_, f) => Ok (zip_with f (to_vec n m x) (to_vec n m y), false) | None => Stop SIllFormed end
    | Some (UserVec SelfEl) =>
        match o_se o with Some (_, f) => Ok (zip_with f (to_vec n m x) (to_simd n y), false) | None => Stop SIllFormed end
    | Some (UserVec ElSelf) =>
        match o_es o with Some (_, f) => Ok (zip_with f (to_simd n x) (to_vec n m y), false) | None => Stop SIllFormed end
    | Some (UserScalar _) => Stop SIllFormed (* not a vector operation *)
    | None => Stop SIllFormed
    end.
End values.
