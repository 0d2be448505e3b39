(** simdize.h: structured bindings of simd_tuple and vectorized_struct (496-511, 981-1000, 1029-1056).
    The binding declaration itself is the language's ([dcl.struct.bind], tuple-like case). *)
From Verif Require Import Base QualModel.

Section Bind.
  Context {B : Type}.

  (** "auto", "const auto", "auto&", "const auto&", "auto&&" before the names. *)
  Inductive form := FAuto | FConst | FRef | FConstRef | FForward.

  (** The variable e the declaration introduces: a reference or not, const or not.  auto& takes an rvalue
      only if that is const. *)
  Definition entity (f : form) (lvalue const : bool) : option (refkind * bool) :=
    match f with
    | FAuto => Some (NoRef, false)
    | FConst => Some (NoRef, true)
    | FRef => if lvalue || const then Some (LRef, const) else None
    | FConstRef => Some (LRef, true)
    | FForward => Some (if lvalue then LRef else RRef, const)
    end.

  (** e in get<i>(e): an lvalue if e is an lvalue reference, else an xvalue. *)
  Definition entity_lvalue (r : refkind) : bool := match r with LRef => true | _ => false end.

  (** get(const W&) and get(W&), 501-511 and 986-1000: the second takes non-const lvalues and is better for
      them.  [false]: the first, [true]: the second. *)
  Definition chosen_get (lvalue const : bool) : bool := lvalue && negb const.

  (** The simdized type: simd_tuple of these element types, or vectorized_struct with a base of these members. *)
  Inductive simdized := STuple (elements : list B) | SStruct (base : list (member B)).

  (** The type the reference returned by get<i> refers to: std::get<i> of the tuple (505, 511), or
      struct_get<i> of the base (990, 998).  None: ill-formed. *)
  Definition get_type (w : simdized) (i : nat) (lvalue const : bool) : option (qtype B) :=
    let nonconst := chosen_get lvalue const in
    match w with
    | STuple es => option_map (mkq (negb nonconst) false) (nth_error es i)
    | SStruct ms => struct_get_type i (mkarg true (negb nonconst) false) ms
    end.

  (** std::tuple_size (1032-1035, 1048-1051) and the number of elements or members it is taken from. *)
  Definition tuple_size (w : simdized) : nat := match w with STuple es => length es | SStruct ms => length ms end.

  (** std::tuple_element<i, W> (1040-1043, 1053-1056); for const W the standard library adds const. *)
  Definition tuple_element (w : simdized) (i : nat) (const : bool) : option (qtype B) :=
    option_map (fun q => if const then mkq true (q_volatile q) (q_base q) else q)
      (match w with
       | STuple es => option_map (mkq false false) (nth_error es i)
       | SStruct ms => struct_element_type i (mkt NoRef (mkq false false tt)) ms
       end).

  (** A reference to [to] binds an lvalue of type [from]. *)
  Definition ref_to (to from : qtype B) : bool :=
    implb (q_const from) (q_const to) && implb (q_volatile from) (q_volatile to).

  (** A name: its type, and what it refers to. *)
  Record name := mkname { n_type : qtype B; n_refers : B }.

  (** "tuple_element<i, E>& r = get<i>(e)": the i-th name, or ill-formed. *)
  Definition bind_one (w : simdized) (r : refkind) (const : bool) (i : nat) : option name :=
    match tuple_element w i const, get_type w i (entity_lvalue r) const with
    | Some t, Some g => if ref_to t g then Some (mkname t (q_base g)) else None
    | _, _ => None
    end.

  Fixpoint all_some {X} (xs : list (option X)) : option (list X) :=
    match xs with
    | [] => Some []
    | Some x :: xs' => option_map (cons x) (all_some xs')
    | None :: _ => None
    end.

  (** The declaration with [names] names, in order. *)
  Definition bind_types (f : form) (w : simdized) (lvalue const : bool) (names : nat) : option (list name) :=
    match entity f lvalue const with
    | None => None
    | Some (r, c) => if (names =? tuple_size w)%nat then all_some (map (bind_one w r c) (seq 0 names)) else None
    end.
End Bind.
Arguments simdized : clear implicits.
Arguments name : clear implicits.
