(** simdize.h 176-223, 225-273, 316-340: the concept vectorizable_struct_template, which decides whether a struct
    becomes a vectorized_struct (replace the template arguments) or a simd_tuple (replace the members). *)
From Verif Require Import Base.

(** A type by name; a reflectable_struct also by the types of its members. *)
Inductive type := TLeaf (name : Z) | TStruct (name : Z) (ms : list type).

(** std::same_as.  The members are part of the type, so equal names with other members are other types. *)
Fixpoint same_as (s t : type) : bool :=
  match s, t with
  | TLeaf x, TLeaf y => x =? y
  | TStruct x ms, TStruct y ns =>
    (x =? y) && (fix all (ms ns : list type) : bool :=
                   match ms, ns with
                   | [], [] => true
                   | m :: ms', n :: ns' => same_as m n && all ms' ns'
                   | _, _ => false
                   end) ms ns
  | _, _ => false
  end.

(** reflectable_struct, and struct_element_t<0, T>, ..., struct_element_t<struct_size_v<T> - 1, T>. *)
Definition members (t : type) : option (list type) := match t with TLeaf _ => None | TStruct _ ms => Some ms end.

(** flat_member_count, 225-248; a fold over no members is ill-formed. *)
Fixpoint flat_member_count (t : type) : res nat :=
  match t with
  | TLeaf _ => Ok 1%nat
  | TStruct _ ms =>
    (fix sum (ms : list type) : res nat :=
       match ms with
       | [] => Stop SIllFormed
       | [x] => flat_member_count x
       | x :: ms' => bindR (flat_member_count x) (fun a => bindR (sum ms') (fun b => Ok (a + b)%nat))
       end) ms
  end.

(** flat_element<I, T>, 250-273; None: no specialisation matches, the class is incomplete. *)
Fixpoint flat_element (i : nat) (t : type) : res (option type) :=
  match t with
  | TLeaf _ => Ok (if (i =? 0)%nat then Some t else None)
  | TStruct _ ms =>
    bindR (flat_member_count t) (fun cnt =>
    if (cnt =? length ms)%nat && (i <? length ms)%nat then Ok (nth_error ms i)
    else match ms with
         | [] => Ok None
         | x :: _ => bindR (flat_member_count x) (fun c0 =>
           if (length ms <? cnt)%nat && (i <? c0)%nat then flat_element i x else Ok None)
         end)
  end.

(** Template arguments: types and values. *)
Inductive targ := TType (t : type) | TValue (v : Z).

Fixpoint traverse {A B} (f : A -> option B) (l : list A) : option (list B) :=
  match l with
  | [] => Some []
  | x :: l' => match f x, traverse f l' with Some y, Some ys => Some (y :: ys) | _, _ => None end
  end.

Section Concept.
  (** simdize_impl<T, N>::type where its size() is N; None where it has no size() or another one.  *)
  Variable simd_of : type -> Z -> option type.
  (** A class template: the specialisation for given arguments. *)
  Variable tpl : list targ -> type.

  (** Replacing all arguments, all of them types: the first overload, 179-182. *)
  Definition replace_types (n : Z) (args : list targ) : option (list targ) :=
    traverse (fun a => match a with TType t => option_map TType (simd_of t n) | TValue _ => None end) args.

  (** A type and at least one value: the second overload, 184-188. *)
  Definition replace_first (n : Z) (args : list targ) : option (list targ) :=
    match args with
    | TType t :: TValue _ :: _ =>
        if forallb (fun a => match a with TValue _ => true | TType _ => false end) (tl args)
        then option_map (fun t' => TType t' :: tl args) (simd_of t n) else None
    | _ => None
    end.

  (** simdize_template_arguments<T, N>, 204-210.  The overloads for two and three types with values, 190-202, take
      part in no call: in Tpl<Ts..., X...> the pack Ts is not last, so nothing is deduced from that list
      ([temp.deduct.type]), X is empty and sizeof...(X) > 0 does not hold. *)
  Definition simdize_template_arguments (n : Z) (args : list targ) : option type :=
    match replace_types n args with
    | Some args' => Some (tpl args')
    | None => option_map tpl (replace_first n args)
    end.

  (** make_simd_tuple<T, N>, 164-174, a std::tuple; its own name does not matter. *)
  Definition make_simd_tuple (t : type) (n : Z) : option type :=
    match members t with
    | Some ((_ :: _) as ms) => if 0 <? n then option_map (TStruct 0) (traverse (fun m => simd_of m n) ms) else None
    | _ => None
    end.

  (** is_consistent_struct_vectorization<T>::value<I>, 319-327; None: L or R cannot be formed. *)
  Definition consistent_at (ttup ts : type) (i : nat) : res (option bool) :=
    bindR (flat_element i ttup) (fun l => bindR (flat_element i ts) (fun r =>
    Ok match l, r with Some x, Some y => Some (same_as x y) | _, _ => None end)).

  (** test_all_of over all indices, 308-314 and 339-340: false if some value cannot be formed. *)
  Fixpoint test_all (ttup ts : type) (is : list nat) : res bool :=
    match is with
    | [] => Ok true
    | i :: is' => bindR (consistent_at ttup ts i) (fun b => bindR (test_all ttup ts is') (fun bs =>
                  Ok (match b with Some b => b && bs | None => false end)))
    end.

  (** vectorizable_struct_template<Tpl<args>>, 334-340; [dflt] is default_simdize_size<T>::value, where it has
      one. *)
  Definition vectorizable_struct_template (args : list targ) (dflt : option Z) : res bool :=
    let t := tpl args in
    match members t, dflt with
    | Some ((_ :: _) as ms), Some n =>
      match simdize_template_arguments n args with
      | Some ts =>
        match members ts with
        | Some ms' =>
          if (length ms =? length ms')%nat then
            match make_simd_tuple t n with
            | Some ttup => bindR (flat_member_count t) (fun c => test_all ttup ts (seq 0 c))
            | None => Ok false
            end
          else Ok false
        | None => Ok false
        end
      | None => Ok false
      end
    | _, _ => Ok false
    end.
End Concept.
