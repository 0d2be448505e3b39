(** simd.h: is_vectorizable (288-296), LoadStorePtr (398-411), the traits of 506-550; 568-582 and the member types; simd_concepts.h 25-73. *)
From Verif Require Import Base.

(** Types as far as the traits look at them.  [Arith id]: an arithmetic type other than bool, [Class id]: any
    other class, [Cv t]: a const or volatile version. *)
Inductive ty :=
| Bool | Arith (id : Z) | Class (id : Z) | Cv (t : ty)
| AbiScalar | AbiFixed (n : Z)
| Simd (t a : ty) | Mask (t a : ty)
| ElementAligned | VectorAligned | Overaligned (n : Z).

(** std::is_arithmetic; looks through cv. *)
Fixpoint is_arithmetic (t : ty) : bool :=
  match t with Bool | Arith _ => true | Cv t' => is_arithmetic t' | _ => false end.

(** detail::is_vectorizable, 288-296: false for exactly the type bool. *)
Definition is_vectorizable (t : ty) : bool := match t with Bool => false | _ => is_arithmetic t end.

(** The concept vectorizable, simd_concepts.h 26-37: floating_point or integral, and not same_as<bool>. *)
Definition vectorizable (t : ty) : bool := is_arithmetic t && negb match t with Bool => true | _ => false end.

(** is_possible_loadstore_conversion<Ptr, ValueType>, 398-405 *)
Definition loadstore (p v : ty) : bool :=
  match p, v with Bool, Bool => true | _, _ => is_vectorizable p && is_vectorizable v end.

(** is_abi_tag, 506-519 *)
Definition is_abi_tag (t : ty) : bool := match t with AbiScalar | AbiFixed _ => true | _ => false end.

(** is_simd, 521-531, and is_simd_mask, 533-543 *)
Definition is_simd (t : ty) : bool := match t with Simd e a => is_vectorizable e && is_abi_tag a | _ => false end.
Definition is_simd_mask (t : ty) : bool := match t with Mask e a => is_vectorizable e && is_abi_tag a | _ => false end.

(** is_simd_flag_type, 545-550: the primary template; nothing in the repository specialises it. *)
Definition is_simd_flag_type (t : ty) : bool := false.

(** Using a member of a class template specialisation instantiates it.  Both fixed_size specialisations have
    an array member of N elements (768, 1540), so N has to be positive; this is an error outside the immediate
    context of a constraint, not a constraint that is not satisfied.  (That the array may be too large for the
    address space is left out.)  Masks of types that are not vectorizable are the primary template. *)
Definition complete (t : ty) : res unit :=
  match t with
  | Simd _ (AbiFixed n) => if 0 <? n then Ok tt else Stop SIllFormed
  | Mask e (AbiFixed n) => if is_vectorizable e && negb (0 <? n) then Stop SIllFormed else Ok tt
  | _ => Ok tt
  end.

(** value_type, abi_type and simd_type, 631-634, 777-780, 1248-1250, 1559-1561; the primary templates (476-490)
    have none, and a mask only has them for a vectorizable type (625, 759). *)
Definition value_type (t : ty) : res (option ty) :=
  bindR (complete t) (fun _ => Ok match t with
    | Simd e a => if is_abi_tag a then Some e else None
    | Mask _ _ => if is_simd_mask t then Some Bool else None
    | _ => None
    end).
Definition abi_type (t : ty) : res (option ty) :=
  bindR (complete t) (fun _ => Ok match t with
    | Simd _ a => if is_abi_tag a then Some a else None
    | Mask _ a => if is_simd_mask t then Some a else None
    | _ => None
    end).
Definition simd_type (t : ty) : res (option ty) :=
  bindR (complete t) (fun _ => Ok match t with Mask e a => if is_simd_mask t then Some (Simd e a) else None | _ => None end).

(** size(), 636-637, 782-783, 1253-1254, 1564-1565 *)
Definition size (t : ty) : res (option Z) :=
  bindR (complete t) (fun _ => Ok match t with
    | Simd _ AbiScalar => Some 1
    | Simd _ (AbiFixed n) => Some n
    | Mask e AbiScalar => if is_vectorizable e then Some 1 else None
    | Mask e (AbiFixed n) => if is_vectorizable e then Some n else None
    | _ => None
    end).

(** A conjunction of constraints: the right one is looked at only if the left one is satisfied; a member that is
    not there is a constraint that is not satisfied. *)
Definition both (a b : res bool) : res bool := bindR a (fun x => if x then b else Ok false).
Definition either (a b : res bool) : res bool := bindR a (fun x => if x then Ok true else b).
Definition holds {A} (f : A -> res bool) (o : res (option A)) : res bool :=
  bindR o (fun x => match x with Some y => f y | None => Ok false end).

(** any_simd, any_simd_mask, any_simd_or_mask, simd_concepts.h 43-61 *)
Definition any_simd (v : ty) : res bool :=
  both (Ok (is_simd v)) (both (holds (fun t => Ok (vectorizable t)) (value_type v))
    (holds (fun a => Ok (is_abi_tag a)) (abi_type v))).
Definition any_simd_mask (v : ty) : res bool :=
  both (Ok (is_simd_mask v)) (both (holds any_simd (simd_type v)) (holds (fun a => Ok (is_abi_tag a)) (abi_type v))).
Definition any_simd_or_mask (v : ty) : res bool := either (any_simd v) (any_simd_mask v).

(** typed_simd, sized_simd and sized_simd_mask, simd_concepts.h 63-73 *)
Definition ty_eq_dec (a b : ty) : {a = b} + {a <> b}.
Proof. decide equality; apply Z.eq_dec. Defined.
Definition typed_simd (v t : ty) : res bool :=
  both (any_simd v) (holds (fun u => Ok (if ty_eq_dec t u then true else false)) (value_type v)).
Definition sized_simd (v : ty) (w : Z) : res bool := both (any_simd v) (holds (fun n => Ok (n =? w)) (size v)).
Definition sized_simd_mask (v : ty) (w : Z) : res bool := both (any_simd_mask v) (holds (fun n => Ok (n =? w)) (size v)).

(** memory_alignment<T, U>, 568-582; [alignof] is the platform's. *)
Definition memory_alignment (alignof : ty -> Z) (v u : ty) : option Z :=
  match v, u with
  | Simd _ _, _ => if is_vectorizable u then Some (alignof u) else None
  | Mask _ _, Bool => Some (alignof Bool)
  | _, _ => None
  end.
