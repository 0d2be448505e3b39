(** simd.h: simd_mask of the fallback implementation (623-951) and its reductions (953-1107).
    A mask is the list of its lanes; a scalar mask has one lane, a fixed_size<N> mask N >= 1. *)
From Verif Require Import Base.

(** vir_simd_precondition, 109-175: a violated precondition calls vir::detail::invoke_ub, which does
    not return (what it does instead depends on how the header is compiled: PreModel.v). *)
Definition precondition {A} (b : bool) (k : res A) : res A := if b then k else Stop STrap.

(** operator[], 683-698 and 836-851 *)
Definition mask_at (k : list bool) (i : Z) : res bool :=
  precondition ((0 <=? i) && (i <? Z.of_nat (length k)))
    (match nth_error k (Z.to_nat i) with Some b => Ok b | None => Stop SUB end).

(** operator!, 700-703 and 853-861 *)
Definition mask_not (k : list bool) : list bool := map negb k.

(** The binary operators, 705-754 and 863-950: lane by lane. *)
Inductive mask_op := MAndAnd | MOrOr | MAnd | MOr | MXor | MEq | MNe.
Definition mask_op1 (o : mask_op) (x y : bool) : bool :=
  match o with
  | MAndAnd | MAnd => x && y | MOrOr | MOr => x || y | MXor => xorb x y
  | MEq => Bool.eqb x y | MNe => negb (Bool.eqb x y)
  end.
Fixpoint mask_bin (o : mask_op) (x y : list bool) : list bool :=
  match x, y with a :: x', b :: y' => mask_op1 o a b :: mask_bin o x' y' | _, _ => [] end.

(** The load constructors 658-663 and 812-816, and copy_from/copy_to, 671-681 and 824-834.  (The masked
    load constructor is in WhereModel.v.) *)
Definition mask_load (m : mem bool) (p : Z) (n : nat) : res (list bool) := of_option (load m p n).
Definition mask_copy_to (m : mem bool) (p : Z) (k : list bool) : res (mem bool) := of_option (store m p k).

(** ** Reductions *)

(** scalar, 954-993 *)
Definition s_all_of (k : bool) : bool := k.
Definition s_any_of (k : bool) : bool := k.
Definition s_none_of (k : bool) : bool := negb k.
Definition s_some_of (k : bool) : bool := false.
Definition s_popcount (k : bool) : Z := if k then 1 else 0.
Definition s_find_first_set (k : bool) : res Z := precondition k (Ok 0).
Definition s_find_last_set (k : bool) : res Z := precondition k (Ok 0).

(** fixed_size<N>: loops "for (int i = start; i < N; ++i)" that may return early; [body i] is
    [Some r] for "return r". *)
Fixpoint for_up {A} (i : Z) (n : nat) (body : Z -> res (option A)) (fall : res A) : res A :=
  match n with
  | O => fall
  | S n' => bindR (body i) (fun o => match o with Some r => Ok r | None => for_up (i + 1) n' body fall end)
  end.
(** "for (int i = N - 1; i >= 0; --i)" *)
Fixpoint for_down {A} (n : nat) (body : Z -> res (option A)) (fall : res A) : res A :=
  match n with
  | O => fall
  | S n' => bindR (body (Z.of_nat n')) (fun o => match o with Some r => Ok r | None => for_down n' body fall end)
  end.

(** 995-1005 *)
Definition all_of (k : list bool) : res bool :=
  for_up 0 (length k) (fun i => bindR (mask_at k i) (fun b => Ok (if negb b then Some false else None))) (Ok true).
(** 1007-1017 *)
Definition any_of (k : list bool) : res bool :=
  for_up 0 (length k) (fun i => bindR (mask_at k i) (fun b => Ok (if b then Some true else None))) (Ok false).
(** 1019-1029 *)
Definition none_of (k : list bool) : res bool :=
  for_up 0 (length k) (fun i => bindR (mask_at k i) (fun b => Ok (if b then Some false else None))) (Ok true).
(** 1031-1042 *)
Definition some_of (k : list bool) : res bool :=
  bindR (mask_at k 0) (fun last =>
  for_up 1 (length k - 1)
    (fun i => bindR (mask_at k i) (fun b => Ok (if negb (Bool.eqb last b) then Some true else None))) (Ok false)).
(** 1044-1052; cnt is at most N, an int. *)
Fixpoint popcount_loop (k : list bool) (i : Z) (n : nat) (cnt : Z) : res Z :=
  match n with
  | O => Ok cnt
  | S n' => bindR (mask_at k i) (fun b => popcount_loop k (i + 1) n' (cnt + if b then 1 else 0))
  end.
Definition popcount (k : list bool) : res Z :=
  bindR (mask_at k 0) (fun b => popcount_loop k 1 (length k - 1) (if b then 1 else 0)).
(** 1054-1065 *)
Definition find_first_set (k : list bool) : res Z :=
  bindR (any_of k) (fun a => precondition a
  (for_up 0 (length k) (fun i => bindR (mask_at k i) (fun b => Ok (if b then Some i else None))) (Stop SUB))).
(** 1067-1078 *)
Definition find_last_set (k : list bool) : res Z :=
  bindR (any_of k) (fun a => precondition a
  (for_down (length k) (fun i => bindR (mask_at k i) (fun b => Ok (if b then Some i else None))) (Stop SUB))).

(** ExactBool, 1080-1107 *)
Definition b_all_of (x : bool) : bool := x.
Definition b_any_of (x : bool) : bool := x.
Definition b_none_of (x : bool) : bool := negb x.
Definition b_some_of (x : bool) : bool := false.
Definition b_popcount (x : bool) : Z := if x then 1 else 0.
Definition b_find_first_set (x : bool) : res Z := Ok 0.
Definition b_find_last_set (x : bool) : res Z := Ok 0.
