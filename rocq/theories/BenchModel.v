(** vir/simd_benchmarking.h: fake_modify and fake_read.  What they do to a program is what their asm statements do to
    what the optimiser knows and must compute; the statements themselves are empty. *)
From Coq Require Import String.
From Verif Require Import Base.
#[local] Open Scope string_scope.
#[local] Open Scope list_scope.
#[local] Open Scope Z_scope.

(** An object that is no simd: whether its type is a floating-point type, its size, and the scalars in it
    (more than one for a vector type or a class). *)
Record plain := mkplain { p_float : bool; p_size : Z; p_scalars : list Z }.

(** stdx::__data(x) of libstdc++: a tuple, a wrapper with a member _M_data, or neither.  Its parts are no simd. *)
Variant data := DTuple (l : list plain) | DWrapper (m : plain) | DOther (d : plain).

(** An argument, and whether it is const. *)
Variant object := Plain (p : plain) | Simd (size : Z) (d : data).
Record argument := mkarg { a_const : bool; a_obj : object }.

(** An asm statement with one operand: the alternatives of its constraint, whether it is an output as well ("+"), and
    the scalars of the operand. *)
Record stmt := mkstmt { s_alt : list string; s_out : bool; s_scalars : list Z }.

(** [lib]: _GLIBCXX_EXPERIMENTAL_SIMD with the feature test macro, lines 30 and 67; [x86]: line 16. *)
Record target := mktarget { t_lib : bool; t_x86 : bool }.

(** VIR_SIMD_REG "g,m", lines 16-20, and "g". *)
Definition reg_or_memory (t : target) : list string := (if t_x86 t then ["v"; "x"] else []) ++ ["g"; "m"].
Definition general : list string := ["g"].

(** The statement; an output must not be const. *)
Definition asm (out const : bool) (alt : list string) (xs : list Z) : res (list stmt) :=
  if out && const then Stop SIllFormed else Ok [mkstmt alt out xs].

(** fake_modify_one and fake_read_one for an object that is no simd, lines 26-27 and 48-51; 63-64 and 85-88. *)
Definition one_plain (t : target) (out const : bool) (p : plain) : res (list stmt) :=
  if p_float p then asm out const (reg_or_memory t) (p_scalars p)
  else if 16 <=? p_size p then asm out const (reg_or_memory t) (p_scalars p)
  else asm out const general (p_scalars p).

Fixpoint in_order {A} (f : A -> res (list stmt)) (l : list A) : res (list stmt) :=
  match l with
  | [] => Ok []
  | x :: l' => bindR (f x) (fun s => bindR (in_order f l') (fun r => Ok (s ++ r)))
  end.

Definition all_scalars (d : data) : list Z :=
  match d with DTuple l => concat (map p_scalars l) | DWrapper p | DOther p => p_scalars p end.

(** fake_modify_one, lines 22-52, and fake_read_one, 59-89.  fake_modify_one is called with T = const simd for a const
    argument, and is_simd_v<const simd> is false. *)
Definition one (t : target) (out : bool) (a : argument) : res (list stmt) :=
  match a_obj a with
  | Plain p => one_plain t out (a_const a) p
  | Simd size d =>
    if out && a_const a then one_plain t out (a_const a) (mkplain false size (all_scalars d)) else
    if t_lib t then
      match d with
      | DTuple l => in_order (one_plain t out (a_const a)) l
      | DWrapper p => one_plain t out (a_const a) p
      | DOther p => one_plain t out (a_const a) p
      end
    else if size <? 16 then asm out (a_const a) general (all_scalars d)
    else asm out (a_const a) (reg_or_memory t) (all_scalars d)
  end.

(** fake_modify, lines 54-57, and fake_read, 92-95: fold over the comma operator. *)
Definition fake_modify (t : target) (l : list argument) : res (list stmt) := in_order (one t true) l.
Definition fake_read (t : target) (l : list argument) : res (list stmt) := in_order (one t false) l.

(** The optimiser's state: the value each scalar really has, what is known of it, and the scalars whose values have been
    needed so far.  An empty volatile asm needs its operand and changes nothing, but an output is not known any more
    (GCC manual, Extended Asm). *)
Record state := mkstate { values : Z -> Z; known : Z -> option Z; needed : list Z }.
Definition step (s : state) (x : stmt) : state :=
  mkstate (values s)
          (fun l => if s_out x && existsb (Z.eqb l) (s_scalars x) then None else known s l)
          (needed s ++ s_scalars x).
Definition run (s : state) (l : list stmt) : state := fold_left step l s.
