(** Shared vocabulary: outcomes, the partial element memory, powers of two. *)
From Coq Require Export ZArith List Bool Lia.
Export ListNotations.
#[global] Open Scope Z_scope.

(** Why a computation does not produce a value.
    [SUB]: undefined behaviour (out-of-range access, misaligned aligned access,
           [unreachable()], signed overflow ...);
    [STrap]: a failed [vir_simd_precondition] (simd.h 109-175: the handler does not return; PreModel.v
           says what it does);
    [SIllFormed]: a failed [static_assert] / constraint, i.e. the program does not compile;
    [SDiverge]: the model's fuel ran out (the C++ loop would not have finished). *)
Inductive stop : Type := SUB | STrap | SIllFormed | SDiverge.

Inductive res (A : Type) : Type :=
| Ok (a : A)
| Stop (s : stop).
Arguments Ok {A} a.
Arguments Stop {A} s.

Definition bindR {A B} (x : res A) (f : A -> res B) : res B :=
  match x with Ok a => f a | Stop s => Stop s end.

Fixpoint mapR {A B} (f : A -> res B) (l : list A) : res (list B) :=
  match l with
  | [] => Ok []
  | x :: l' => bindR (f x) (fun y => bindR (mapR f l') (fun ys => Ok (y :: ys)))
  end.

Definition of_option {A} (o : option A) : res A :=
  match o with Some a => Ok a | None => Stop SUB end.

(** Element memory: a partial map from element index to value.  [None] means that no
    accessible element lives there; touching it is undefined. *)
Section Mem.
  Context {T : Type}.
  Definition mem := Z -> option T.

  Definition upd (m : mem) (p : Z) (x : T) : mem :=
    fun a => if a =? p then Some x else m a.

  (** Read [n] consecutive elements. *)
  Fixpoint load (m : mem) (p : Z) (n : nat) : option (list T) :=
    match n with
    | O => Some []
    | S n' => match m p with
              | None => None
              | Some x => match load m (p + 1) n' with
                          | None => None
                          | Some l => Some (x :: l)
                          end
              end
    end.

  (** Write consecutive elements; every one of them must exist. *)
  Fixpoint store (m : mem) (p : Z) (l : list T) : option mem :=
    match l with
    | [] => Some m
    | x :: l' => match m p with
                 | None => None
                 | Some _ => store (upd m p x) (p + 1) l'
                 end
    end.
End Mem.
Arguments mem T : clear implicits.

(** [std::bit_ceil] ([<bit>], trusted): least power of two not below [x], for [x >= 1]. *)
Definition bit_ceil (x : Z) : Z := 2 ^ (Z.log2_up x).

(** [std::has_single_bit]. *)
Definition has_single_bit (x : Z) : bool := (0 <? x) && (x =? 2 ^ (Z.log2 x)).

Definition two64 : Z := 2 ^ 64.
