(** Concrete classes for C70. *)
From Verif Require Import Base CwModifyModel.

(** Class 1 is Aaaargh of test_constexpr_wrapper.cpp, 129-166: const members.  Class 2 has ++ as a const
    member that is not constexpr, class 3 as a function outside the class that is not; class 4 has members
    that modify. *)
Definition ex_user1 (op : unop) (v : value) : option fn :=
  match v, op with
  | Cls 1 _, PreInc => Some (mkfn true true (Some (Num 5 1)))
  | Cls 1 _, PostInc => Some (mkfn true true (Some (Num 5 2)))
  | Cls 1 _, PreDec => Some (mkfn true true (Some (Num 5 3)))
  | Cls 1 _, PostDec => Some (mkfn true true (Some (Num 5 4)))
  | Cls 2 _, PreInc => Some (mkfn true true None)
  | Cls 3 _, PreInc => Some (mkfn false true None)
  | Cls 4 _, _ => Some (mkfn true false (Some v))
  | _, _ => None
  end.

(** = returns its argument, += (number 0) one more, -= (number 1) one less. *)
Definition ex_user2 (op : asgop) (v w : value) : option fn :=
  match v, op, w with
  | Cls 1 _, Assign, Num _ x => Some (mkfn true true (Some (Num 5 x)))
  | Cls 1 _, Compound 0, Num _ x => Some (mkfn true true (Some (Num 5 (x + 1))))
  | Cls 1 _, Compound 1, Num _ x => Some (mkfn true true (Some (Num 5 (x - 1))))
  | Cls 5 _, Assign, Cls 5 d => Some (mkfn true true (Some (Num 5 (d + 1))))
  | _, _, _ => None
  end.

(** Class 6 is a smart pointer to variable 7, class 8 returns a proxy; class 9 has an operator-> that is
    not const. *)
Definition ex_arrow (v : value) : option arrow_fn :=
  match v with
  | Cls 6 _ => Some (mkarrow true (Some (Static 7, false)))
  | Cls 8 _ => Some (mkarrow true None)
  | Cls 9 _ => Some (mkarrow false (Some (Static 7, false)))
  | _ => None
  end.

(** Variable 7 is not constexpr, variable 8 is and has the value 42. *)
Definition ex_static (id : Z) : option value := if id =? 8 then Some (Num 5 42) else None.
