(** Specification vocabulary for iterator arithmetic: the iterators into an array whose elements are
    at the positions lo..hi-1 are lo..hi; C++ defines the arithmetic only as long as it stays there. *)
From Verif Require Import Base PtrModel.

(** The iterators of the [j]-th range that occur. *)
Definition iterators (j : nat) (l : list itv) : list Z :=
  flat_map (fun e => match e with
                     | Moved ps => match nth_error ps j with Some p => [p] | None => [] end
                     | Compared p => if (j =? 0)%nat then [p] else []
                     end) l.

Definition stays_in (lo hi : Z) (j : nat) (l : list itv) : Prop :=
  Forall (fun p => lo <= p <= hi) (iterators j l).
