(** Specification vocabulary for vir::transform. *)
From Verif Require Import Base.

(** [opv] applies the element operation [op] lane by lane, to any number of equally long chunks. *)
Definition lanewise_op {T} (op : list T -> T) (opv : list (list T) -> list T) : Prop :=
  forall k chunks, chunks <> [] -> Forall (fun ch => length ch = k) chunks ->
    length (opv chunks) = k /\
    forall i args, Forall2 (fun ch x => nth_error ch i = Some x) chunks args ->
                   nth_error (opv chunks) i = Some (op args).

(** The output range either does not overlap an input range of length [n], or starts at or before
    it (in particular: is the same range). *)
Definition no_clobber (dst n : Z) (srcs : list Z) : Prop :=
  Forall (fun p => dst <= p \/ p + n <= dst) srcs.

(** [m'] is [m] after std::transform: dst[i] = op (x_i, y_i, ...) for all i < n, all else equal. *)
Definition transformed {T} (op : list T -> T) (srcs : list Z) (dst n : Z) (m m' : mem T) : Prop :=
  (forall i args, 0 <= i < n -> Forall2 (fun p x => m (p + i) = Some x) srcs args ->
                  m' (dst + i) = Some (op args))
  /\ (forall a, ~ (dst <= a < dst + n) -> m' a = m a).
