(** Specification vocabulary for vir::transform of a zip_view. *)
From Verif Require Import Base ExecSpec ZipModel.

(** [x] is the i-th component of what the callable gets; [k] components altogether. *)
Definition components {X} (a : zarg X) : list X :=
  match a with ZPair x y => [x; y] | ZTuple l => l end.

(** Two components come as a pair, any other number as a tuple. *)
Definition well_packed {X} (a : zarg X) : Prop :=
  match a with ZPair _ _ => True | ZTuple l => length l <> 2%nat end.

(** [opv] applies [op] lane by lane to pairs and tuples of equally long chunks. *)
Definition lanewise_zip {T} (op : zarg T -> T) (opv : zarg (list T) -> list T) : Prop :=
  forall k a, components a <> [] -> well_packed a -> Forall (fun ch => length ch = k) (components a) ->
    length (opv a) = k /\
    forall i b, well_packed b -> Forall2 (fun ch x => nth_error ch i = Some x) (components a) (components b) ->
                nth_error (opv a) i = Some (op b).

(** [n] is the number of elements of the view: the size of the shortest range. *)
Definition shortest (rs : list zrange) (n : Z) : Prop :=
  (exists r, In r rs /\ z_size r = n) /\ forall r, In r rs -> n <= z_size r.

(** [m'] is [m] except that dst[i] = op of the pair or tuple of the i-th elements, for all i < n. *)
Definition zip_transformed {T} (op : zarg T -> T) (rs : list zrange) (dst n : Z) (m m' : mem T) : Prop :=
  (forall i b, 0 <= i < n -> well_packed b ->
     Forall2 (fun r x => m (z_begin r + i) = Some x) rs (components b) -> m' (dst + i) = Some (op b))
  /\ (forall a, ~ (dst <= a < dst + n) -> m' a = m a).
