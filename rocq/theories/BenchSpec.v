(** What fake_modify and fake_read are for, without the statements they use. *)
From Verif Require Import Base BenchModel.

(** The scalars an object consists of. *)
Inductive part_of : Z -> object -> Prop :=
| part_plain p x : In x (p_scalars p) -> part_of x (Plain p)
| part_tuple n l p x : In p l -> In x (p_scalars p) -> part_of x (Simd n (DTuple l))
| part_wrapper n p x : In x (p_scalars p) -> part_of x (Simd n (DWrapper p))
| part_other n p x : In x (p_scalars p) -> part_of x (Simd n (DOther p)).

Definition part_of_some (x : Z) (l : list argument) : Prop := exists a, In a l /\ part_of x (a_obj a).

(** The optimiser knows nothing wrong. *)
Definition sound (s : state) : Prop := forall l v, known s l = Some v -> values s l = v.

(** The same as lists, in the order of the object, and the parts of a simd of libstdc++. *)
Definition scalars_of (o : object) : list Z :=
  match o with
  | Plain p => p_scalars p
  | Simd _ (DTuple l) => concat (map p_scalars l)
  | Simd _ (DWrapper p) | Simd _ (DOther p) => p_scalars p
  end.
Definition parts (d : data) : list plain := match d with DTuple l => l | DWrapper p | DOther p => [p] end.
