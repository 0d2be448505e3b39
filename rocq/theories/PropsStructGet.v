(** Property theorems C44 (struct_get, to_tuple, to_pair). *)
From Verif Require Import Base StructModel StructGetModel StructGetProofs.

(** C44.  For an aggregate that can be initialised with a, a+1, ..., m initialisers where m is the
    number of its members: struct_get<N> is member N, and ill-formed without such a member. *)
Theorem C44_struct_get :
  forall A (obj : list A) valid sizeof fuel a N,
    0 < sizeof -> sizeof * 8 < two64 - 1 -> sizeof * 8 < Z.of_nat fuel -> Z.of_nat (length obj) <= sizeof * 8 ->
    (0 <= a <= Z.of_nat (length obj) /\ forall k, valid k = true <-> a <= k <= Z.of_nat (length obj)) ->
    (length obj <= 50)%nat ->
    (forall x, nth_error obj N = Some x -> struct_get (struct_size_v valid fuel sizeof) N obj = Ok x)
    /\ ((length obj <= N)%nat -> struct_get (struct_size_v valid fuel sizeof) N obj = Stop SIllFormed).
Proof. exact @struct_get_members. Qed.
Print Assumptions C44_struct_get.

(** to_tuple holds all members in declaration order. *)
Theorem C44_to_tuple :
  forall A (obj : list A) valid sizeof fuel a,
    0 < sizeof -> sizeof * 8 < two64 - 1 -> sizeof * 8 < Z.of_nat fuel -> Z.of_nat (length obj) <= sizeof * 8 ->
    (0 <= a <= Z.of_nat (length obj) /\ forall k, valid k = true <-> a <= k <= Z.of_nat (length obj)) ->
    (length obj <= 50)%nat ->
    to_tuple (struct_size_v valid fuel sizeof) obj = Ok obj.
Proof. exact @to_tuple_members. Qed.
Print Assumptions C44_to_tuple.

(** to_pair is well-formed exactly for two members. *)
Theorem C44_to_pair :
  forall A (obj : list A) valid sizeof fuel a r,
    0 < sizeof -> sizeof * 8 < two64 - 1 -> sizeof * 8 < Z.of_nat fuel -> Z.of_nat (length obj) <= sizeof * 8 ->
    (0 <= a <= Z.of_nat (length obj) /\ forall k, valid k = true <-> a <= k <= Z.of_nat (length obj)) ->
    (to_pair (struct_size_v valid fuel sizeof) obj = Ok r <-> obj = [fst r; snd r]).
Proof. exact @to_pair_members. Qed.
Print Assumptions C44_to_pair.

(** More than 50 members are rejected, not truncated. *)
Theorem C44_too_many :
  forall A (obj : list A) valid sizeof fuel a N,
    0 < sizeof -> sizeof * 8 < two64 - 1 -> sizeof * 8 < Z.of_nat fuel -> Z.of_nat (length obj) <= sizeof * 8 ->
    (0 <= a <= Z.of_nat (length obj) /\ forall k, valid k = true <-> a <= k <= Z.of_nat (length obj)) ->
    (50 < length obj)%nat ->
    struct_get (struct_size_v valid fuel sizeof) N obj = Stop SIllFormed
    /\ to_tuple (struct_size_v valid fuel sizeof) obj = Stop SIllFormed.
Proof. exact @struct_get_too_many. Qed.
Print Assumptions C44_too_many.

Example C44_cases :
  let size m := struct_size_v (fun k => (0 <=? k) && (k <=? m)) 500 16 in
  struct_get (size 3) 1 [10; 20; 30] = Ok 20 /\ struct_get (size 3) 3 [10; 20; 30] = Stop SIllFormed
  /\ to_tuple (size 3) [10; 20; 30] = Ok [10; 20; 30] /\ to_pair (size 3) [10; 20; 30] = Stop SIllFormed
  /\ to_pair (size 2) [10; 20] = Ok (10, 20)
  /\ struct_get (size 50) 49 (map Z.of_nat (seq 100 50)) = Ok 149
  /\ to_tuple (size 51) (map Z.of_nat (seq 100 51)) = Stop SIllFormed.
Proof. vm_compute. repeat split. Qed.
