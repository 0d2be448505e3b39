(** Specification for the helpers of detail.h (C78). *)
From Verif Require Import Base DetailModel.

(** sizeof *)
Definition size_is (p : sizes) (r : rank) (s : Z) : Prop :=
  match r with
  | LLong => s_llong p = s | Long => s_long p = s | Int => s_int p = s | Short => s_short p = s | Char => s_char p = s
  | I128 => s_i128 p = Some s
  end.

(** Integer conversion rank [conv.rank]; __int128 is extended, with more bits than long long. *)
Definition conversion_rank (r : rank) : Z :=
  match r with Char => 0 | Short => 1 | Int => 2 | Long => 3 | LLong => 4 | I128 => 5 end.

(** [basic.fundamental]: sizes ascend with the rank *)
Definition standard (p : sizes) : Prop :=
  s_char p = 1 /\ s_char p <= s_short p /\ s_short p <= s_int p /\ s_int p <= s_long p /\ s_long p <= s_llong p
  /\ forall s, s_i128 p = Some s -> s_llong p < s.

(** The type of the greatest rank among those with [t] bytes *)
Definition greatest (p : sizes) (t : Z) (r : rank) : Prop :=
  size_is p r t /\ forall r', size_is p r' t -> conversion_rank r' <= conversion_rank r.
