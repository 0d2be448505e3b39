(** Property theorems C18 (mask reductions). *)
From Verif Require Import Base MaskModel MaskProofs.

(** all_of is the conjunction, any_of the disjunction, none_of its negation, some_of "any but not
    all" of the lanes; masks have at least one lane. *)
Theorem C18_all_of :
  forall k, exists b, all_of k = Ok b /\ (b = true <-> forall i, 0 <= i < Z.of_nat (length k) -> set_at k i).
Proof. exact all_of_meaning. Qed.
Print Assumptions C18_all_of.

Theorem C18_any_of : forall k, exists b, any_of k = Ok b /\ (b = true <-> exists i, set_at k i).
Proof. exact any_of_meaning. Qed.
Print Assumptions C18_any_of.

Theorem C18_none_of : forall k, exists b, none_of k = Ok b /\ (b = true <-> forall i, ~ set_at k i).
Proof. exact none_of_meaning. Qed.
Print Assumptions C18_none_of.

Theorem C18_some_of :
  forall k, k <> [] ->
    exists b, some_of k = Ok b /\ (b = true <-> (exists i, set_at k i) /\ exists i, unset_at k i).
Proof. exact some_of_meaning. Qed.
Print Assumptions C18_some_of.

(** popcount is the number of set lanes. *)
Theorem C18_popcount : forall k, k <> [] -> popcount k = Ok (Z.of_nat (count_occ bool_dec k true)).
Proof. exact popcount_correct. Qed.
Print Assumptions C18_popcount.

(** find_first_set and find_last_set are the least and the greatest set index ... *)
Theorem C18_find_first_set :
  forall k, (exists i, set_at k i) ->
    exists i, find_first_set k = Ok i /\ set_at k i /\ forall j, 0 <= j < i -> unset_at k j.
Proof. exact find_first_set_correct. Qed.
Print Assumptions C18_find_first_set.

Theorem C18_find_last_set :
  forall k, (exists i, set_at k i) ->
    exists i, find_last_set k = Ok i /\ set_at k i /\ forall j, i < j < Z.of_nat (length k) -> unset_at k j.
Proof. exact find_last_set_correct. Qed.
Print Assumptions C18_find_last_set.

(** ... and stop in the precondition exactly for an empty mask (the other direction is above). *)
Theorem C18_find_set_empty :
  forall k, (forall i, ~ set_at k i) -> find_first_set k = Stop STrap /\ find_last_set k = Stop STrap.
Proof. exact find_set_empty. Qed.
Print Assumptions C18_find_set_empty.

(** Consequences. *)
Theorem C18_all_of_none_of_not : forall k, all_of k = none_of (mask_not k).
Proof. exact all_none. Qed.
Print Assumptions C18_all_of_none_of_not.

Theorem C18_popcount_all_of :
  forall k, k <> [] ->
    exists c a, popcount k = Ok c /\ all_of k = Ok a
      /\ 0 <= c <= Z.of_nat (length k) /\ (c = Z.of_nat (length k) <-> a = true).
Proof. exact popcount_all. Qed.
Print Assumptions C18_popcount_all_of.

Theorem C18_popcount_any_of :
  forall k, k <> [] -> exists c a, popcount k = Ok c /\ any_of k = Ok a /\ (0 < c <-> a = true).
Proof. exact popcount_any. Qed.
Print Assumptions C18_popcount_any_of.

Theorem C18_popcount_not :
  forall k, k <> [] ->
    exists c d, popcount k = Ok c /\ popcount (mask_not k) = Ok d /\ c + d = Z.of_nat (length k).
Proof. exact popcount_not. Qed.
Print Assumptions C18_popcount_not.

(** The scalar ABI and plain bool agree with the one-lane mask (find_*_set(bool) has no
    precondition, so that only for true; it always returns 0). *)
Theorem C18_scalar_abi :
  forall b,
    all_of [b] = Ok (s_all_of b) /\ any_of [b] = Ok (s_any_of b) /\ none_of [b] = Ok (s_none_of b)
    /\ some_of [b] = Ok (s_some_of b) /\ popcount [b] = Ok (s_popcount b)
    /\ find_first_set [b] = s_find_first_set b /\ find_last_set [b] = s_find_last_set b.
Proof. exact scalar_reductions. Qed.
Print Assumptions C18_scalar_abi.

Theorem C18_exact_bool :
  forall b,
    all_of [b] = Ok (b_all_of b) /\ any_of [b] = Ok (b_any_of b) /\ none_of [b] = Ok (b_none_of b)
    /\ some_of [b] = Ok (b_some_of b) /\ popcount [b] = Ok (b_popcount b)
    /\ (b = true -> find_first_set [b] = b_find_first_set b /\ find_last_set [b] = b_find_last_set b)
    /\ b_find_first_set b = Ok 0 /\ b_find_last_set b = Ok 0.
Proof. exact bool_reductions. Qed.
Print Assumptions C18_exact_bool.

(** The mask operators work lane by lane; the meaning of each is given here, not by the model. *)
Theorem C18_mask_operators :
  forall x y i, length x = length y -> 0 <= i < Z.of_nat (length x) ->
    (forall o, length (mask_bin o x y) = length x)
    /\ (set_at (mask_bin MAndAnd x y) i <-> set_at x i /\ set_at y i)
    /\ (set_at (mask_bin MAnd x y) i <-> set_at x i /\ set_at y i)
    /\ (set_at (mask_bin MOrOr x y) i <-> set_at x i \/ set_at y i)
    /\ (set_at (mask_bin MOr x y) i <-> set_at x i \/ set_at y i)
    /\ (set_at (mask_bin MXor x y) i <-> (set_at x i /\ ~ set_at y i) \/ (~ set_at x i /\ set_at y i))
    /\ (set_at (mask_bin MEq x y) i <-> (set_at x i <-> set_at y i))
    /\ (set_at (mask_bin MNe x y) i <-> ~ (set_at x i <-> set_at y i)).
Proof. exact mask_bin_meaning. Qed.
Print Assumptions C18_mask_operators.

Theorem C18_mask_not :
  forall k, length (mask_not k) = length k
    /\ forall i, 0 <= i < Z.of_nat (length k) -> (set_at (mask_not k) i <-> ~ set_at k i).
Proof. exact mask_not_meaning. Qed.
Print Assumptions C18_mask_not.

Example C18_instance :
  let k := [false; true; false; true; false] in
  all_of k = Ok false /\ any_of k = Ok true /\ none_of k = Ok false /\ some_of k = Ok true
  /\ popcount k = Ok 2 /\ find_first_set k = Ok 1 /\ find_last_set k = Ok 3
  /\ set_at k 1 /\ unset_at k 4 /\ find_first_set [false; false] = Stop STrap
  /\ mask_bin MXor k (mask_not k) = [true; true; true; true; true].
Proof. vm_compute. repeat split; discriminate. Qed.
