(** Property theorems C09, C05 and C10 (count_if). *)
From Verif Require Import Base ExecModel ExecSpec ExecExamples CountModel CountProofs CountExact MatchSame.

(** C09.  [count_if] yields [Ok], i.e. no counter overflowed and nothing outside was read. *)
Theorem C09_count_if_counts :
  forall (T : Type) (p : T -> bool) (pred : list T -> list bool),
    (forall l, pred l = map p l) ->
    forall c lib pol w first last m l,
    target_ok c -> c_ce c = false -> policy_ok pol -> width_ok w -> range_ok first last ->
    size_matches pol w first last -> reaches_alignment c pol w first last ->
    range_is m first last l -> Z.of_nat (length (filter p l)) <= int_max ->
    count_if pred c lib pol w first last m = Ok (Z.of_nat (length (filter p l))).
Proof. exact @count_if_runtime. Qed.
Print Assumptions C09_count_if_counts.

(** Without the bound: more hits than INT_MAX are always undefined behaviour, never a wrong number. *)
Theorem C09_count_if_every_input :
  forall (T : Type) (p : T -> bool) (pred : list T -> list bool),
    (forall l, pred l = map p l) ->
    forall c lib pol w first last m l,
    target_ok c -> c_ce c = false -> policy_ok pol -> width_ok w -> range_ok first last ->
    size_matches pol w first last -> reaches_alignment c pol w first last ->
    range_is m first last l ->
    count_if pred c lib pol w first last m
    = (if Z.of_nat (length (filter p l)) <=? int_max then Ok (Z.of_nat (length (filter p l))) else Stop SUB).
Proof. exact @count_if_runtime_exact. Qed.
Print Assumptions C09_count_if_every_input.

Example C09_instance :
  count_if (map Z.even) (ex_cfg 4 false false) true (pol_unroll 2) 4 0 21 (ex_mem 0 21) = Ok 11
  /\ count_if (map Z.even) (ex_cfg 4 false false) false pol_aligned 4 0 21 (ex_mem 0 21) = Ok 11
  /\ (exists l, range_is (ex_mem 0 21) 0 21 l /\ Z.of_nat (length (filter Z.even l)) <= int_max)
  /\ int_max = 2147483647.
Proof.
  split; [vm_compute; reflexivity|]. split; [vm_compute; reflexivity|]. split; [|reflexivity].
  exists (map (fun i => 100 + Z.of_nat i) (seq 0 21)). split; [|vm_compute; discriminate].
  split; [reflexivity|]. cbn [length map seq]. intros i Hi.
  do 21 (destruct i as [|i]; [reflexivity|]). cbn in Hi. lia.
Qed.

(** One step beyond INT_MAX. *)
Example C09_overflow_is_undefined : int_add (Ok int_max) (Ok 1) = Stop SUB.
Proof. reflexivity. Qed.

(** C05 for count_if: constant evaluation agrees with run time, except for width 2 and a
    non-empty even number of elements. *)
Theorem C05_count_if_consteval :
  forall (T : Type) (p : T -> bool) (pred : list T -> list bool),
    (forall l, pred l = map p l) ->
    forall c lib pol w first last m l,
    c_ce c = true -> width_ok w -> range_ok first last -> size_matches pol w first last ->
    (w = 2 -> first = last \/ (last - first) mod 2 <> 0) ->
    range_is m first last l -> Z.of_nat (length (filter p l)) <= int_max ->
    count_if pred c lib pol w first last m = Ok (Z.of_nat (length (filter p l))).
Proof. exact @count_if_consteval. Qed.
Print Assumptions C05_count_if_consteval.

(** The same without the bound. *)
Theorem C05_count_if_consteval_every_input :
  forall (T : Type) (p : T -> bool) (pred : list T -> list bool),
    (forall l, pred l = map p l) ->
    forall c lib pol w first last m l,
    c_ce c = true -> width_ok w -> range_ok first last -> size_matches pol w first last ->
    (w = 2 -> first = last \/ (last - first) mod 2 <> 0) ->
    range_is m first last l ->
    count_if pred c lib pol w first last m
    = (if Z.of_nat (length (filter p l)) <=? int_max then Ok (Z.of_nat (length (filter p l))) else Stop SUB).
Proof. exact @count_if_consteval_exact. Qed.
Print Assumptions C05_count_if_consteval_every_input.

Example C05_count_if_instance :
  count_if (map Z.even) (ex_cfg 4 false true) true pol0 4 0 7 (ex_mem 0 7) = Ok 4
  /\ count_if (map Z.even) (ex_cfg 4 false true) false pol0 4 0 7 (ex_mem 0 7) = Ok 4.
Proof. split; vm_compute; reflexivity. Qed.

(** Finding: with two elements of which the last is a hit, constant evaluation counts two. *)
Theorem C05_count_if_consteval_refuted :
  exists c w first last (m : mem Z) l,
    target_ok c /\ c_ce c = true /\ width_ok w /\ range_ok first last /\ range_is m first last l
    /\ Z.of_nat (length (filter Z.odd l)) = 1
    /\ count_if (map Z.odd) c true pol0 w first last m = Ok 2.
Proof. exact count_if_consteval_refuted. Qed.
Print Assumptions C05_count_if_consteval_refuted.

(** The exact extent of the finding: the last element counts twice. *)
Theorem C05_count_if_consteval_width_two :
  forall (T : Type) (p : T -> bool) (pred : list T -> list bool),
    (forall l, pred l = map p l) ->
    forall c lib pol first last m l x,
    c_ce c = true -> range_ok first last -> first < last -> (last - first) mod 2 = 0 ->
    range_is m first last (l ++ [x]) -> Z.of_nat (length (filter p (l ++ [x; x]))) <= int_max ->
    count_if pred c lib pol 2 first last m = Ok (Z.of_nat (length (filter p (l ++ [x; x])))).
Proof. exact @count_if_two. Qed.
Print Assumptions C05_count_if_consteval_width_two.

Example C05_count_if_width_two_instance :
  range_is (ex_mem 0 4) 0 4 ([100; 101; 102] ++ [103])
  /\ count_if (map Z.odd) (ex_cfg 4 false true) true pol0 2 0 4 (ex_mem 0 4) = Ok 3
  /\ count_if (map Z.even) (ex_cfg 4 false true) true pol0 2 0 4 (ex_mem 0 4) = Ok 2.
Proof.
  split; [|split; vm_compute; reflexivity]. split; [reflexivity|]. intros i Hi. cbn in Hi.
  do 4 (destruct i as [|i]; [reflexivity|]). lia.
Qed.

(** C10 for count_if. *)
Theorem C10_count_if_mismatch_traps_first :
  forall (T : Type) (pred : list T -> list bool) c lib pol w first last m,
    p_match pol = true -> width_ok w -> first <= last -> (forall n, last - first <> n * w) ->
    count_if pred c lib pol w first last m = Stop STrap.
Proof. exact @count_if_trap. Qed.
Print Assumptions C10_count_if_mismatch_traps_first.

Theorem C10_count_if_matching_same :
  forall (T : Type) (pred : list T -> list bool) c lib pol w first last m,
    policy_ok pol -> width_ok w -> first <= last -> size_matches pol w first last ->
    count_if pred c lib pol w first last m
    = count_if pred c lib (mkpol (p_aligned pol) (p_auto pol) false (p_unroll pol) (p_size pol))
               w first last m.
Proof. exact @count_if_matching_same. Qed.
Print Assumptions C10_count_if_matching_same.

Example C10_count_if_instance :
  let run pol n := count_if (map Z.odd) (ex_cfg 4 false false) true pol 4 0 n (ex_mem 0 n) in
  run pol_match 12 = Ok 6 /\ run pol0 12 = Ok 6 /\ run pol_match 13 = Stop STrap /\ run pol0 13 = Ok 6.
Proof. vm_compute. repeat split. Qed.
