(** count_if in constant evaluation with vectors of two elements. *)
From Verif Require Import Base BaseFacts ExecModel ExecRun ExecSpec ExecThm ReduceModel ReduceSpec ReduceProofs
  CountModel CountProofs ExecExact.
From Coq Require Import ZifyBool ZifyNat.
Ltac Zify.zify_post_hook ::= idtac.

Theorem count_if_two_exact {T} (p : T -> bool) (pred : list T -> list bool) : (forall l, pred l = map p l) ->
  forall c lib pol first last m l x,
  c_ce c = true -> range_ok first last -> first < last -> (last - first) mod 2 = 0 ->
  range_is m first last (l ++ [x]) ->
  count_if pred c lib pol 2 first last m
  = (if Z.of_nat (length (filter p (l ++ [x; x]))) <=? int_max
     then Ok (Z.of_nat (length (filter p (l ++ [x; x])))) else Stop SUB).
Proof.
  intros Hpred c lib pol first last m l x Hce Hr Hlt He Hl. unfold count_if.
  destruct (for_each_two_value (count_fun pred (c_ce c) lib 2) c pol first last m
              (mkcnt (Ok 0) (repeat (Ok 0) (Z.to_nat 2))) Hce Hr Hlt He (count_keeps pred _ _ _) l x Hl)
    as (s & E & Hseen & Hst & HF & _).
  rewrite E. cbn [bindR]. change (int_add (n_count (s_st s))
      (match reduce int_add (n_countv (s_st s)) with Some x => x | None => Stop SIllFormed end) = fits (0 + hits p (l ++ [x; x]))).
  apply (final_sum 2); [unfold two64; lia|].
  rewrite Hst, <- Hseen. apply count_trace; [exact Hpred| |apply initial_cinv; lia].
  eapply Forall_impl; [|exact HF]. intros ch [y ->]. split; [discriminate|]. left. now exists y.
Qed.

Theorem count_if_two {T} (p : T -> bool) (pred : list T -> list bool) : (forall l, pred l = map p l) ->
  forall c lib pol first last m l x,
  c_ce c = true -> range_ok first last -> first < last -> (last - first) mod 2 = 0 ->
  range_is m first last (l ++ [x]) -> Z.of_nat (length (filter p (l ++ [x; x]))) <= int_max ->
  count_if pred c lib pol 2 first last m = Ok (Z.of_nat (length (filter p (l ++ [x; x])))).
Proof.
  intros Hpred c lib pol first last m l x Hce Hr Hlt He Hl Hmax.
  rewrite (count_if_two_exact p pred Hpred c lib pol first last m l x) by assumption. now apply fits_ok.
Qed.
