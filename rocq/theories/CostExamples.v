(** Concrete cases for C81. *)
From Verif Require Import Base ExecModel ExecSpec ExecExamples CostSpec.

Lemma cover_eight sizes : covers 8 8 sizes -> (1 <= length sizes)%nat.
Proof. intros [_ H]. destruct sizes; [discriminate H|cbn; lia]. Qed.

Lemma fewest_eight : fewest 8 8 1.
Proof.
  split; [|exact cover_eight]. exists [8%nat]. split; [|reflexivity].
  split; [repeat constructor|reflexivity].
Qed.

(** 5 lanes: 8 elements fit into two objects of 4, the schedule is 5, 2, 1. *)
Lemma width_five :
  target_ok (ex_cfg 0 false false) /\ policy_ok pol0 /\ plain pol0 /\ width_ok 5 /\ range_ok 0 8
  /\ size_matches pol0 5 0 8 /\ keeps_lanes ex_f /\ mapped (ex_mem 0 8) 0 8
  /\ option_map (fun x => map (map (@length Z)) (fst (fst x)))
       (ex_obs 0 8 (run_for_each ex_f (ex_cfg 0 false false) pol0 5 false 0 8 (ex_mem 0 8) 0))
     = Some [[5]; [2]; [1]]%nat
  /\ covers 5 8 [4; 4]%nat.
Proof.
  split; [now apply ex_target|]. split; [repeat split; first [reflexivity|discriminate]|].
  split; [split; reflexivity|]. split; [unfold width_ok; lia|]. split; [unfold range_ok; lia|].
  split; [discriminate|]. split; [apply ex_f_keeps|]. split; [apply ex_mapped|].
  split; [vm_compute; reflexivity|].
  split; [|reflexivity]. assert (H : Z.of_nat 4 = 5 \/ Z.of_nat 4 < 5 /\ exists i, 4%nat = Nat.pow 2 i).
  { right. split; [reflexivity|]. exists 2%nat. reflexivity. }
  constructor; [exact H|]. constructor; [exact H|constructor].
Qed.

Lemma width_five_not_fewest :
  exists c pol w first last (m : mem Z) s,
    target_ok c /\ c_ce c = false /\ policy_ok pol /\ plain pol /\ width_ok w /\ range_ok first last
    /\ size_matches pol w first last /\ keeps_lanes ex_f /\ mapped m first last
    /\ run_for_each ex_f c pol w false first last m 0 = Ok s
    /\ ~ fewest w (last - first) (length (concat (s_trace s))).
Proof.
  destruct width_five as (H1 & H2 & H3 & H4 & H5 & H6 & H7 & H8 & H9 & H10).
  destruct (run_for_each ex_f (ex_cfg 0 false false) pol0 5 false 0 8 (ex_mem 0 8) 0) as [s|x] eqn:E; [|discriminate H9].
  exists (ex_cfg 0 false false), pol0, 5, 0, 8, (ex_mem 0 8), s.
  split; [exact H1|]. split; [reflexivity|]. split; [exact H2|]. split; [exact H3|]. split; [exact H4|].
  split; [exact H5|]. split; [exact H6|]. split; [exact H7|]. split; [exact H8|]. split; [exact E|].
  intros [_ H]. specialize (H _ H10). cbn [ex_obs option_map fst] in H9. injection H9 as H9.
  rewrite <- (map_length (@length Z)), concat_map, H9 in H. cbn in H. lia.
Qed.

(** 8 elements, the first of them 4 bytes behind an aligned address: 1 + 2 + 4 and 1 elements, four objects instead of
    one. *)
Lemma price_attained :
  reaches_alignment (ex_cfg 4 false false) pol_aligned 8 0 8
  /\ option_map (fun x => map (map (@length Z)) (fst (fst x)))
       (ex_obs 0 8 (run_for_each ex_f (ex_cfg 4 false false) pol_aligned 8 false 0 8 (ex_mem 0 8) 0))
     = Some [[1]; [2]; [4]; [1]]%nat.
Proof.
  split; [|vm_compute; reflexivity]. split; [|discriminate]. intros _ _ _. exists 7.
  split; [lia|]. exists 1. reflexivity.
Qed.
