(** Examples for count_if over structs (C55). *)
From Verif Require Import Base BaseFacts SimdizeModel SimdizeSpec ExecModel ExecSpec ExecExamples
  StructRunModel StructRunSpec StructRunExamples StructCountModel StructCountThm.

(** The mask of the lanes (structs of ints) that satisfy [p]. *)
Definition lane_mask (p : list Z -> bool) (o : list (list Z)) : list bool :=
  map (fun i => p (map (fun v => nth i v 0) o)) (seq 0 (Z.to_nat (obj_size o))).

Lemma lane_mask_ok p k o xs : 1 <= k -> lanes_are k o xs -> lane_mask p o = map p xs.
Proof.
  intros Hk H. unfold lane_mask. rewrite (obj_size_lanes k o xs Hk H), Nat2Z.id. destruct H as [ [Lo Fo] H].
  apply nth_error_ext. intros i. rewrite !nth_error_map.
  destruct (nth_error xs i) as [x|] eqn:Ex.
  - assert (Hi : (i < length xs)%nat) by (apply nth_error_Some; congruence).
    rewrite (nth_error_nth' _ 0%nat) by now rewrite seq_length. rewrite seq_nth by assumption. cbn [Nat.add option_map].
    f_equal. f_equal. destruct (H _ _ Ex) as [Lx Hx]. apply nth_error_ext. intros j. rewrite nth_error_map.
    destruct (nth_error o j) as [v|] eqn:Ev; cbn [option_map].
    + rewrite (Hx _ _ Ev). symmetry. apply nth_error_nth'. specialize (Fo v (nth_error_In _ _ Ev)). lia.
    + symmetry. apply nth_error_None. apply nth_error_None in Ev. lia.
  - apply nth_error_None in Ex. destruct (nth_error (seq 0 (length xs)) i) eqn:E; [|reflexivity].
    assert (i < length (seq 0 (length xs)))%nat by (apply nth_error_Some; congruence). rewrite seq_length in *. lia.
Qed.

(** A struct whose members sum up to an even number. *)
Definition even_sum (x : list Z) : bool := Z.even (fold_left Z.add x 0).

(** Structs 0, 1, ... of three words. *)
Definition triples (n : nat) : list (list Z) := map (fun i => let a := 3 * Z.of_nat i in [a; a + 1; a + 2]) (seq 0 n).
Lemma words_are n : structs_are (words (3 * Z.of_nat n)) 3 0 (Z.of_nat n) (triples n).
Proof.
  split; [unfold triples; rewrite map_length, seq_length; lia|]. intros i x E. unfold triples in E. rewrite nth_error_map in E.
  destruct (nth_error (seq 0 n) i) as [j|] eqn:Ej; [|discriminate]. injection E as <-.
  assert (Hi : (i < length (seq 0 n))%nat) by (apply nth_error_Some; congruence). rewrite seq_length in Hi.
  rewrite (nth_error_nth' _ 0%nat) in Ej by now rewrite seq_length. injection Ej as <-. rewrite seq_nth by assumption.
  change (Z.to_nat 3) with 3%nat. cbn [load Nat.add].
  replace (3 * (0 + Z.of_nat i) + 1 + 1) with (3 * Z.of_nat i + 2) by lia. rewrite Z.add_0_l. unfold words.
  repeat match goal with |- context [?a <=? ?b] => destruct (Z.leb_spec a b); [|lia] end.
  repeat match goal with |- context [?a <? ?b] => destruct (Z.ltb_spec a b); [|lia] end.
  reflexivity.
Qed.
