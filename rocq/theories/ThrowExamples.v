(** Concrete callables that throw, and witnesses. *)
From Verif Require Import Base ExecModel ExecSpec ExecExamples TransformModel TransformSpec
  TransformExamples ThrowModel ThrowSpec.

(** Counts its invocations, doubles every lane, and throws when it sees [bad]. *)
Definition tex_f (bad st : Z) (ch : list (list Z)) : Z * option (list (list Z)) :=
  (st + 1, if existsb (Z.eqb bad) (concat ch) then None else Some (map (map (Z.mul 2)) ch)).

Lemma tex_f_maps bad : maps_lanes (Z.mul 2) (tex_f bad).
Proof.
  intros st ch out. cbn. destruct (existsb _ _); [discriminate|]. intros E. now injection E.
Qed.

Definition tex_op (bad : Z) (ch : list (list Z)) : option (list Z) :=
  if existsb (Z.eqb bad) (concat ch) then None else Some (ex_lift ex_sum ch).

Lemma tex_op_lanewise bad : lanewise_or_throws ex_sum (tex_op bad).
Proof.
  intros k ch r Hne HF. unfold tex_op. destruct (existsb _ _); [discriminate|].
  intros E. injection E as <-. now apply ex_lift_lanewise.
Qed.

(** What can be seen of an outcome. *)
Definition tex_obs (first last : Z) (r : res (ended (state Z Z) (list (list Z)))) :=
  match r with
  | Ok (Returned s) => Some (s_trace s, s_st s, load (s_mem s) first (Z.to_nat (last - first)), None)
  | Ok (Threw s ch) => Some (s_trace s, s_st s, load (s_mem s) first (Z.to_nat (last - first)), Some ch)
  | Stop _ => None
  end.
Definition tex_tobs (p n : Z) (r : res (ended (mem Z) (list (list Z)) * option Z)) :=
  match r with
  | Ok (Returned m, d) => Some (load m p (Z.to_nat n), d, None)
  | Ok (Threw m ch, d) => Some (load m p (Z.to_nat n), d, Some ch)
  | Stop _ => None
  end.

(** The callable threw, and the range is not what it was. *)
Lemma for_each_strong_refuted :
  exists c pol w first last (m : mem Z) s ch,
    target_ok c /\ c_ce c = false /\ policy_ok pol /\ width_ok w /\ range_ok first last
    /\ size_matches pol w first last /\ reaches_alignment c pol w first last
    /\ mapped m first last
    /\ run_for_each_throwing (tex_f 106) c pol w true first last m 0 = Ok (Threw s ch)
    /\ s_mem s first <> m first.
Proof.
  exists (ex_cfg 0 false false), pol0, 4, 0, 10, (ex_mem 0 10). eexists. eexists.
  split; [now apply ex_target|]. split; [reflexivity|].
  split; [repeat split; first [reflexivity|discriminate]|].
  split; [unfold width_ok; lia|]. split; [unfold range_ok; lia|].
  split; [discriminate|]. split; [split; discriminate|]. split; [apply ex_mapped|].
  split; [vm_compute; reflexivity|]. vm_compute. discriminate.
Qed.

(** transform: an operation that has returned whose result is not in the output. *)
Lemma transform_lost_refuted :
  exists c pol w first last dst (m : mem Z) m' ch r,
    target_ok c /\ c_ce c = false /\ policy_ok pol /\ width_ok w /\ range_ok first last
    /\ size_matches pol w first last
    /\ reaches_alignment c pol w dst (dst + (last - first))
    /\ Forall (fun p => mapped m p (p + (last - first))) [dst; first; 1000]
    /\ no_clobber dst (last - first) [first; 1000]
    /\ run_transform_throwing (tex_op 106) c pol w first last dst [1000] m = Ok (Threw m' ch, r)
    /\ Forall2 (fun p ch => range_is m (p + w) (p + w + w) ch) [first; 1000] ch
    /\ tex_op 106 [[100; 101; 102; 103]; [1100; 1101; 1102; 1103]] = Some [1200; 1202; 1204; 1206]
    /\ range_is m first (first + w) [100; 101; 102; 103]
    /\ range_is m 1000 (1000 + w) [1100; 1101; 1102; 1103]
    /\ m' dst = m dst /\ m dst <> Some 1200.
Proof.
  exists (ex_cfg 0 false false), (pol_unroll 2), 4, 0, 16, 2000, (ex_mem3 16). do 3 eexists.
  split; [now apply ex_target|]. split; [reflexivity|].
  split; [repeat split; first [reflexivity|discriminate]|].
  split; [unfold width_ok; lia|]. split; [unfold range_ok; lia|].
  split; [discriminate|]. split; [split; discriminate|]. split; [apply ex_mem3_mapped; lia|].
  split; [repeat constructor; lia|].
  split; [vm_compute; reflexivity|].
  assert (H : forall p l, p = 0 \/ p = 1000 \/ p = 4 \/ p = 1004 -> l = map (Z.add p) [100; 101; 102; 103] ->
                range_is (ex_mem3 16) p (p + 4) l).
  { intros p l Hp ->. split; [cbn; lia|]. intros i Hi. cbn in Hi.
    destruct Hp as [->|[->|[->| ->] ] ]; do 4 (destruct i as [|i]; [reflexivity|]); lia. }
  split.
  { constructor; [|constructor; [|constructor] ]; (apply H; [tauto|reflexivity]). }
  split; [reflexivity|]. split; [apply H; [tauto|reflexivity]|]. split; [apply H; [tauto|reflexivity]|].
  split; [vm_compute; reflexivity|]. vm_compute. discriminate.
Qed.
