(** Iterator arithmetic of transform_reduce with any prologue: proofs. *)
From Verif Require Import Base BaseFacts ExecModel ExecProofs ExecForEach ExecSpec ExecThm TReduceModel TReduceSpec
  ScheduleSpec ScheduleProofs PtrModel PtrSpec PtrProofs PtrReduceProofs ExecExamples.
From Coq Require Import ZifyBool ZifyNat.
Ltac Zify.zify_post_hook ::= idtac.

Lemma reduce_stays_length c pol w first last srcs2 d :
  target_ok c -> c_ce c = false -> policy_ok pol -> width_ok w -> range_ok first last ->
  size_matches pol w first last -> prologue_length c pol w first (last - first) d -> d < last - first ->
  exists its, transform_reduce_it c pol w first last srcs2 = (its, Ok tt) /\
    forall lo hi j p, nth_error (first :: srcs2) j = Some p -> lo <= p -> p + (last - first) <= hi ->
      stays_in lo hi j its <->
      (j = 0%nat -> lo <= last - w /\
       (first + d + w <= last -> 1 < p_unroll pol ->
        lo <= last - w * p_unroll pol /\ first + d + w * p_unroll pol <= hi)).
Proof.
  intros Hc Hce Hpol Hw Hr Hm Hd Hlt.
  assert (Hd0 : 0 <= d) by (destruct Hd as [(_ & (H & _) & _)|(-> & _)]; [exact H|lia]).
  assert (Hfit : forall maxe tp, prologue_args c pol w (last - first) first = Some (maxe, tp) -> tp = d).
  { intros maxe tp E.
    destruct (prologue_some_length c pol w (last - first) first maxe tp (target_cfg c Hc) Hw E) as (H & _).
    exact (prologue_length_unique _ _ _ _ _ _ _ H Hd). }
  assert (Hs : main_start c pol w first last = first + d).
  { unfold main_start. destruct (prologue_args c pol w (last - first) first) as [ [maxe tp]|] eqn:E.
    - now rewrite (Hfit maxe tp eq_refl).
    - pose proof (prologue_none_length c pol w (last - first) first (target_cfg c Hc) Hw E) as H.
      rewrite <- (prologue_length_unique _ _ _ _ _ _ _ H Hd). lia. }
  destruct (transform_reduce_stays_fit c pol w first last srcs2) as (its & E & H); try assumption; [|lia|].
  { intros maxe tp E. rewrite (Hfit maxe tp E). lia. }
  exists its. split; [exact E|]. rewrite Hs in H. exact H.
Qed.

Lemma reduce_stays_any c pol w first last srcs2 d lo hi :
  target_ok c -> c_ce c = false -> policy_ok pol -> width_ok w -> range_ok first last ->
  size_matches pol w first last -> prologue_length c pol w first (last - first) d -> d < last - first ->
  lo <= first -> last <= hi ->
  exists its, transform_reduce_it c pol w first last srcs2 = (its, Ok tt) /\
    (stays_in lo hi 0 its <->
     lo <= last - w /\
     (first + d + w <= last -> 1 < p_unroll pol ->
      lo <= last - w * p_unroll pol /\ first + d + w * p_unroll pol <= hi)).
Proof.
  intros Hc Hce Hpol Hw Hr Hm Hd Hlt Hlo Hhi.
  destruct (reduce_stays_length c pol w first last srcs2 d) as (its & E & H); try assumption.
  exists its. split; [exact E|]. rewrite (H lo hi 0%nat first eq_refl Hlo) by lia.
  split; [intros H1; exact (H1 eq_refl)|intros H1 _; exact H1].
Qed.

Lemma reduce_others_any c pol w first last srcs2 d j p :
  target_ok c -> c_ce c = false -> policy_ok pol -> width_ok w -> range_ok first last ->
  size_matches pol w first last -> prologue_length c pol w first (last - first) d -> d < last - first ->
  nth_error srcs2 j = Some p ->
  exists its, transform_reduce_it c pol w first last srcs2 = (its, Ok tt)
              /\ stays_in p (p + (last - first)) (S j) its.
Proof.
  intros Hc Hce Hpol Hw Hr Hm Hd Hlt Ej.
  destruct (reduce_stays_length c pol w first last srcs2 d) as (its & E & H); try assumption.
  exists its. split; [exact E|]. apply (H _ _ (S j) p Ej); [lia|lia|discriminate].
Qed.

(** auto_prologue with 13 elements, five of them in front of the first aligned address. *)
Lemma auto_five : prologue_length (ex_cfg 12 false false) (mkpol false true false 2 0) 8 0 13 5.
Proof.
  left. split; [|split; [|right; split; [reflexivity|] ] ].
  - split; [lia|]. split; [exists 5; split; [lia|reflexivity]|reflexivity].
  - split; [lia|]. split; [exists 1; reflexivity|]. intros e He [q Hq]. unfold address in Hq.
    cbn [c_base c_sz c_malign ex_cfg] in Hq. change (bit_ceil (8 * 4)) with 32 in Hq. lia.
  - right. intros i H. assert (E : Z.land 5 13 = 5) by reflexivity. rewrite <- E, Z.land_spec in H.
    apply andb_true_iff in H. tauto.
Qed.
