(** The calls of transform_reduce when an operation throws (C84). *)
From Verif Require Import Base BaseFacts ExecModel ExecSpec TransformModel ReduceModel TReduceModel ScheduleSpec
  RCallsModel RCallsSpec RCallsThm RThrowModel RThrowSpec RThrowProofs.

Section Run.
  Context {T A St : Type} {EO : eval_order}.
  Variables (rop : St -> list A -> list A -> St * option (list A)) (sop : St -> A -> A -> St * option A)
            (tr : St -> list (list T) -> St * option (list A)).

  Lemma load_chunk_load c (m : mem T) al p k v : load_chunk c m al p k = Ok v -> load m p (Z.to_nat k) = Some v.
  Proof.
    unfold load_chunk. destruct (al && _); [discriminate|]. destruct (load m p (Z.to_nat k)); [|discriminate].
    now intros [= ->].
  Qed.

  Lemma chunks_loaded c (m : mem T) k ps : forall vs, mapR (fun p => load_chunk c m false p k) ps = Ok vs ->
    Forall2 (fun p v => load m p (Z.to_nat k) = Some v) ps vs.
  Proof.
    induction ps as [|p ps IH]; intros vs; cbn [mapR]; [intros [= <-]; constructor|].
    destruct (load_chunk c m false p k) as [v|] eqn:E; [|discriminate]. cbn [bindR].
    destruct (mapR _ ps) as [vs'|]; [|discriminate]. cbn [bindR]. intros [= <-].
    constructor; [now apply (load_chunk_load c m false)|]. now apply IH.
  Qed.

  Lemma cause_threw c (m : mem T) e s' : cause rop sop (ld_throwing c tr m) e s' -> threw rop sop tr m e s'.
  Proof.
    destruct e as [ps k|k|]; cbn [cause threw]; auto. intros (s & al & H). unfold ld_throwing in H.
    destruct ps as [|p ps]; [discriminate|].
    destruct (load_chunk c m al p k) as [v|] eqn:E1; [|discriminate]. cbn [bindR] in H.
    destruct (mapR _ ps) as [vs|] eqn:E2; [|discriminate]. cbn [bindR] in H.
    destruct (tr s (v :: vs)) as [s1 [z|]] eqn:E3; [discriminate|]. injection H as <-.
    exists s, (v :: vs). split; [|exact E3]. constructor; [now apply (load_chunk_load c m al)|]. now apply (chunks_loaded c).
  Qed.

  (** Whatever the throwing call would have returned: the calls are the first of the ones made then. *)
  Theorem throwing_prefix rop' sop' tr' : reduce_completes rop' rop -> scalar_completes sop' sop -> transform_completes tr' tr ->
    forall c pol w first last srcs2 (m : mem T) init s,
    match transform_reduce_throwing c rop sop tr m pol w first last srcs2 init s with
    | (es, s', Ends r) => transform_reduce_calls c rop' sop' tr' m pol w first last srcs2 init s = (es, s', r)
    | (es, s', Throws) =>
        (exists es0 e, es = es0 ++ [e] /\ threw rop sop tr m e s')
        /\ exists es2 s2 r, transform_reduce_calls c rop' sop' tr' m pol w first last srcs2 init s = (es ++ es2, s2, r)
    end.
  Proof.
    intros Hr Hs Ht c pol w first last srcs2 m init s.
    pose proof (f_transform_reduce rop sop (ld_throwing c tr m) rop' sop' (ld_with c tr' m) Hr Hs) as F.
    assert (Hl : forall s al ps k s' r, ld_throwing c tr m s al ps k = (s', Ends r) -> ld_with c tr' m s al ps k = (s', r)).
    { intros s0 al ps k s' r. unfold ld_throwing, ld_with. destruct ps as [|p ps]; [now intros [= -> ->]|].
      destruct (bindR _ _) as [ch|e]; [|now intros [= -> ->]].
      destruct (tr s0 ch) as [s1 [v|]] eqn:E; [|discriminate]. intros [= -> <-]. now rewrite (Ht _ _ _ _ E). }
    specialize (F Hl c pol w first last srcs2 init s). unfold transform_reduce_throwing, transform_reduce_calls.
    destruct (x_transform_reduce _ _ _ _ _ _ _ _ _ _ s) as [[es s'] [r|]]; [exact F|].
    destruct F as [(es0 & e & E & C) F]. split; [|exact F]. exists es0, e. split; [exact E|]. now apply (cause_threw c).
  Qed.

  (** Some such operations. *)
  Variable init : A.
  Definition rop1 (s : St) (a b : list A) : St * list A :=
    let (s', o) := rop s a b in (s', match o with Some z => z | None => a end).
  Definition sop1 (s : St) (x y : A) : St * A := let (s', o) := sop s x y in (s', match o with Some z => z | None => x end).
  Definition tr1 (s : St) (ch : list (list T)) : St * list A :=
    let (s', o) := tr s ch in
    (s', match o with Some v => v | None => match ch with [] => [] | v :: _ => repeat init (length v) end end).

  Lemma rop1_completes : reduce_completes rop1 rop.
  Proof. intros s a b s' z E. unfold rop1. now rewrite E. Qed.
  Lemma sop1_completes : scalar_completes sop1 sop.
  Proof. intros s a b s' z E. unfold sop1. now rewrite E. Qed.
  Lemma tr1_completes : transform_completes tr1 tr.
  Proof. intros s ch s' z E. unfold tr1. now rewrite E. Qed.
  Lemma rop1_keeps : reduce_keeps_lanes rop -> op_keeps_lanes rop1.
  Proof.
    intros H s a b L. unfold rop1. destruct (rop s a b) as [s' [z|]] eqn:E; [|reflexivity]. now apply (H _ _ _ _ _ L E).
  Qed.
  Lemma tr1_keeps n : transform_keeps_lanes tr (S n) -> tr_keeps_lanes tr1 (S n).
  Proof.
    intros H s ch k L F. unfold tr1. destruct (tr s ch) as [s' [z|]] eqn:E; [now apply (H _ _ _ _ _ L F E)|].
    destruct ch as [|v ch]; [discriminate|]. cbn. rewrite repeat_length. now apply Forall_inv in F.
  Qed.
End Run.

Lemma transforms_app es1 es2 : transforms (es1 ++ es2) = transforms es1 ++ transforms es2.
Proof. unfold transforms. apply flat_map_app. Qed.
Lemma reductions_app es1 es2 : reductions (es1 ++ es2) = (reductions es1 + reductions es2)%nat.
Proof. unfold reductions. now rewrite map_app, list_sum_app. Qed.
Lemma pairs_app es1 es2 : pairs (es1 ++ es2) = (pairs es1 + pairs es2)%nat.
Proof. unfold pairs. now rewrite map_app, list_sum_app. Qed.

Theorem throwing_run {T A St} {EO : eval_order} (rop : St -> list A -> list A -> St * option (list A)) (sop : St -> A -> A -> St * option A)
  (tr : St -> list (list T) -> St * option (list A)) c pol w first last srcs2 (m : mem T) init d s :
  reduce_keeps_lanes rop -> transform_keeps_lanes tr (S (length srcs2)) ->
  target_ok c -> c_ce c = false -> policy_ok pol -> width_ok w -> range_ok first last ->
  size_matches pol w first last ->
  prologue_length c pol w first (last - first) d -> d < last - first -> first < last ->
  Forall (fun p => mapped m p (p + (last - first))) (first :: srcs2) ->
  let all := consecutive (first :: srcs2) 0 (concat (schedule w (p_unroll pol) d (last - first))) in
  exists es s' o, transform_reduce_throwing c rop sop tr m pol w first last srcs2 init s = (es, s', o)
    /\ match o with
       | Ends (Ok x) => transforms es = all /\ reductions es = reduction_calls w (p_unroll pol) d (last - first)
                        /\ pairs es = Z.to_nat (last - first)
       | Ends (Stop _) => False
       | Throws => (exists es0 e, es = es0 ++ [e] /\ threw rop sop tr m e s')
                   /\ (exists rest, transforms es ++ rest = all)
                   /\ (reductions es <= reduction_calls w (p_unroll pol) d (last - first))%nat
                   /\ (pairs es <= Z.to_nat (last - first))%nat
       end.
Proof.
  intros Hr Ht Hc Hce Hp Hw Hrg Hs Hd Hdn Hlt Hm all.
  pose proof (throwing_prefix rop sop tr (rop1 rop) (sop1 sop) (tr1 tr init) (rop1_completes rop) (sop1_completes sop)
                (tr1_completes tr init) c pol w first last srcs2 m init s) as P.
  destruct (calls_run (rop1 rop) (sop1 sop) (tr1 tr init) (rop1_keeps rop Hr) c pol w first last srcs2 m init d s)
    as (es1 & s1 & x & E & E1 & E2 & E3); try assumption; [now apply tr1_keeps|].
  destruct (transform_reduce_throwing c rop sop tr m pol w first last srcs2 init s) as [[es s'] o].
  exists es, s', o. split; [reflexivity|]. destruct o as [r|].
  - rewrite E in P. injection P as -> -> <-. auto.
  - destruct P as [P (es2 & s2 & r & P2)]. split; [exact P|]. rewrite E in P2. injection P2 as -> _ _.
    rewrite transforms_app in E1. rewrite reductions_app in E2. rewrite pairs_app in E3.
    split; [exists (transforms es2); exact E1|]. split; lia.
Qed.

(** Operations that do not throw. *)
Theorem throwing_never {T A St} {EO : eval_order} (rop : St -> list A -> list A -> St * list A) (sop : St -> A -> A -> St * A)
  (tr : St -> list (list T) -> St * list A) c pol w first last srcs2 (m : mem T) init s :
  transform_reduce_throwing c (fun s a b => (fst (rop s a b), Some (snd (rop s a b))))
    (fun s x y => (fst (sop s x y), Some (snd (sop s x y)))) (fun s ch => (fst (tr s ch), Some (snd (tr s ch))))
    m pol w first last srcs2 init s
  = let '(es, s', r) := transform_reduce_calls c rop sop tr m pol w first last srcs2 init s in (es, s', Ends r).
Proof.
  match goal with |- transform_reduce_throwing _ ?r ?o ?t _ _ _ _ _ _ _ _ = _ =>
    pose proof (throwing_prefix r o t rop sop tr) as P end.
  assert (P' := fun a b c0 => P a b c0 c pol w first last srcs2 m init s). clear P.
  destruct (transform_reduce_throwing _ _ _ _ _ _ _ _ _ _ _ _) as [[es s'] [r|]].
  - rewrite P'; [reflexivity| | |].
    + intros s0 a b s1 z E. destruct (rop s0 a b). now injection E as -> ->.
    + intros s0 a b s1 z E. destruct (sop s0 a b). now injection E as -> ->.
    + intros s0 a s1 z E. destruct (tr s0 a). now injection E as -> ->.
  - exfalso. destruct P' as [(es0 & e & _ & H) _].
    + intros s0 a b s1 z E. destruct (rop s0 a b). now injection E as -> ->.
    + intros s0 a b s1 z E. destruct (sop s0 a b). now injection E as -> ->.
    + intros s0 a s1 z E. destruct (tr s0 a). now injection E as -> ->.
    + destruct e; cbn in H; [destruct H as (? & ? & _ & H)|destruct H as (? & ? & ? & _ & _ & H)|destruct H as (? & ? & ? & H)]; discriminate.
Qed.
