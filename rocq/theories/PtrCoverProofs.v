(** The chunks of for_each and transform are among the iterators recorded by for_each_it and
    transform_it. *)
From Verif Require Import Base ExecModel TransformModel PtrModel.

Definition covers {A} (x : P A) (y : W A) : Prop :=
  snd x = snd y /\ incl (flat_map call_its (fst y)) (fst x).

Lemma covers_calls {A} (y : W A) : covers (calls_it y) y.
Proof. split; [reflexivity|apply incl_refl]. Qed.

Lemma covers_ret {A} (a : A) : covers (retP a) (retW a).
Proof. split; [reflexivity|apply incl_refl]. Qed.

Lemma covers_stop {A} s : covers (A:=A) (stopP s) (stopW s).
Proof. split; [reflexivity|apply incl_refl]. Qed.

Lemma covers_bind {A B} (x : P A) (y : W A) (f : A -> P B) (g : A -> W B) :
  covers x y -> (forall a, covers (f a) (g a)) -> covers (bindP x f) (bindW y g).
Proof.
  destruct x as [l r], y as [l' r']. intros [E I] H. cbn [fst snd] in *. subst r'.
  destruct r as [a|s]; cbn [bindP bindW].
  - specialize (H a). destruct (f a) as [k q], (g a) as [k' q']. destruct H as [E' I']. cbn [fst snd] in *.
    subst q'. split; [reflexivity|]. cbn [fst]. rewrite flat_map_app.
    apply incl_app; [apply incl_appl|apply incl_appr]; assumption.
  - split; [reflexivity|exact I].
Qed.

Lemma covers_tell {A} e (x : P A) (y : W A) : covers x y -> covers (bindP (tellP e) (fun _ => x)) y.
Proof.
  intros [E I]. destruct x as [l r]. split; [exact E|]. cbn. apply incl_tl. exact I.
Qed.

Ltac cov := repeat first
  [ apply covers_calls | apply covers_ret | apply covers_stop | apply covers_tell
  | apply covers_bind; [|intros ?] ].

Lemma covers_const w last fuel : forall first,
  covers (const_it fuel w last first) (const_loop fuel w last first).
Proof.
  induction fuel as [|fuel IH]; intros first; cbn [const_it const_loop]; [apply covers_stop|].
  apply covers_tell. destruct (first + (w - 1) <? last); cov. apply IH.
Qed.

Lemma covers_body c pol w first last d :
  covers (for_each_body_it c pol w first last d) (for_each_body c pol w first last d).
Proof.
  unfold for_each_body_it, for_each_body. cbv zeta. apply covers_bind.
  - destruct (1 <? p_unroll pol); cov.
  - intros f. apply covers_tell. apply covers_bind; [cov|]. intros _.
    destruct (negb (p_match pol) && (1 <? w) && negb (d mod w =? 0)); cov.
Qed.

Lemma covers_for_each c pol w first last :
  covers (for_each_it c pol w first last) (for_each c pol w first last).
Proof.
  unfold for_each_it, for_each. cbv zeta. destruct (first =? last); [cov|].
  destruct (p_match pol && negb ((last - first) mod w =? 0)); [cov|]. destruct (c_ce c).
  - apply covers_bind; [apply covers_const|]. intros _. destruct (1 <? w); cov.
  - unfold for_each_rt. cbv zeta. destruct (prologue_args c pol w (last - first) first) as [ [maxe tp]|].
    + apply covers_bind; [cov|]. intros _. apply covers_tell. apply covers_body.
    + apply covers_body.
Qed.

Lemma for_each_covered c pol w first last k i :
  In k (fst (for_each c pol w first last)) -> (i <= k_n k)%nat ->
  In (Moved [k_pos k + k_k k * Z.of_nat i]) (fst (for_each_it c pol w first last)).
Proof.
  intros Hk Hi. apply (covers_for_each c pol w first last). apply in_flat_map. exists k. split; [assumption|].
  unfold call_its, chunk_its. apply in_map_iff. exists i. split; [reflexivity|]. apply in_seq. lia.
Qed.

(** The same for transform. *)
Definition coversT {A} (x : P A) (y : WT A) : Prop :=
  snd x = snd y /\ incl (flat_map step_its (fst y)) (fst x).

Lemma coversT_steps {A} (y : WT A) : coversT (steps_it y) y.
Proof. split; [reflexivity|apply incl_refl]. Qed.

Lemma coversT_ret {A} (a : A) : coversT (retP a) (retT a).
Proof. split; [reflexivity|apply incl_refl]. Qed.

Lemma coversT_stop {A} s : coversT (A:=A) (stopP s) (stopT s).
Proof. split; [reflexivity|apply incl_refl]. Qed.

Lemma coversT_bind {A B} (x : P A) (y : WT A) (f : A -> P B) (g : A -> WT B) :
  coversT x y -> (forall a, coversT (f a) (g a)) -> coversT (bindP x f) (bindT y g).
Proof.
  destruct x as [l r], y as [l' r']. intros [E I] H. cbn [fst snd] in *. subst r'.
  destruct r as [a|s]; cbn [bindP bindT].
  - specialize (H a). destruct (f a) as [k q], (g a) as [k' q']. destruct H as [E' I']. cbn [fst snd] in *.
    subst q'. split; [reflexivity|]. cbn [fst]. rewrite flat_map_app.
    apply incl_app; [apply incl_appl|apply incl_appr]; assumption.
  - split; [reflexivity|exact I].
Qed.

Lemma coversT_tell {A} e (x : P A) (y : WT A) : coversT x y -> coversT (bindP (tellP e) (fun _ => x)) y.
Proof.
  intros [E I]. destruct x as [l r]. split; [exact E|]. cbn. apply incl_tl. exact I.
Qed.

Lemma coversT_const w last fuel : forall p,
  coversT (transform_const_it fuel w last p)
          (transform_loop fuel (fun f => f + (w - 1) <? last) w 1 false p).
Proof.
  induction fuel as [|fuel IH]; intros p; cbn [transform_const_it transform_loop]; [apply coversT_stop|].
  apply coversT_tell. destruct (fst (fst p) + (w - 1) <? last); [|apply coversT_ret].
  apply coversT_bind; [apply coversT_steps|]. intros _. apply IH.
Qed.

Lemma coversT_body c pol w last d p :
  coversT (transform_body_it c pol w last d p) (transform_body c pol w last d p).
Proof.
  unfold transform_body_it, transform_body. cbv zeta. apply coversT_bind.
  - destruct (1 <? p_unroll pol); [apply coversT_tell, coversT_steps|apply coversT_ret].
  - intros p1. apply coversT_tell. apply coversT_bind; [apply coversT_steps|]. intros [ [f d'] s].
    destruct ((1 <? w) && negb (p_match pol)); [|apply coversT_ret].
    destruct (d mod w =? 0); [apply coversT_ret|].
    apply coversT_bind; [apply coversT_steps|]. intros _. apply coversT_tell, coversT_ret.
Qed.

Lemma covers_transform c pol w first last dst srcs2 :
  coversT (transform_it c pol w first last dst srcs2) (transform c pol w first last dst srcs2).
Proof.
  unfold transform_it, transform. cbv zeta. destruct (first =? last); [apply coversT_ret|].
  destruct (p_match pol && negb ((last - first) mod w =? 0)); [apply coversT_stop|]. destruct (c_ce c).
  - unfold transform_ce. cbv zeta. apply coversT_bind; [apply coversT_const|]. intros p1.
    apply coversT_bind; [apply coversT_steps|]. intros [ [f d] s]. apply coversT_ret.
  - unfold transform_rt. cbv zeta. destruct (prologue_args c pol w (last - first) dst) as [ [maxe tp]|].
    + apply coversT_bind; [apply coversT_steps|]. intros _. apply coversT_tell. apply coversT_body.
    + apply coversT_body.
Qed.

Lemma transform_covered c pol w first last dst srcs2 s f r i :
  In s (fst (transform c pol w first last dst srcs2)) -> t_srcs s = f :: r -> (i <= t_n s)%nat ->
  In (Moved (adv (t_k s * Z.of_nat i) (f :: t_dst s :: r)))
     (fst (transform_it c pol w first last dst srcs2)).
Proof.
  intros Hs E Hi. apply (covers_transform c pol w first last dst srcs2). apply in_flat_map. exists s.
  split; [assumption|]. unfold step_its, chunk_its, step_ptrs. rewrite E. apply in_map_iff.
  exists i. split; [reflexivity|]. apply in_seq. lia.
Qed.
