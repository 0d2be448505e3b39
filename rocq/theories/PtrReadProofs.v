(** The loads of transform_reduce are at the iterators recorded by transform_reduce_it. *)
From Verif Require Import Base ExecModel TransformModel TReduceModel TReduceProofs PtrModel.

Section reads.
  Context {A : Type}.
  Variables (op : A -> A -> A) (ld1 ld2 : bool -> list Z -> Z -> res (list A)).

  Definition same_at (l : list itv) : Prop :=
    forall al ps k, In (Moved ps) l -> ld1 al ps k = ld2 al ps k.

  Lemma same_app l l' : same_at (l ++ l') -> same_at l /\ same_at l'.
  Proof. intros H. split; intros al ps k Hi; apply H, in_or_app; auto. Qed.

  Lemma same_bind {X Y} (x : P X) (f : X -> P Y) : same_at (fst (bindP x f)) ->
    same_at (fst x) /\ forall a, snd x = Ok a -> same_at (fst (f a)).
  Proof.
    destruct x as [l [a|s] ]; cbn [bindP fst snd].
    - destruct (f a) as [l' r] eqn:E. cbn [fst]. intros H. apply same_app in H.
      split; [tauto|]. intros a' Ea. injection Ea as <-. rewrite E. tauto.
    - intros H. split; [assumption|discriminate].
  Qed.

  Lemma same_one al ps k : same_at [Moved ps] -> ld1 al ps k = ld2 al ps k.
  Proof. intros H. apply H. now left. Qed.

  Lemma bindR_ext {X Y} (x y : res X) (f g : X -> res Y) : x = y -> (forall a, x = Ok a -> f a = g a) ->
    bindR x f = bindR y g.
  Proof. intros <- H. destruct x; cbn; [now apply H|reflexivity]. Qed.

  Lemma ld_n_same al w n : forall ps, same_at (chunk_its ps w n) -> ld_n ld1 al ps w n = ld_n ld2 al ps w n.
  Proof.
    assert (H : forall n ps, (forall i, (i < n)%nat -> ld1 al (adv (w * Z.of_nat i) ps) w
                                                       = ld2 al (adv (w * Z.of_nat i) ps) w) ->
                ld_n ld1 al ps w n = ld_n ld2 al ps w n).
    { clear n. induction n as [|n IH]; intros ps H; [reflexivity|]. cbn [ld_n].
      assert (H0 := H 0%nat ltac:(lia)). rewrite Z.mul_0_r, adv_0 in H0.
      apply bindR_ext; [exact H0|]. intros v _. apply bindR_ext; [|reflexivity]. apply IH.
      intros i Hi. rewrite adv_adv. replace (w + w * Z.of_nat i) with (w * Z.of_nat (S i)) by lia.
      apply H. lia. }
    intros ps Hs. apply H. intros i Hi. apply Hs. unfold chunk_its. apply in_map_iff.
    exists i. split; [reflexivity|]. apply in_seq. lia.
  Qed.

  Lemma chunk_first al ps w n k : same_at (chunk_its ps w n) -> ld1 al ps k = ld2 al ps k.
  Proof.
    intros H. apply H. unfold chunk_its. cbn [seq map]. left. f_equal. rewrite Z.mul_0_r. apply adv_0.
  Qed.

  Lemma tr_prologue_same max tp ps fuel : forall size acc1,
    same_at (fst (tr_prologue_it fuel size max ps tp)) ->
    tr_prologue op ld1 fuel size max acc1 ps tp = tr_prologue op ld2 fuel size max acc1 ps tp.
  Proof.
    induction fuel as [|fuel IH]; intros size acc1; [reflexivity|]. cbn [tr_prologue tr_prologue_it].
    destruct (negb (has_single_bit size && has_single_bit max)); [reflexivity|]. intros H.
    apply same_bind in H. destruct H as [H1 H2]. destruct (Z.land tp size =? 0).
    - cbn [bindR]. specialize (H2 tt eq_refl). destruct (size <? max); [now apply IH|reflexivity].
    - specialize (H2 tt eq_refl). apply bindR_ext.
      + apply bindR_ext; [now apply same_one|reflexivity].
      + intros a _. destruct (size <? max); [now apply IH|reflexivity].
  Qed.

  Lemma tr_epilogue_acc_same leftover al fuel : forall s acc1 acc ps,
    same_at (fst (tr_epilogue_it fuel s ps leftover)) ->
    tr_epilogue_acc op ld1 fuel s acc1 acc ps leftover al = tr_epilogue_acc op ld2 fuel s acc1 acc ps leftover al.
  Proof.
    induction fuel as [|fuel IH]; intros s acc1 acc ps; [reflexivity|]. cbn [tr_epilogue_acc tr_epilogue_it].
    destruct (negb (has_single_bit s)); [reflexivity|].
    destruct (negb (Z.land leftover s =? 0)).
    - intros H. apply same_bind in H. destruct H as [H1 H2]. specialize (H2 tt eq_refl).
      apply bindR_ext; [now apply same_one|]. intros v _. apply bindR_ext; [reflexivity|]. intros a _.
      destruct (s =? 1); [reflexivity|]. destruct (Z.land leftover (s - 1) =? 0); [reflexivity|].
      apply same_bind in H2. destruct H2 as [_ H2]. specialize (H2 tt eq_refl).
      apply bindR_ext; [reflexivity|]. intros lh _. apply bindR_ext; [reflexivity|]. intros acc2 _. now apply IH.
    - destruct (Z.land leftover (s - 1) =? 0); [reflexivity|]. destruct (1 <? s); [|reflexivity].
      intros H. apply bindR_ext; [reflexivity|]. intros lh _. apply bindR_ext; [reflexivity|].
      intros acc2 _. now apply IH.
  Qed.

  Lemma tr_epilogue_same leftover al fuel : forall s acc1 ps,
    same_at (fst (tr_epilogue_it fuel s ps leftover)) ->
    tr_epilogue op ld1 fuel s acc1 ps leftover al = tr_epilogue op ld2 fuel s acc1 ps leftover al.
  Proof.
    induction fuel as [|fuel IH]; intros s acc1 ps; [reflexivity|]. cbn [tr_epilogue tr_epilogue_it].
    destruct (negb (has_single_bit s)); [reflexivity|].
    destruct (negb (Z.land leftover s =? 0)).
    - intros H. apply same_bind in H. destruct H as [H1 H2]. specialize (H2 tt eq_refl).
      apply bindR_ext; [now apply same_one|]. intros v _.
      destruct (s =? 1); [reflexivity|]. destruct (Z.land leftover (s - 1) =? 0); [reflexivity|].
      apply same_bind in H2. destruct H2 as [_ H2]. specialize (H2 tt eq_refl).
      apply bindR_ext; [reflexivity|]. intros lh _. apply bindR_ext; [reflexivity|]. intros acc2 _.
      now apply tr_epilogue_acc_same.
    - destruct (Z.land leftover (s - 1) =? 0); [reflexivity|]. destruct (1 <? s); [|reflexivity].
      intros H. now apply IH.
  Qed.

  (** The loops also return where they have got to. *)
  Definition same_end {X} (r : res (X * Z * list Z)) (x : P (Z * list Z)) : Prop :=
    match r with Ok (_, f, ps) => snd x = Ok (f, ps) | Stop _ => True end.

  Lemma snd_bind {X Y} (x : P X) (f : X -> P Y) a : snd x = Ok a -> snd (bindP x f) = snd (f a).
  Proof. destruct x as [l r]. cbn. intros ->. cbn. destruct (f a). reflexivity. Qed.

  Ltac sb := erewrite (snd_bind _ _ tt) by reflexivity; cbv beta zeta.

  Lemma tr_unrolled_same w n al limit fuel : forall f ps accs,
    same_at (fst (tr_unrolled_it fuel w n limit f ps)) ->
    tr_unrolled op ld1 fuel w n al limit f ps accs = tr_unrolled op ld2 fuel w n al limit f ps accs
    /\ same_end (tr_unrolled op ld1 fuel w n al limit f ps accs) (tr_unrolled_it fuel w n limit f ps).
  Proof.
    induction fuel as [|fuel IH]; intros f ps accs; [cbn; auto|]. cbn [tr_unrolled tr_unrolled_it].
    intros H. apply same_bind in H. destruct H as [H1 H2]. specialize (H2 tt eq_refl). cbv zeta in H2.
    cbn [fst tellsP] in H1. rewrite (ld_n_same al w n ps H1).
    destruct (ld_n ld2 al ps w n) as [vs|s]; [cbn [bindR]|cbn; auto].
    destruct (vop_n op accs vs) as [accs'|s]; [cbn [bindR]|cbn; auto]. cbv zeta.
    destruct (f + w * Z.of_nat n <=? limit) eqn:E.
    - destruct (IH _ _ accs' H2) as [I1 I2]. split; [exact I1|].
      unfold same_end in *. destruct (tr_unrolled op ld1 fuel w n al limit (f + w * Z.of_nat n) _ accs')
        as [ [ [x f'] ps']|]; [|trivial].
      sb. try rewrite E. exact I2.
    - split; [reflexivity|]. cbn [same_end]. sb. try rewrite E. reflexivity.
  Qed.

  Lemma tr_first_same pol w al f last ps : same_at (fst (tr_first_it pol w f last ps)) ->
    tr_first op ld1 pol w al f last ps = tr_first op ld2 pol w al f last ps
    /\ same_end (tr_first op ld1 pol w al f last ps) (tr_first_it pol w f last ps).
  Proof.
    assert (Hs : same_at (fst (bindP (tellsP (chunk_its ps w 1)) (fun _ => retP (f + w, adv w ps)))) ->
                 bindR (ld1 al ps w) (fun v => Ok (v, f + w, adv w ps))
                 = bindR (ld2 al ps w) (fun v => Ok (v, f + w, adv w ps))
                 /\ same_end (bindR (ld1 al ps w) (fun v => Ok (v, f + w, adv w ps)))
                      (bindP (tellsP (chunk_its ps w 1)) (fun _ => retP (f + w, adv w ps)))).
    { intros H. apply same_bind in H. destruct H as [H _]. cbn [fst tellsP] in H.
      rewrite (chunk_first al ps w 1 w H). split; [reflexivity|].
      destruct (ld2 al ps w); cbn; [reflexivity|trivial]. }
    unfold tr_first, tr_first_it. cbv zeta. destruct (1 <? p_unroll pol); [|exact Hs].
    intros H. apply same_bind in H. destruct H as [_ H]. specialize (H tt eq_refl).
    apply same_bind in H. destruct H as [_ H]. specialize (H tt eq_refl).
    destruct (f + w * p_unroll pol <=? last - w * p_unroll pol) eqn:E.
    - apply same_bind in H. destruct H as [H1 H2]. specialize (H2 tt eq_refl). cbn [fst tellsP] in H1.
      rewrite (ld_n_same al w _ ps H1).
      destruct (ld_n ld2 al ps w (Z.to_nat (p_unroll pol))) as [accs|s]; [cbn [bindR]|cbn; auto].
      destruct (tr_unrolled_same w (Z.to_nat (p_unroll pol)) al _ _ _ _ accs H2) as [I1 I2].
      rewrite <- I1. unfold same_end in I2.
      destruct (tr_unrolled op ld1 _ w _ al _ _ _ accs) as [ [ [accs' f'] ps']|]; [cbn [bindR]|cbn; auto].
      split; [reflexivity|]. destruct (tree op (Z.to_nat (p_unroll pol)) accs'); cbn [bindR same_end]; [|trivial].
      sb. sb. try rewrite E. sb. exact I2.
    - destruct (Hs H) as [I1 I2]. split; [exact I1|]. unfold same_end in *.
      destruct (bindR (ld1 al ps w) (fun v => Ok (v, f + w, adv w ps))) as [ [ [x f'] ps']|]; [|trivial].
      sb. sb. try rewrite E. exact I2.
  Qed.

  Lemma tr_loop_same matching w al last fuel : forall f ps acc,
    same_at (fst (tr_loop_it fuel matching w last f ps)) ->
    tr_loop op ld1 fuel matching w al last f ps acc = tr_loop op ld2 fuel matching w al last f ps acc
    /\ match tr_loop op ld1 fuel matching w al last f ps acc with
       | Ok (_, ps') => snd (tr_loop_it fuel matching w last f ps) = Ok ps'
       | Stop _ => True
       end.
  Proof.
    induction fuel as [|fuel IH]; intros f ps acc; [cbn; auto|]. cbn [tr_loop tr_loop_it].
    destruct (if matching then negb (f =? last) else f <=? last - w); [|cbn; auto].
    intros H. apply same_bind in H. destruct H as [H1 H2]. specialize (H2 tt eq_refl).
    cbn [fst tellsP] in H1. rewrite (chunk_first al ps w 1 w H1).
    destruct (ld2 al ps w) as [v|s]; [cbn [bindR]|cbn; auto].
    destruct (vop op acc v) as [acc'|s]; [cbn [bindR]|cbn; auto].
    destruct (IH _ _ acc' H2) as [I1 I2]. split; [exact I1|].
    destruct (tr_loop op ld1 fuel matching w al last (f + w) (adv w ps) acc') as [ [x ps']|]; [|trivial].
    sb. exact I2.
  Qed.

  Lemma tr_body_same pol w al acc1 f last d ps : same_at (fst (tr_body_it pol w f last d ps)) ->
    tr_body op ld1 pol w al acc1 f last d ps = tr_body op ld2 pol w al acc1 f last d ps.
  Proof.
    unfold tr_body, tr_body_it. cbv zeta. intros H. apply same_bind in H. destruct H as [_ H].
    specialize (H tt eq_refl). destruct (p_match pol || (f <=? last - w)).
    - apply same_bind in H. destruct H as [H1 H2].
      destruct (tr_first_same pol w al f last ps H1) as [I1 I2].
      apply bindR_ext; [exact I1|]. intros [ [acc0 f'] ps1] Ea. rewrite Ea in I2. cbn [same_end] in I2.
      specialize (H2 _ I2). cbv beta iota in H2. apply same_bind in H2. destruct H2 as [H2 H3].
      destruct (tr_loop_same (p_match pol) w al last (loop_fuel f last) f' ps1 acc0 H2) as [I3 I4].
      apply bindR_ext; [exact I3|]. intros [acc ps2] Eb. rewrite Eb in I4.
      specialize (H3 _ I4). destruct (w =? 1); [reflexivity|].
      destruct (p_match pol || (d mod w =? 0)); [reflexivity|].
      apply bindR_ext; [reflexivity|]. intros lh _.
      destruct (bit_ceil w / 2 =? w - bit_ceil w / 2).
      + apply bindR_ext; [reflexivity|]. intros acc2 _. now apply tr_epilogue_acc_same.
      + apply bindR_ext; [reflexivity|]. intros x _. now apply tr_epilogue_acc_same.
    - destruct (0 <? bit_ceil w / 2); [|reflexivity]. now apply tr_epilogue_same.
  Qed.

  Lemma tr_const_same last fuel : forall f ps acc1, same_at (fst (tr_const_it fuel last f ps)) ->
    tr_const op ld1 fuel last f ps acc1 = tr_const op ld2 fuel last f ps acc1.
  Proof.
    induction fuel as [|fuel IH]; intros f ps acc1; [reflexivity|]. cbn [tr_const tr_const_it].
    destruct (f <? last); [|reflexivity]. intros H. apply same_bind in H. destruct H as [H1 H2].
    specialize (H2 tt eq_refl). cbn [fst tellsP] in H1. rewrite (chunk_first false ps 1 1 1 H1).
    apply bindR_ext; [reflexivity|]. intros r _. apply bindR_ext; [reflexivity|]. intros x _. now apply IH.
  Qed.

  Lemma tr_prologue_ok max tp ps fuel : forall size acc1 a,
    tr_prologue op ld1 fuel size max acc1 ps tp = Ok a ->
    snd (tr_prologue_it fuel size max ps tp) = Ok tt.
  Proof.
    induction fuel as [|fuel IH]; intros size acc1 a; [discriminate|]. cbn [tr_prologue tr_prologue_it].
    destruct (negb (has_single_bit size && has_single_bit max)); [discriminate|].
    destruct (Z.land tp size =? 0).
    - cbn [bindR]. sb. destruct (size <? max); [apply IH|reflexivity].
    - sb. destruct (bindR (ld1 _ _ _) _) as [a'|]; [cbn [bindR]|discriminate].
      destruct (size <? max); [apply IH|reflexivity].
  Qed.

  Lemma transform_reduce_same c pol w first last srcs2 init :
    (forall al ps k, In (Moved ps) (fst (transform_reduce_it c pol w first last srcs2)) ->
                     ld1 al ps k = ld2 al ps k) ->
    transform_reduce_on op ld1 c pol w first last srcs2 init
    = transform_reduce_on op ld2 c pol w first last srcs2 init.
  Proof.
    intros H. change (same_at (fst (transform_reduce_it c pol w first last srcs2))) in H. revert H.
    unfold transform_reduce_on, transform_reduce_it. cbv zeta.
    destruct (first =? last); [reflexivity|].
    destruct (p_match pol && negb ((last - first) mod w =? 0)); [reflexivity|].
    destruct (c_ce c); [apply tr_const_same|].
    destruct (prologue_args c pol w (last - first) first) as [ [maxe tp]|].
    - intros H. apply same_bind in H. destruct H as [H1 H2].
      apply bindR_ext; [exact (tr_prologue_same maxe tp (first :: srcs2) 65 1 init H1)|]. intros a Ep.
      specialize (H2 tt (tr_prologue_ok maxe tp (first :: srcs2) _ _ _ _ Ep)). apply same_bind in H2.
      destruct H2 as [_ H2]. specialize (H2 tt eq_refl). now apply tr_body_same.
    - apply tr_body_same.
  Qed.
End reads.
