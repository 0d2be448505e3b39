(** A run of TReduceModel.transform_reduce_on that ends determines a run of c_transform_reduce that ends, for related
    operations. *)
From Verif Require Import Base BaseFacts ExecModel TransformModel ReduceModel ReduceProofs TReduceModel RCallsModel.
From Coq Require Import ZifyBool ZifyNat.
Ltac Zify.zify_post_hook ::= idtac.

Lemma bit_floor_le fuel : forall x y, 0 <= x -> bit_floor_loop fuel x = Some y -> 0 <= y <= x.
Proof.
  induction fuel as [|fuel IH]; intros x y Hx E; [discriminate|]. cbn [bit_floor_loop] in E. cbv zeta in E.
  destruct (_ =? 0); [injection E as <-; lia|].
  assert (H : 0 <= Z.land x ((x - 1) mod two64)) by (apply Z.land_nonneg; now left).
  pose proof (land_le x ((x - 1) mod two64) Hx). apply IH in E; lia.
Qed.

Lemma bit_floor_le1 x y : 0 <= x -> bit_floor x = Some y -> 0 <= y <= x.
Proof. exact (bit_floor_le 64 x y). Qed.

Lemma two_halves {B} (v : list B) n2z : 3 < Z.of_nat (length v) -> bit_floor (Z.of_nat (length v) / 2) = Some n2z ->
  let n2 := Z.to_nat n2z in
  length (firstn n2 v) = n2 /\ length (firstn n2 (skipn n2 v)) = n2 /\ 0 <= n2z.
Proof.
  intros H3 E n2. apply bit_floor_le1 in E; [|apply Z.div_pos; lia].
  pose proof (Z.mul_div_le (Z.of_nat (length v)) 2 ltac:(lia)).
  rewrite !firstn_length, skipn_length. unfold n2. lia.
Qed.

Section Sim.
  Context {A1 A2 St : Type} {EO : eval_order}.
  Variable R : A1 -> A2 -> Prop.
  Variables (op : A1 -> A1 -> A1) (ld1 : bool -> list Z -> Z -> res (list A1)).
  Variables (rop : St -> list A2 -> list A2 -> St * list A2) (sop : St -> A2 -> A2 -> St * A2)
            (ld2 : St -> bool -> list Z -> Z -> St * res (list A2)).
  Notation V := (Forall2 R).
  Hypothesis Hlen : forall al ps k v, 0 < k -> ld1 al ps k = Ok v -> length v = Z.to_nat k.
  Hypothesis Hld : forall al ps k v, 0 < k -> ld1 al ps k = Ok v ->
    forall s, exists s' v', ld2 s al ps k = (s', Ok v') /\ V v v'.
  Hypothesis Hrop : forall s a a' b b', V a a' -> V b b' -> length a = length b -> V (map2 op a b) (snd (rop s a' b')).
  Hypothesis Hsop : forall s x x' y y', R x x' -> R y y' -> R (op x y) (snd (sop s x' y')).

  Definition sim {X Y} (p : res X) (m : M (St := St) Y) (Rel : X -> Y -> Prop) : Prop :=
    forall x, p = Ok x -> forall s, exists es s' y, m s = (es, s', Ok y) /\ Rel x y.

  Lemma sim_ret {X Y} (x : X) (y : Y) (Rel : X -> Y -> Prop) : Rel x y -> sim (Ok x) (retM y) Rel.
  Proof. intros H x' E s. injection E as <-. exists [], s, y. split; [reflexivity|assumption]. Qed.

  Lemma sim_stop {X Y} e (m : M Y) (Rel : X -> Y -> Prop) : sim (Stop e) m Rel.
  Proof. intros x E. discriminate. Qed.

  Lemma sim_bind {X X' Y Y'} (p : res X) (m : M Y) Rel (f : X -> res X') (g : Y -> M Y') Rel' :
    sim p m Rel -> (forall x y, Rel x y -> sim (f x) (g y) Rel') -> sim (bindR p f) (bindM m g) Rel'.
  Proof.
    intros H1 H2 x E s. destruct p as [a|]; [|discriminate]. cbn [bindR] in E.
    destruct (H1 a eq_refl s) as (es & s1 & y & E1 & Hy). destruct (H2 a y Hy x E s1) as (es2 & s2 & z & E2 & Hz).
    exists (es ++ es2), s2, z. unfold bindM. rewrite E1, E2. auto.
  Qed.

  Lemma sim_weaken {X Y} (p : res X) (m : M Y) (Rel Rel' : X -> Y -> Prop) :
    (forall x y, Rel x y -> Rel' x y) -> sim p m Rel -> sim p m Rel'.
  Proof. intros H H1 x E s. destruct (H1 x E s) as (es & s' & y & E1 & Hy). eauto 6. Qed.

  Lemma v_length a a' : V a a' -> length a = length a'.
  Proof. induction 1; cbn; congruence. Qed.

  (** Objects of a given width. *)
  Definition VW (n : nat) (a : list A1) (a' : list A2) : Prop := V a a' /\ length a = n.

  Lemma sim_ld al ps k : 0 < k -> sim (ld1 al ps k) (call_transform ld2 al ps k) (VW (Z.to_nat k)).
  Proof.
    intros Hk x E s. destruct (Hld al ps k x Hk E s) as (s' & v' & E2 & HV). unfold call_transform. rewrite E2.
    exists [Transform ps k], s', v'. repeat split; [assumption|]. now apply (Hlen al ps).
  Qed.

  Lemma sim_vop a a' b b' : V a a' -> V b b' -> sim (vop op a b) (call_reduce rop a' b') (VW (length a)).
  Proof.
    intros Ha Hb x E s. unfold vop in E. destruct (Nat.eqb_spec (length a) (length b)) as [El|]; [|discriminate].
    injection E as <-. unfold call_reduce. rewrite <- (v_length _ _ Ha), <- (v_length _ _ Hb).
    rewrite (proj2 (Nat.eqb_eq _ _) El). pose proof (Hrop s a a' b b' Ha Hb El) as HV.
    destruct (rop s a' b') as [s' z]. cbn [snd] in HV.
    assert (Lz : length z = length a) by (rewrite <- (v_length _ _ HV); now apply map2_length).
    rewrite Lz, Nat.eqb_refl. do 3 eexists. split; [reflexivity|]. split; [assumption|]. now apply map2_length.
  Qed.

  Lemma sim_scalar x x' y y' : R x x' -> R y y' -> sim (Ok (op x y)) (call_scalar sop x' y') R.
  Proof.
    intros Hx Hy z E s. injection E as <-. unfold call_scalar. pose proof (Hsop s x x' y y' Hx Hy) as H.
    destruct (sop s x' y') as [s' z']. do 3 eexists. split; [reflexivity|exact H].
  Qed.

  Lemma sim_fold v v' : V v v' -> forall x x', R x x' -> sim (Ok (fold_left op v x)) (fold_scalar sop x' v') R.
  Proof.
    induction 1 as [|y y' v v' Hy Hv IH]; intros x x' Hx; cbn [fold_left fold_scalar]; [now apply sim_ret|].
    change (Ok (fold_left op v (op x y))) with (bindR (Ok (op x y)) (fun z => Ok (fold_left op v z))).
    eapply sim_bind; [now apply sim_scalar|]. intros z z' Hz. now apply IH.
  Qed.

  Lemma v_firstn n a a' : V a a' -> V (firstn n a) (firstn n a').
  Proof. intros H. revert n. induction H; intros [|n]; cbn; constructor; auto. Qed.
  Lemma v_skipn n a a' : V a a' -> V (skipn n a) (skipn n a').
  Proof. intros H. revert n. induction H; intros [|n]; cbn; try constructor; auto. Qed.

  Lemma sim_hred_fuel fuel : forall v v', V v v' ->
    sim (match reduce_fuel op fuel v with Some x => Ok x | None => Stop SIllFormed end) (hred_fuel rop sop fuel v') R.
  Proof.
    induction fuel as [|fuel IH]; intros v v' Hv; [apply sim_stop|].
    cbn [reduce_fuel hred_fuel]. rewrite <- (v_length _ _ Hv).
    destruct (Z.ltb_spec 3 (Z.of_nat (length v))) as [H3|H3].
    2:{ destruct Hv as [|x x' v v' Hx Hv]; [apply sim_stop|]. now apply sim_fold. }
    destruct (bit_floor _) as [n2z|] eqn:En; [|apply sim_stop]. cbv zeta.
    destruct (two_halves v n2z H3 En) as (L1 & L2 & _). set (n2 := Z.to_nat n2z) in *.
    pose proof (v_firstn n2 _ _ Hv) as V1. pose proof (v_firstn n2 _ _ (v_skipn n2 _ _ Hv)) as V2.
    pose proof (v_skipn (2 * n2) _ _ Hv) as V3.
    assert (Ev : vop op (firstn n2 v) (firstn n2 (skipn n2 v)) = Ok (map2 op (firstn n2 v) (firstn n2 (skipn n2 v)))).
    { unfold vop. rewrite L1, L2, Nat.eqb_refl. reflexivity. }
    pose proof (sim_vop _ _ _ _ V1 V2) as S1. rewrite Ev in S1. set (z := map2 op _ _) in *.
    assert (SL : sim (match reduce_fuel op fuel z with Some x => Ok x | None => Stop SIllFormed end)
                     (bindM (call_reduce rop (firstn n2 v') (firstn n2 (skipn n2 v'))) (fun z => hred_fuel rop sop fuel z)) R).
    { apply (sim_bind (Ok z) _ _
               (fun z => match reduce_fuel op fuel z with Some x => Ok x | None => Stop SIllFormed end) _ _ S1).
      intros y y' [Hy _]. now apply IH. }
    intros x E. revert x E.
    destruct (0 <? Z.of_nat (length v) - 2 * n2z); [|exact SL]. destruct (left_first (length v)).
    - assert (E2 : forall o1 o2 : option A1,
        match match o1, o2 with Some x, Some y => Some (op x y) | _, _ => None end with
        | Some x => Ok x | None => Stop SIllFormed end
        = bindR (match o1 with Some x => Ok x | None => Stop SIllFormed end) (fun x =>
          bindR (match o2 with Some x => Ok x | None => Stop SIllFormed end) (fun y => Ok (op x y)))).
      { intros [o1|] [o2|]; reflexivity. }
      rewrite E2. eapply sim_bind; [exact SL|]. intros a a' Ha.
      eapply sim_bind; [now apply IH|]. intros b b' Hb. now apply sim_scalar.
    - assert (E2 : forall o1 o2 : option A1,
        match match o1, o2 with Some x, Some y => Some (op x y) | _, _ => None end with
        | Some x => Ok x | None => Stop SIllFormed end
        = bindR (match o2 with Some x => Ok x | None => Stop SIllFormed end) (fun y =>
          bindR (match o1 with Some x => Ok x | None => Stop SIllFormed end) (fun x => Ok (op x y)))).
      { intros [o1|] [o2|]; reflexivity. }
      rewrite E2. eapply sim_bind; [now apply IH|]. intros b b' Hb.
      eapply sim_bind; [exact SL|]. intros a a' Ha. now apply sim_scalar.
  Qed.

  Lemma sim_hred v v' : V v v' -> sim (hreduce op v) (hred rop sop v') R.
  Proof.
    intros Hv. unfold hreduce, reduce, hred. rewrite <- (v_length _ _ Hv). now apply sim_hred_fuel.
  Qed.

  (** The scalar accumulator. *)
  Definition one (x : A1) (v : list A2) : Prop := V [x] v.

  Lemma sim_onto acc1 acc1' v v' : one acc1 acc1' -> V v v' ->
    sim (bindR (hreduce op v) (fun x => Ok (op acc1 x))) (onto rop sop acc1' v') one.
  Proof.
    intros H1 Hv. unfold onto. eapply sim_bind; [now apply sim_hred|]. intros x x' Hx.
    assert (Hx1 : V [x] [x']) by (constructor; [assumption|constructor]).
    intros z E s. injection E as <-.
    destruct (sim_vop [acc1] acc1' [x] [x'] H1 Hx1 [op acc1 x] eq_refl s) as (es & s' & y & E & [HV _]).
    exists es, s', y. auto.
  Qed.

  Lemma sim_lane0 x v : one x v -> sim (Ok x) (lane0 v) R.
  Proof. intros H. inversion H as [|? y ? ? Hy Hn]; subst. cbn [lane0]. now apply sim_ret. Qed.

  Lemma sim_final acc1 acc1' v v' : one acc1 acc1' -> V v v' ->
    sim (bindR (hreduce op v) (fun x => Ok (op acc1 x))) (bindM (onto rop sop acc1' v') lane0) R.
  Proof.
    intros H1 Hv. assert (E : forall p : res A1, p = bindR p (fun x => Ok x)) by (now intros []).
    rewrite (E (bindR _ _)). eapply sim_bind; [now apply sim_onto|]. intros x y Hxy. now apply sim_lane0.
  Qed.

  Lemma sim_last acc1 acc1' v v' : one acc1 acc1' -> V v v' -> length v = 1%nat ->
    sim (bindR (hreduce op v) (fun x => Ok (op acc1 x))) (last_reduce rop acc1' v') R.
  Proof.
    intros H1 Hv Hl. destruct v as [|x [|]]; try discriminate. 
    intros z E. change (hreduce op [x]) with (Ok x) in E. cbn [bindR] in E.
    change (Ok (op acc1 x) = Ok z) in E. revert z E.
    change (sim (bindR (vop op [acc1] [x]) (fun l => match l with y :: _ => Ok y | [] => Stop SUB end))
                (last_reduce rop acc1' v') R).
    unfold last_reduce. eapply sim_bind; [now apply sim_vop|]. intros l l' [Hl1 Hl2].
    destruct l as [|y [|]]; try discriminate. apply sim_lane0. exact Hl1.
  Qed.

  Definition VP n (p : list A1 * list A1) (q : list A2 * list A2) : Prop := V (fst p) (fst q) /\ V (snd p) (snd q)
    /\ length (fst p) = n.

  Lemma sim_split a b v v' : 0 <= a -> 0 <= b -> V v v' ->
    sim (split2 a b v) (split_at a b v') (VP (Z.to_nat a)).
  Proof.
    intros Ha Hb Hv. unfold split2, split_at. rewrite <- (v_length _ _ Hv).
    destruct (Z.eqb_spec (Z.of_nat (length v)) (a + b)); [|apply sim_stop]. apply sim_ret.
    split; [now apply v_firstn|]. split; [now apply v_skipn|]. cbn [fst]. rewrite firstn_length. lia.
  Qed.

  Lemma single_bit_pos s : has_single_bit s = true -> 0 < s.
  Proof. intros H. apply has_single_bit_spec in H. destruct H as (k & Hk & ->). apply pow2_pos. exact Hk. Qed.

  Lemma sim_prologue fuel : forall size mx acc1 acc1' ps tp, one acc1 acc1' ->
    sim (tr_prologue op ld1 fuel size mx acc1 ps tp) (c_prologue rop sop ld2 fuel size mx acc1' ps tp) one.
  Proof.
    induction fuel as [|fuel IH]; intros size mx acc1 acc1' ps tp H1; [apply sim_stop|].
    cbn [tr_prologue c_prologue]. destruct (has_single_bit size) eqn:Eb; [|apply sim_stop].
    destruct (has_single_bit mx); [|apply sim_stop]. cbn [negb andb].
    apply (sim_bind _ _ one).
    - destruct (_ =? 0); [now apply sim_ret|]. cbv zeta.
      eapply sim_bind; [apply sim_ld; now apply single_bit_pos|]. intros v v' [Hv _]. now apply sim_onto.
    - intros x y Hxy. destruct (size <? mx); [now apply IH|now apply sim_ret].
  Qed.

  Lemma sim_epilogue_acc fuel : forall s acc1 acc1' acc acc' ps lo al, one acc1 acc1' -> V acc acc' ->
    sim (tr_epilogue_acc op ld1 fuel s acc1 acc ps lo al) (c_epilogue_acc rop sop ld2 fuel s acc1' acc' ps lo al) R.
  Proof.
    induction fuel as [|fuel IH]; intros s acc1 acc1' acc acc' ps lo al H1 Hacc; [apply sim_stop|].
    cbn [tr_epilogue_acc c_epilogue_acc]. destruct (has_single_bit s) eqn:Eb; [|apply sim_stop].
    apply single_bit_pos in Eb. cbn [negb].
    assert (Hh : 0 <= s / 2) by (apply Z.div_pos; lia).
    destruct (negb _).
    - eapply sim_bind; [now apply sim_ld|]. intros v v' [Hv Lv].
      (* the new accumulator is as wide as what was loaded *)
      intros x E sx. destruct (vop op acc v) as [z|] eqn:Ez; [|discriminate].
      assert (Lz : length z = length v).
      { unfold vop in Ez. destruct (Nat.eqb_spec (length acc) (length v)) as [El|]; [|discriminate].
        injection Ez as <-. rewrite map2_length; assumption. }
      rewrite <- Ez in E. revert x E sx.
      change (sim (bindR (vop op acc v) (fun acc'0 =>
        if s =? 1 then bindR (hreduce op acc'0) (fun x => Ok (op acc1 x)) else
        if Z.land lo (s - 1) =? 0 then bindR (hreduce op acc'0) (fun x => Ok (op acc1 x)) else
        bindR (split2 (s / 2) (s / 2) acc'0) (fun lh =>
        bindR (vop op (fst lh) (snd lh)) (fun acc2 =>
        tr_epilogue_acc op ld1 fuel (s / 2) acc1 acc2 (adv s ps) lo al))))
        (bindM (call_reduce rop acc' v') (fun acc'0 =>
        if s =? 1 then last_reduce rop acc1' acc'0 else
        if Z.land lo (s - 1) =? 0 then bindM (onto rop sop acc1' acc'0) lane0 else
        bindM (split_at (s / 2) (s / 2) acc'0) (fun lh =>
        bindM (call_reduce rop (fst lh) (snd lh)) (fun acc2 =>
        c_epilogue_acc rop sop ld2 fuel (s / 2) acc1' acc2 (adv s ps) lo al)))) R).
      eapply sim_bind; [now apply sim_vop|]. intros z0 z' [Hz Lz0].
      assert (Lzs : s = 1 -> length z0 = 1%nat).
      { intros ->. rewrite Lz0. unfold vop in Ez. destruct (Nat.eqb_spec (length acc) (length v)) as [El|]; [|discriminate].
        rewrite El, Lv. reflexivity. }
      destruct (Z.eqb_spec s 1) as [E1|N1]; [apply sim_last; auto|].
      destruct (_ =? 0); [now apply sim_final|].
      eapply sim_bind; [now apply sim_split|]. intros p q (Hp1 & Hp2 & _).
      eapply sim_bind; [now apply sim_vop|]. intros a a' [Ha _]. now apply IH.
    - destruct (_ =? 0); [apply sim_stop|]. destruct (1 <? s); [|apply sim_stop].
      eapply sim_bind; [now apply sim_split|]. intros p q (Hp1 & Hp2 & _).
      eapply sim_bind; [now apply sim_vop|]. intros a a' [Ha _]. now apply IH.
  Qed.

  Lemma sim_epilogue fuel : forall s acc1 acc1' ps lo al, one acc1 acc1' ->
    sim (tr_epilogue op ld1 fuel s acc1 ps lo al) (c_epilogue rop sop ld2 fuel s acc1' ps lo al) R.
  Proof.
    induction fuel as [|fuel IH]; intros s acc1 acc1' ps lo al H1; [apply sim_stop|].
    cbn [tr_epilogue c_epilogue]. destruct (has_single_bit s) eqn:Eb; [|apply sim_stop].
    apply single_bit_pos in Eb. cbn [negb].
    assert (Hh : 0 <= s / 2) by (apply Z.div_pos; lia).
    destruct (negb _).
    - eapply sim_bind; [now apply sim_ld|]. intros v v' [Hv Lv].
      destruct (Z.eqb_spec s 1) as [E1|N1]; [apply sim_last; [assumption|assumption|subst s; exact Lv]|].
      destruct (_ =? 0); [now apply sim_final|].
      eapply sim_bind; [now apply sim_split|]. intros p q (Hp1 & Hp2 & _).
      eapply sim_bind; [now apply sim_vop|]. intros a a' [Ha _]. now apply sim_epilogue_acc.
    - destruct (_ =? 0); [apply sim_stop|]. destruct (1 <? s); [|apply sim_stop]. now apply IH.
  Qed.

  Lemma sim_onto_epilogue fuel s acc1 acc1' v v' acc acc' ps lo al : one acc1 acc1' -> V v v' -> V acc acc' ->
    sim (bindR (hreduce op v) (fun x => tr_epilogue_acc op ld1 fuel s (op acc1 x) acc ps lo al))
        (bindM (onto rop sop acc1' v') (fun a => c_epilogue_acc rop sop ld2 fuel s a acc' ps lo al)) R.
  Proof.
    intros H1 Hv Ha.
    assert (E : bindR (hreduce op v) (fun x => tr_epilogue_acc op ld1 fuel s (op acc1 x) acc ps lo al)
                = bindR (bindR (hreduce op v) (fun x => Ok (op acc1 x)))
                        (fun y => tr_epilogue_acc op ld1 fuel s y acc ps lo al)).
    { now destruct (hreduce op v). }
    rewrite E. apply (sim_bind _ _ one); [now apply sim_onto|]. intros x x' Hx. now apply sim_epilogue_acc.
  Qed.

  (** ** The accumulators *)
  Definition VS (n : nat) (l : list (list A1)) (l' : list (list A2)) : Prop := Forall2 (VW n) l l'.

  Lemma sim_ld_n al w n : 0 < w -> forall ps, sim (ld_n ld1 al ps w n) (c_ld_n ld2 al ps w n) (VS (Z.to_nat w)).
  Proof.
    intros Hw. induction n as [|n IH]; intros ps; cbn [ld_n c_ld_n]; [apply sim_ret; constructor|].
    eapply sim_bind; [now apply sim_ld|]. intros v v' Hv. eapply sim_bind; [apply IH|]. intros vs vs' Hvs.
    apply sim_ret. now constructor.
  Qed.

  Lemma vop_width a b z n : vop op a b = Ok z -> length a = n -> length z = n.
  Proof.
    unfold vop. destruct (Nat.eqb_spec (length a) (length b)) as [El|]; [|discriminate]. intros E Ha. injection E as <-.
    rewrite map2_length; assumption.
  Qed.

  Lemma sim_each al w : 0 < w -> forall n accs accs' ps, VS (Z.to_nat w) accs accs' ->
    sim (bindR (ld_n ld1 al ps w n) (fun vs => vop_n op accs vs)) (c_each rop ld2 al ps w accs') (VS (Z.to_nat w)).
  Proof.
    intros Hw. induction n as [|n IH]; intros accs accs' ps HV.
    - cbn [ld_n bindR]. destruct HV; [apply sim_ret; constructor|apply sim_stop].
    - destruct HV as [|a a' accs accs' Ha HV].
      + intros x E. cbn [ld_n] in E. destruct (ld1 al ps w); [|discriminate]. cbn [bindR] in E.
        destruct (ld_n ld1 al (adv w ps) w n); discriminate.
      + intros x E s. cbn [ld_n] in E. destruct (ld1 al ps w) as [v|] eqn:Ev; [|discriminate]. cbn [bindR] in E.
        destruct (ld_n ld1 al (adv w ps) w n) as [vs|] eqn:Evs; [|discriminate]. cbn [bindR vop_n] in E.
        destruct (vop op a v) as [z|] eqn:Ez; [|discriminate]. cbn [bindR] in E.
        destruct (vop_n op accs vs) as [zs|] eqn:Ezs; [|discriminate]. cbn [bindR] in E. injection E as <-.
        cbn [c_each].
        assert (S : sim (bindR (ld1 al ps w) (fun v => bindR (vop op a v) (fun z =>
                     bindR (bindR (ld_n ld1 al (adv w ps) w n) (fun vs => vop_n op accs vs)) (fun zs => Ok (z :: zs)))))
                   (bindM (call_transform ld2 al ps w) (fun v => bindM (call_reduce rop a' v) (fun z =>
                     bindM (c_each rop ld2 al (adv w ps) w accs') (fun zs => retM (z :: zs))))) (VS (Z.to_nat w))).
        { eapply sim_bind; [now apply sim_ld|]. intros v0 v0' [Hv0 _].
          eapply sim_bind; [apply sim_vop; [apply Ha|exact Hv0]|]. intros z0 z0' [Hz0 Lz0].
          eapply sim_bind; [now apply IH|]. intros zs0 zs0' Hzs. apply sim_ret. constructor; [|assumption].
          split; [assumption|]. rewrite Lz0. apply Ha. }
        apply S. rewrite Ev. cbn [bindR]. rewrite Ez. cbn [bindR]. rewrite Evs. cbn [bindR]. rewrite Ezs. reflexivity.
  Qed.

  Definition VR (n : nat) (r : list (list A1) * Z * list Z) (r' : list (list A2) * Z * list Z) : Prop :=
    VS n (fst (fst r)) (fst (fst r')) /\ snd (fst r) = snd (fst r') /\ snd r = snd r'.

  Lemma bindR_assoc {X Y Z0} (p : res X) (f : X -> res Y) (g : Y -> res Z0) :
    bindR p (fun x => bindR (f x) g) = bindR (bindR p f) g.
  Proof. now destruct p. Qed.

  Lemma sim_unrolled w n al ul : 0 < w -> forall fuel f ps accs accs', VS (Z.to_nat w) accs accs' ->
    sim (tr_unrolled op ld1 fuel w n al ul f ps accs) (c_unrolled rop ld2 fuel w n al ul f ps accs') (VR (Z.to_nat w)).
  Proof.
    intros Hw. induction fuel as [|fuel IH]; intros f ps accs accs' HV; [apply sim_stop|].
    cbn [tr_unrolled c_unrolled]. rewrite bindR_assoc. eapply sim_bind; [now apply sim_each|].
    intros a a' Ha. cbv zeta. destruct (_ <=? _); [now apply IH|]. apply sim_ret. repeat split. exact Ha.
  Qed.

  Lemma vs_nth n l l' : VS n l l' -> forall i, match nth_error l i, nth_error l' i with
    | Some a, Some a' => VW n a a' | None, None => True | _, _ => False end.
  Proof. induction 1 as [|x x' l l' Hx Hl IH]; intros [|i]; cbn [nth_error]; [exact I|exact I|exact Hx|apply IH]. Qed.

  Lemma vs_set n l l' i z z' : VS n l l' -> VW n z z' -> VS n (set_nth l i z) (set_nth l' i z').
  Proof.
    intros H Hz. unfold set_nth. apply Forall2_app.
    - revert i. induction H; intros [|i]; cbn; constructor; auto.
    - constructor; [assumption|]. revert i. induction H as [|x x' l l' Hx Hl IH]; intros i; cbn [skipn]; [constructor|].
      destruct i as [|i]; [exact Hl|apply IH].
  Qed.

  Lemma sim_tree_inner n nn j iis : forall l l', VS n l l' ->
    sim (tree_inner op nn j iis l) (c_tree_inner rop nn j iis l') (VS n).
  Proof.
    induction iis as [|ii iis IH]; intros l l' HV; cbn [tree_inner c_tree_inner]; [now apply sim_ret|].
    eapply sim_bind; [|intros a a' Ha; apply IH; exact Ha].
    unfold tree_one, c_tree_one. cbv zeta. destruct (_ <? _)%nat; [|now apply sim_ret].
    pose proof (vs_nth n l l' HV (ii * 2 * j)) as Ha. pose proof (vs_nth n l l' HV (ii * 2 * j + j)) as Hb.
    destruct (nth_error l (ii * 2 * j)) as [a|], (nth_error l' (ii * 2 * j)) as [a'|]; try contradiction; [|apply sim_stop].
    destruct (nth_error l (ii * 2 * j + j)) as [b|], (nth_error l' (ii * 2 * j + j)) as [b'|]; try contradiction; [|apply sim_stop].
    eapply sim_bind; [apply sim_vop; [apply Ha|apply Hb]|]. intros z z' [Hz Lz]. apply sim_ret. apply vs_set; [assumption|].
    split; [assumption|]. rewrite Lz. apply Ha.
  Qed.

  Lemma sim_tree_outer n nn os : forall l l', VS n l l' ->
    sim (tree_outer op nn os l) (c_tree_outer rop nn os l') (VS n).
  Proof.
    induction os as [|o os IH]; intros l l' HV; cbn [tree_outer c_tree_outer]; [now apply sim_ret|].
    apply (sim_bind _ _ (VS n)); [now apply sim_tree_inner|]. intros a a' Ha. now apply IH.
  Qed.

  Lemma sim_tree n nn l l' : VS n l l' -> sim (tree op nn l) (c_tree rop nn l') (VW n).
  Proof.
    intros HV. unfold tree, c_tree. apply (sim_bind _ _ (VS n)); [now apply sim_tree_outer|]. intros a a' Ha.
    destruct Ha as [|x x' a a' Hx Ha]; [apply sim_stop|now apply sim_ret].
  Qed.

  Definition VF (n : nat) (r : list A1 * Z * list Z) (r' : list A2 * Z * list Z) : Prop :=
    VW n (fst (fst r)) (fst (fst r')) /\ snd (fst r) = snd (fst r') /\ snd r = snd r'.

  Lemma sim_first pol w al f l ps : 0 < w ->
    sim (tr_first op ld1 pol w al f l ps) (c_first rop ld2 pol w al f l ps) (VF (Z.to_nat w)).
  Proof.
    intros Hw. unfold tr_first, c_first. cbv zeta.
    assert (S1 : sim (bindR (ld1 al ps w) (fun v => Ok (v, f + w, adv w ps)))
                     (bindM (call_transform ld2 al ps w) (fun v => retM (v, f + w, adv w ps))) (VF (Z.to_nat w))).
    { eapply sim_bind; [now apply sim_ld|]. intros v v' Hv. apply sim_ret. repeat split; apply Hv. }
    destruct (1 <? p_unroll pol); [|exact S1]. destruct (_ <=? _); [|exact S1]. clear S1.
    eapply sim_bind; [now apply sim_ld_n|]. intros accs accs' HV.
    eapply sim_bind; [now apply sim_unrolled|]. intros [[a f1] p1] [[a' f1'] p1'] (Ha & Hf & Hp). cbn in Ha, Hf, Hp. subst f1' p1'.
    apply (sim_bind _ _ (VW (Z.to_nat w))); [now apply sim_tree|]. intros z z' Hz. apply sim_ret. repeat split; apply Hz.
  Qed.

  Lemma sim_loop w mt al l : 0 < w -> forall fuel f ps acc acc', VW (Z.to_nat w) acc acc' ->
    sim (tr_loop op ld1 fuel mt w al l f ps acc) (c_loop rop ld2 fuel mt w al l f ps acc')
        (fun r r' => VW (Z.to_nat w) (fst r) (fst r') /\ snd r = snd r').
  Proof.
    intros Hw. induction fuel as [|fuel IH]; intros f ps acc acc' HV; [apply sim_stop|].
    cbn [tr_loop c_loop].
    destruct (if mt then negb (f =? l) else f <=? l - w); [|apply sim_ret; split; [exact HV|reflexivity]].
    eapply sim_bind; [now apply sim_ld|]. intros v v' [Hv _].
    eapply sim_bind; [apply sim_vop; [apply HV|exact Hv]|]. intros z z' [Hz Lz]. apply IH. split; [assumption|].
    rewrite Lz. apply HV.
  Qed.

  Lemma sim_body pol w al acc1 acc1' f l d ps : 0 < w -> one acc1 acc1' ->
    sim (tr_body op ld1 pol w al acc1 f l d ps) (c_body rop sop ld2 pol w al acc1' f l d ps) R.
  Proof.
    intros Hw H1. unfold tr_body, c_body. cbv zeta. destruct (_ || _).
    2:{ destruct (_ <? _); [now apply sim_epilogue|apply sim_stop]. }
    eapply sim_bind; [now apply sim_first|]. intros [[a f1] p1] [[a' f1'] p1'] (Ha & Hf & Hp). cbn in Ha, Hf, Hp. subst f1' p1'.
    eapply sim_bind; [now apply sim_loop|]. intros [z p2] [z' p2'] [[Hz Lz] Hp]. cbn in Hz, Lz, Hp. subst p2'.
    destruct (Z.eqb_spec w 1) as [E1|N1]; [apply sim_last; [assumption|assumption|subst w; exact Lz]|].
    destruct (_ || _); [now apply sim_final|].
    assert (Hlo : 0 <= bit_ceil w / 2 /\ 0 <= w - bit_ceil w / 2).
    { destruct (bit_ceil_half w ltac:(lia)) as (k & Hk & -> & Hkw). pose proof (pow2_pos k Hk). lia. }
    eapply sim_bind; [now apply sim_split|]. intros p q (Hp1 & Hp2 & _).
    destruct (_ =? _).
    - eapply sim_bind; [now apply sim_vop|]. intros x x' [Hx _]. now apply sim_epilogue_acc.
    - now apply sim_onto_epilogue.
  Qed.

  Lemma sim_const l : forall fuel f ps acc1 acc1', one acc1 acc1' ->
    sim (tr_const op ld1 fuel l f ps acc1) (c_const rop ld2 fuel l f ps acc1') R.
  Proof.
    induction fuel as [|fuel IH]; intros f ps acc1 acc1' H1; [apply sim_stop|]. cbn [tr_const c_const].
    destruct (f <? l); [|now apply sim_lane0].
    eapply sim_bind; [apply sim_ld; lia|]. intros v v' [Hv Lv].
    destruct v as [|x [|]]; try discriminate.
    change (hreduce op [x]) with (Ok x). cbn [bindR].
    assert (S1 : sim (vop op [acc1] [x]) (call_reduce rop acc1' v') (VW 1)) by (now apply (sim_vop [acc1])).
    intros y E. change (bindR (vop op [acc1] [x]) (fun z => match z with
                          | z :: _ => tr_const op ld1 fuel l (f + 1) (adv 1 ps) z | [] => Stop SUB end) = Ok y) in E.
    revert y E. eapply sim_bind; [exact S1|]. intros z z' [Hz Lz]. destruct z as [|z [|]]; try discriminate. now apply IH.
  Qed.

  Lemma sim_transform_reduce c pol w f l f2 init init' : 0 < w -> R init init' ->
    sim (transform_reduce_on op ld1 c pol w f l f2 init) (c_transform_reduce rop sop ld2 c pol w f l f2 init') R.
  Proof.
    intros Hw Hi. assert (H1 : one init [init']) by (constructor; [assumption|constructor]).
    unfold transform_reduce_on, c_transform_reduce. cbv zeta.
    destruct (f =? l); [now apply sim_ret|]. destruct (_ && _); [apply sim_stop|].
    destruct (c_ce c); [now apply sim_const|].
    destruct (prologue_args c pol w (l - f) f) as [[maxe tp]|]; [|now apply sim_body].
    eapply sim_bind; [now apply sim_prologue|]. intros x x' Hx. now apply sim_body.
  Qed.
End Sim.
