(** C12. *)
From Verif Require Import Base ExecModel ExecSpec PolicyModel PolicySpec.
From Coq Require Import Permutation ZifyBool.

Lemma fold_or (P : opt -> bool) os : forall b,
  fold_left (fun b o => b || P o) os b = b || existsb P os.
Proof.
  induction os as [|o os IH]; intros b; cbn; [now rewrite orb_false_r|].
  now rewrite IH, orb_assoc.
Qed.

Lemma fold_sum (V : opt -> Z) os : forall s,
  fold_left (fun s o => s + V o) os s = s + fold_right (fun o s => V o + s) 0 os.
Proof. induction os as [|o os IH]; intros s; cbn; [lia|]. rewrite IH. lia. Qed.

Lemma sum_app (V : opt -> Z) l l' :
  fold_right (fun o s => V o + s) 0 (l ++ l')
  = fold_right (fun o s => V o + s) 0 l + fold_right (fun o s => V o + s) 0 l'.
Proof. induction l; cbn; lia. Qed.

Lemma how_many_app P l l' : how_many P (l ++ l') = (how_many P l + how_many P l')%nat.
Proof. unfold how_many. now rewrite filter_app, app_length. Qed.

Lemma how_many_zero P l : how_many P l = 0%nat <-> forall o, In o l -> P o = false.
Proof.
  unfold how_many. induction l as [|o l IH]; cbn.
  - split; [intros _ o []|reflexivity].
  - destruct (P o) eqn:E; cbn.
    + split; [discriminate|]. intros H. rewrite (H o (or_introl eq_refl)) in E. discriminate.
    + rewrite IH. split.
      * intros H o' [->|Ho]; auto.
      * intros H o' Ho. auto.
Qed.

Lemma unroll_sum os :
  (how_many unrolls os <= 1)%nat ->
  (forall n, In (UnrollBy n) os -> fold_right (fun o s => unroll_value o + s) 0 os = n)
  /\ ((forall n, ~ In (UnrollBy n) os) -> fold_right (fun o s => unroll_value o + s) 0 os = 0).
Proof.
  assert (Hz : forall os, (forall n, ~ In (UnrollBy n) os) ->
                 fold_right (fun o s => unroll_value o + s) 0 os = 0).
  { induction os0 as [|o os0 IH]; intros H; [reflexivity|]. cbn [fold_right]. rewrite IH.
    - destruct o; cbn; try reflexivity. exfalso. apply (H n). now left.
    - intros n Hn. apply (H n). now right. }
  intros H1. split; [|apply Hz].
  induction os as [|o os IH]; intros n Hn; [destruct Hn|]. cbn [fold_right].
  unfold how_many in H1. cbn in H1. destruct Hn as [->|Hn].
  - cbn in H1. rewrite Hz; [cbn; lia|]. intros k Hk.
    assert (how_many unrolls os = 0%nat) as H0 by (unfold how_many; lia).
    rewrite how_many_zero in H0. specialize (H0 _ Hk). discriminate.
  - destruct o; cbn in H1; try (cbn; apply IH; [assumption|assumption]).
    exfalso. assert (how_many unrolls os = 0%nat) as H0 by (unfold how_many; lia).
    rewrite how_many_zero in H0. specialize (H0 _ Hn). discriminate.
Qed.

Lemma size_sum os :
  (how_many sizes os <= 1)%nat ->
  (forall n, In (PreferSize n) os -> fold_right (fun o s => size_value o + s) 0 os = n)
  /\ ((forall n, ~ In (PreferSize n) os) -> fold_right (fun o s => size_value o + s) 0 os = 0).
Proof.
  assert (Hz : forall os, (forall n, ~ In (PreferSize n) os) ->
                 fold_right (fun o s => size_value o + s) 0 os = 0).
  { induction os0 as [|o os0 IH]; intros H; [reflexivity|]. cbn [fold_right]. rewrite IH.
    - destruct o; cbn; try reflexivity. exfalso. apply (H n). now left.
    - intros n Hn. apply (H n). now right. }
  intros H1. split; [|apply Hz].
  induction os as [|o os IH]; intros n Hn; [destruct Hn|]. cbn [fold_right].
  unfold how_many in H1. cbn in H1. destruct Hn as [->|Hn].
  - cbn in H1. rewrite Hz; [cbn; lia|]. intros k Hk.
    assert (how_many sizes os = 0%nat) as H0 by (unfold how_many; lia).
    rewrite how_many_zero in H0. specialize (H0 _ Hk). discriminate.
  - destruct o; cbn in H1; try (cbn; apply IH; [assumption|assumption]).
    exfalso. assert (how_many sizes os = 0%nat) as H0 by (unfold how_many; lia).
    rewrite how_many_zero in H0. specialize (H0 _ Hn). discriminate.
Qed.

Lemma members_eq os : members os
  = mkpol (existsb is_aligned_opt os) (existsb is_auto_opt os) (existsb is_match_opt os)
          (fold_right (fun o s => unroll_value o + s) 0 os)
          (fold_right (fun o s => size_value o + s) 0 os).
Proof. unfold members. rewrite !fold_or, !fold_sum. reflexivity. Qed.

Lemma existsb_In (P : opt -> bool) o os :
  P o = true -> (forall o', P o' = true -> o' = o) -> (existsb P os = true <-> In o os).
Proof.
  intros Ho Hu. rewrite existsb_exists. split.
  - intros (x & Hx & Px). now rewrite <- (Hu x Px).
  - intros H. exists o. auto.
Qed.

Lemma legal_carries os : legal os -> carries (members os) os.
Proof.
  intros (_ & H2 & H3 & _). rewrite members_eq. unfold carries; cbn [p_aligned p_auto p_match p_unroll p_size].
  destruct (unroll_sum os H2), (size_sum os H3).
  repeat split; try assumption;
    try (intros H'; eapply existsb_In in H' || eapply existsb_In; [eassumption| |]; try reflexivity;
         intros [] ; cbn; congruence);
    try (apply existsb_In; [reflexivity|]; intros []; cbn; congruence).
Qed.

Lemma exclusive_zero os :
  how_many exclusive os = 0%nat <->
  existsb is_aligned_opt os = false /\ existsb is_auto_opt os = false /\ existsb is_match_opt os = false.
Proof.
  unfold how_many. induction os as [|o os IH]; cbn; [tauto|].
  destruct o; cbn; rewrite ?IH; try tauto; split; try discriminate; intros (A & B & C); discriminate.
Qed.

Lemma legal_snoc os o : legal (os ++ [o]) -> legal os.
Proof.
  unfold legal. rewrite !how_many_app. intros (H1 & H2 & H3 & H4 & H5).
  repeat split; try lia; intros n Hn; [apply H4|apply H5]; apply in_or_app; now left.
Qed.

Lemma modifier_legal os o : legal os ->
  (legal (os ++ [o]) -> modifier os o = Ok (os ++ [o]))
  /\ (forall os', modifier os o = Ok os' -> os' = os ++ [o] /\ legal (os ++ [o])).
Proof.
  intros (H1 & H2 & H3 & H4 & H5). unfold modifier. rewrite members_eq.
  cbn [p_aligned p_auto p_match p_unroll p_size].
  assert (Hin : forall P, In P (os ++ [o]) <-> In P os \/ P = o).
  { intros P. rewrite in_app_iff. cbn. intuition. }
  destruct (unroll_sum os H2) as [U1 U2]. destruct (size_sum os H3) as [S1 S2].
  assert (Hu0 : fold_right (fun o s => unroll_value o + s) 0 os = 0 <-> how_many unrolls os = 0%nat).
  { split.
    - intros E. apply how_many_zero. intros [] Ho; try reflexivity. specialize (U1 _ Ho).
      specialize (H4 _ Ho). lia.
    - intros E. apply U2. intros n Hn. rewrite how_many_zero in E. specialize (E _ Hn). discriminate. }
  assert (Hs0 : fold_right (fun o s => size_value o + s) 0 os = 0 <-> how_many sizes os = 0%nat).
  { split.
    - intros E. apply how_many_zero. intros [] Ho; try reflexivity. specialize (S1 _ Ho).
      specialize (H5 _ Ho). lia.
    - intros E. apply S2. intros n Hn. rewrite how_many_zero in E. specialize (E _ Hn). discriminate. }
  pose proof (exclusive_zero os) as He0.
  unfold legal. rewrite !how_many_app. unfold how_many at 2 4 6 8 10 12. cbn [filter length].
  destruct o; cbn [exclusive unrolls sizes length].
  - destruct (negb (existsb is_aligned_opt os) && negb (existsb is_auto_opt os)
              && negb (existsb is_match_opt os)) eqn:E.
    + split; [reflexivity|]. intros os' [= <-]. split; [reflexivity|].
      assert (how_many exclusive os = 0%nat) by (apply He0; repeat split; lia).
      repeat split; try lia; intros n Hn; apply Hin in Hn as [Hn|Hn]; try discriminate; auto.
    + split; [|discriminate]. intros (A & _). exfalso.
      assert (how_many exclusive os = 0%nat) as Z0 by lia. apply He0 in Z0. lia.
  - destruct (negb (existsb is_aligned_opt os) && negb (existsb is_auto_opt os)
              && negb (existsb is_match_opt os)) eqn:E.
    + split; [reflexivity|]. intros os' [= <-]. split; [reflexivity|].
      assert (how_many exclusive os = 0%nat) by (apply He0; repeat split; lia).
      repeat split; try lia; intros n Hn; apply Hin in Hn as [Hn|Hn]; try discriminate; auto.
    + split; [|discriminate]. intros (A & _). exfalso.
      assert (how_many exclusive os = 0%nat) as Z0 by lia. apply He0 in Z0. lia.
  - destruct (negb (existsb is_aligned_opt os) && negb (existsb is_auto_opt os)
              && negb (existsb is_match_opt os)) eqn:E.
    + split; [reflexivity|]. intros os' [= <-]. split; [reflexivity|].
      assert (how_many exclusive os = 0%nat) by (apply He0; repeat split; lia).
      repeat split; try lia; intros n Hn; apply Hin in Hn as [Hn|Hn]; try discriminate; auto.
    + split; [|discriminate]. intros (A & _). exfalso.
      assert (how_many exclusive os = 0%nat) as Z0 by lia. apply He0 in Z0. lia.
  - destruct ((fold_right (fun o s => unroll_value o + s) 0 os =? 0) && (1 <? n)) eqn:E.
    + split; [reflexivity|]. intros os' [= <-]. split; [reflexivity|].
      assert (how_many unrolls os = 0%nat) by (apply Hu0; lia).
      repeat split; try lia; intros k Hk; apply Hin in Hk as [Hk|Hk]; auto; [|discriminate].
      injection Hk as ->. lia.
    + split; [|discriminate]. intros (_ & A & _ & B & _). exfalso.
      assert (how_many unrolls os = 0%nat) as Z0 by lia. apply Hu0 in Z0.
      specialize (B n ltac:(apply Hin; now right)). lia.
  - destruct ((fold_right (fun o s => size_value o + s) 0 os =? 0) && (0 <? n)) eqn:E.
    + split; [reflexivity|]. intros os' [= <-]. split; [reflexivity|].
      assert (how_many sizes os = 0%nat) by (apply Hs0; lia).
      repeat split; try lia; intros k Hk; apply Hin in Hk as [Hk|Hk]; auto; [discriminate|].
      injection Hk as ->. lia.
    + split; [|discriminate]. intros (_ & _ & A & _ & B). exfalso.
      assert (how_many sizes os = 0%nat) as Z0 by lia. apply Hs0 in Z0.
      specialize (B n ltac:(apply Hin; now right)). lia.
Qed.

Lemma legal_prefix os calls : legal (os ++ calls) -> legal os.
Proof.
  revert os; induction calls as [|o calls IH] using rev_ind; intros os H.
  - now rewrite app_nil_r in H.
  - rewrite app_assoc in H. apply IH. now apply legal_snoc in H.
Qed.

Lemma chain_from_ok calls : forall os, legal os ->
  (legal (os ++ calls) -> chain_from os calls = Ok (os ++ calls))
  /\ (forall os', chain_from os calls = Ok os' -> os' = os ++ calls /\ legal os').
Proof.
  induction calls as [|o calls IH]; intros os Hl; cbn [chain_from].
  - rewrite app_nil_r. split; [reflexivity|]. intros os' [= <-]. auto.
  - destruct (modifier_legal os o Hl) as [M1 M2]. split.
    + intros H. replace (os ++ o :: calls) with ((os ++ [o]) ++ calls) in * by now rewrite <- app_assoc.
      pose proof (legal_prefix _ _ H) as Hp. rewrite (M1 Hp). cbn [bindR]. now apply IH.
    + intros os' E. destruct (modifier os o) as [os1|] eqn:Em; [|discriminate]. cbn [bindR] in E.
      destruct (M2 os1 eq_refl) as [-> Hl1]. apply IH in E; [|assumption].
      destruct E as [-> Hl']. split; [now rewrite <- app_assoc|assumption].
Qed.

Lemma legal_nil : legal [].
Proof. repeat split; cbn; try lia; intros n []. Qed.

Lemma chain_iff calls p : chain calls = Ok p <-> legal calls /\ p = members calls.
Proof.
  unfold chain. destruct (chain_from_ok calls [] legal_nil) as [C1 C2]. cbn [app] in *. split.
  - intros E. destruct (chain_from [] calls) as [os|] eqn:Ec; [|discriminate].
    destruct (C2 os eq_refl) as [-> Hl]. cbn in E. injection E as <-. auto.
  - intros [Hl ->]. now rewrite (C1 Hl).
Qed.

Lemma chain_ok calls p : chain calls = Ok p -> legal calls /\ carries p calls.
Proof. intros H. apply chain_iff in H as [Hl ->]. split; [assumption|now apply legal_carries]. Qed.

Lemma chain_complete calls : legal calls -> exists p, chain calls = Ok p.
Proof. intros H. exists (members calls). apply chain_iff. auto. Qed.

Lemma how_many_perm P l l' : Permutation l l' -> how_many P l = how_many P l'.
Proof.
  unfold how_many. induction 1; cbn; try congruence.
  - destruct (P x); cbn; congruence.
  - destruct (P x), (P y); reflexivity.
Qed.

Lemma dec_unroll calls : (exists n, In (UnrollBy n) calls) \/ (forall n, ~ In (UnrollBy n) calls).
Proof.
  induction calls as [|o l [[n Hn]|Hn]]; [right; intros n []|left; exists n; now right|].
  destruct o as [| | |n|n]; [| | |left; exists n; now left|];
    right; intros k [E|E]; try discriminate; now apply (Hn k).
Qed.

Lemma dec_size calls : (exists n, In (PreferSize n) calls) \/ (forall n, ~ In (PreferSize n) calls).
Proof.
  induction calls as [|o l [[n Hn]|Hn]]; [right; intros n []|left; exists n; now right|].
  destruct o as [| | |n|n]; [| | | |left; exists n; now left];
    right; intros k [E|E]; try discriminate; now apply (Hn k).
Qed.

Lemma carries_unique p p' calls : carries p calls -> carries p' calls -> p = p'.
Proof.
  intros (A1 & A2 & A3 & A4 & A5 & A6 & A7) (B1 & B2 & B3 & B4 & B5 & B6 & B7).
  destruct p as [a b c u z], p' as [a' b' c' u' z']. cbn [p_aligned p_auto p_match p_unroll p_size] in *.
  assert (Hb : forall (x y : bool) (P : Prop), (x = true <-> P) -> (y = true <-> P) -> x = y).
  { intros [] [] P [X1 X2] [Y1 Y2]; try reflexivity; [symmetry; apply Y2|apply X2]; auto. }
  f_equal; try (eapply Hb; eassumption).
  - pose proof (dec_unroll calls) as D.
    destruct D as [[n Hn]|Hn]; [rewrite (A4 n Hn), (B4 n Hn)|rewrite (A5 Hn), (B5 Hn)]; reflexivity.
  - pose proof (dec_size calls) as D.
    destruct D as [[n Hn]|Hn]; [rewrite (A6 n Hn), (B6 n Hn)|rewrite (A7 Hn), (B7 Hn)]; reflexivity.
Qed.

Lemma chain_perm calls calls' p : Permutation calls calls' -> chain calls = Ok p -> chain calls' = Ok p.
Proof.
  intros HP H. apply chain_ok in H as [Hl Hc].
  assert (Hl' : legal calls').
  { destruct Hl as (H1 & H2 & H3 & H4 & H5).
    unfold legal. rewrite <- !(how_many_perm _ _ _ HP).
    do 3 (split; [assumption|]). apply Permutation_sym in HP.
    split; intros n Hn; [apply H4|apply H5]; eapply Permutation_in; eassumption. }
  destruct (chain_complete _ Hl') as [p' Hp']. rewrite Hp'. f_equal.
  apply chain_ok in Hp' as [_ Hc']. apply (carries_unique _ _ calls'); [assumption|].
  destruct Hc as (A1 & A2 & A3 & A4 & A5 & A6 & A7).
  assert (Hin : forall o, In o calls <-> In o calls').
  { intros o. split; apply Permutation_in; [assumption|now apply Permutation_sym]. }
  split; [now rewrite <- Hin|]. split; [now rewrite <- Hin|]. split; [now rewrite <- Hin|].
  split; [|split; [|split]].
  - intros n Hn. apply A4. now apply Hin.
  - intros Hn. apply A5. intros n Hn'. apply (Hn n). now apply Hin.
  - intros n Hn. apply A6. now apply Hin.
  - intros Hn. apply A7. intros n Hn'. apply (Hn n). now apply Hin.
Qed.

Lemma chain_policy_ok calls p : chain calls = Ok p ->
  policy_ok p /\ (p_unroll p = 0 \/ 1 < p_unroll p) /\ 0 <= p_size p.
Proof.
  intros H. apply chain_ok in H as [(H1 & _ & _ & H4 & H5) (A1 & A2 & A3 & A4 & A5 & A6 & A7)].
  assert (Hex : forall o o', exclusive o = true -> exclusive o' = true -> In o calls -> In o' calls -> o = o').
  { intros o o' Ho Ho' Hi Hi'. unfold how_many in H1.
    assert (G1 : In o (filter exclusive calls)) by (apply filter_In; auto).
    assert (G2 : In o' (filter exclusive calls)) by (apply filter_In; auto).
    destruct (filter exclusive calls) as [|x [|y l]]; cbn in *; try lia; intuition congruence. }
  pose proof (dec_unroll calls) as D.
  pose proof (dec_size calls) as D'.
  split; [|split].
  - repeat split; intros E.
    + destruct (p_auto p) eqn:E'; [|reflexivity].
      discriminate (Hex PreferAligned AutoPrologue eq_refl eq_refl (proj1 A1 E) (proj1 A2 eq_refl)).
    + destruct (p_match p) eqn:E'; [|reflexivity].
      discriminate (Hex PreferAligned MatchSize eq_refl eq_refl (proj1 A1 E) (proj1 A3 eq_refl)).
    + destruct (p_match p) eqn:E'; [|reflexivity].
      discriminate (Hex AutoPrologue MatchSize eq_refl eq_refl (proj1 A2 E) (proj1 A3 eq_refl)).
  - destruct D as [[n Hn]|Hn]; [right; rewrite (A4 n Hn); now apply H4|left; now apply A5].
  - destruct D' as [[n Hn]|Hn]; [rewrite (A6 n Hn); specialize (H5 n Hn); lia|rewrite (A7 Hn); lia].
Qed.

Lemma chain_accepted calls : (exists p, chain calls = Ok p) <-> legal calls.
Proof.
  split; [intros [p H]; now apply chain_ok in H|apply chain_complete].
Qed.

Lemma chain_carries calls p : chain calls = Ok p -> carries p calls.
Proof. intros H. now apply chain_ok in H. Qed.
