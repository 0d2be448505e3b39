(** reduce computes a generalised sum. *)
From Verif Require Import Base BaseFacts ReduceModel ReduceSpec.
From Coq Require Import Permutation ZifyBool ZifyNat.
Ltac Zify.zify_post_hook ::= idtac.

(** ** bit_floor *)
Lemma clear_lowest_divide x k : 0 < x -> 0 <= k -> (2 ^ k | x) -> (2 ^ (k + 1) | Z.land x (x - 1)).
Proof.
  intros Hx Hk [y Hy]. pose proof (pow2_pos k Hk) as Hp.
  apply Z.mod_divide; [pose proof (pow2_pos (k+1) ltac:(lia)); lia|].
  rewrite <- Z.land_ones by lia. apply Z.bits_inj'. intros i Hi.
  rewrite !Z.land_spec, Z.bits_0, Z.testbit_ones_nonneg by lia.
  destruct (Z.ltb_spec i (k + 1)); [|now rewrite andb_false_r]. rewrite andb_true_r.
  destruct (Z.eq_dec i k) as [->|].
  - rewrite Hy. rewrite !Z.testbit_odd, !Z.shiftr_div_pow2 by lia.
    rewrite Z.div_mul by lia.
    replace (y * 2 ^ k - 1) with ((2 ^ k - 1) + (y - 1) * 2 ^ k) by lia.
    rewrite Z.div_add by lia. rewrite (Z.div_small (2 ^ k - 1)) by lia.
    rewrite Z.add_0_l, Z.odd_sub. destruct (Z.odd y); reflexivity.
  - rewrite Hy, Z.mul_pow2_bits_low by lia. reflexivity.
Qed.

Lemma clear_lowest_top x : 0 < x -> Z.land x (x - 1) <> 0 -> Z.log2 (Z.land x (x - 1)) = Z.log2 x.
Proof.
  intros Hx Hne. assert (Hl := Z.log2_spec x Hx). set (n := Z.log2 x) in *.
  assert (Hn : 0 <= n) by apply Z.log2_nonneg.
  destruct (Z.eq_dec x (2 ^ n)) as [E|N].
  - exfalso. apply Hne. rewrite E at 1. replace (x - 1) with (2 ^ n - 1) by lia.
    replace (2 ^ n - 1) with (Z.pred (2 ^ n)) by lia. rewrite <- Z.ones_equiv.
    rewrite Z.land_ones by lia. apply Z.mod_same. lia.
  - apply Z.le_antisymm.
    + etransitivity; [apply Z.log2_land; lia|]. unfold n. lia.
    + assert (Hle : 2 ^ n <= Z.land x (x - 1)).
      { assert (Hb : Z.testbit (Z.land x (x - 1)) n = true).
        { rewrite Z.land_spec. unfold n at 1. rewrite (Z.bit_log2 x) by assumption. cbn [andb].
          replace n with (Z.log2 (x - 1)); [apply Z.bit_log2; lia|].
          apply Z.log2_unique; lia. }
        assert (Hnn : 0 <= Z.land x (x - 1)) by (apply Z.land_nonneg; lia).
        destruct (Z_lt_le_dec (Z.land x (x - 1)) (2 ^ n)) as [Hlt|]; [|assumption].
        assert (2 ^ (n + 1) = 2 * 2 ^ n) by (rewrite Z.pow_add_r by lia; lia).
        rewrite testbit_small in Hb by lia. lia. }
      assert (Z.log2 (2 ^ n) <= Z.log2 (Z.land x (x - 1))) by (apply Z.log2_le_mono; exact Hle).
      rewrite Z.log2_pow2 in H by lia. exact H.
Qed.

Lemma bit_floor_loop_ok fuel : forall k x, 0 < x < two64 -> 0 <= k -> k + Z.of_nat fuel = 64 ->
  (2 ^ k | x) -> bit_floor_loop fuel x = Some (2 ^ Z.log2 x).
Proof.
  induction fuel as [|fuel IH]; intros k x Hx Hk Hf Hd.
  - exfalso. replace k with 64 in Hd by lia. apply Z.divide_pos_le in Hd; [|lia]. unfold two64 in Hx. lia.
  - cbn [bit_floor_loop]. rewrite (Z.mod_small (x - 1)) by lia.
    assert (Hle : Z.land x (x - 1) <= x) by (apply land_le; lia).
    assert (Hnn : 0 <= Z.land x (x - 1)) by (apply Z.land_nonneg; lia).
    destruct (Z.eqb_spec (Z.land x (x - 1)) 0) as [E|N].
    + f_equal. assert (Hl := Z.log2_spec x ltac:(lia)). set (n := Z.log2 x) in *.
      destruct (Z.eq_dec x (2 ^ n)) as [E'|N']; [exact E'|]. exfalso.
      assert (Hn : 0 <= n) by apply Z.log2_nonneg.
      assert (Hb : Z.testbit (Z.land x (x - 1)) n = true).
      { rewrite Z.land_spec. unfold n at 1. rewrite Z.bit_log2 by lia. cbn [andb].
        replace n with (Z.log2 (x - 1)); [apply Z.bit_log2; lia|]. apply Z.log2_unique; lia. }
      rewrite E, Z.bits_0 in Hb. discriminate.
    + rewrite (IH (k + 1)); [now rewrite clear_lowest_top by lia|lia|lia|lia|].
      apply clear_lowest_divide; try assumption; lia.
Qed.

Lemma bit_floor_ok x : 0 < x < two64 -> bit_floor x = Some (2 ^ Z.log2 x).
Proof. intros Hx. apply (bit_floor_loop_ok 64 0); try lia. apply Z.divide_1_l. Qed.

(** ** Generalised sums *)
Section GSum.
  Context {T : Type} (op : T -> T -> T).

  Lemma gsum_one x : gsum op [x] x.
  Proof. exists [x]. split; [reflexivity|constructor]. Qed.

  Lemma gsum_op l1 l2 a b : gsum op l1 a -> gsum op l2 b -> gsum op (l1 ++ l2) (op a b).
  Proof.
    intros (c1 & P1 & G1) (c2 & P2 & G2). exists (c1 ++ c2).
    split; [now apply Permutation_app|now constructor].
  Qed.

  Lemma gsum_perm l l' x : Permutation l l' -> gsum op l x -> gsum op l' x.
  Proof. intros P (c & Pc & G). exists c. split; [|exact G]. now rewrite <- P. Qed.

  Lemma fold_assoc x y l : assoc_comm op -> op x (fold_left op l y) = fold_left op l (op x y).
  Proof.
    intros [Ha _]. revert y. induction l as [|z l IH]; intros y; [reflexivity|].
    cbn. rewrite IH. now rewrite Ha.
  Qed.

  Lemma fold_perm x l l' : assoc_comm op -> Permutation l l' -> fold_left op l x = fold_left op l' x.
  Proof.
    intros [Ha Hc] P. revert x. induction P as [|u l l' P IH|u v l|l1 l2 l3 P1 IH1 P2 IH2];
      intros z; cbn; auto.
    - f_equal. now rewrite !Ha, (Hc u v).
    - now rewrite IH1.
  Qed.

  (** The fold over a non-empty list, permutation-invariant. *)
  Lemma fold_perm_cons x y l l' : assoc_comm op -> Permutation (x :: l) (y :: l') ->
    fold_left op l x = fold_left op l' y.
  Proof.
    intros Hac P. assert (Hac' := Hac). destruct Hac' as [Ha Hc].
    assert (Hin : In y (x :: l)) by (eapply Permutation_in; [symmetry; exact P|now left]).
    destruct Hin as [<-|Hin].
    - apply fold_perm; [assumption|]. now apply Permutation_cons_inv in P.
    - apply in_split in Hin. destruct Hin as (l1 & l2 & ->).
      assert (P' : Permutation (x :: l1 ++ l2) l').
      { apply Permutation_cons_inv with y. rewrite <- P. rewrite Permutation_middle.
        apply perm_trans with (y :: x :: (l1 ++ l2)); [|apply perm_trans with (x :: y :: l1 ++ l2);
          [apply perm_swap|apply perm_skip, Permutation_middle]].
        rewrite <- Permutation_middle. apply perm_skip. reflexivity. }
      rewrite (fold_perm x _ (y :: l1 ++ l2)); [|assumption|symmetry; apply Permutation_middle].
      cbn. rewrite Hc. rewrite (fold_perm y l' (x :: l1 ++ l2)); [reflexivity|assumption|now symmetry].
  Qed.

  Lemma gncsum_fold l x : assoc_comm op -> gncsum op l x -> exists y l', l = y :: l' /\ x = fold_left op l' y.
  Proof.
    intros Hac H. induction H as [x|l1 l2 a b H1 (y1 & r1 & -> & ->) H2 (y2 & r2 & -> & ->)].
    - exists x, []. split; reflexivity.
    - exists y1, (r1 ++ y2 :: r2). split; [reflexivity|]. rewrite fold_assoc by assumption.
      rewrite fold_left_app. cbn. reflexivity.
  Qed.

  Lemma gsum_fold x l r : assoc_comm op -> gsum op (x :: l) r -> r = fold_left op l x.
  Proof.
    intros Hac (c & P & G). destruct (gncsum_fold _ _ Hac G) as (y & l' & -> & ->).
    symmetry. now apply fold_perm_cons.
  Qed.

  Lemma gsum_nonempty l x : gsum op l x -> l <> [].
  Proof.
    intros (c & P & G) ->. apply Permutation_nil in P. subst.
    inversion G. destruct l1; [|discriminate]. destruct l2; [|discriminate].
    clear - H0. remember [] as l. induction H0; [discriminate|].
    apply app_eq_nil in Heql. tauto.
  Qed.

  Lemma fold_gsum l : forall x c, gsum op c x -> gsum op (c ++ l) (fold_left op l x).
  Proof.
    induction l as [|y l IH]; intros x c G; [now rewrite app_nil_r|].
    cbn. replace (c ++ y :: l) with ((c ++ [y]) ++ l) by (rewrite <- app_assoc; reflexivity).
    apply IH. apply gsum_op; [assumption|apply gsum_one].
  Qed.

  (** *** Vectors of partial sums *)
  Definition vsum (v : list T) (l : list T) : Prop :=
    exists C, Forall2 (gsum op) C v /\ Permutation (concat C) l.

  Lemma vsum_perm v l l' : Permutation l l' -> vsum v l -> vsum v l'.
  Proof. intros P (C & F & P'). exists C. split; [assumption|]. now rewrite P'. Qed.

  Lemma vsum_leaf v : vsum v v.
  Proof.
    exists (map (fun x => [x]) v). split.
    - induction v; constructor; [apply gsum_one|assumption].
    - induction v as [|x v IH]; [constructor|]. cbn. now apply perm_skip.
  Qed.

  Lemma map2_length a b : length a = length b -> length (map2 op a b) = length a.
  Proof.
    revert b. induction a as [|x a IH]; intros [|y b] H; cbn in *; try reflexivity; try discriminate.
    f_equal. apply IH. lia.
  Qed.

  Lemma vsum_op a b la lb : length a = length b -> vsum a la -> vsum b lb ->
    vsum (map2 op a b) (la ++ lb).
  Proof.
    intros Hlen (Ca & Fa & Pa) (Cb & Fb & Pb).
    apply vsum_perm with (concat Ca ++ concat Cb); [now apply Permutation_app|].
    clear Pa Pb la lb. revert b Cb Fb Hlen. induction Fa as [|ca x Ca a Hx Fa IH]; intros b Cb Fb Hlen.
    - destruct b; [|discriminate]. inversion Fb; subst. exists []. split; [constructor|reflexivity].
    - destruct b as [|y b]; [discriminate|]. inversion Fb as [|cb ? Cb' ? Hy Fb']; subst.
      destruct (IH b Cb' Fb' ltac:(cbn in Hlen; lia)) as (C & F & P).
      exists ((ca ++ cb) :: C). split; [constructor; [now apply gsum_op|assumption]|].
      cbn. rewrite P. rewrite <- !app_assoc. apply Permutation_app_head.
      rewrite !app_assoc. apply Permutation_app_tail. apply Permutation_app_comm.
  Qed.

  Lemma vsum_app a b l : vsum (a ++ b) l ->
    exists la lb, vsum a la /\ vsum b lb /\ Permutation l (la ++ lb).
  Proof.
    intros (C & F & P). apply Forall2_app_inv_r in F. destruct F as (Ca & Cb & Fa & Fb & ->).
    exists (concat Ca), (concat Cb). split; [now exists Ca|]. split; [now exists Cb|].
    rewrite <- P. now rewrite concat_app.
  Qed.

  Lemma vsum_fold v : forall l x c, vsum v l -> gsum op c x -> gsum op (c ++ l) (fold_left op v x).
  Proof.
    induction v as [|y v IH]; intros l x c (C & F & P) G.
    - inversion F; subst. cbn in P. apply Permutation_nil in P. subst. now rewrite app_nil_r.
    - inversion F as [|cy ? C' ? Hy F']; subst. cbn.
      apply gsum_perm with ((c ++ cy) ++ concat C').
      + rewrite <- app_assoc. apply Permutation_app_head. exact P.
      + apply IH; [now exists C'|]. now apply gsum_op.
  Qed.

  Lemma vsum_one x l : vsum [x] l -> gsum op l x.
  Proof.
    intros (C & F & P). inversion F as [|c ? C' ? Hc F']; subst. inversion F'; subst.
    cbn in P. rewrite app_nil_r in P. eapply gsum_perm; eassumption.
  Qed.

  Lemma reduce_ok fuel : forall v l, (length v <= fuel)%nat -> v <> [] ->
    Z.of_nat (length v) < two64 -> vsum v l ->
    exists x, reduce_fuel op fuel v = Some x /\ gsum op l x.
  Proof.
    induction fuel as [|fuel IH]; intros v l Hf Hne H64 Hs.
    - destruct v; [contradiction|cbn in Hf; lia].
    - cbn [reduce_fuel]. set (n := Z.of_nat (length v)) in *.
      destruct (Z.ltb_spec 3 n) as [H3|H3].
      + assert (Hh : 0 < n / 2 < two64).
        { split; [apply Z.div_str_pos; lia|]. apply Z.div_lt_upper_bound; unfold two64 in *; lia. }
        rewrite bit_floor_ok by exact Hh. set (N := 2 ^ Z.log2 (n / 2)).
        assert (HN : 0 < N /\ 2 * N <= n /\ 2 <= N).
        { assert (Hl := Z.log2_spec (n / 2) ltac:(lia)). fold N in Hl.
          assert (n / 2 * 2 <= n) by (pose proof (Z.mul_div_le n 2 ltac:(lia)); lia).
          assert (Hlog : 1 <= Z.log2 (n / 2)).
          { replace 1 with (Z.log2 2) by reflexivity. apply Z.log2_le_mono.
            apply Z.div_le_lower_bound; lia. }
          assert (2 ^ 1 <= N) by (unfold N; apply Z.pow_le_mono_r; lia). lia. }
        set (n2 := Z.to_nat N) in *.
        assert (El : length (firstn n2 v) = n2) by (rewrite firstn_length; lia).
        assert (Er : length (firstn n2 (skipn n2 v)) = n2)
          by (rewrite firstn_length, skipn_length; lia).
        assert (Ev : v = firstn n2 v ++ (firstn n2 (skipn n2 v) ++ skipn (2 * n2) v)).
        { rewrite <- (firstn_skipn n2 v) at 1. f_equal.
          rewrite <- (firstn_skipn n2 (skipn n2 v)) at 1. f_equal.
          rewrite skipn_skipn'. f_equal. lia. }
        rewrite Ev in Hs. apply vsum_app in Hs. destruct Hs as (la & lbc & Ha & Hbc & P1).
        apply vsum_app in Hbc. destruct Hbc as (lb & lc & Hb & Hc & P2).
        assert (Hab : vsum (map2 op (firstn n2 v) (firstn n2 (skipn n2 v))) (la ++ lb))
          by (apply vsum_op; [congruence|assumption|assumption]).
        assert (Hlen : length (map2 op (firstn n2 v) (firstn n2 (skipn n2 v))) = n2)
          by (rewrite map2_length; congruence).
        destruct (IH _ _ ltac:(rewrite Hlen; lia)
                     ltac:(intros E; rewrite E in Hlen; cbn in Hlen; lia)
                     ltac:(rewrite Hlen; lia) Hab) as (x & Ex & Gx).
        rewrite Ex.
        assert (Elc : length (skipn (2 * n2) v) = (length v - 2 * n2)%nat) by apply skipn_length.
        destruct (Z.ltb_spec 0 (n - 2 * N)) as [Hrem|Hrem].
        * destruct (IH (skipn (2 * n2) v) lc) as (y & Ey & Gy); [lia| |lia|assumption|].
          { intros E. rewrite E in Elc. cbn in Elc. lia. }
          rewrite Ey. exists (op x y). split; [reflexivity|].
          eapply gsum_perm; [|apply gsum_op; [exact Gx|exact Gy]].
          rewrite P1, P2. now rewrite app_assoc.
        * exists x. split; [reflexivity|]. eapply gsum_perm; [|exact Gx].
          assert (Enil : skipn (2 * n2) v = []) by (apply length_zero_iff_nil; lia).
          rewrite Enil in Hc. destruct Hc as (C & F & P). inversion F; subst. cbn in P.
          apply Permutation_nil in P. subst. rewrite app_nil_r in P2. now rewrite P1, P2.
      + destruct v as [|x v]; [contradiction|]. exists (fold_left op v x). split; [reflexivity|].
        change (x :: v) with ([x] ++ v) in Hs. apply vsum_app in Hs.
        destruct Hs as (la & lb & Ha & Hb & P). apply vsum_one in Ha.
        eapply gsum_perm; [symmetry; exact P|]. now apply vsum_fold.
  Qed.

  Lemma reduce_vsum v l : v <> [] -> Z.of_nat (length v) < two64 -> vsum v l ->
    exists x, reduce op v = Some x /\ gsum op l x.
  Proof. intros. now apply reduce_ok. Qed.

  Lemma reduce_gsum v : v <> [] -> Z.of_nat (length v) < two64 ->
    exists x, reduce op v = Some x /\ gsum op v x.
  Proof. intros H1 H2. apply reduce_vsum; [assumption|assumption|apply vsum_leaf]. Qed.
End GSum.
