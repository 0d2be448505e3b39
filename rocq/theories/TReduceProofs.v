(** transform_reduce computes a generalised sum: control flow on an abstract, correct load. *)
From Verif Require Import Base BaseFacts ExecModel TransformModel ReduceModel ReduceSpec ReduceProofs
  TReduceModel.
From Coq Require Import Permutation ZifyBool ZifyNat.
Ltac Zify.zify_post_hook ::= idtac.

Lemma adv_adv a b l : adv a (adv b l) = adv (b + a) l.
Proof. unfold adv. rewrite map_map. apply map_ext. intros; lia. Qed.

Lemma adv_0 l : adv 0 l = l.
Proof. unfold adv. rewrite <- (map_id l) at 2. apply map_ext. intros; lia. Qed.

Lemma single_bit_pow2 j : 0 <= j -> has_single_bit (2 ^ j) = true.
Proof. intros H. apply has_single_bit_spec. now exists j. Qed.

Lemma mod_pow2_split x j : 0 <= j ->
  x mod 2 ^ (j + 1) = (if Z.testbit x j then 2 ^ j else 0) + x mod 2 ^ j.
Proof.
  intros Hj. pose proof (pow2_pos j Hj).
  rewrite Z.pow_add_r by lia. change (2 ^ 1) with 2.
  rewrite Z.rem_mul_r by lia. rewrite (Z.testbit_odd x j), Z.shiftr_div_pow2 by lia.
  rewrite Zmod_odd. destruct (Z.odd (x / 2 ^ j)); lia.
Qed.

Lemma land_pred_pow2 x j : 0 <= j -> Z.land x (2 ^ j - 1) = x mod 2 ^ j.
Proof.
  intros Hj. replace (2 ^ j - 1) with (Z.pred (2 ^ j)) by lia. rewrite <- Z.ones_equiv.
  apply Z.land_ones. exact Hj.
Qed.

Lemma pow2_half j : 1 <= j -> 2 ^ j / 2 = 2 ^ (j - 1) /\ 2 ^ j = 2 ^ (j - 1) + 2 ^ (j - 1).
Proof.
  intros Hj. replace j with ((j - 1) + 1) at 1 3 by lia. rewrite Z.pow_add_r by lia.
  change (2 ^ 1) with 2. rewrite Z.div_mul by lia. lia.
Qed.

Section TR.
  Context {A : Type}.
  Variables (op : A -> A -> A) (ldf : bool -> list Z -> Z -> res (list A)).
  Variables (ps0 : list Z) (vals : list A).
  (** The chunks (position and number of lanes) for which something is known about the loads. *)
  Variable usable : Z -> Z -> Prop.
  Variable algn : Z -> Z -> Prop.
  Notation n := (Z.of_nat (length vals)).

  Definition seg (p k : Z) : list A := firstn (Z.to_nat k) (skipn (Z.to_nat p) vals).

  Lemma seg_length p k : 0 <= p -> 0 <= k -> p + k <= n -> length (seg p k) = Z.to_nat k.
  Proof. clear. intros. unfold seg. rewrite firstn_length, skipn_length. lia. Qed.

  Lemma seg_app p a b : 0 <= p -> 0 <= a -> 0 <= b -> seg p (a + b) = seg p a ++ seg (p + a) b.
  Proof.
    clear. intros. unfold seg. replace (Z.to_nat (a + b)) with (Z.to_nat a + Z.to_nat b)%nat by lia.
    replace (Z.to_nat (p + a)) with (Z.to_nat p + Z.to_nat a)%nat by lia.
    rewrite <- skipn_skipn'. generalize (skipn (Z.to_nat p) vals) as l.
    induction (Z.to_nat a) as [|x IH]; intros l; [reflexivity|].
    destruct l as [|y l]; [now rewrite ?firstn_nil, ?skipn_nil, ?firstn_nil|].
    cbn. f_equal. apply IH.
  Qed.

  Lemma seg_0 p : seg p 0 = [].
  Proof. reflexivity. Qed.

  Lemma seg_all : seg 0 n = vals.
  Proof. unfold seg. cbn [Z.to_nat skipn]. rewrite Nat2Z.id. apply firstn_all. Qed.

  Hypothesis Hn64 : n < two64.
  Hypothesis Hld : forall al p k, 0 <= p -> 0 < k -> p + k <= n -> usable p k ->
    (al = true -> algn p k) ->
    exists v, ldf al (adv p ps0) k = Ok v /\ Permutation v (seg p k).

  Lemma load_sum al p k : 0 <= p -> 0 < k -> p + k <= n -> usable p k -> (al = true -> algn p k) ->
    exists v, ldf al (adv p ps0) k = Ok v /\ Z.of_nat (length v) = k /\ vsum op v (seg p k).
  Proof.
    intros Hp Hk Hn Hu Ha. destruct (Hld al p k Hp Hk Hn Hu Ha) as (v & E & P). exists v.
    split; [exact E|]. split.
    - rewrite (Permutation_length P), seg_length by lia. lia.
    - apply vsum_perm with v; [exact P|apply vsum_leaf].
  Qed.

  Lemma vop_ok a b : length a = length b -> vop op a b = Ok (map2 op a b).
  Proof. intros H. unfold vop. rewrite H, Nat.eqb_refl. reflexivity. Qed.

  Lemma hreduce_ok v l : v <> [] -> Z.of_nat (length v) < two64 -> vsum op v l ->
    exists x, hreduce op v = Ok x /\ gsum op l x.
  Proof.
    intros H1 H2 H3. destruct (reduce_vsum op v l H1 H2 H3) as (x & E & G).
    exists x. unfold hreduce. rewrite E. auto.
  Qed.

  Lemma split2_ok a b (v : list A) : 0 <= a -> 0 <= b -> Z.of_nat (length v) = a + b ->
    split2 a b v = Ok (firstn (Z.to_nat a) v, skipn (Z.to_nat a) v).
  Proof. intros Ha Hb H. unfold split2. rewrite H, Z.eqb_refl. reflexivity. Qed.

  (** One halving of a vector accumulator. *)
  Lemma halve j acc l : 1 <= j -> Z.of_nat (length acc) = 2 ^ j -> vsum op acc l ->
    exists acc2, bindR (split2 (2 ^ j / 2) (2 ^ j / 2) acc) (fun lh => vop op (fst lh) (snd lh)) = Ok acc2
      /\ Z.of_nat (length acc2) = 2 ^ (j - 1) /\ vsum op acc2 l.
  Proof.
    intros Hj Hlen Hs. destruct (pow2_half j Hj) as [H1 H2]. rewrite H1.
    pose proof (pow2_pos (j - 1) ltac:(lia)).
    rewrite split2_ok by lia. cbn [bindR fst snd]. set (k := Z.to_nat (2 ^ (j - 1))).
    assert (L1 : length (firstn k acc) = k) by (rewrite firstn_length; lia).
    assert (L2 : length (skipn k acc) = k) by (rewrite skipn_length; lia).
    rewrite vop_ok by congruence. eexists. split; [reflexivity|].
    split; [rewrite map2_length by congruence; lia|].
    rewrite <- (firstn_skipn k acc) in Hs. apply vsum_app in Hs.
    destruct Hs as (la & lb & Ha & Hb & P). eapply vsum_perm; [symmetry; exact P|].
    apply vsum_op; [congruence|assumption|assumption].
  Qed.

  (** The same in continuation form, as it occurs in the epilogues. *)
  Lemma halve_bind j acc l (k : list A -> res A) :
    1 <= j -> Z.of_nat (length acc) = 2 ^ j -> vsum op acc l ->
    exists acc2, bindR (split2 (2 ^ j / 2) (2 ^ j / 2) acc) (fun lh =>
                 bindR (vop op (fst lh) (snd lh)) k) = k acc2
      /\ Z.of_nat (length acc2) = 2 ^ (j - 1) /\ vsum op acc2 l.
  Proof.
    intros Hj Hlen Hs. destruct (halve j acc l Hj Hlen Hs) as (acc2 & E & H1 & H2).
    exists acc2. split; [|auto]. destruct (split2 _ _ acc) as [lh|]; [|discriminate].
    cbn [bindR] in *. rewrite E. reflexivity.
  Qed.

  Lemma tr_epilogue_acc_ok fuel : forall j p lo acc1 acc l1 l al,
    0 <= j < Z.of_nat fuel -> 2 ^ j < two64 -> 0 <= p -> p + lo mod 2 ^ (j + 1) = n -> lo mod 2 ^ (j + 1) <> 0 ->
    (forall i, 0 <= i <= j -> Z.testbit lo i = true -> usable (n - lo mod 2 ^ (i + 1)) (2 ^ i)) ->
    (al = true -> forall i q, 0 <= i <= j -> (2 ^ i | q - p) -> algn q (2 ^ i)) ->
    Z.of_nat (length acc) = 2 ^ j -> vsum op acc l -> gsum op l1 acc1 ->
    exists x, tr_epilogue_acc op ldf fuel (2 ^ j) acc1 acc (adv p ps0) lo al = Ok x
              /\ gsum op (l1 ++ l ++ seg p (lo mod 2 ^ (j + 1))) x.
  Proof.
    induction fuel as [|fuel IH]; intros j p lo acc1 acc l1 l al Hj H64 Hp Hpn Hne Hus Hal Hlen Hs Hg;
      [lia|].
    pose proof (pow2_pos j ltac:(lia)) as Hpos.
    cbn [tr_epilogue_acc]. rewrite single_bit_pow2 by lia. cbn [negb].
    rewrite land_pow2, land_pred_pow2 by lia.
    assert (Hmb : 0 <= lo mod 2 ^ j < 2 ^ j) by (apply Z.mod_pos_bound; lia).
    assert (Hsp := mod_pow2_split lo j ltac:(lia)).
    destruct (Z.testbit lo j) eqn:Eb.
    - assert (Enz : (2 ^ j =? 0) = false) by lia. rewrite Enz. cbn [negb].
      destruct (load_sum al p (2 ^ j)) as (v & Ev & Ls & Sv); [lia|lia|lia| | |].
      { replace p with (n - lo mod 2 ^ (j + 1)) by lia. apply Hus; [lia|exact Eb]. }
      { intros E. apply (Hal E); [lia|]. rewrite Z.sub_diag. apply Z.divide_0_r. }
      rewrite Ev. cbn [bindR].
      rewrite vop_ok by lia. cbn [bindR].
      set (acc' := map2 op acc v).
      assert (L' : Z.of_nat (length acc') = 2 ^ j) by (unfold acc'; rewrite map2_length; lia).
      assert (S' : vsum op acc' (l ++ seg p (2 ^ j)))
        by (apply vsum_op; [lia|assumption|assumption]).
      assert (Hfin : exists x, bindR (hreduce op acc') (fun x => Ok (op acc1 x)) = Ok x
                               /\ gsum op (l1 ++ l ++ seg p (2 ^ j)) x).
      { destruct (hreduce_ok acc' _ ltac:(intros E; rewrite E in L'; cbn in L'; lia)
                             ltac:(lia) S') as (x & Ex & Gx).
        rewrite Ex. cbn [bindR]. exists (op acc1 x). split; [reflexivity|]. now apply gsum_op. }
      destruct (Z.eqb_spec (2 ^ j) 1) as [E1|N1].
      { rewrite E1 in Hmb, Hsp. rewrite E1 in Hfin. rewrite Hsp.
        replace (1 + lo mod 1) with 1 by lia. exact Hfin. }
      destruct (Z.eqb_spec (lo mod 2 ^ j) 0) as [E0|N0].
      { rewrite Hsp, E0, Z.add_0_r. exact Hfin. }
      assert (Hj1 : 1 <= j) by (destruct (Z.eq_dec j 0) as [->|]; [contradiction|lia]).
      destruct (halve_bind j acc' _
                 (fun acc2 => tr_epilogue_acc op ldf fuel (2 ^ j / 2) acc1 acc2
                                              (adv (2 ^ j) (adv p ps0)) lo al)
                 Hj1 L' S') as (acc2 & E2 & L2 & S2).
      rewrite E2. rewrite adv_adv. destruct (pow2_half j Hj1) as [Hh Hh2]. rewrite Hh.
      destruct (IH (j - 1) (p + 2 ^ j) lo acc1 acc2 l1 (l ++ seg p (2 ^ j)) al) as (x & Ex & Gx);
        try assumption; try lia.
      + replace (j - 1 + 1) with j by lia. lia.
      + replace (j - 1 + 1) with j by lia. lia.
      + intros i Hi. apply Hus. lia.
      + intros E i q Hi Hd. apply (Hal E); [lia|].
        replace (q - p) with (q - (p + 2 ^ j) + 2 ^ j) by lia.
        apply Z.divide_add_r; [assumption|apply pow2_divide; lia].
      + rewrite Ex. exists x. split; [reflexivity|]. replace (j - 1 + 1) with j in Gx by lia.
        rewrite Hsp, seg_app by lia. rewrite <- !app_assoc in Gx. rewrite <- ?app_assoc. exact Gx.
    - cbn [Z.eqb negb]. rewrite Z.add_0_l in Hsp.
      destruct (Z.eqb_spec (lo mod 2 ^ j) 0) as [E0|N0]; [lia|].
      assert (Hj1 : 1 <= j).
      { destruct (Z.eq_dec j 0) as [->|]; [|lia]. change (2 ^ 0) with 1 in N0. now rewrite Z.mod_1_r in N0. }
      assert (Hlt : (1 <? 2 ^ j) = true).
      { apply Z.ltb_lt. change 1 with (2 ^ 0). apply Z.pow_lt_mono_r; lia. }
      rewrite Hlt.
      destruct (halve_bind j acc _
                 (fun acc2 => tr_epilogue_acc op ldf fuel (2 ^ j / 2) acc1 acc2 (adv p ps0) lo al)
                 Hj1 Hlen Hs) as (acc2 & E2 & L2 & S2).
      rewrite E2. destruct (pow2_half j Hj1) as [Hh Hh2]. rewrite Hh.
      destruct (IH (j - 1) p lo acc1 acc2 l1 l al) as (x & Ex & Gx); try assumption; try lia.
      + replace (j - 1 + 1) with j by lia. lia.
      + replace (j - 1 + 1) with j by lia. lia.
      + intros i Hi. apply Hus. lia.
      + intros E i q Hi Hd. apply (Hal E); [lia|assumption].
      + rewrite Ex. exists x. split; [reflexivity|]. replace (j - 1 + 1) with j in Gx by lia.
        rewrite Hsp. exact Gx.
  Qed.

  Lemma tr_epilogue_ok fuel : forall j p lo acc1 l1 al,
    0 <= j < Z.of_nat fuel -> 2 ^ j < two64 -> 0 <= p -> p + lo mod 2 ^ (j + 1) = n -> lo mod 2 ^ (j + 1) <> 0 ->
    (forall i, 0 <= i <= j -> Z.testbit lo i = true -> usable (n - lo mod 2 ^ (i + 1)) (2 ^ i)) ->
    (al = true -> forall i q, 0 <= i <= j -> (2 ^ i | q - p) -> algn q (2 ^ i)) ->
    gsum op l1 acc1 ->
    exists x, tr_epilogue op ldf fuel (2 ^ j) acc1 (adv p ps0) lo al = Ok x
              /\ gsum op (l1 ++ seg p (lo mod 2 ^ (j + 1))) x.
  Proof.
    induction fuel as [|fuel IH]; intros j p lo acc1 l1 al Hj H64 Hp Hpn Hne Hus Hal Hg; [lia|].
    pose proof (pow2_pos j ltac:(lia)) as Hpos.
    cbn [tr_epilogue]. rewrite single_bit_pow2 by lia. cbn [negb].
    rewrite land_pow2, land_pred_pow2 by lia.
    assert (Hmb : 0 <= lo mod 2 ^ j < 2 ^ j) by (apply Z.mod_pos_bound; lia).
    assert (Hsp := mod_pow2_split lo j ltac:(lia)).
    destruct (Z.testbit lo j) eqn:Eb.
    - assert (Enz : (2 ^ j =? 0) = false) by lia. rewrite Enz. cbn [negb].
      destruct (load_sum al p (2 ^ j)) as (acc' & Ev & L' & S'); [lia|lia|lia| | |].
      { replace p with (n - lo mod 2 ^ (j + 1)) by lia. apply Hus; [lia|exact Eb]. }
      { intros E. apply (Hal E); [lia|]. rewrite Z.sub_diag. apply Z.divide_0_r. }
      rewrite Ev. cbn [bindR].
      assert (Hfin : exists x, bindR (hreduce op acc') (fun x => Ok (op acc1 x)) = Ok x
                               /\ gsum op (l1 ++ seg p (2 ^ j)) x).
      { destruct (hreduce_ok acc' _ ltac:(intros E; rewrite E in L'; cbn in L'; lia)
                             ltac:(lia) S') as (x & Ex & Gx).
        rewrite Ex. cbn [bindR]. exists (op acc1 x). split; [reflexivity|]. now apply gsum_op. }
      destruct (Z.eqb_spec (2 ^ j) 1) as [E1|N1].
      { rewrite Hsp. replace (2 ^ j + lo mod 2 ^ j) with (2 ^ j) by lia. exact Hfin. }
      destruct (Z.eqb_spec (lo mod 2 ^ j) 0) as [E0|N0].
      { rewrite Hsp, E0, Z.add_0_r. exact Hfin. }
      assert (Hj1 : 1 <= j) by (destruct (Z.eq_dec j 0) as [->|]; [contradiction|lia]).
      destruct (halve_bind j acc' _
                 (fun acc2 => tr_epilogue_acc op ldf fuel (2 ^ j / 2) acc1 acc2
                                              (adv (2 ^ j) (adv p ps0)) lo al)
                 Hj1 L' S') as (acc2 & E2 & L2 & S2).
      rewrite E2. rewrite adv_adv. destruct (pow2_half j Hj1) as [Hh Hh2]. rewrite Hh.
      destruct (tr_epilogue_acc_ok fuel (j - 1) (p + 2 ^ j) lo acc1 acc2 l1 (seg p (2 ^ j)) al) as (x & Ex & Gx);
        try assumption; try lia.
      + replace (j - 1 + 1) with j by lia. lia.
      + replace (j - 1 + 1) with j by lia. lia.
      + intros i Hi. apply Hus. lia.
      + intros E i q Hi Hd. apply (Hal E); [lia|].
        replace (q - p) with (q - (p + 2 ^ j) + 2 ^ j) by lia.
        apply Z.divide_add_r; [assumption|apply pow2_divide; lia].
      + rewrite Ex. exists x. split; [reflexivity|]. replace (j - 1 + 1) with j in Gx by lia.
        rewrite Hsp, seg_app by lia. exact Gx.
    - cbn [Z.eqb negb]. rewrite Z.add_0_l in Hsp.
      destruct (Z.eqb_spec (lo mod 2 ^ j) 0) as [E0|N0]; [lia|].
      assert (Hj1 : 1 <= j).
      { destruct (Z.eq_dec j 0) as [->|]; [|lia]. change (2 ^ 0) with 1 in N0. now rewrite Z.mod_1_r in N0. }
      assert (Hlt : (1 <? 2 ^ j) = true).
      { apply Z.ltb_lt. change 1 with (2 ^ 0). apply Z.pow_lt_mono_r; lia. }
      rewrite Hlt. destruct (pow2_half j Hj1) as [Hh Hh2]. rewrite Hh.
      destruct (IH (j - 1) p lo acc1 l1 al) as (x & Ex & Gx); try assumption; try lia.
      + replace (j - 1 + 1) with j by lia. lia.
      + replace (j - 1 + 1) with j by lia. lia.
      + intros i Hi. apply Hus. lia.
      + intros E i q Hi Hd. apply (Hal E); [lia|assumption].
      + rewrite Ex. exists x. split; [reflexivity|]. replace (j - 1 + 1) with j in Gx by lia.
        rewrite Hsp. exact Gx.
  Qed.

  (** ** Prologue *)
  Lemma tr_prologue_ok J tp fuel : forall j acc1 l1,
    0 <= j <= J -> J - j < Z.of_nat fuel -> 2 ^ J < two64 -> 0 <= tp < 2 ^ J -> tp <= n ->
    (forall i, 0 <= i <= J -> Z.testbit tp i = true -> usable (tp mod 2 ^ i) (2 ^ i)) ->
    (forall i q, 0 <= i <= J -> (2 ^ i | q - tp) -> algn q (2 ^ i)) ->
    gsum op l1 acc1 ->
    exists x, tr_prologue op ldf fuel (2 ^ j) (2 ^ J) acc1 ps0 tp = Ok x
              /\ gsum op (l1 ++ seg (tp mod 2 ^ j) (tp - tp mod 2 ^ j)) x.
  Proof.
    induction fuel as [|fuel IH]; intros j acc1 l1 Hj Hf H64 Htp Htn Hus Hal Hg; [lia|].
    pose proof (pow2_pos j ltac:(lia)) as Hpos. pose proof (pow2_pos J ltac:(lia)) as HposJ.
    assert (HjJ : 2 ^ j <= 2 ^ J) by (apply Z.pow_le_mono_r; lia).
    cbn [tr_prologue]. rewrite !single_bit_pow2 by lia. cbn [negb andb].
    rewrite land_pow2, land_pred_pow2 by lia.
    assert (Hmb : 0 <= tp mod 2 ^ j < 2 ^ j) by (apply Z.mod_pos_bound; lia).
    assert (Hsp := mod_pow2_split tp j ltac:(lia)).
    assert (Hle1 : tp mod 2 ^ (j + 1) <= tp) by (apply Z.mod_le; [lia|apply pow2_pos; lia]).
    assert (Hstep : exists acc1', (if (if Z.testbit tp j then 2 ^ j else 0) =? 0 then Ok acc1 else
              bindR (ldf true (adv (tp mod 2 ^ j) ps0) (2 ^ j)) (fun v =>
              bindR (hreduce op v) (fun x => Ok (op acc1 x)))) = Ok acc1'
              /\ gsum op (l1 ++ seg (tp mod 2 ^ j) (tp mod 2 ^ (j + 1) - tp mod 2 ^ j)) acc1').
    { destruct (Z.testbit tp j) eqn:Eb.
      - destruct (Z.eqb_spec (2 ^ j) 0) as [|_]; [lia|].
        destruct (load_sum true (tp mod 2 ^ j) (2 ^ j)) as (v & Ev & L' & Sv); [lia|lia|lia|apply Hus; [lia|exact Eb]| |].
        { intros _. apply Hal; [lia|].
          exists (- (tp / 2 ^ j)). pose proof (Z.div_mod tp (2 ^ j) ltac:(lia)). lia. }
        rewrite Ev. cbn [bindR]. rewrite Hsp. replace (2 ^ j + tp mod 2 ^ j - tp mod 2 ^ j) with (2 ^ j) by lia.
        destruct (hreduce_ok v (seg (tp mod 2 ^ j) (2 ^ j))) as (x & Ex & Gx).
        + intros E. rewrite E in L'. cbn in L'. lia.
        + lia.
        + exact Sv.
        + rewrite Ex. cbn [bindR]. exists (op acc1 x). split; [reflexivity|]. now apply gsum_op.
      - cbn [Z.eqb]. exists acc1. split; [reflexivity|]. rewrite Hsp, Z.add_0_l, Z.sub_diag, seg_0, app_nil_r.
        exact Hg. }
    destruct Hstep as (acc1' & Es & Gs). rewrite Es. cbn [bindR].
    destruct (Z.ltb_spec (2 ^ j) (2 ^ J)) as [Hlt|Hge].
    - assert (j < J) by (apply pow2_lt_inv; lia).
      replace (2 ^ j * 2) with (2 ^ (j + 1)) by (rewrite Z.pow_add_r by lia; lia).
      destruct (IH (j + 1) acc1' (l1 ++ seg (tp mod 2 ^ j) (tp mod 2 ^ (j + 1) - tp mod 2 ^ j)))
        as (x & Ex & Gx); try assumption; try lia.
      rewrite Ex. exists x. split; [reflexivity|].
      replace (tp - tp mod 2 ^ j) with ((tp mod 2 ^ (j + 1) - tp mod 2 ^ j) + (tp - tp mod 2 ^ (j + 1)))
        by lia.
      assert (0 <= tp mod 2 ^ (j + 1) - tp mod 2 ^ j) by (destruct (Z.testbit tp j); lia).
      rewrite seg_app by lia.
      replace (tp mod 2 ^ j + (tp mod 2 ^ (j + 1) - tp mod 2 ^ j)) with (tp mod 2 ^ (j + 1)) by lia.
      rewrite app_assoc. exact Gx.
    - exists acc1'. split; [reflexivity|].
      assert (j = J).
      { destruct (Z.eq_dec j J); [assumption|]. exfalso.
        assert (2 ^ j < 2 ^ J) by (apply Z.pow_lt_mono_r; lia). lia. }
      subst j. rewrite (Z.mod_small tp (2 ^ J)) in * by lia.
      rewrite (Z.mod_small tp (2 ^ (J + 1))) in Gs by (rewrite Z.pow_add_r by lia; lia).
      rewrite Z.sub_diag in *. exact Gs.
  Qed.

  (** ** Loops *)
  Section Loops.
    Variables (w p0 : Z) (al : bool).
    Hypothesis Hw : 1 <= w.
    Hypothesis Hp0 : 0 <= p0.
    Hypothesis Huw : forall q, p0 <= q -> (w | q - p0) -> q + w <= n -> usable q w.
    Hypothesis Halw : al = true -> forall q, (w | q - p0) -> algn q w.

    Lemma tr_loop_ok F matching fuel : forall p acc l,
      p0 <= p -> (w | p - p0) -> (Z.to_nat (n - p) < fuel)%nat -> p <= n ->
      (matching = true -> (w | n - p)) ->
      Z.of_nat (length acc) = w -> vsum op acc l ->
      let e := n - (n - p) mod w in
      exists acc', tr_loop op ldf fuel matching w al (F + n) (F + p) (adv p ps0) acc = Ok (acc', adv e ps0)
        /\ Z.of_nat (length acc') = w /\ vsum op acc' (l ++ seg p (e - p)) /\ p <= e /\ (w | e - p0).
    Proof.
      induction fuel as [|fuel IH]; intros p acc l Hp Hd Hf Hpn Hm Hlen Hs; [lia|].
      cbn [tr_loop]. cbv zeta. set (e := n - (n - p) mod w).
      assert (Hmb : 0 <= (n - p) mod w < w) by (apply Z.mod_pos_bound; lia).
      assert (Hcond : (if matching then negb (F + p =? F + n) else F + p <=? F + n - w) = (w <=? n - p)).
      { destruct matching; [|lia]. destruct (Z.eqb_spec (F + p) (F + n)) as [E|N]; cbn [negb].
        - lia.
        - destruct (Hm eq_refl) as [q Hq]. assert (0 < q) by nia.
          assert (w <= n - p) by nia. lia. }
      rewrite Hcond. destruct (Z.leb_spec w (n - p)) as [Hle|Hgt].
      - destruct (load_sum al p w) as (v & Ev & Ls & Sv); [lia|lia|lia|apply Huw; lia || assumption|intros E; now apply Halw|].
        rewrite Ev. cbn [bindR].
        rewrite vop_ok by lia. cbn [bindR]. rewrite adv_adv.
        replace (F + p + w) with (F + (p + w)) by lia.
        assert (Emod : (n - (p + w)) mod w = (n - p) mod w).
        { replace (n - (p + w)) with (n - p + (-1) * w) by lia. apply Z.mod_add. lia. }
        destruct (IH (p + w) (map2 op acc v) (l ++ seg p w)) as (acc' & E & L & S & Hpe & Hde);
          try lia.
        + replace (p + w - p0) with (p - p0 + w) by lia. apply Z.divide_add_r; [assumption|apply Z.divide_refl].
        + intros Em. replace (n - (p + w)) with (n - p - w) by lia.
          apply Z.divide_sub_r; [now apply Hm|apply Z.divide_refl].
        + rewrite map2_length; lia.
        + apply vsum_op; [lia|assumption|assumption].
        + rewrite Emod in *. fold e in E, S, Hpe, Hde. exists acc'. split; [exact E|]. split; [exact L|].
          split; [|split; [lia|exact Hde]]. replace (e - p) with (w + (e - (p + w))) by lia.
          rewrite seg_app by lia. now rewrite app_assoc.
      - assert (Ee : e = p) by (unfold e; rewrite Z.mod_small by lia; lia).
        exists acc. rewrite Ee. split; [reflexivity|]. split; [assumption|].
        split; [rewrite Z.sub_diag, seg_0, app_nil_r; assumption|]. split; [lia|assumption].
    Qed.

    (** *** Unrolled accumulators *)
    Definition vsums (accs : list (list A)) (ls : list (list A)) : Prop :=
      Forall2 (fun acc l => Z.of_nat (length acc) = w /\ vsum op acc l) accs ls.

    Lemma ld_n_ok k : forall p, p0 <= p -> (w | p - p0) -> p + w * Z.of_nat k <= n ->
      exists vs ls, ld_n ldf al (adv p ps0) w k = Ok vs /\ vsums vs ls /\ length vs = k
                    /\ concat ls = seg p (w * Z.of_nat k).
    Proof.
      induction k as [|k IH]; intros p Hp Hd Hn.
      - exists [], []. rewrite Z.mul_0_r. repeat split. constructor.
      - cbn [ld_n]. destruct (load_sum al p w) as (v & Ev & Lv & Sv); [lia|lia|nia|apply Huw; nia || assumption|intros E; now apply Halw|].
        rewrite Ev. cbn [bindR].
        rewrite adv_adv. destruct (IH (p + w)) as (vs & ls & E & V & L & C); [lia| |lia|].
        { replace (p + w - p0) with (p - p0 + w) by lia. apply Z.divide_add_r; [assumption|apply Z.divide_refl]. }
        rewrite E. cbn [bindR]. exists (v :: vs), (seg p w :: ls). split; [reflexivity|].
        split; [constructor; [split; assumption|assumption]|].
        split; [cbn; lia|]. cbn [concat]. rewrite C, <- seg_app by nia. f_equal. nia.
    Qed.

    Lemma vop_n_ok accs ls : vsums accs ls -> forall vs ks, vsums vs ks -> length accs = length vs ->
      exists accs', vop_n op accs vs = Ok accs' /\ length accs' = length accs
        /\ exists ls', vsums accs' ls' /\ Permutation (concat ls') (concat ls ++ concat ks).
    Proof.
      induction 1 as [|acc l accs ls [Hlen Hs] H IH]; intros vs ks HV Hl.
      - destruct vs; [|discriminate]. inversion HV; subst. exists []. split; [reflexivity|].
        split; [reflexivity|]. exists []. split; constructor.
      - destruct vs as [|v vs]; [discriminate|]. inversion HV as [|? k ? ks' [Hlv Hsv] HV']; subst.
        cbn [vop_n]. rewrite vop_ok by lia. cbn [bindR].
        destruct (IH vs ks' HV' ltac:(cbn in Hl; lia)) as (accs' & E & L & ls' & V & P).
        rewrite E. cbn [bindR]. exists (map2 op acc v :: accs'). split; [reflexivity|].
        split; [cbn; lia|]. exists ((l ++ k) :: ls'). split.
        + constructor; [|assumption]. split; [rewrite map2_length; lia|]. apply vsum_op; [lia|assumption|assumption].
        + cbn. rewrite P. rewrite <- !app_assoc. apply Permutation_app_head.
          rewrite !app_assoc. apply Permutation_app_tail. apply Permutation_app_comm.
    Qed.

    Lemma tr_unrolled_ok F k fuel : (1 <= k)%nat -> let step := w * Z.of_nat k in forall p accs ls,
      p0 <= p -> (w | p - p0) -> (Z.to_nat (n - p) < fuel)%nat -> p + step <= n ->
      length accs = k -> vsums accs ls ->
      exists accs' e ls', tr_unrolled op ldf fuel w k al (F + n - step) (F + p) (adv p ps0) accs
          = Ok (accs', F + e, adv e ps0)
        /\ length accs' = k /\ vsums accs' ls' /\ Permutation (concat ls') (concat ls ++ seg p (e - p))
        /\ p <= e <= n /\ (w | e - p0).
    Proof.
      intros Hk step. assert (Hstep : 1 <= step) by (unfold step; nia).
      assert (Hdstep : (w | step)) by (unfold step; apply Z.divide_factor_l).
      induction fuel as [|fuel IH]; intros p accs ls Hp Hd Hf Hn Hlen HV; [lia|].
      cbn [tr_unrolled]. destruct (ld_n_ok k p Hp Hd Hn) as (vs & ks & E & V & L & C). rewrite E. cbn [bindR].
      destruct (vop_n_ok accs ls HV vs ks V ltac:(lia)) as (accs' & E' & L' & ls' & V' & P').
      rewrite E'. cbn [bindR]. fold step. rewrite adv_adv.
      replace (F + p + step) with (F + (p + step)) by lia. rewrite C in P'. fold step in P'.
      assert (Hd' : (w | p + step - p0)).
      { replace (p + step - p0) with (p - p0 + step) by lia. now apply Z.divide_add_r. }
      destruct (Z.leb_spec (F + (p + step)) (F + n - step)) as [Hle|Hgt].
      - destruct (IH (p + step) accs' ls') as (accs2 & e & ls2 & E2 & L2 & V2 & P2 & He & Hde); try lia;
          try assumption.
        exists accs2, e, ls2. split; [exact E2|]. split; [assumption|]. split; [assumption|].
        split; [|split; [lia|assumption]]. rewrite P2, P'. rewrite <- app_assoc.
        apply Permutation_app_head. replace (e - p) with (step + (e - (p + step))) by lia.
        rewrite seg_app by lia. reflexivity.
      - exists accs', (p + step), ls'. split; [reflexivity|]. split; [lia|]. split; [assumption|].
        split; [|split; [lia|assumption]]. replace (p + step - p) with step by lia. exact P'.
    Qed.

    (** *** The tree *)
    Definition tinv (k j : nat) (ls : list (list A)) (i : nat) (accs : list (list A)) : Prop :=
      exists a, nth_error accs i = Some a /\ Z.of_nat (length a) = w
                /\ vsum op a (concat (firstn j (skipn i ls))).

    Lemma set_nth_length (l : list (list A)) i x : (i < length l)%nat -> length (set_nth l i x) = length l.
    Proof.
      intros H. unfold set_nth. rewrite app_length, firstn_length. cbn [length]. rewrite skipn_length. lia.
    Qed.

    Lemma set_nth_same (l : list (list A)) i x : (i < length l)%nat -> nth_error (set_nth l i x) i = Some x.
    Proof.
      intros H. unfold set_nth. rewrite nth_error_app2; rewrite firstn_length; [|lia].
      replace (i - Nat.min i (length l))%nat with 0%nat by lia. reflexivity.
    Qed.

    Lemma set_nth_other (l : list (list A)) i i' x : (i < length l)%nat -> i <> i' ->
      nth_error (set_nth l i x) i' = nth_error l i'.
    Proof.
      intros H Hne. unfold set_nth. rewrite <- (firstn_skipn i l) at 3.
      destruct (lt_dec i' i) as [Hlt|Hge].
      - rewrite !nth_error_app1 by (rewrite firstn_length; lia). reflexivity.
      - rewrite !nth_error_app2 by (rewrite firstn_length; lia). rewrite firstn_length.
        replace (Nat.min i (length l)) with i by lia.
        assert (Ei : skipn i l = skipn i l) by reflexivity.
        destruct (i' - i)%nat as [|d] eqn:Ed; [lia|]. cbn [nth_error].
        replace (skipn (S i) l) with (skipn 1 (skipn i l)).
        2:{ rewrite skipn_skipn'. f_equal. lia. }
        destruct (skipn i l) as [|y r]; [now destruct d|reflexivity].
    Qed.

    Lemma firstn_skipn_merge (ls : list (list A)) i j :
      concat (firstn (j + j) (skipn i ls)) = concat (firstn j (skipn i ls)) ++ concat (firstn j (skipn (i + j) ls)).
    Proof.
      rewrite <- concat_app. f_equal. rewrite <- skipn_skipn'.
      generalize (skipn i ls) as r. intros r. revert r.
      assert (G : forall a b (r : list (list A)), firstn (a + b) r = firstn a r ++ firstn b (skipn a r)).
      { clear. induction a as [|a IH]; intros b r; [reflexivity|].
        destruct r; [now rewrite ?firstn_nil, ?skipn_nil, ?firstn_nil|]. cbn. f_equal. apply IH. }
      intros r. apply G.
    Qed.

    (** State in the middle of a stage: blocks before [r] are merged. *)
    Definition stage (k j r : nat) (ls accs : list (list A)) : Prop :=
      length accs = k /\
      forall b, (b * j < k)%nat ->
        (Nat.Even b -> (b < 2 * r)%nat -> tinv k (j + j) ls (b * j) accs)
        /\ ((2 * r <= b)%nat -> tinv k j ls (b * j) accs).

    Lemma tree_one_ok k j r ls accs : (1 <= j)%nat -> length ls = k -> stage k j r ls accs ->
      exists accs', tree_one op k j r accs = Ok accs' /\ stage k j (S r) ls accs'.
    Proof.
      intros Hj Hls [Hlen Hst]. unfold tree_one.
      replace (r * 2 * j)%nat with (2 * r * j)%nat by lia.
      destruct (Nat.ltb_spec (2 * r * j + j) k) as [Hlt|Hge].
      - destruct (Hst (2 * r)%nat ltac:(lia)) as [_ H1]. destruct (H1 ltac:(lia)) as (a & Ea & La & Sa).
        destruct (Hst (2 * r + 1)%nat ltac:(lia)) as [_ H2]. destruct (H2 ltac:(lia)) as (b & Eb & Lb & Sb).
        replace ((2 * r + 1) * j)%nat with (2 * r * j + j)%nat in Eb, Sb by lia.
        rewrite Ea, Eb. rewrite vop_ok by lia. cbn [bindR]. eexists. split; [reflexivity|].
        split; [rewrite set_nth_length by lia; exact Hlen|].
        intros b' Hb'. split.
        + intros Hev Hb2. destruct (Nat.eq_dec b' (2 * r)) as [->|Hne].
          * exists (map2 op a b). split; [apply set_nth_same; lia|]. split; [rewrite map2_length; lia|].
            rewrite firstn_skipn_merge. apply vsum_op; [lia|assumption|assumption].
          * assert (b' < 2 * r)%nat by (destruct Hev as [q ->]; lia).
            destruct (Hst b' Hb') as [H3 _]. destruct (H3 Hev H) as (a' & Ea' & La' & Sa').
            exists a'. split; [|auto]. rewrite set_nth_other; [assumption|lia|nia].
        + intros Hb2. destruct (Hst b' Hb') as [_ H3]. destruct (H3 ltac:(lia)) as (a' & Ea' & La' & Sa').
          exists a'. split; [|auto]. rewrite set_nth_other; [assumption|lia|nia].
      - exists accs. split; [reflexivity|]. split; [exact Hlen|]. intros b' Hb'. split.
        + intros Hev Hb2. destruct (Nat.eq_dec b' (2 * r)) as [->|Hne].
          * destruct (Hst (2 * r)%nat Hb') as [_ H1]. destruct (H1 ltac:(lia)) as (a & Ea & La & Sa).
            exists a. split; [assumption|]. split; [assumption|].
            rewrite firstn_skipn_merge. rewrite (@skipn_all2 _ (2 * r * j + j)%nat ls) by lia.
            rewrite firstn_nil. cbn [concat]. rewrite app_nil_r. exact Sa.
          * assert (b' < 2 * r)%nat by (destruct Hev as [q ->]; lia).
            destruct (Hst b' Hb') as [H3 _]. now apply H3.
        + intros Hb2. destruct (Hst b' Hb') as [_ H3]. apply H3. lia.
    Qed.

    Lemma tree_inner_ok k j ls cnt : (1 <= j)%nat -> length ls = k -> forall r accs,
      stage k j r ls accs ->
      exists accs', tree_inner op k j (seq r cnt) accs = Ok accs' /\ stage k j (r + cnt) ls accs'.
    Proof.
      intros Hj Hls. induction cnt as [|cnt IH]; intros r accs Hst.
      - exists accs. rewrite Nat.add_0_r. auto.
      - cbn [seq tree_inner]. destruct (tree_one_ok k j r ls accs Hj Hls Hst) as (a1 & E1 & S1).
        rewrite E1. cbn [bindR]. destruct (IH (S r) a1 S1) as (a2 & E2 & S2).
        exists a2. split; [assumption|]. replace (r + S cnt)%nat with (S r + cnt)%nat by lia. assumption.
    Qed.

    Definition blocks (k j : nat) (ls accs : list (list A)) : Prop :=
      length accs = k /\ forall b, (b * j < k)%nat -> tinv k j ls (b * j) accs.

    Lemma tree_stage k j ls accs : (1 <= j)%nat -> length ls = k -> blocks k j ls accs ->
      exists accs', tree_inner op k j (seq 0 (k / 2)) accs = Ok accs' /\ blocks k (2 * j) ls accs'.
    Proof.
      intros Hj Hls [Hlen Hb]. destruct (tree_inner_ok k j ls (k / 2) Hj Hls 0 accs) as (accs' & E & [L S]).
      { split; [assumption|]. intros b Hbk. split; [intros; lia|]. intros _. now apply Hb. }
      exists accs'. split; [assumption|]. split; [assumption|]. intros b Hbk.
      destruct (S (2 * b)%nat ltac:(lia)) as [H1 H2].
      replace (b * (2 * j))%nat with (2 * b * j)%nat in * by lia.
      replace (2 * j)%nat with (j + j)%nat by lia.
      assert (Hdm := Nat.div_mod_eq k 2). assert (Hmb := Nat.mod_upper_bound k 2 ltac:(lia)).
      destruct (lt_dec b (k / 2)) as [Hlt|Hge].
      - apply H1; [now exists b|lia].
      - (* no partner: the last block *)
        destruct (H2 ltac:(lia)) as (a & Ea & La & Sa). exists a. split; [assumption|]. split; [assumption|].
        assert (k <= 2 * b * j + j)%nat by (clear - Hj Hdm Hmb Hge; nia).
        rewrite firstn_skipn_merge. rewrite (@skipn_all2 _ (2 * b * j + j)%nat ls) by lia.
        rewrite firstn_nil. cbn [concat]. rewrite app_nil_r. exact Sa.
    Qed.

    Lemma tree_outer_ok k ls cnt : length ls = k -> forall o accs,
      blocks k (Nat.pow 2 o) ls accs ->
      exists accs', tree_outer op k (seq o cnt) accs = Ok accs' /\ blocks k (Nat.pow 2 (o + cnt)) ls accs'.
    Proof.
      intros Hls. induction cnt as [|cnt IH]; intros o accs Hb.
      - exists accs. rewrite Nat.add_0_r. auto.
      - cbn [seq tree_outer].
        destruct (tree_stage k (Nat.pow 2 o) ls accs) as (a1 & E1 & B1); try assumption.
        { pose proof (Nat.pow_nonzero 2 o ltac:(lia)). lia. }
        rewrite E1. cbn [bindR]. replace (2 * Nat.pow 2 o)%nat with (Nat.pow 2 (S o)) in B1 by (cbn; lia).
        destruct (IH (S o) a1 B1) as (a2 & E2 & B2). exists a2. split; [assumption|].
        replace (o + S cnt)%nat with (S o + cnt)%nat by lia. assumption.
    Qed.

    Lemma tree_ok k accs ls : (1 <= k)%nat -> length accs = k -> vsums accs ls ->
      exists acc, tree op k accs = Ok acc /\ Z.of_nat (length acc) = w /\ vsum op acc (concat ls).
    Proof.
      intros Hk Hlen HV. assert (Hls : length ls = k) by (rewrite <- Hlen; clear - HV; induction HV; cbn; lia).
      unfold tree. destruct (tree_outer_ok k ls (bit_width (k - 1)) Hls 0 accs) as (accs' & E & [L B]).
      { split; [assumption|]. intros b Hb. cbn [Nat.pow] in *. rewrite Nat.mul_1_r in *.
        clear - HV Hb Hlen. unfold tinv. revert b k Hlen Hb. induction HV as [|acc l accs ls [H1 H2] HV IH];
          intros b k Hlen Hb; cbn in Hlen; [lia|]. destruct b as [|b].
        - exists acc. split; [reflexivity|]. split; [assumption|]. cbn. now rewrite app_nil_r.
        - destruct k as [|k]; [lia|]. destruct (IH b k ltac:(lia) ltac:(lia)) as (a & Ea & Ha).
          exists a. split; [exact Ea|exact Ha]. }
      rewrite E. cbn [bindR]. destruct (B 0%nat ltac:(lia)) as (a & Ea & La & Sa).
      destruct accs' as [|x r]; [discriminate|]. cbn in Ea. injection Ea as ->.
      exists a. split; [reflexivity|]. split; [assumption|]. cbn [Nat.mul Nat.add skipn] in Sa.
      rewrite firstn_all2 in Sa; [exact Sa|]. rewrite Hls.
      unfold bit_width. destruct (k - 1)%nat as [|k'] eqn:Ek; [cbn; lia|].
      assert (Hl := Nat.log2_spec (S k') ltac:(lia)). lia.
    Qed.

    Lemma tr_first_ok pol F p : p0 <= p -> (w | p - p0) -> p + w <= n ->
      exists acc e l, tr_first op ldf pol w al (F + p) (F + n) (adv p ps0) = Ok (acc, F + e, adv e ps0)
        /\ Z.of_nat (length acc) = w /\ vsum op acc l /\ Permutation l (seg p (e - p))
        /\ p <= e <= n /\ (w | e - p0).
    Proof.
      intros Hp Hd Hn. unfold tr_first.
      assert (Hd' : (w | p + w - p0)).
      { replace (p + w - p0) with (p - p0 + w) by lia. apply Z.divide_add_r; [assumption|apply Z.divide_refl]. }
      assert (Hsingle : exists acc e l,
        bindR (ldf al (adv p ps0) w) (fun v => Ok (v, F + p + w, adv w (adv p ps0))) = Ok (acc, F + e, adv e ps0)
        /\ Z.of_nat (length acc) = w /\ vsum op acc l /\ Permutation l (seg p (e - p))
        /\ p <= e <= n /\ (w | e - p0)).
      { destruct (load_sum al p w) as (v & Ev & Lv & Sv); [lia|lia|lia|apply Huw; lia || assumption|intros E; now apply Halw|].
        rewrite Ev. cbn [bindR].
        exists v, (p + w), (seg p w). rewrite adv_adv.
        split; [do 3 f_equal; lia|]. split; [exact Lv|]. split; [exact Sv|].
        replace (p + w - p) with w by lia. split; [reflexivity|]. split; [lia|assumption]. }
      destruct (Z.ltb_spec 1 (p_unroll pol)) as [Hu|Hu]; [|exact Hsingle].
      set (k := Z.to_nat (p_unroll pol)). set (step := w * p_unroll pol).
      assert (Estep : step = w * Z.of_nat k) by (unfold step, k; rewrite Z2Nat.id by lia; reflexivity).
      assert (Hstep : 1 <= step) by (unfold step; nia).
      destruct (Z.leb_spec (F + p + step) (F + n - step)) as [Hle|Hgt]; [|exact Hsingle].
      destruct (ld_n_ok k p Hp Hd ltac:(lia)) as (vs & ks & E & V & L & C). rewrite E. cbn [bindR].
      rewrite adv_adv. replace (F + p + step) with (F + (p + step)) by lia.
      assert (Hds : (w | p + step - p0)).
      { replace (p + step - p0) with (p - p0 + step) by lia. apply Z.divide_add_r; [assumption|].
        unfold step. apply Z.divide_factor_l. }
      destruct (tr_unrolled_ok F k (loop_fuel (F + p) (F + n)) ltac:(unfold k; lia) (p + step) vs ks)
        as (accs & e & ls & E2 & L2 & V2 & P2 & He & Hde); try assumption; try lia.
      { unfold loop_fuel. lia. }
      rewrite <- Estep in E2. rewrite E2. cbn [bindR].
      destruct (tree_ok k accs ls ltac:(unfold k; lia) L2 V2) as (acc & E3 & L3 & S3).
      rewrite E3. cbn [bindR]. exists acc, e, (concat ls). split; [reflexivity|]. split; [assumption|].
      split; [assumption|]. split; [|split; [lia|assumption]].
      rewrite P2, C. replace (e - p) with (step + (e - (p + step))) by lia.
      rewrite (seg_app p step) by lia. rewrite <- Estep. reflexivity.
    Qed.
  End Loops.

  Lemma tr_body_ok pol w al acc1 l1 F p :
    1 <= w < two64 -> 0 <= p -> p < n -> (p_match pol = true -> (w | n - p)) ->
    (forall q, p <= q -> (w | q - p) -> q + w <= n -> usable q w) ->
    (p_match pol = false -> forall i, 0 <= i -> Z.testbit ((n - p) mod w) i = true ->
       usable (n - ((n - p) mod w) mod 2 ^ (i + 1)) (2 ^ i)) ->
    (al = true -> exists J, 0 <= J /\ w = 2 ^ J) ->
    (al = true -> forall i q, 0 <= i -> 2 ^ i <= w -> (2 ^ i | q - p) -> algn q (2 ^ i)) ->
    gsum op l1 acc1 ->
    exists x, tr_body op ldf pol w al acc1 (F + p) (F + n) (n - p) (adv p ps0) = Ok x
              /\ gsum op (l1 ++ seg p (n - p)) x.
  Proof.
    intros Hw Hp Hpn Hm Huw Hus Hpow Hal Hg. unfold tr_body.
    assert (Halw : al = true -> forall q, (w | q - p) -> algn q w).
    { intros E q Hq. destruct (Hpow E) as (J & HJ & EJ). rewrite EJ. apply (Hal E); try lia.
      rewrite <- EJ. exact Hq. }
    set (lo := (n - p) mod w). assert (Hmb : 0 <= lo < w) by (apply Z.mod_pos_bound; lia).
    destruct (p_match pol || (F + p <=? F + n - w)) eqn:Econd.
    - assert (Hpw : p + w <= n).
      { destruct (p_match pol) eqn:Em.
        - destruct (Hm eq_refl) as [q Hq]. assert (0 < q) by nia. nia.
        - cbn in Econd. lia. }
      destruct (tr_first_ok w p al ltac:(lia) Hp Huw Halw pol F p) as (acc0 & e & l & E & L & S & P & He & Hde);
        [lia|rewrite Z.sub_diag; apply Z.divide_0_r|lia|].
      rewrite E. cbn [bindR].
      assert (Emod : (n - e) mod w = lo).
      { unfold lo. destruct Hde as [q Hq]. replace (n - p) with (n - e + q * w) by lia.
        now rewrite Z.mod_add by lia. }
      destruct (tr_loop_ok w p al ltac:(lia) Hp Huw Halw F (p_match pol) (loop_fuel (F + p) (F + n)) e acc0 l)
        as (acc & E2 & L2 & S2 & Hle & Hde2); try assumption; try lia.
      { unfold loop_fuel. lia. }
      { intros Em. replace (n - e) with (n - p - (e - p)) by lia. apply Z.divide_sub_r; [now apply Hm|assumption]. }
      rewrite E2. cbn [bindR]. rewrite Emod in *. set (e2 := n - lo) in *.
      assert (Hseg : Permutation (l ++ seg e (e2 - e)) (seg p (e2 - p))).
      { rewrite P. replace (e2 - p) with ((e - p) + (e2 - e)) by lia. rewrite seg_app by lia.
        replace (p + (e - p)) with e by lia. reflexivity. }
      apply (vsum_perm _ _ _ _ Hseg) in S2.
      assert (Hfin : lo = 0 -> exists x, bindR (hreduce op acc) (fun x => Ok (op acc1 x)) = Ok x
                               /\ gsum op (l1 ++ seg p (n - p)) x).
      { intros E0. destruct (hreduce_ok acc _ ltac:(intros En; rewrite En in L2; cbn in L2; lia)
                               ltac:(lia) S2) as (x & Ex & Gx).
        rewrite Ex. cbn [bindR]. exists (op acc1 x). split; [reflexivity|].
        replace (n - p) with (e2 - p) by (unfold e2; lia). now apply gsum_op. }
      destruct (Z.eqb_spec w 1) as [E1|N1]; [apply Hfin; lia|].
      assert (Hm0 : p_match pol = true -> lo = 0).
      { intros Em. unfold lo. apply Z.mod_divide; [lia|now apply Hm]. }
      destruct (p_match pol) eqn:Em; cbn [orb]; [apply Hfin; auto|].
      destruct (Z.eqb_spec lo 0) as [E0|N0]; [apply Hfin; lia|].
      destruct (bit_ceil_half w ltac:(lia)) as (k & Hk & Ek & Hkw). rewrite Ek.
      pose proof (pow2_pos k Hk).
      assert (Hk2 : 2 ^ (k + 1) = 2 * 2 ^ k) by (rewrite Z.pow_add_r by lia; lia).
      assert (Hlom : lo mod 2 ^ (k + 1) = lo) by (apply Z.mod_small; lia).
      assert (H64k : k < 64).
      { apply pow2_lt_inv; [lia|]. change (2 ^ 64) with two64. lia. }
      assert (Hus2 : forall i, 0 <= i <= k -> Z.testbit lo i = true -> usable (n - lo mod 2 ^ (i + 1)) (2 ^ i)).
      { intros i Hi Hb. apply Hus; [reflexivity|lia|exact Hb]. }
      assert (Hal2 : al = true -> forall i q, 0 <= i <= k -> (2 ^ i | q - e2) -> algn q (2 ^ i)).
      { intros E' i q Hi Hq. destruct (Hpow E') as (J & HJ & EJ).
        assert (Hik : 2 ^ i <= 2 ^ k) by (apply Z.pow_le_mono_r; lia).
        apply (Hal E'); [lia|lia|]. replace (q - p) with (q - e2 + (e2 - p)) by lia.
        apply Z.divide_add_r; [assumption|]. apply Z.divide_trans with w; [|assumption].
        rewrite EJ. apply pow2_divide. split; [lia|].
        assert (i < J); [|lia]. apply pow2_lt_inv; lia. }
      rewrite split2_ok by lia. cbn [bindR fst snd]. set (a := Z.to_nat (2 ^ k)).
      assert (La : length (firstn a acc) = a) by (rewrite firstn_length; lia).
      assert (Lb : length (skipn a acc) = (length acc - a)%nat) by apply skipn_length.
      rewrite <- (firstn_skipn a acc) in S2. apply vsum_app in S2. destruct S2 as (la & lb & Sa & Sb & P2).
      assert (Hfinal : forall x l', gsum op (l' ++ seg e2 lo) x ->
                Permutation l' (l1 ++ la ++ lb) -> gsum op (l1 ++ seg p (n - p)) x).
      { intros x l' G P'. eapply gsum_perm; [|exact G]. rewrite P'.
        replace (n - p) with ((e2 - p) + lo) by (unfold e2; lia). rewrite seg_app by lia.
        replace (p + (e2 - p)) with e2 by lia. rewrite P2. now rewrite <- !app_assoc. }
      destruct (Z.eqb_spec (2 ^ k) (w - 2 ^ k)) as [Eeq|Nne].
      + rewrite vop_ok by lia. cbn [bindR].
        destruct (tr_epilogue_acc_ok 64 k e2 lo acc1 (map2 op (firstn a acc) (skipn a acc)) l1 (la ++ lb) al)
          as (x & Ex & Gx); try assumption; try lia.
        * rewrite map2_length by lia. lia.
        * apply vsum_op; [lia|assumption|assumption].
        * rewrite Ex. exists x. split; [reflexivity|]. rewrite Hlom in Gx.
          rewrite !app_assoc in Gx. eapply Hfinal; [exact Gx|]. now rewrite <- app_assoc.
      + assert (Hk2w : 0 < w - 2 ^ k) by lia.
        destruct (hreduce_ok (skipn a acc) lb) as (x & Ex & Gx).
        { intros En. rewrite En in Lb. cbn in Lb. lia. }
        { lia. }
        { assumption. }
        rewrite Ex. cbn [bindR].
        destruct (tr_epilogue_acc_ok 64 k e2 lo (op acc1 x) (firstn a acc) (l1 ++ lb) la al)
          as (y & Ey & Gy); try assumption; try lia; [now apply gsum_op|].
        rewrite Ey. exists y. split; [reflexivity|]. rewrite Hlom in Gy.
        rewrite !app_assoc in Gy. eapply Hfinal; [exact Gy|].
        rewrite <- !app_assoc. apply Permutation_app_head, Permutation_app_comm.
    - apply orb_false_iff in Econd. destruct Econd as [Em Hgt].
      assert (Hlo : lo = n - p) by (unfold lo; apply Z.mod_small; lia).
      assert (H2w : 2 <= w) by lia.
      destruct (bit_ceil_half w ltac:(lia)) as (k & Hk & Ek & Hkw). rewrite Ek.
      pose proof (pow2_pos k Hk).
      assert (Hlom : lo mod 2 ^ (k + 1) = lo) by (apply Z.mod_small; lia).
      assert (H64k : k < 64).
      { apply pow2_lt_inv; [lia|]. change (2 ^ 64) with two64. lia. }
      destruct (Z.ltb_spec 0 (2 ^ k)) as [_|]; [|lia].
      destruct (tr_epilogue_ok 64 k p lo acc1 l1 al) as (x & Ex & Gx).
      + lia.
      + lia.
      + exact Hp.
      + lia.
      + lia.
      + intros i Hi Hb. apply Hus; [assumption|lia|exact Hb].
      + intros E' i q Hi Hq. assert (Hik : 2 ^ i <= 2 ^ k) by (apply Z.pow_le_mono_r; lia).
        apply (Hal E'); [lia|lia|assumption].
      + exact Hg.
      + rewrite Ex. exists x. split; [reflexivity|]. rewrite Hlom, Hlo in Gx. exact Gx.
  Qed.

  (** Constant evaluation: the left fold. *)
  Lemma tr_const_ok F fuel : (forall p, usable p 1) -> forall p acc1, 0 <= p <= n -> (Z.to_nat (n - p) < fuel)%nat ->
    tr_const op ldf fuel (F + n) (F + p) (adv p ps0) acc1
    = Ok (fold_left op (skipn (Z.to_nat p) vals) acc1).
  Proof.
    intros Hu1. induction fuel as [|fuel IH]; intros p acc1 Hp Hf; [lia|].
    cbn [tr_const]. destruct (Z.ltb_spec (F + p) (F + n)) as [Hlt|Hge].
    - destruct (Hld false p 1) as (v & Ev & Pv); [lia|lia|lia|apply Hu1|discriminate|].
      rewrite Ev. cbn [bindR]. unfold seg in Pv.
      destruct (skipn (Z.to_nat p) vals) as [|x r] eqn:Es.
      { exfalso. assert (length (skipn (Z.to_nat p) vals) = 0%nat) by (now rewrite Es).
        rewrite skipn_length in H. lia. }
      change (Z.to_nat 1) with 1%nat in Pv. cbn [firstn] in Pv.
      apply Permutation_sym, Permutation_length_1_inv in Pv. subst v.
      change (hreduce op [x]) with (@Ok A x). cbn [bindR fold_left]. rewrite adv_adv. replace (F + p + 1) with (F + (p + 1)) by lia.
      rewrite IH by lia. f_equal. replace (Z.to_nat (p + 1)) with (Z.to_nat p + 1)%nat by lia.
      rewrite <- skipn_skipn', Es. reflexivity.
    - rewrite skipn_all2 by lia. reflexivity.
  Qed.
End TR.
