(** count_if counts. *)
From Verif Require Import Base BaseFacts ExecModel ExecProofs ExecForEach ExecRun ExecSpec ExecThm
  ReduceModel ReduceSpec ReduceProofs CountModel ExecExamples.
From Coq Require Import Permutation ZifyBool ZifyNat.
Ltac Zify.zify_post_hook ::= idtac.

Fixpoint zsum (l : list Z) : Z := match l with [] => 0 | x :: l' => x + zsum l' end.

Lemma zsum_app l1 l2 : zsum (l1 ++ l2) = zsum l1 + zsum l2.
Proof. induction l1 as [|x l1 IH]; [reflexivity|]. cbn [app zsum]. lia. Qed.

Lemma zsum_perm l l' : Permutation l l' -> zsum l = zsum l'.
Proof. induction 1; cbn [zsum]; lia. Qed.

Lemma zsum_nonneg l : Forall (fun x => 0 <= x) l -> 0 <= zsum l.
Proof. induction 1; cbn [zsum]; lia. Qed.

(** An int holding [n], if it can. *)
Definition fits (n : Z) : res Z := if n <=? int_max then Ok n else Stop SUB.
Definition holds (n : Z) (x : res Z) : Prop := 0 <= n /\ (x = Ok n \/ x = fits n).

Lemma holds_fits n : 0 <= n -> holds n (fits n).
Proof. intros H. split; [exact H|now right]. Qed.
Lemma holds_ok n : 0 <= n -> holds n (Ok n).
Proof. intros H. split; [exact H|now left]. Qed.
Lemma fits_ok n : n <= int_max -> fits n = Ok n.
Proof. intros H. unfold fits. destruct (Z.leb_spec n int_max); [reflexivity|lia]. Qed.

Lemma int_add_fits a b x y : holds a x -> holds b y -> int_add x y = fits (a + b).
Proof.
  intros [Ha Hx] [Hb Hy].
  assert (E : int_add (Ok a) (Ok b) = fits (a + b)).
  { unfold int_add, fits. cbn [bindR]. unfold int_max in *.
    destruct (Z.leb_spec (- (2 ^ 31 - 1) - 1) (a + b)); [|lia]. cbn [andb]. now destruct (a + b <=? 2 ^ 31 - 1). }
  assert (EF : forall n, fits n = Ok n \/ (fits n = Stop SUB /\ int_max < n)).
  { intros n. unfold fits. destruct (Z.leb_spec n int_max); [now left|right; split; [reflexivity|lia] ]. }
  assert (ES : int_max < a + b -> fits (a + b) = Stop SUB).
  { intros H. unfold fits. destruct (Z.leb_spec (a + b) int_max); [lia|reflexivity]. }
  destruct Hx as [->| ->]; destruct Hy as [->| ->]; [exact E| | |].
  - destruct (EF b) as [->|[-> H] ]; [exact E|]. rewrite ES by lia. reflexivity.
  - destruct (EF a) as [->|[-> H] ]; [exact E|]. rewrite ES by lia. reflexivity.
  - destruct (EF a) as [->|[-> H] ].
    + destruct (EF b) as [->|[-> H] ]; [exact E|]. rewrite ES by lia. reflexivity.
    + rewrite ES by lia. reflexivity.
Qed.

Lemma int_gncsum l r : gncsum int_add l r -> forall zs, l = map fits zs ->
  Forall (fun x => 0 <= x) zs -> r = fits (zsum zs).
Proof.
  induction 1 as [x|l1 l2 a b H1 IH1 H2 IH2]; intros zs E HF.
  - destruct zs as [|z [|? ?]]; try discriminate. cbn in *. injection E as ->. f_equal. lia.
  - symmetry in E. apply map_eq_app in E. destruct E as (z1 & z2 & -> & <- & <-).
    rewrite Forall_app in HF. destruct HF as [HF1 HF2].
    rewrite zsum_app. rewrite (IH1 z1), (IH2 z2) by (try assumption; reflexivity).
    apply int_add_fits; apply holds_fits; now apply zsum_nonneg.
Qed.

Lemma int_gsum zs r : gsum int_add (map fits zs) r -> Forall (fun x => 0 <= x) zs -> r = fits (zsum zs).
Proof.
  intros (l & P & G) HF. apply Permutation_sym in P.
  apply Permutation_map_inv in P. destruct P as (zs' & -> & P).
  rewrite (zsum_perm zs zs') by assumption.
  apply (int_gncsum _ _ G zs' eq_refl).
  eapply Permutation_Forall; eassumption.
Qed.

Lemma mask_count_cons b k : mask_count (b :: k) = (if b then 1 else 0) + mask_count k.
Proof. unfold mask_count. destruct b; cbn [filter length]; lia. Qed.
Lemma mask_count_nonneg k : 0 <= mask_count k.
Proof. unfold mask_count. lia. Qed.
Lemma mask_count_app a b : mask_count (a ++ b) = mask_count a + mask_count b.
Proof. unfold mask_count. rewrite filter_app, app_length. lia. Qed.

Lemma where_inc_ok k : forall zs, length k = length zs -> Forall (fun x => 0 <= x) zs ->
  exists zs', where_inc k (map fits zs) = map fits zs' /\ length zs' = length zs
    /\ Forall (fun x => 0 <= x) zs' /\ zsum zs' = zsum zs + mask_count k.
Proof.
  induction k as [|b k IH]; intros [|z zs] Hlen HF; cbn in Hlen; try discriminate.
  - exists []. repeat split; constructor.
  - inversion HF as [|? ? Hz HF']; subst. rewrite mask_count_cons.
    destruct (IH zs ltac:(lia) HF') as (zs' & E & L & F & S).
    cbn [where_inc map]. rewrite E. destruct b.
    + rewrite (int_add_fits z 1) by (try apply holds_fits; try apply holds_ok; lia).
      exists ((z + 1) :: zs'). cbn [map length zsum].
      repeat split; [lia|constructor; [lia|assumption]|lia].
    + exists (z :: zs'). cbn [map length zsum].
      repeat split; [lia|constructor; [lia|assumption]|lia].
Qed.

Lemma range_is_mapped {T} (m : mem T) first last l : range_is m first last l -> mapped m first last.
Proof.
  intros [Hl Hn] a Ha. specialize (Hn (Z.to_nat (a - first)) ltac:(lia)).
  replace (first + Z.of_nat (Z.to_nat (a - first))) with a in Hn by lia.
  destruct (nth_error l (Z.to_nat (a - first))) as [x|] eqn:E; [now exists x|].
  apply nth_error_None in E. lia.
Qed.

Section Count.
  Context {T : Type} (p : T -> bool) (pred : list T -> list bool).
  Hypothesis Hpred : forall l, pred l = map p l.

  Definition hits (l : list T) : Z := Z.of_nat (length (filter p l)).

  Lemma hits_app a b : hits (a ++ b) = hits a + hits b.
  Proof. unfold hits. rewrite filter_app, app_length. lia. Qed.
  Lemma hits_nonneg a : 0 <= hits a.
  Proof. unfold hits. lia. Qed.
  Lemma mask_hits l : mask_count (pred l) = hits l.
  Proof.
    rewrite Hpred. unfold mask_count, hits. f_equal. induction l as [|x l IH]; [reflexivity|].
    cbn. destruct (p x); cbn; lia.
  Qed.

  Definition cinv (w : Z) (n : Z) (st : counters) : Prop :=
    exists cn zs, st = mkcnt (fits cn) (map fits zs) /\ Z.of_nat (length zs) = w /\ 0 <= cn
      /\ Forall (fun x => 0 <= x) zs /\ cn + zsum zs = n.

  Definition good_chunks (w : Z) (chunks : list (list T)) : Prop :=
    (exists x, chunks = [x]) \/ Forall (fun x => Z.of_nat (length x) = w) chunks.

  Lemma incs_ok w chunks : forall n zs, Forall (fun x => Z.of_nat (length x) = w) chunks ->
    Z.of_nat (length zs) = w -> Forall (fun x => 0 <= x) zs -> zsum zs = n ->
    exists zs', fold_left (fun v x => where_inc (pred x) v) chunks (map fits zs) = map fits zs'
      /\ Z.of_nat (length zs') = w /\ Forall (fun x => 0 <= x) zs' /\ zsum zs' = n + hits (concat chunks).
  Proof.
    induction chunks as [|x chunks IH]; intros n zs HF Hl Hz Hn.
    - exists zs. cbn. repeat split; try assumption. unfold hits. cbn. lia.
    - inversion HF as [|? ? Hx HF']; subst. cbn [concat]. rewrite hits_app.
      destruct (where_inc_ok (pred x) zs) as (z1 & E1 & L1 & F1 & S1); try assumption.
      { rewrite Hpred, map_length. lia. }
      rewrite mask_hits in S1. cbn [fold_left]. rewrite E1.
      destruct (IH (zsum zs + hits x) z1) as (z2 & E2 & L2 & F2 & S2); try assumption; try lia.
      exists z2. repeat split; try assumption; lia.
  Qed.

  Lemma pops_ok r : forall n x, holds n x ->
    holds (n + hits (concat r)) (fold_left int_add (map (fun y => Ok (mask_count (pred y))) r) x).
  Proof.
    induction r as [|y r IH]; intros n x Hn; cbn [map fold_left concat].
    - change (hits []) with 0. now rewrite Z.add_0_r.
    - rewrite hits_app, Z.add_assoc. apply IH. pose proof (hits_nonneg y). destruct Hn as [H0 Hn].
      rewrite mask_hits, (int_add_fits n (hits y)) by first [now split|now apply holds_ok].
      apply holds_fits. lia.
  Qed.

  Lemma count_step_ok ce lib w n st chunks : chunks <> [] -> good_chunks w chunks -> cinv w n st ->
    cinv w (n + hits (concat chunks)) (count_step pred ce lib w st chunks).
  Proof.
    intros Hne Hg (cn & zs & -> & Hl & Hcn & Hz & Hs).
    pose proof (hits_nonneg (concat chunks)).
    unfold count_step. cbn [n_count n_countv]. destruct (ce && lib).
    - destruct chunks as [|x r]; [contradiction|]. cbn [concat] in *. rewrite hits_app in *.
      pose proof (hits_nonneg x). rewrite mask_hits.
      rewrite (int_add_fits cn (hits x + hits (concat r)));
        [|now apply holds_fits|apply pops_ok; now apply holds_ok].
      eexists _, zs. split; [reflexivity|]. repeat split; try assumption; lia.
    - assert (Hv : Forall (fun x => Z.of_nat (length x) = w) chunks ->
        cinv w (n + hits (concat chunks))
          (mkcnt (fits cn) (fold_left (fun v x => where_inc (pred x) v) chunks (map fits zs)))).
      { intros HF. destruct (incs_ok w chunks (zsum zs) zs HF Hl Hz eq_refl)
          as (z' & E & L & F & S). rewrite E. exists cn, z'. repeat split; try assumption. lia. }
      destruct chunks as [|x [|y r]]; [contradiction| |].
      + destruct (Z.eqb_spec (Z.of_nat (length x)) w) as [E|N].
        * apply (Hv ltac:(repeat constructor; assumption)).
        * cbn [concat] in *. rewrite app_nil_r in *.
          rewrite mask_hits, (int_add_fits cn (hits x)) by first [now apply holds_fits|now apply holds_ok].
          eexists _, zs. split; [reflexivity|]. repeat split; try assumption; lia.
      + apply Hv. destruct Hg as [[z Hz']|HF]; [discriminate|exact HF].
  Qed.

  Lemma count_trace ce lib w tr : forall n st, Forall (fun ch => ch <> [] /\ good_chunks w ch) tr ->
    cinv w n st ->
    cinv w (n + hits (seen tr)) (state_after (count_fun pred ce lib w) st tr).
  Proof.
    induction tr as [|ch tr IH]; intros n st HF Hst.
    - cbn. unfold seen, hits. cbn. now rewrite Z.add_0_r.
    - inversion HF as [|? ? [Hne Hg] HF']; subst.
      assert (E : hits (seen (ch :: tr)) = hits (concat ch) + hits (seen tr)).
      { unfold seen. cbn [concat]. now rewrite concat_app, hits_app. }
      rewrite E. cbn [state_after count_fun fst]. rewrite Z.add_assoc. apply IH; [assumption|].
      now apply count_step_ok.
  Qed.

  Lemma initial_cinv w : 0 < w -> cinv w 0 (mkcnt (Ok 0) (repeat (Ok 0) (Z.to_nat w))).
  Proof.
    intros Hw. exists 0, (repeat 0 (Z.to_nat w)). rewrite repeat_length. split; [now rewrite map_repeat'|]. split; [lia|].
    split; [lia|]. split; [apply Forall_forall; intros x Hx; apply repeat_spec in Hx; lia|].
    assert (zsum (repeat 0 (Z.to_nat w)) = 0); [clear|lia].
    induction (Z.to_nat w) as [|j IH]; [reflexivity|]. cbn in *. exact IH.
  Qed.

  (** count + reduce(countv) *)
  Lemma final_sum w n st : 1 <= w < two64 -> cinv w n st ->
    int_add (n_count st) (match reduce int_add (n_countv st) with Some x => x | None => Stop SIllFormed end) = fits n.
  Proof.
    intros Hw (cn & zs & -> & Lz & Hcn & Fz & Sz). cbn [n_count n_countv]. pose proof (zsum_nonneg _ Fz).
    destruct (reduce_gsum int_add (map fits zs)) as (x & Ex & Gx).
    { intros Enil. apply map_eq_nil in Enil. rewrite Enil in Lz. cbn in Lz. lia. }
    { rewrite map_length. lia. }
    rewrite Ex, (int_gsum zs x Gx) by assumption.
    rewrite (int_add_fits cn (zsum zs)) by now apply holds_fits. f_equal. lia.
  Qed.

  Lemma shapes_good w u (tr : list (list (list T))) : 0 < w -> shapes_ok (Z.to_nat w) u tr ->
    Forall (fun ch => ch <> [] /\ good_chunks w ch) tr.
  Proof.
    intros Hw (pre & a & b & post & E & _ & _ & _ & Hu).
    assert (HF : Forall (fun x : list nat => (exists n, x = [n]) \/ (x = repeat (Z.to_nat w) u /\ (1 < u)%nat))
                        (map (map (@length T)) tr)).
    { rewrite E. rewrite !Forall_app. repeat split.
      - apply Forall_map, Forall_forall. intros e _. left. now eexists.
      - destruct (le_lt_dec u 1) as [Hu1|Hu1].
        + rewrite (Hu Hu1). constructor.
        + apply Forall_forall. intros x Hx. apply repeat_spec in Hx. now right.
      - apply Forall_forall. intros x Hx. apply repeat_spec in Hx. left. exists (Z.to_nat w). now subst.
      - apply Forall_map, Forall_forall. intros e _. left. now eexists. }
    rewrite Forall_map in HF. eapply Forall_impl; [|exact HF]. cbn.
    intros ch [[n Hn]|[Hn Hu1]].
    - destruct ch as [|x [|? ?]]; try discriminate. split; [discriminate|]. left. now eexists.
    - split.
      + intros ->. destruct u; [lia|discriminate].
      + right. assert (HF2 : Forall (fun k => k = Z.to_nat w) (map (@length T) ch)).
        { rewrite Hn. apply Forall_forall. intros x Hx. now apply repeat_spec in Hx. }
        rewrite Forall_map in HF2. eapply Forall_impl; [|exact HF2]. cbn. intros x Hx. lia.
  Qed.

  Lemma count_keeps ce lib w : keeps_lanes (count_fun pred ce lib w).
  Proof. intros st ch. reflexivity. Qed.

  Lemma count_finish c lib pol w first last m :
    width_ok w ->
    run_spec (count_fun pred (c_ce c) lib w) pol w false first last m
             (mkcnt (Ok 0) (repeat (Ok 0) (Z.to_nat w)))
             (run_for_each (count_fun pred (c_ce c) lib w) c pol w false first last m
                           (mkcnt (Ok 0) (repeat (Ok 0) (Z.to_nat w)))) ->
    forall l, range_is m first last l ->
    count_if pred c lib pol w first last m = fits (hits l).
  Proof.
    intros Hw (s & E & Hseen & Hst & _ & _ & _ & Hsh & _) l Hl. unfold width_ok in Hw.
    unfold count_if. rewrite E. cbn [bindR].
    assert (El : seen (s_trace s) = l) by (eapply range_is_unique; eassumption).
    apply (final_sum w); [unfold two64; lia|]. change (hits l) with (0 + hits l).
    rewrite Hst, <- El. apply count_trace; [|apply initial_cinv; lia].
    eapply shapes_good; [lia|exact Hsh].
  Qed.

  Lemma count_if_runtime_exact c lib pol w first last m l :
    target_ok c -> c_ce c = false -> policy_ok pol -> width_ok w -> range_ok first last ->
    size_matches pol w first last -> reaches_alignment c pol w first last ->
    range_is m first last l ->
    count_if pred c lib pol w first last m
    = (if Z.of_nat (length (filter p l)) <=? int_max then Ok (Z.of_nat (length (filter p l))) else Stop SUB).
  Proof.
    intros. apply count_finish; try assumption.
    apply for_each_runtime; try assumption; [apply count_keeps|]. now apply (range_is_mapped m _ _ l).
  Qed.

  Lemma count_if_runtime c lib pol w first last m l :
    target_ok c -> c_ce c = false -> policy_ok pol -> width_ok w -> range_ok first last ->
    size_matches pol w first last -> reaches_alignment c pol w first last ->
    range_is m first last l -> Z.of_nat (length (filter p l)) <= int_max ->
    count_if pred c lib pol w first last m = Ok (Z.of_nat (length (filter p l))).
  Proof.
    intros. rewrite (count_if_runtime_exact c lib pol w first last m l) by assumption. now apply fits_ok.
  Qed.

  Lemma count_if_consteval_exact c lib pol w first last m l :
    c_ce c = true -> width_ok w -> range_ok first last -> size_matches pol w first last ->
    (w = 2 -> first = last \/ (last - first) mod 2 <> 0) ->
    range_is m first last l ->
    count_if pred c lib pol w first last m
    = (if Z.of_nat (length (filter p l)) <=? int_max then Ok (Z.of_nat (length (filter p l))) else Stop SUB).
  Proof.
    intros. apply count_finish; try assumption.
    apply for_each_consteval; try assumption; [apply count_keeps|]. now apply (range_is_mapped m _ _ l).
  Qed.

  Lemma count_if_consteval c lib pol w first last m l :
    c_ce c = true -> width_ok w -> range_ok first last -> size_matches pol w first last ->
    (w = 2 -> first = last \/ (last - first) mod 2 <> 0) ->
    range_is m first last l -> Z.of_nat (length (filter p l)) <= int_max ->
    count_if pred c lib pol w first last m = Ok (Z.of_nat (length (filter p l))).
  Proof.
    intros. rewrite (count_if_consteval_exact c lib pol w first last m l) by assumption. now apply fits_ok.
  Qed.
End Count.

Lemma count_if_consteval_refuted :
  exists c w first last (m : mem Z) l,
    target_ok c /\ c_ce c = true /\ width_ok w /\ range_ok first last /\ range_is m first last l
    /\ Z.of_nat (length (filter Z.odd l)) = 1
    /\ count_if (map Z.odd) c true pol0 w first last m = Ok 2.
Proof.
  exists (ex_cfg 0 false true), 2, 0, 2, (ex_mem 0 2), [100; 101].
  split; [now apply ex_target|]. split; [reflexivity|]. split; [unfold width_ok; lia|].
  split; [unfold range_ok; lia|]. split; [|split; vm_compute; reflexivity].
  split; [reflexivity|]. intros [|[|i]] Hi; [reflexivity|reflexivity|cbn in Hi; lia].
Qed.
