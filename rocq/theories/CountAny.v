(** C74 for count_if: predicates that mix lanes. *)
From Verif Require Import Base BaseFacts ExecModel ExecProofs ExecForEach ExecRun ExecSpec ExecThm ExecExact
  ReduceModel ReduceSpec ReduceProofs CountModel CountProofs ExecExamples ScheduleSpec ScheduleProofs ScheduleThm
  CallsSpec CallsProofs CallsThm AnyReduceSpec.
From Coq Require Import Permutation ZifyBool ZifyNat.
Ltac Zify.zify_post_hook ::= idtac.

Section Count.
  Context {T : Type} (pred : list T -> list bool).
  Hypothesis Hpred : keeps_mask pred.
  Notation tally := (true_values pred).

  Lemma tally_cons x r : tally (x :: r) = mask_count (pred x) + tally r.
  Proof. unfold true_values. cbn [map concat]. rewrite filter_app, app_length, Nat2Z.inj_add. reflexivity. Qed.
  Lemma tally_app a b : tally (a ++ b) = tally a + tally b.
  Proof. unfold true_values. rewrite map_app, concat_app, filter_app, app_length, Nat2Z.inj_add. reflexivity. Qed.
  Lemma tally_nonneg a : 0 <= tally a.
  Proof. unfold true_values. lia. Qed.

  Lemma incs_any w chunks : forall n zs, Forall (fun x : list T => Z.of_nat (length x) = w) chunks ->
    Z.of_nat (length zs) = w -> Forall (fun x => 0 <= x) zs -> zsum zs = n ->
    exists zs', fold_left (fun v x => where_inc (pred x) v) chunks (map fits zs) = map fits zs'
      /\ Z.of_nat (length zs') = w /\ Forall (fun x => 0 <= x) zs' /\ zsum zs' = n + tally chunks.
  Proof.
    induction chunks as [|x chunks IH]; intros n zs HF Hl Hz Hn.
    - exists zs. cbn. repeat split; try assumption. unfold true_values. cbn. lia.
    - inversion HF as [|? ? Hx HF']; subst. rewrite tally_cons.
      destruct (where_inc_ok (pred x) zs) as (z1 & E1 & L1 & F1 & S1); try assumption.
      { rewrite Hpred. lia. }
      cbn [fold_left]. rewrite E1.
      destruct (IH (zsum zs + mask_count (pred x)) z1) as (z2 & E2 & L2 & F2 & S2); try assumption; try lia.
      exists z2. repeat split; try assumption; lia.
  Qed.

  Lemma pops_any r : forall n x, holds n x ->
    holds (n + tally r) (fold_left int_add (map (fun y => Ok (mask_count (pred y))) r) x).
  Proof.
    induction r as [|y r IH]; intros n x Hn; cbn [map fold_left].
    - change (tally []) with 0. now rewrite Z.add_0_r.
    - rewrite tally_cons, Z.add_assoc. apply IH. pose proof (mask_count_nonneg (pred y)). destruct Hn as [H0 Hn].
      rewrite (int_add_fits n (mask_count (pred y))) by first [now split|now apply holds_ok].
      apply holds_fits. lia.
  Qed.

  Lemma count_step_any ce lib w n st chunks : chunks <> [] -> good_chunks w chunks -> cinv w n st ->
    cinv w (n + tally chunks) (count_step pred ce lib w st chunks).
  Proof.
    intros Hne Hg (cn & zs & -> & Hl & Hcn & Hz & Hs).
    pose proof (tally_nonneg chunks).
    unfold count_step. cbn [n_count n_countv]. destruct (ce && lib).
    - destruct chunks as [|x r]; [contradiction|]. rewrite tally_cons in *.
      pose proof (mask_count_nonneg (pred x)). 
      rewrite (int_add_fits cn (mask_count (pred x) + tally r));
        [|now apply holds_fits|apply pops_any; now apply holds_ok].
      eexists _, zs. split; [reflexivity|]. repeat split; try assumption; lia.
    - assert (Hv : Forall (fun x => Z.of_nat (length x) = w) chunks ->
        cinv w (n + tally chunks)
          (mkcnt (fits cn) (fold_left (fun v x => where_inc (pred x) v) chunks (map fits zs)))).
      { intros HF. destruct (incs_any w chunks (zsum zs) zs HF Hl Hz eq_refl)
          as (z' & E & L & F & S). rewrite E. exists cn, z'. repeat split; try assumption. lia. }
      destruct chunks as [|x [|y r] ]; [contradiction| |].
      + destruct (Z.eqb_spec (Z.of_nat (length x)) w) as [E|N].
        * apply (Hv ltac:(repeat constructor; assumption)).
        * rewrite tally_cons in *. change (tally []) with 0 in *. rewrite Z.add_0_r in *.
          rewrite (int_add_fits cn (mask_count (pred x))) by first [now apply holds_fits|now apply holds_ok].
          eexists _, zs. split; [reflexivity|]. repeat split; try assumption; lia.
      + apply Hv. destruct Hg as [ [z Hz']|HF]; [discriminate|exact HF].
  Qed.

  Lemma count_trace_any ce lib w tr : forall n st, Forall (fun ch => ch <> [] /\ good_chunks w ch) tr ->
    cinv w n st ->
    cinv w (n + tally (concat tr)) (state_after (count_fun pred ce lib w) st tr).
  Proof.
    induction tr as [|ch tr IH]; intros n st HF Hst.
    - cbn. change (tally []) with 0. now rewrite Z.add_0_r.
    - inversion HF as [|? ? [Hne Hg] HF']; subst. cbn [concat]. rewrite tally_app.
      cbn [state_after count_fun fst]. rewrite Z.add_assoc. apply IH; [assumption|].
      now apply count_step_any.
  Qed.

  (** Chunks of known sizes of a range are the elements at the places. *)
  Lemma chunks_at_places (m : mem T) first : forall (chs : list (list T)) i l, range_is m (first + i) (first + i + Z.of_nat (length l)) l ->
    concat chs = l -> chunks_at m first (place_group i (map (@length T) chs)) chs.
  Proof.
    induction chs as [|ch chs IH]; intros i l Hl E; [constructor|]. cbn [map place_group]. cbn in E. subst l. destruct Hl as [_ Hn].
    rewrite app_length in Hn. constructor.
    - cbn [fst snd]. split; [lia|]. intros j Hj. rewrite <- Hn by lia. now rewrite nth_error_app1.
    - apply (IH _ (concat chs)); [|reflexivity]. split; [lia|]. intros j Hj. specialize (Hn (length ch + j)%nat ltac:(lia)).
      rewrite nth_error_app2 in Hn by lia. replace (length ch + j - length ch)%nat with j in Hn by lia. rewrite Hn. f_equal. lia.
  Qed.

  Lemma count_any_finish c lib pol w first last m gs s : width_ok w ->
    run_for_each (count_fun pred (c_ce c) lib w) c pol w false first last m
                 (mkcnt (Ok 0) (repeat (Ok 0) (Z.to_nat w))) = Ok s ->
    map (map (@length T)) (s_trace s) = gs ->
    run_spec (count_fun pred (c_ce c) lib w) pol w false first last m
             (mkcnt (Ok 0) (repeat (Ok 0) (Z.to_nat w))) (Ok s) ->
    exists chunks, chunks_at m first (concat (places 0 gs)) chunks
      /\ count_if pred c lib pol w first last m = fits (tally chunks).
  Proof.
    intros Hw E Hgs (s' & E' & Hseen & Hst & _ & _ & _ & Hsh & _). injection E' as <-. unfold width_ok in Hw.
    exists (concat (s_trace s)). split.
    - rewrite concat_places, <- Hgs, <- concat_map. eapply chunks_at_places; [|reflexivity].
      fold (seen (s_trace s)). rewrite Z.add_0_r. destruct Hseen as [H1 H2]. split; [lia|exact H2].
    - unfold count_if. rewrite E. cbn [bindR].
      apply (final_sum w); [unfold two64; lia|]. change (tally (concat (s_trace s))) with (0 + tally (concat (s_trace s))).
      rewrite Hst. apply count_trace_any; [|apply initial_cinv; lia].
      apply (shapes_good (fun _ => true) (map (fun _ => true)) (fun _ => eq_refl) w (Z.to_nat (p_unroll pol))); [lia|exact Hsh].
  Qed.

  Lemma count_if_any c lib pol w first last m d :
    target_ok c -> c_ce c = false -> policy_ok pol -> width_ok w -> range_ok first last ->
    size_matches pol w first last -> reaches_alignment c pol w first last ->
    prologue_length c pol w first (last - first) d -> mapped m first last ->
    exists chunks, chunks_at m first (concat (places 0 (schedule w (p_unroll pol) d (last - first)))) chunks
      /\ count_if pred c lib pol w first last m
         = (if true_values pred chunks <=? int_max then Ok (true_values pred chunks) else Stop SUB).
  Proof.
    intros Hc Hce Hp Hw Hr Hs Hra Hd Hm.
    destruct (run_scheduled (count_fun pred (c_ce c) lib w) c pol w false first last m
                (mkcnt (Ok 0) (repeat (Ok 0) (Z.to_nat w)))) as (s & d' & E & Hd' & Hg & HS); try assumption;
      [now apply reaches_length|apply count_keeps|].
    rewrite (prologue_length_unique _ _ _ _ _ _ _ Hd Hd'). now apply (count_any_finish c lib pol w first last m _ s).
  Qed.

  Lemma count_if_any_consteval c lib pol w first last m :
    c_ce c = true -> width_ok w -> range_ok first last -> size_matches pol w first last ->
    (w = 2 -> first = last \/ (last - first) mod 2 <> 0) -> mapped m first last ->
    exists chunks, chunks_at m first (concat (places 0 (schedule w 1 0 (last - first)))) chunks
      /\ count_if pred c lib pol w first last m
         = (if true_values pred chunks <=? int_max then Ok (true_values pred chunks) else Stop SUB).
  Proof.
    intros Hce Hw Hr Hs Hodd Hm.
    destruct (for_each_ce_schedule (count_fun pred (c_ce c) lib w) c pol w false first last m
                (mkcnt (Ok 0) (repeat (Ok 0) (Z.to_nat w)))) as (s & E & Hg & HS); try assumption; [apply count_keeps|].
    now apply (count_any_finish c lib pol w first last m _ s).
  Qed.
End Count.
