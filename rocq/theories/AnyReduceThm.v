(** C74: transform_reduce with any transform operation that keeps the number of lanes. *)
From Verif Require Import Base BaseFacts ExecModel ExecProofs ExecForEach ExecSpec ExecThm TransformModel ReduceModel
  ReduceSpec ReduceProofs TReduceModel TReduceSpec TReduceProofs TReduceThm ScheduleSpec ScheduleProofs OrderSpec OrderThm
  ChunkProofs ThrowModel CallsModel CallsSpec CallsProofs CallsThm AnyReduceSpec.
From Coq Require Import Permutation ZifyBool ZifyNat.
Ltac Zify.zify_post_hook ::= idtac.

Section Any.
  Context {T A : Type}.
  Variables (tr : list (list T) -> list A) (op : A -> A -> A).

  Lemma given_exists (m : mem T) srcs n p k : 0 <= p -> 0 <= k -> p + k <= n ->
    Forall (fun q => mapped m q (q + n)) srcs -> exists ch, given m srcs p k ch.
  Proof.
    intros Hp Hk Hn. induction 1 as [|q srcs Hq H [ch IH] ]; [exists []; constructor|].
    destruct (load_ok m (q + p) (Z.to_nat k)) as [c Hc].
    { intros a Ha. destruct (Hq a ltac:(lia)) as [x Hx]. congruence. }
    exists (c :: ch). constructor; [|exact IH]. now apply range_is_load.
  Qed.

  Lemma given_lengths (m : mem T) srcs p k ch : given m srcs p k ch ->
    length ch = length srcs /\ Forall (fun c => Z.of_nat (length c) = k) ch.
  Proof.
    induction 1 as [|q c srcs ch [H _] G [IH1 IH2] ]; [split; [reflexivity|constructor]|].
    split; [cbn; now f_equal|]. constructor; [lia|assumption].
  Qed.

  Lemma range_is_loads (m : mem T) p q l : range_is m p q l -> load m p (length l) = Some l.
  Proof.
    intros [Hl Hn]. destruct (load_ok m p (length l)) as [l' E].
    { intros a Ha. specialize (Hn (Z.to_nat (a - p)) ltac:(lia)). replace (p + Z.of_nat (Z.to_nat (a - p))) with a in Hn by lia.
      rewrite <- Hn. apply nth_error_Some. lia. }
    rewrite E. f_equal. assert (R : range_is m p q l').
    { apply load_range_is; [lia|]. rewrite <- Hl. now rewrite Nat2Z.id. }
    eapply range_is_unique; [exact R|split; assumption].
  Qed.

  Lemma given_ld c (m : mem T) srcs al p k ch : srcs <> [] -> 0 <= k -> given m srcs p k ch ->
    (al = true -> aligned_at c (hd 0 srcs + p) k = true) -> ld c tr m al (adv p srcs) k = Ok (tr ch).
  Proof.
    intros Hne Hk G Hal. destruct G as [|q c0 srcs ch R G]; [contradiction|]. unfold ld, adv. cbn [map hd] in *.
    assert (L : forall q c0, range_is m (q + p) (q + p + k) c0 -> load m (q + p) (Z.to_nat k) = Some c0).
    { intros q' c' R'. rewrite <- (range_is_loads _ _ _ _ R'). f_equal. destruct R' as [L _]. lia. }
    unfold load_chunk at 1. replace (al && negb (aligned_at c (q + p) k)) with false by (destruct al; [rewrite Hal by reflexivity|]; reflexivity).
    rewrite (L _ _ R). cbn [of_option bindR].
    assert (M : mapR (fun p0 => load_chunk c m false p0 k) (map (fun p0 => p0 + p) srcs) = Ok ch).
    { clear - G L. induction G as [|q c0 srcs ch R G IH]; [reflexivity|]. cbn [map mapR]. unfold load_chunk at 1. cbn [andb].
      rewrite (L _ _ R). cbn [of_option bindR]. now rewrite IH. }
    rewrite M. reflexivity.
  Qed.

  Lemma ld_given c (m : mem T) srcs al p k v : 0 <= k -> ld c tr m al (adv p srcs) k = Ok v ->
    exists ch, given m srcs p k ch /\ v = tr ch.
  Proof.
    intros Hk. unfold ld, adv. destruct srcs as [|q srcs]; [discriminate|]. cbn [map]. unfold load_chunk at 1.
    destruct (al && _); [discriminate|]. destruct (load m (q + p) (Z.to_nat k)) as [c0|] eqn:E0; [|discriminate]. cbn [of_option bindR].
    destruct (mapR _ _) as [vs|s] eqn:E; [|discriminate]. cbn [bindR]. intros H. injection H as <-. exists (c0 :: vs). split; [|reflexivity].
    constructor; [now apply range_is_load|]. revert vs E. induction srcs as [|q' srcs IH]; intros vs E; cbn [map mapR] in E.
    - injection E as <-. constructor.
    - unfold load_chunk at 1 in E. cbn [andb] in E. destruct (load m (q' + p) (Z.to_nat k)) as [c1|] eqn:E1; [|discriminate]. cbn [of_option bindR] in E.
      destruct (mapR _ _) as [vs'|s] eqn:E'; [|discriminate]. cbn [bindR] in E. injection E as <-. constructor; [now apply range_is_load|]. now apply IH.
  Qed.

  Lemma chunk_values_exist (m : mem T) srcs w d n : 1 <= w -> 0 <= d <= n -> Forall (fun q => mapped m q (q + n)) srcs ->
    keeps_lanes tr (length srcs) -> exists vals, chunk_values tr m srcs w d n vals.
  Proof.
    intros Hw Hd Hm Hk.
    destruct (list_choice (fun i b => exists p k ch, tr_chunk w d n p k /\ p <= Z.of_nat i < p + k /\ given m srcs p k ch
                                       /\ nth_error (tr ch) (i - Z.to_nat p) = Some b) (Z.to_nat n)) as (vals & L & Hv).
    - intros i Hi. destruct (chunk_cover w d n Hw Hd (Z.of_nat i) ltac:(lia)) as (p & k & C & Hp).
      destruct (chunk_inside w d n Hw Hd p k C) as (P1 & P2 & P3). destruct (given_exists m srcs n p k) as [ch G]; try assumption; [lia|].
      destruct (given_lengths _ _ _ _ _ G) as [G1 G2]. pose proof (Hk k ch G1 G2) as G3.
      destruct (nth_error (tr ch) (i - Z.to_nat p)) as [b|] eqn:E; [|apply nth_error_None in E; lia]. exists b, p, k, ch. auto.
    - exists vals. split; [lia|]. intros p k C. destruct (chunk_inside w d n Hw Hd p k C) as (P1 & P2 & P3).
      destruct (given_exists m srcs n p k) as [ch G]; try assumption; [lia|]. exists ch. split; [exact G|].
      destruct (given_lengths _ _ _ _ _ G) as [G1 G2]. pose proof (Hk k ch G1 G2) as G3. split; [exact G3|]. intros i Hi.
      destruct (Hv (Z.to_nat p + i)%nat ltac:(lia)) as (b & Eb & p' & k' & ch' & C' & Hp' & G' & E').
      destruct (chunk_disjoint w d n Hw Hd p k p' k' C C') as [<- <-]; [lia|lia|].
      rewrite (given_unique m srcs p k ch' ch G' G) in E'. rewrite Eb, <- E'. f_equal. lia.
  Qed.

  Lemma chunk_values_seg (m : mem T) srcs w d n vals p k ch : chunk_values tr m srcs w d n vals -> tr_chunk w d n p k ->
    0 <= p -> 0 < k -> p + k <= n -> given m srcs p k ch -> tr ch = seg vals p k.
  Proof.
    intros [Hl Hv] C Hp Hk Hn G. destruct (Hv p k C) as (ch' & G' & L & E). rewrite <- (given_unique m srcs p k ch' ch G' G) in *. clear G.
    apply nth_error_ext. intros i. unfold seg. rewrite nth_error_firstn', nth_error_skipn'.
    destruct (Nat.ltb_spec i (Z.to_nat k)) as [Hi|Hi]; [now rewrite E|apply nth_error_None; lia].
  Qed.

  Lemma transform_reduce_any c pol w first last srcs2 (m : mem T) init d :
    target_ok c -> c_ce c = false -> policy_ok pol -> width_ok w -> range_ok first last ->
    size_matches pol w first last ->
    prologue_length c pol w first (last - first) d -> (first = last \/ d < last - first) ->
    keeps_lanes tr (S (length srcs2)) ->
    Forall (fun p => mapped m p (p + (last - first))) (first :: srcs2) ->
    exists vals, (first < last -> chunk_values tr m (first :: srcs2) w d (last - first) vals)
      /\ (first = last -> vals = [])
      /\ transform_reduce c op tr m pol w first last srcs2 init
         = Ok (grouped op (Z.to_nat w) (Z.to_nat (p_unroll pol)) d init vals)
      /\ gsum op (init :: vals) (grouped op (Z.to_nat w) (Z.to_nat (p_unroll pol)) d init vals).
  Proof.
    intros Hc Hce Hp Hw Hr Hs Hd Hdn Hk Hm.
    assert (Hr' : first <= last) by apply Hr. destruct (Z.eq_dec first last) as [<-|Hne].
    { exists []. split; [lia|]. split; [reflexivity|]. unfold transform_reduce, transform_reduce_on. rewrite Z.eqb_refl.
      split; [reflexivity|apply gsum_one]. }
    destruct Hdn as [|Hdn]; [contradiction|].
    assert (Hd0 : 0 <= d) by (destruct Hd as [(_ & (H & _) & _)|(-> & _)]; lia).
    destruct (chunk_values_exist m (first :: srcs2) w d (last - first)) as [vals Hv]; try assumption; [apply Hw|lia|].
    exists vals. split; [intros _; exact Hv|]. split; [contradiction|]. unfold transform_reduce.
    apply transform_reduce_on_exact; try assumption; [now right|apply Hv| |].
    - intros al p k P1 P2 P3 P4 P5 C Hal. destruct (given_exists m (first :: srcs2) (last - first) p k) as [ch G]; try assumption; [lia|].
      rewrite (given_ld c m (first :: srcs2) al p k ch); [|discriminate|lia|exact G|exact Hal]. f_equal. eapply chunk_values_seg; eassumption.
    - intros al p k v P1 P2 P3 P4 P5 C E. destruct (ld_given c m (first :: srcs2) al p k v) as (ch & G & ->); [lia|exact E|].
      eapply chunk_values_seg; eassumption.
  Qed.

  Lemma chunk_values_unique (m : mem T) srcs w d n vals vals' : 1 <= w -> 0 <= d <= n ->
    chunk_values tr m srcs w d n vals -> chunk_values tr m srcs w d n vals' -> vals = vals'.
  Proof.
    intros Hw Hd [L H] [L' H']. apply nth_error_ext. intros i. destruct (Z_lt_le_dec (Z.of_nat i) n) as [Hi|Hi].
    - destruct (chunk_cover w d n Hw Hd (Z.of_nat i) ltac:(lia)) as (p & k & C & Hp).
      destruct (chunk_inside w d n Hw Hd p k C) as (P1 & P2 & P3).
      destruct (H p k C) as (ch & G & _ & E), (H' p k C) as (ch' & G' & _ & E').
      specialize (E (i - Z.to_nat p)%nat ltac:(lia)). specialize (E' (i - Z.to_nat p)%nat ltac:(lia)).
      rewrite (given_unique m srcs p k ch ch' G G'), <- E' in E.
      now replace (Z.to_nat p + (i - Z.to_nat p))%nat with i in E by lia.
    - now rewrite !(proj2 (nth_error_None _ _)) by lia.
  Qed.

  Lemma transform_reduce_any_consteval c pol w first last srcs2 (m : mem T) vals init :
    c_ce c = true -> width_ok w -> range_ok first last -> size_matches pol w first last ->
    keeps_lanes tr (S (length srcs2)) ->
    Z.of_nat (length vals) = last - first ->
    (forall i, 0 <= i < last - first -> exists args, Forall2 (fun p x => m (p + i) = Some x) (first :: srcs2) args
                 /\ nth_error vals (Z.to_nat i) = hd_error (tr (map (fun x => [x]) args))) ->
    transform_reduce c op tr m pol w first last srcs2 init = Ok (seq_sum op init vals).
  Proof.
    intros Hce Hw Hr Hs Hk Hl Hv.
    apply (transform_reduce_consteval (fun args => hd init (tr (map (fun x => [x]) args))) tr op c pol w first last srcs2 m vals init);
      try assumption.
    - intros chunks Hlen HF. split; [now apply Hk|]. intros i args Ha.
      assert (Hi : i = 0%nat).
      { destruct chunks as [|ch chunks]; [discriminate|]. inversion HF; subst. inversion Ha as [|? ? ? ? E]; subst.
        assert (i < length ch)%nat by (apply nth_error_Some; congruence). lia. }
      subst i. assert (E : map (fun x => [x]) args = chunks).
      { clear - Ha HF. induction Ha as [|ch x chunks args E _ IH]; [reflexivity|]. inversion HF; subst. cbn. f_equal; [|auto].
        destruct ch as [|y [|z ch] ]; cbn in *; try lia. congruence. }
      rewrite E. pose proof (Hk 1 chunks Hlen HF). destruct (tr chunks) as [|y l]; [cbn in *; lia|reflexivity].
    - split; [exact Hl|]. intros i Hi. destruct (Hv i Hi) as (args & Ha & E). exists args. split; [exact Ha|]. rewrite E.
      destruct (tr (map (fun x => [x]) args)) as [|y l] eqn:Et; [|reflexivity].
      assert (Z.of_nat (length vals) <= i) by (apply nth_error_None in E; lia). lia.
  Qed.
End Any.
