(** Masks in memory: load constructor, copy_to, and casting an object to a mask. *)
From Verif Require Import Base BaseFacts MaskModel LaneModel IntModel BitModel BitProofs.

Theorem mask_load_iff m p n r : mask_load m p n = Ok r <->
  length r = n /\ forall i, (i < n)%nat -> exists b, m (p + Z.of_nat i) = Some b /\ nth_error r i = Some b.
Proof.
  unfold mask_load. split.
  - intros H. destruct (load m p n) as [l|] eqn:E; [|discriminate]. injection H as <-.
    pose proof (load_length m p n l E) as L. split; [exact L|]. intros i Hi.
    destruct (nth_error l i) as [b|] eqn:Eb; [|apply nth_error_None in Eb; lia].
    exists b. split; [|reflexivity]. rewrite (load_nth m p n l E) by lia.
    replace (Z.to_nat (p + Z.of_nat i - p)) with i by lia. exact Eb.
  - intros [<- H]. rewrite load_intro; [reflexivity|]. intros i Hi.
    destruct (H i Hi) as (b & Eb & Er). now rewrite Eb, Er.
Qed.

Theorem mask_copy_to_iff m p k : (exists m', mask_copy_to m p k = Ok m') <->
  forall i, (i < length k)%nat -> m (p + Z.of_nat i) <> None.
Proof.
  unfold mask_copy_to. split.
  - intros (m' & H) i Hi N. destruct (store m p k) as [m1|] eqn:E; [|discriminate].
    pose proof (proj2 (store_defined m p k m1 E (p + Z.of_nat i)) N) as N'.
    pose proof (store_load m p k m1 E) as L. eapply (load_defined _ _ _ _ L); [|exact N']. lia.
  - intros H. destruct (store_ok m p k) as (m' & E); [|exists m'; now rewrite E].
    intros a Ha. replace a with (p + Z.of_nat (Z.to_nat (a - p))) by lia. apply H. lia.
Qed.

Theorem mask_copy_to_effect m p k m' : mask_copy_to m p k = Ok m' ->
  (forall i b, nth_error k i = Some b -> m' (p + Z.of_nat i) = Some b)
  /\ (forall q, ~ (p <= q < p + Z.of_nat (length k)) -> m' q = m q)
  /\ mask_load m' p (length k) = Ok k.
Proof.
  unfold mask_copy_to. intros H. destruct (store m p k) as [m1|] eqn:E; [|discriminate]. injection H as <-.
  pose proof (store_load m p k m1 E) as L. repeat split.
  - intros i b Hb. assert (i < length k)%nat by (apply nth_error_Some; congruence).
    rewrite (load_nth m1 p _ k L) by lia.
    replace (Z.to_nat (p + Z.of_nat i - p)) with i by lia. exact Hb.
  - intros q Hq. apply (store_outside m p k m1 E). lia.
  - unfold mask_load. now rewrite L.
Qed.

(** The lanes of one byte. *)
Lemma byte_lanes (b : object) n : length b = n -> lanes_of_bytes n 1 b = map (fun x => [x]) b.
Proof.
  revert b. induction n as [|n IH]; intros [|x b] L; cbn in *; try lia; [reflexivity|].
  f_equal. apply IH. lia.
Qed.

Theorem cast_to_mask to from x : wf from x -> sizeof to = sizeof from -> v_bool to = true -> v_size to = 1%nat ->
  (exists r, simd_bit_cast to from x = Ok r) <-> (forall o b, In o x -> In b o -> b = Some 0 \/ b = Some 1).
Proof.
  intros [Lx Hx] Es Eb E1.
  assert (L : length (bytes_of_lanes x) = v_lanes to).
  { unfold sizeof in Es. rewrite E1 in Es. unfold bytes_of_lanes.
    assert (G : forall y : list object, (forall o, In o y -> length o = v_size from) ->
              length (concat y) = (length y * v_size from)%nat).
    { induction y as [|o y IH]; intros Hy; [reflexivity|]. cbn [concat length]. rewrite app_length, IH.
      - rewrite (Hy o (or_introl eq_refl)). lia.
      - intros o' Ho'. apply Hy. now right. }
    rewrite G by (intros o Ho; apply (Hx o Ho)). lia. }
  unfold simd_bit_cast, bit_cast. rewrite Es, Nat.eqb_refl, E1, byte_lanes by exact L.
  split.
  - intros (r & H) o b Ho Hb. destruct (forallb _ _) eqn:F; [|discriminate]. rewrite forallb_forall in F.
    specialize (F [b]). unfold valid_lane in F. rewrite Eb in F. destruct b as [b|].
    + assert (T : (b =? 0) || (b =? 1) = true).
      { apply F. apply in_map_iff. exists (Some b). split; [reflexivity|]. apply in_concat. now exists o. }
      apply orb_true_iff in T. rewrite !Z.eqb_eq in T. destruct T as [-> | ->]; auto.
    + exfalso. assert (T : false = true); [|discriminate].
      apply F. apply in_map_iff. exists None. split; [reflexivity|]. apply in_concat. now exists o.
  - intros H. destruct (forallb _ _) eqn:F; [eauto|]. exfalso. rewrite <- not_true_iff_false, forallb_forall in F.
    apply F. intros o Ho. apply in_map_iff in Ho as (b & <- & Hb). apply in_concat in Hb as (o & Ho & Hb).
    unfold valid_lane. rewrite Eb. destruct (H o b Ho Hb) as [-> | ->]; reflexivity.
Qed.
