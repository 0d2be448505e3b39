(** Proofs for C79: the grouping of C69 does not depend on what is combined, so that it is an
    expression; its depth; the errors that sum up along a path. *)
From Verif Require Import Base BaseFacts ExecModel ExecProofs ExecForEach ExecSpec ExecThm TransformModel
  ReduceModel ReduceSpec ReduceProofs TReduceModel TReduceSpec TReduceProofs TReduceThm
  ScheduleSpec ScheduleProofs OrderSpec OrderProofs OrderThm AccSpec.
From Coq Require Import Permutation ZifyBool ZifyNat QArith Qabs Sorted.
Ltac Zify.zify_post_hook ::= idtac.
#[local] Open Scope nat_scope.

(** ** The grouping of images is the image of the grouping *)
Section Hom.
  Context {A B : Type}.
  Variables (op : A -> A -> A) (op' : B -> B -> B) (h : A -> B) (dflt : A).
  Hypothesis h_op : forall a b, h (op a b) = op' (h a) (h b).

  Lemma hom_fold v : forall x, h (fold_left op v x) = fold_left op' (map h v) (h x).
  Proof. induction v as [|y v IH]; intros x; [reflexivity|]. cbn. now rewrite IH, h_op. Qed.

  Lemma hom_fold1 v : h (fold1 op dflt v) = fold1 op' (h dflt) (map h v).
  Proof. destruct v as [|x v]; [reflexivity|]. apply hom_fold. Qed.

  Lemma hom_zip a : forall b, map h (zip op a b) = zip op' (map h a) (map h b).
  Proof.
    unfold zip. induction a as [|x a IH]; intros [|y b]; try reflexivity. cbn. now rewrite IH, h_op.
  Qed.

  Lemma hom_across_below k : forall v, h (across_below op dflt k v) = across_below op' (h dflt) k (map h v).
  Proof.
    induction k as [|k IH]; intros v; cbn [across_below]; [apply hom_fold1|].
    rewrite map_length. destruct (length v <=? 3); [apply hom_fold1|].
    destruct (2 ^ S k <=? length v); [|apply IH].
    rewrite !skipn_map, !firstn_map, <- hom_zip, <- IH.
    destruct (skipn (2 ^ S k) v) as [|y r]; [reflexivity|]. rewrite h_op. cbn [map]. f_equal. apply IH.
  Qed.

  Lemma hom_across v : h (across op dflt v) = across op' (h dflt) (map h v).
  Proof. unfold across. rewrite map_length. apply hom_across_below. Qed.

  Lemma hom_chunk w l i : map h (chunk w l i) = chunk w (map h l) i.
  Proof. unfold chunk. now rewrite skipn_map, firstn_map. Qed.

  Lemma hom_fold_zip cs : forall c, map h (fold_left (zip op) cs c) = fold_left (zip op') (map (map h) cs) (map h c).
  Proof. induction cs as [|d cs IH]; intros c; [reflexivity|]. cbn. now rewrite IH, hom_zip. Qed.

  Lemma hom_stack cs : map h (stack op cs) = stack op' (map (map h) cs).
  Proof. destruct cs as [|c cs]; [reflexivity|]. apply hom_fold_zip. Qed.

  Lemma hom_pyramid n acc acc' k : (forall j, map h (acc j) = acc' j) ->
    forall i, map h (pyramid op n acc k i) = pyramid op' n acc' k i.
  Proof.
    intros Ha. induction k as [|k IH]; intros i; cbn [pyramid]; [apply Ha|].
    destruct (i + 2 ^ k <? n); [|apply IH]. now rewrite hom_zip, !IH.
  Qed.

  Lemma hom_map_chunk w l (f : nat -> nat) s :
    map (map h) (map (fun i => chunk w l (f i)) s) = map (fun i => chunk w (map h l) (f i)) s.
  Proof. rewrite map_map. apply map_ext. intros i. apply hom_chunk. Qed.

  Lemma hom_full_chunks w u l : map h (full_chunks op w u l) = full_chunks op' w u (map h l).
  Proof.
    unfold full_chunks. rewrite map_length. destruct ((1 <? u) && (2 * u <=? length l / w)).
    - rewrite hom_fold_zip. rewrite (hom_map_chunk w l (fun i => i)). f_equal.
      apply hom_pyramid. intros j. rewrite hom_stack. f_equal. apply hom_map_chunk.
    - rewrite hom_stack. f_equal. apply (hom_map_chunk w l (fun i => i)).
  Qed.

  Lemma hom_halves k v : map h (halves op k v) = halves op' k (map h v).
  Proof. unfold halves. now rewrite hom_zip, firstn_map, skipn_map. Qed.

  Lemma hom_tail k : forall total acc rest,
    h (tail op dflt k total acc rest) = tail op' (h dflt) k (h total) (map h acc) (map h rest).
  Proof.
    induction k as [|k IH]; intros total acc rest; cbn [tail]; rewrite map_length.
    - destruct (2 ^ 0 <=? length rest).
      + rewrite firstn_map, skipn_map, <- hom_zip.
        destruct (skipn (2 ^ 0) rest); cbn [map]; [now rewrite h_op, hom_across|reflexivity].
      + destruct rest; cbn [map]; [now rewrite h_op, hom_across|reflexivity].
    - destruct (2 ^ S k <=? length rest).
      + rewrite firstn_map, skipn_map, <- hom_zip.
        destruct (skipn (2 ^ S k) rest) as [|y r]; [cbn [map]; now rewrite h_op, hom_across|].
        rewrite <- hom_halves. change (h y :: map h r) with (map h (y :: r)). rewrite <- IH. reflexivity.
      + destruct rest as [|y r]; [cbn [map]; now rewrite h_op, hom_across|].
        rewrite <- hom_halves. rewrite IH. reflexivity.
  Qed.

  Lemma hom_short k : forall total rest,
    h (short op dflt k total rest) = short op' (h dflt) k (h total) (map h rest).
  Proof.
    induction k as [|k IH]; intros total rest; cbn [short]; rewrite map_length.
    - destruct (2 ^ 0 <=? length rest); [|reflexivity]. rewrite firstn_map, skipn_map.
      destruct (skipn (2 ^ 0) rest); cbn [map]; [now rewrite h_op, hom_across|reflexivity].
    - destruct (2 ^ S k <=? length rest); [|apply IH]. rewrite firstn_map, skipn_map.
      destruct (skipn (2 ^ S k) rest) as [|y r]; [cbn [map]; now rewrite h_op, hom_across|].
      rewrite <- hom_halves. rewrite hom_tail. reflexivity.
  Qed.

  Lemma hom_main w u total l : h (main op dflt w u total l) = main op' (h dflt) w u (h total) (map h l).
  Proof.
    unfold main. rewrite map_length. destruct (w <=? length l); [|apply hom_short].
    rewrite skipn_map, <- hom_full_chunks.
    destruct (skipn (length l / w * w) l) as [|y r]; [cbn [map]; now rewrite h_op, hom_across|].
    set (R := y :: r). change (map h R) with (h y :: map h r) at 1. cbn [map].
    change (h y :: map h r) with (map h R).
    destruct (2 ^ S (Nat.log2 (w - 1)) =? w).
    - now rewrite hom_tail, hom_halves.
    - now rewrite hom_tail, h_op, hom_across, skipn_map, firstn_map.
  Qed.

  Lemma hom_parts ks : forall l, map (map h) (parts ks l) = parts ks (map h l).
  Proof. induction ks as [|k ks IH]; intros l; [reflexivity|]. cbn. now rewrite IH, firstn_map, skipn_map. Qed.

  Lemma hom_totals ps : forall t,
    h (fold_left (fun t ch => op t (across op dflt ch)) ps t)
    = fold_left (fun t ch => op' t (across op' (h dflt) ch)) (map (map h) ps) (h t).
  Proof. induction ps as [|p ps IH]; intros t; [reflexivity|]. cbn [fold_left map]. now rewrite IH, h_op, hom_across. Qed.
End Hom.

Lemma hom_grouped {A B} (op : A -> A -> A) (op' : B -> B -> B) (h : A -> B) w u d init vals :
  (forall a b, h (op a b) = op' (h a) (h b)) ->
  h (grouped op w u d init vals) = grouped op' w u d (h init) (map h vals).
Proof.
  intros H. unfold grouped. destruct vals as [|x vals]; [reflexivity|].
  set (V := x :: vals). change (map h V) with (h x :: map h vals) at 1. cbn [map].
  change (h x :: map h vals) with (map h V).
  rewrite (hom_main op op' h init H). unfold prologue_total.
  rewrite (hom_totals op op' h init H), (hom_parts h), skipn_map. reflexivity.
Qed.

(** ** Depth *)
Section Depth.
  Context {A : Type}.
  Variable x0 : A.
  Notation E := (expr A).
  Notation dflt := (Elem x0).

  Definition below (k : nat) (v : list E) : Prop := Forall (fun t => depth t <= k) v.

  Lemma below_le j k v : j <= k -> below j v -> below k v.
  Proof. intros H. apply Forall_impl. intros t. lia. Qed.

  Lemma below_firstn k n v : below k v -> below k (firstn n v).
  Proof. revert v. induction n as [|n IH]; intros v H; [constructor|]. destruct H; constructor; [assumption|now apply IH]. Qed.

  Lemma below_skipn k n v : below k v -> below k (skipn n v).
  Proof. revert v. induction n as [|n IH]; intros v H; [exact H|]. destruct H; [constructor|]. now apply IH. Qed.

  Lemma below_zip k a b : below k a -> below k b -> below (S k) (zip Comb a b).
  Proof.
    intros Ha. revert b. induction Ha as [|x a Hx Ha IH]; intros b Hb; [constructor|].
    destruct Hb as [|y b Hy Hb]; [constructor|]. constructor; [cbn; lia|]. now apply IH.
  Qed.

  Lemma zip_length_le a : forall b : list E, length (zip Comb a b) <= length a /\ length (zip Comb a b) <= length b.
  Proof. intros b. unfold zip. rewrite map_length, combine_length. lia. Qed.

  Lemma fold1_depth k v : below k v -> length v <= 3 -> depth (fold1 Comb dflt v) <= k + Nat.log2_up (length v).
  Proof.
    intros H Hl. destruct H as [|x v Hx H]; [cbn; lia|].
    destruct H as [|y v Hy H]; [cbn; lia|]. destruct H as [|z v Hz H]; [cbn; lia|].
    destruct H as [|? v]; [|cbn in Hl; lia]. change (Nat.log2_up (length [x; y; z])) with 2. cbn [fold1 fold_left depth]. lia.
  Qed.

  Lemma log2_up_above h n : 2 ^ h < n -> S h <= Nat.log2_up n.
  Proof. intros H. apply Nat.log2_up_lt_pow2; [|exact H]. pose proof (Nat.neq_0_lt_0 (2 ^ h)). lia. Qed.

  Lemma log2_up_upto h n : n <= 2 ^ h -> Nat.log2_up n <= h.
  Proof.
    intros H. destruct (Nat.eq_dec n 0) as [->|Hn]; [cbn; lia|].
    apply Nat.log2_up_le_pow2; [lia|exact H].
  Qed.

  Lemma pow2_pos h : 1 <= 2 ^ h.
  Proof. induction h; cbn; lia. Qed.

  Lemma across_below_depth h : forall k v, below k v -> length v < 2 ^ S h ->
    depth (across_below Comb dflt h v) <= k + Nat.log2_up (length v).
  Proof.
    induction h as [|h IH]; intros k v H Hl; cbn [across_below].
    { apply fold1_depth; [exact H|]. cbn in Hl. lia. }
    destruct (Nat.leb_spec (length v) 3) as [H3|H3]; [now apply fold1_depth|].
    destruct (Nat.leb_spec (2 ^ S h) (length v)) as [Hb|Hb]; [|now apply IH].
    assert (Ep : 2 ^ S (S h) = 2 ^ S h + 2 ^ S h) by (cbn; lia).
    assert (Ep' : 2 ^ S h = 2 ^ h + 2 ^ h) by (cbn; lia). pose proof (pow2_pos h) as Hp.
    set (z := zip _ _ _).
    assert (Hz : below (S k) z) by (apply below_zip; repeat apply below_firstn; try apply below_skipn; exact H).
    assert (Lz : length z = 2 ^ h).
    { unfold z, zip. rewrite map_length, combine_length, !firstn_length, skipn_length. lia. }
    pose proof (IH (S k) z Hz ltac:(lia)) as Dz. rewrite Lz, Nat.log2_up_pow2 in Dz by lia.
    destruct (skipn (2 ^ S h) v) as [|y r] eqn:Er.
    - assert (length v = 2 ^ S h) as ->.
      { assert (L := f_equal (@length E) Er). rewrite skipn_length in L. cbn [length] in L. lia. }
      rewrite Nat.log2_up_pow2 by lia. lia.
    - rewrite <- Er. assert (L := f_equal (@length E) Er). rewrite skipn_length in L. cbn [length] in L.
      assert (Hr : below k (skipn (2 ^ S h) v)) by now apply below_skipn.
      pose proof (IH k _ Hr ltac:(rewrite skipn_length; lia)) as Dr. rewrite skipn_length in Dr.
      assert (Nat.log2_up (length v - 2 ^ S h) <= S h) by (apply log2_up_upto; lia).
      assert (S (S h) <= Nat.log2_up (length v)) by (apply log2_up_above; lia).
      cbn [depth]. lia.
  Qed.

  Lemma across_depth k v : below k v -> depth (across Comb dflt v) <= k + Nat.log2_up (length v).
  Proof.
    intros H. unfold across. destruct v as [|x v]; [cbn; lia|].
    apply across_below_depth; [exact H|]. apply Nat.log2_spec. cbn. lia.
  Qed.

  Lemma fold_zip_depth k cs : forall c, below k c -> Forall (below 0) cs -> below (k + length cs) (fold_left (zip Comb) cs c).
  Proof.
    revert k. induction cs as [|d cs IH]; intros k c Hc Hcs; [now rewrite Nat.add_0_r|].
    inversion Hcs as [|? ? Hd Hcs']; subst. cbn [fold_left length]. rewrite Nat.add_succ_r, <- Nat.add_succ_l.
    apply IH; [|assumption]. apply below_zip; [assumption|]. eapply below_le; [|eassumption]. lia.
  Qed.

  Lemma stack_depth cs : Forall (below 0) cs -> below (length cs - 1) (stack Comb cs).
  Proof.
    intros H. destruct H as [|c cs Hc H]; [constructor|]. cbn [stack length].
    replace (S (length cs) - 1) with (0 + length cs) by lia. now apply fold_zip_depth.
  Qed.

  Lemma pyramid_depth n acc a : (forall j, below a (acc j)) ->
    forall k i, below (a + Nat.min k (Nat.log2_up n)) (pyramid Comb n acc k i).
  Proof.
    intros Ha. induction k as [|k IH]; intros i; cbn [pyramid].
    { eapply below_le; [|apply Ha]. lia. }
    destruct (Nat.ltb_spec (i + 2 ^ k) n) as [H|H].
    - assert (S k <= Nat.log2_up n) by (apply log2_up_above; lia).
      replace (a + Nat.min (S k) (Nat.log2_up n)) with (S (a + Nat.min k (Nat.log2_up n))) by lia.
      apply below_zip; apply IH.
    - eapply below_le; [|apply IH]. lia.
  Qed.

  Lemma chunks_depth w l s (f : nat -> nat) : below 0 l -> Forall (below 0) (map (fun i => chunk w l (f i)) s).
  Proof.
    intros H. apply Forall_forall. intros c Hc. apply in_map_iff in Hc. destruct Hc as (i & <- & _).
    apply below_firstn, below_skipn, H.
  Qed.

  Definition dep (w u n : nat) : nat := rounds w u n - 1.

  Lemma rounds_pos w u n : 1 <= rounds w u n.
  Proof.
    unfold rounds. destruct (Nat.ltb_spec 1 u) as [Hu|Hu]; cbn [andb]; [|lia].
    destruct (Nat.leb_spec (2 * u) (n / w)) as [Hq|Hq]; [|lia].
    assert (2 <= n / w / u) by (apply Nat.div_le_lower_bound; lia). lia.
  Qed.

  Lemma full_chunks_depth w u l : below 0 l -> below (dep w u (length l)) (full_chunks Comb w u l).
  Proof.
    intros H. unfold full_chunks, dep, rounds. destruct (Nat.ltb_spec 1 u) as [Hu|Hu]; cbn [andb].
    - destruct (Nat.leb_spec (2 * u) (length l / w)) as [Hq|Hq].
      + set (q := length l / w) in *. assert (2 <= q / u) by (apply Nat.div_le_lower_bound; lia).
        assert (Eq : q - q / u * u = q mod u) by (rewrite Nat.mod_eq; lia).
        rewrite Eq.
        replace (q / u + q mod u + Nat.log2_up u - 1)
          with ((q / u - 1) + Nat.log2_up u + length (map (chunk w l) (seq (q / u * u) (q mod u))))
          by (rewrite map_length, seq_length; lia).
        apply fold_zip_depth; [|apply (chunks_depth w l _ (fun i => i)); exact H].
        eapply below_le; [|apply pyramid_depth with (a := q / u - 1)]; [lia|].
        intros j. pose proof (stack_depth (map (fun i => chunk w l (i * u + j)) (seq 0 (q / u)))) as S.
        rewrite map_length, seq_length in S. apply S. now apply (chunks_depth w l _ (fun i => i * u + j)).
      + eapply below_le; [|apply stack_depth]; [rewrite map_length, seq_length; lia|].
        now apply (chunks_depth w l _ (fun i => i)).
    - eapply below_le; [|apply stack_depth]; [rewrite map_length, seq_length; lia|].
      now apply (chunks_depth w l _ (fun i => i)).
  Qed.

  Lemma halves_depth a k v : below a v -> below (S a) (halves Comb k v).
  Proof. intros H. apply below_zip; [now apply below_firstn|now apply below_skipn]. Qed.

  Lemma halves_length k (v : list E) : length (halves Comb k v) <= 2 ^ k.
  Proof.
    unfold halves. pose proof (zip_length_le (firstn (2 ^ k) v) (skipn (2 ^ k) v)) as [H _].
    rewrite firstn_length in H. lia.
  Qed.

  Lemma tail_depth k : forall a total acc rest, below a acc -> length acc <= 2 ^ k -> below 0 rest ->
    depth (tail Comb dflt k total acc rest) <= S (Nat.max (depth total) (a + 2 * k + 1)).
  Proof.
    induction k as [|k IH]; intros a total acc rest Ha Hl Hr; cbn [tail].
    - set (fits := 2 ^ 0 <=? length rest). set (acc' := if fits then zip Comb acc _ else acc). set (rest' := if fits then skipn _ rest else rest).
      assert (Ha' : below (S a) acc' /\ length acc' <= 2 ^ 0).
      { unfold acc'. destruct fits; split; try exact Hl.
        - apply below_zip; [exact Ha|]. apply below_firstn. eapply below_le; [|exact Hr]. lia.
        - etransitivity; [apply (proj1 (zip_length_le _ _))|exact Hl].
        - eapply below_le; [|exact Ha]. lia. }
      destruct Ha' as [Ha' La']. pose proof (across_depth _ _ Ha') as D.
      pose proof (log2_up_upto 0 _ La'). destruct rest'; cbn [depth]; lia.
    - set (fits := 2 ^ S k <=? length rest). set (acc' := if fits then zip Comb acc _ else acc). set (rest' := if fits then skipn _ rest else rest).
      assert (Ha' : below (S a) acc' /\ length acc' <= 2 ^ S k).
      { unfold acc'. destruct fits; split; try exact Hl.
        - apply below_zip; [exact Ha|]. apply below_firstn. eapply below_le; [|exact Hr]. lia.
        - etransitivity; [apply (proj1 (zip_length_le _ _))|exact Hl].
        - eapply below_le; [|exact Ha]. lia. }
      assert (Hr' : below 0 rest') by (unfold rest'; destruct fits; [now apply below_skipn|exact Hr]).
      destruct Ha' as [Ha' La']. pose proof (across_depth _ _ Ha') as D.
      pose proof (log2_up_upto (S k) _ La'). destruct rest' as [|y r]; [cbn [depth]; lia|].
      pose proof (IH (S (S a)) total (halves Comb k acc') (y :: r) (halves_depth _ _ _ Ha')
                     (halves_length _ _) Hr') as D'. lia.
  Qed.

  Lemma short_depth k : forall total rest, below 0 rest ->
    depth (short Comb dflt k total rest) <= S (Nat.max (depth total) (2 * k)).
  Proof.
    induction k as [|k IH]; intros total rest Hr; cbn [short].
    - destruct (2 ^ 0 <=? length rest); [|cbn; lia].
      pose proof (across_depth 0 (firstn (2 ^ 0) rest) (below_firstn _ _ _ Hr)) as D.
      assert (Nat.log2_up (length (firstn (2 ^ 0) rest)) <= 0) by (apply log2_up_upto; rewrite firstn_length; lia).
      destruct (skipn (2 ^ 0) rest); cbn [depth]; lia.
    - destruct (2 ^ S k <=? length rest).
      + pose proof (across_depth 0 (firstn (2 ^ S k) rest) (below_firstn _ _ _ Hr)) as D.
        assert (Nat.log2_up (length (firstn (2 ^ S k) rest)) <= S k) by (apply log2_up_upto; rewrite firstn_length; lia).
        pose proof (below_skipn 0 (2 ^ S k) rest Hr) as Hs.
        destruct (skipn (2 ^ S k) rest) as [|y r]; [cbn [depth]; lia|].
        pose proof (tail_depth k 1 total (halves Comb k (firstn (2 ^ S k) rest)) (y :: r)) as D'.
        specialize (D' (halves_depth 0 k _ (below_firstn _ _ _ Hr)) (halves_length _ _) Hs). lia.
      + pose proof (IH total rest Hr). lia.
  Qed.

  Lemma zip_length_bound (a b : list E) n : length a <= n -> length (zip Comb a b) <= n.
  Proof. intros H. etransitivity; [apply (proj1 (zip_length_le _ _))|exact H]. Qed.

  Lemma fold_zip_length cs : forall c n, length c <= n -> length (fold_left (zip (@Comb A)) cs c) <= n.
  Proof. induction cs as [|d cs IH]; intros c n H; [exact H|]. apply IH. now apply zip_length_bound. Qed.

  Lemma stack_length n cs : Forall (fun c : list E => length c <= n) cs -> length (stack Comb cs) <= n.
  Proof. intros H. destruct H as [|c cs Hc H]; [cbn; lia|]. now apply fold_zip_length. Qed.

  Lemma chunks_length w (l : list E) s (f : nat -> nat) :
    Forall (fun c => length c <= w) (map (fun i => chunk w l (f i)) s).
  Proof.
    apply Forall_forall. intros c Hc. apply in_map_iff in Hc. destruct Hc as (i & <- & _).
    unfold chunk. rewrite firstn_length. lia.
  Qed.

  Lemma pyramid_length n acc m : (forall j, length (acc j : list E) <= m) ->
    forall k i, length (pyramid Comb n acc k i) <= m.
  Proof.
    intros H. induction k as [|k IH]; intros i; cbn [pyramid]; [apply H|].
    destruct (i + 2 ^ k <? n); [|apply IH]. apply zip_length_bound, IH.
  Qed.

  Lemma full_chunks_length w u (l : list E) : length (full_chunks Comb w u l) <= w.
  Proof.
    unfold full_chunks. destruct ((1 <? u) && _).
    - apply fold_zip_length, pyramid_length. intros j. apply stack_length, (chunks_length w l _ (fun i => i * u + j)).
    - apply stack_length, (chunks_length w l _ (fun i => i)).
  Qed.

  Lemma main_depth w u total l : 1 <= w -> l <> [] -> below 0 l -> depth total <= Nat.log2_up w ->
    depth (main Comb dflt w u total l) <= depth_bound w u (length l).
  Proof.
    intros Hw Hne Hl Ht. unfold main, depth_bound. pose proof (rounds_pos w u (length l)) as HR.
    set (half := Nat.log2 (w - 1)).
    assert (Hh : w = 1 \/ (2 <= w /\ Nat.log2_up w = S half /\ 2 ^ half < w <= 2 ^ S half)).
    { destruct (Nat.eq_dec w 1) as [|N]; [now left|right]. split; [lia|].
      assert (El : Nat.log2_up w = S half).
      { rewrite Nat.log2_up_eqn by lia. unfold half. f_equal. f_equal. lia. }
      split; [exact El|]. pose proof (Nat.log2_up_spec w ltac:(lia)) as Sp. rewrite El in Sp. exact Sp. }
    assert (Ed : rounds w u (length l) = S (dep w u (length l))) by (unfold dep; lia).
    rewrite Ed. set (a := dep w u (length l)) in *.
    destruct (Nat.leb_spec w (length l)) as [Hle|Hlt].
    - pose proof (full_chunks_depth w u l Hl) as Hacc. pose proof (full_chunks_length w u l) as Lacc.
      fold a in Hacc. set (acc := full_chunks Comb w u l) in *.
      pose proof (across_depth _ _ Hacc) as Da.
      assert (Nat.log2_up (length acc) <= Nat.log2_up w) by (apply Nat.log2_up_le_mono; exact Lacc).
      pose proof (below_skipn 0 (length l / w * w) l Hl) as Hr.
      destruct (skipn (length l / w * w) l) as [|y r] eqn:Er; [cbn [depth]; lia|].
      destruct Hh as [->|(H2 & El & Hpw)].
      { exfalso. rewrite Nat.div_1_r, Nat.mul_1_r, skipn_all in Er. discriminate. }
      destruct (2 ^ S half =? w).
      + pose proof (tail_depth half (S a) total (halves Comb half acc) (y :: r)
                      (halves_depth _ _ _ Hacc) (halves_length _ _) Hr) as D. lia.
      + set (total' := Comb total (across Comb dflt (skipn (2 ^ half) acc))).
        assert (Dt : depth total' <= S (Nat.max (S half) (a + half))).
        { pose proof (across_depth a (skipn (2 ^ half) acc) (below_skipn _ _ _ Hacc)) as D.
          assert (Nat.log2_up (length (skipn (2 ^ half) acc)) <= half).
          { apply log2_up_upto. rewrite skipn_length. cbn [Nat.pow] in Hpw. lia. }
          unfold total'. cbn [depth]. lia. }
        pose proof (tail_depth half a total' (firstn (2 ^ half) acc) (y :: r)
                      (below_firstn _ _ _ Hacc) ltac:(rewrite firstn_length; lia) Hr) as D. lia.
    - destruct Hh as [->|(H2 & El & Hpw)]; [destruct l; [contradiction|cbn in Hlt; lia]|].
      pose proof (short_depth half total l Hl). lia.
  Qed.
End Depth.
