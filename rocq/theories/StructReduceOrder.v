(** transform_reduce over structs when the ranges are read in different orders (C54). *)
From Verif Require Import Base BaseFacts PermuteModel SimdizeModel SimdizeSpec SimdizeProofs ExecModel ExecProofs
  ExecForEach ExecSpec ExecThm TransformModel ReduceModel ReduceSpec ReduceProofs TReduceModel TReduceSpec
  TReduceProofs TReduceThm StructRunModel StructRunSpec StructRunProofs StructTransformModel StructTransformSpec
  StructTransformProofs StructReduceModel StructReduceSpec StructReduceThm ScheduleSpec ScheduleProofs OrderSpec OrderThm ChunkProofs.
From Coq Require Import Permutation.
Ltac Zify.zify_post_hook ::= idtac.

Section Order.
  Variables w d n : Z.
  Hypothesis Hw : 1 <= w.
  Hypothesis Hd : 0 <= d <= n.
  Let lo := (n - d) mod w.

  (** ** The order *)
  Definition eight (p : Z) : bool :=
    (Z.testbit d 3 && (p =? d mod 8)) || ((w =? 8) && (d <=? p) && ((p - d) mod 8 =? 0) && (p + 8 <=? n))
    || (Z.testbit lo 3 && (p =? n - lo mod 16)).

  Lemma eight_iff p : eight p = true <-> tr_chunk w d n p 8.
  Proof.
    unfold eight, tr_chunk. fold lo. rewrite !orb_true_iff, !andb_true_iff. split.
    - intros [[[B E]|[[[E1 E2] E3] E4]]|[B E]].
      + left. exists 3. apply Z.eqb_eq in E. repeat split; try lia; assumption.
      + right. left. apply Z.eqb_eq in E1. rewrite E1. repeat split; try lia. apply Z.mod_divide; lia.
      + right. right. exists 3. apply Z.eqb_eq in E. repeat split; try lia; assumption.
    - intros [(i & Hi & B & E & E8)|[(E & H1 & H2 & H3)|(i & Hi & B & E & E8)] ].
      + left. left. assert (i = 3) as ->. { apply (Z.pow_inj_r 2); [lia|lia|lia|]. now rewrite <- E8. }
        split; [exact B|]. apply Z.eqb_eq. exact E.
      + left. right. rewrite <- E in *. repeat split; try lia. apply Z.eqb_eq, Z.mod_divide; [lia|exact H2].
      + right. assert (i = 3) as ->. { apply (Z.pow_inj_r 2); [lia|lia|lia|]. now rewrite <- E8. }
        split; [exact B|]. apply Z.eqb_eq. exact E.
  Qed.

  Definition reorder (i : Z) : Z :=
    match find (fun s => eight (i - s)) [0; 1; 2; 3; 4; 5; 6; 7] with Some s => i - s + perm s | None => i end.

  Lemma reorder_chunk : chunk_order w d n reorder.
  Proof.
    intros p k C j Hj. unfold reorder. destruct (find _ _) as [s|] eqn:F.
    - apply find_some in F as [Is Es]. apply eight_iff in Es.
      assert (Hs : 0 <= s < 8) by (cbn in Is; lia).
      destruct (chunk_disjoint w d n Hw Hd _ _ _ _ C Es) as [E1 E2]; [lia|lia|]. subst k. cbn [Z.eqb Pos.eqb].
      replace (p + j - s) with p by lia. replace j with s by lia. reflexivity.
    - destruct (Z.eqb_spec k 8) as [->|N]; [|reflexivity]. exfalso.
      assert (In j [0; 1; 2; 3; 4; 5; 6; 7]) as I by (apply perm_cases; lia).
      apply (find_none _ _ F) in I. replace (p + j - j) with p in I by lia.
      apply eight_iff in C. congruence.
  Qed.

  Lemma chunk_order_rearranges order : chunk_order w d n order -> rearranges n order.
  Proof.
    intros O. assert (K : forall p k j, tr_chunk w d n p k -> 0 <= j < k ->
                exists j', order (p + j) = p + j' /\ 0 <= j' < k /\ j' = lane_order k j).
    { intros p k j C Hj. exists (lane_order k j). rewrite (O p k C j Hj). split; [|split; [|reflexivity] ].
      - unfold lane_order, perm. now destruct (k =? 8).
      - unfold lane_order. destruct (Z.eqb_spec k 8) as [->|_]; [now apply perm_range|exact Hj]. }
    split.
    - intros i Hi. destruct (chunk_cover w d n Hw Hd i Hi) as (p & k & C & H). destruct (K p k (i - p) C ltac:(lia)) as (j & E & Hj & _).
      replace (p + (i - p)) with i in E by lia. destruct (chunk_inside w d n Hw Hd p k C) as (? & ? & ?). lia.
    - intros i i' Hi Hi' Eo. destruct (chunk_cover w d n Hw Hd i Hi) as (p & k & C & H). destruct (chunk_cover w d n Hw Hd i' Hi') as (p' & k' & C' & H').
      destruct (K p k (i - p) C ltac:(lia)) as (j & E & Hj & Ej). destruct (K p' k' (i' - p') C' ltac:(lia)) as (j' & E' & Hj' & Ej').
      replace (p + (i - p)) with i in E by lia. replace (p' + (i' - p')) with i' in E' by lia.
      destruct (chunk_disjoint w d n Hw Hd _ _ _ _ C C') as [-> ->]; [lia|lia|]. assert (Ejj : j = j') by lia. subst j j'.
      unfold lane_order in Ejj. destruct (Z.eqb_spec k' 8) as [->|_]; [apply perm_inj in Ejj; lia|lia].
  Qed.

  Lemma chunk_order_id order : d < w -> (w < 8 \/ n < 8) -> chunk_order w d n order -> forall i, 0 <= i < n -> order i = i.
  Proof.
    intros Hdw Hs O i Hi. destruct (chunk_cover w d n Hw Hd i Hi) as (p & k & C & H). specialize (O p k C (i - p) ltac:(lia)).
    replace (p + (i - p)) with i in O by lia. rewrite O.
    destruct (chunk_inside w d n Hw Hd p k C) as (? & ? & ?).
    destruct (Z.eqb_spec k 8) as [E|_]; [|lia]. exfalso. destruct Hs as [Hs|Hs]; [|lia]. subst k.
    pose proof lo_bound w d n Hw Hd as HL. unfold tr_chunk in C. fold lo in C.
    assert (S3 : forall x, 0 <= x < 8 -> forall j, 0 <= j -> Z.testbit x j = true -> 8 <> 2 ^ j).
    { intros x Hx j Hj Hb E. rewrite testbit_small in Hb by (rewrite ?Z.pow_add_r; lia). lia. }
    destruct C as [(j & Hj & B & _ & E)|[(E & _)|(j & Hj & B & _ & E)] ]; [|lia|].
    - apply (S3 d ltac:(lia) j Hj B E).
    - apply (S3 lo ltac:(lia) j Hj B E).
  Qed.

  Lemma chunk_order_eight order : w = 8 -> d < w -> chunk_order w d n order -> forall i, 0 <= i < n ->
    order i = if i <? d then i else d + shuffle_index (n - d) (i - d).
  Proof.
    intros E8 Hdw O i Hi. destruct (chunk_cover w d n Hw Hd i Hi) as (p & k & C & H). specialize (O p k C (i - p) ltac:(lia)).
    replace (p + (i - p)) with i in O by lia. rewrite O. clear O.
    pose proof lo_bound w d n Hw Hd as HL. unfold tr_chunk in C. fold lo in C.
    assert (S3 : forall x, 0 <= x < 8 -> forall j, 0 <= j -> Z.testbit x j = true -> (2 ^ j =? 8) = false).
    { intros x Hx j Hj Hb. apply Z.eqb_neq. intros E. rewrite testbit_small in Hb by (rewrite ?Z.pow_add_r; lia). lia. }
    destruct C as [(j & Hj & B & -> & ->)|[(-> & D & [z V] & E)|(j & Hj & B & -> & ->)] ].
    - rewrite (S3 d) by (lia || assumption). pose proof (bit_chunk d j Hj B). pose proof (mod_le' d (j + 1) ltac:(lia) ltac:(lia)).
      destruct (Z.ltb_spec i d); lia.
    - subst w. rewrite Z.eqb_refl. destruct (Z.ltb_spec i d); [lia|]. unfold shuffle_index.
      pose proof (Z.div_mod (n - d) 8 ltac:(lia)) as Hdm. pose proof (Z.mod_pos_bound (n - d) 8 ltac:(lia)).
      destruct (Z.ltb_spec (i - d) (8 * ((n - d) / 8))); [|nia].
      replace ((i - d) mod 8) with (i - p) by (apply (Zmod_unique (i - d) 8 z); lia).
      replace ((i - d) / 8) with z by (apply (Zdiv_unique (i - d) 8 z (i - p)); lia). lia.
    - rewrite (S3 lo) by (lia || assumption). pose proof (bit_chunk lo j Hj B). pose proof (mod_le' lo (j + 1) ltac:(lia) ltac:(lia)).
      destruct (Z.ltb_spec i d); [lia|]. unfold shuffle_index. subst w.
      pose proof (Z.div_mod (n - d) 8 ltac:(lia)) as Hdm. fold lo in Hdm.
      destruct (Z.ltb_spec (i - d) (8 * ((n - d) / 8))); lia.
  Qed.
End Order.

(** ** The sum *)
Section Thm.
  Context {W A : Type}.
  Variable zero : W.
  Variables (g : list (list W) -> A) (tr : list (list (list W)) -> list A) (op : A -> A -> A).

  Lemma elem_exists m (r : srange) p n i : 1 <= r_k r -> range_mapped (W := W) m r p n -> 0 <= i < n -> exists x, elem m r (p + i) x.
  Proof. intros K M Hi. unfold elem. apply load_ok. intros a Ha. apply M. nia. Qed.

  Lemma values_exist m order n ins : 0 <= n -> rearranges n order ->
    Forall (fun rp : srange * Z => 1 <= r_k (fst rp)) ins -> Forall (fun rp => range_mapped m (fst rp) (snd rp) n) ins ->
    exists vals, values_in_order order g m ins n vals.
  Proof.
    intros Hn [R _] K M.
    destruct (list_choice (fun i y => exists xs, Forall2 (fun rp x => (unordered_range (fst rp) /\ elem m (fst rp) (snd rp + order (Z.of_nat i)) x)
                                    \/ (~ unordered_range (fst rp) /\ elem m (fst rp) (snd rp + Z.of_nat i) x)) ins xs /\ y = g xs)
                (Z.to_nat n)) as (vals & L & H).
    { intros i Hi. assert (exists xs, Forall2 (fun rp x => (unordered_range (fst rp) /\ elem m (fst rp) (snd rp + order (Z.of_nat i)) x)
                                    \/ (~ unordered_range (fst rp) /\ elem m (fst rp) (snd rp + Z.of_nat i) x)) ins xs) as [xs Hxs].
      { assert (Ro := R (Z.of_nat i) ltac:(lia)). clear - K M Hi Ro Hn. induction ins as [|rp ins IH]; [exists []; constructor|].
        inversion K as [|? ? K1 K2]; subst. inversion M as [|? ? M1 M2]; subst. destruct (IH K2 M2) as [xs Hxs].
        destruct (unordered_range_dec (fst rp)) as [U|U].
        - destruct (elem_exists m _ _ n (order (Z.of_nat i)) K1 M1 Ro) as [x Hx]. exists (x :: xs). constructor; auto.
        - destruct (elem_exists m _ _ n (Z.of_nat i) K1 M1 ltac:(lia)) as [x Hx]. exists (x :: xs). constructor; auto. }
      exists (g xs), xs. now split. }
    exists vals. split; [lia|]. intros i Hi. destruct (H (Z.to_nat i) ltac:(lia)) as (y & E & xs & F & ->).
    rewrite Z2Nat.id in F by lia. exists xs. now split.
  Qed.

  Lemma sload_any c (rs : list srange) m al ps k v : sload zero tr c rs m al ps k = Ok v -> sload zero tr c rs m false ps k = Ok v.
  Proof.
    unfold sload. destruct rs as [|r rs]; [discriminate|]. destruct ps as [|p ps]; [discriminate|]. cbv zeta.
    destruct (r_kind r); destruct al; cbn [andb]; auto. destruct (negb _); [discriminate|auto].
  Qed.

  Lemma sload_aligned c (rs : list srange) m al p ps k : (al = true -> aligned_at c p k = true) ->
    sload zero tr c rs m al (p :: ps) k = sload zero tr c rs m false (p :: ps) k.
  Proof.
    intros H. unfold sload. destruct rs as [|r rs]; [reflexivity|]. cbv zeta.
    destruct (r_kind r); destruct al; cbn [andb]; try reflexivity. now rewrite (H eq_refl).
  Qed.

  Lemma sload_order c m (rs : list srange) first srcs2 order vals (N : Z) w d p k :
    Forall (fun r => kind_ok (r_kind r) (r_k r)) rs -> length rs = S (length srcs2) ->
    Forall (fun rp => range_mapped m (fst rp) (snd rp) N) (combine rs (first :: srcs2)) ->
    values_in_order order g m (combine rs (first :: srcs2)) N vals -> chunk_order w d N order ->
    0 <= p -> 0 < k -> p + k <= N -> tr_chunk w d N p k -> transforms_structs (map r_k rs) g tr k ->
    sload zero tr c rs m false (adv p (first :: srcs2)) k = Ok (seg vals p k).
  Proof.
    intros Hk Hl Hm Hv Ho Hp Hk0 Hpk Hc Htr.
    assert (Hm' : Forall (fun rp => range_mapped m (fst rp) (snd rp) k) (combine rs (adv p (first :: srcs2)))).
    { rewrite combine_adv. rewrite Forall_forall in *. intros rp Hin. apply in_map_iff in Hin.
      destruct Hin as (rp' & <- & Hin). unfold move. cbn [fst snd]. specialize (Hm rp' Hin).
      assert (K : 1 <= r_k (fst rp')).
      { destruct rp' as [r q]. apply in_combine_l in Hin. specialize (Hk r Hin). unfold kind_ok in Hk. cbn [fst].
        destruct (r_kind r); lia. }
      intros a Ha. apply Hm. nia. }
    destruct (range_loads_ok zero m k ltac:(lia) rs (adv p (first :: srcs2))) as (os & Eos & Hs & Hlane);
      [unfold adv; rewrite map_length; exact Hl|exact Hk|exact Hm'|].
    destruct (Htr os Hs) as [Lt Ht]. transitivity (Ok (tr os)).
    - destruct rs as [|r rs']; [discriminate Hl|]. cbn [adv map]. unfold sload.
      cbn [adv map] in Eos. rewrite Eos. cbn [bindR]. now destruct (r_kind r).
    - destruct Hv as [Lv Hv]. assert (Ls : length (seg vals p k) = Z.to_nat k) by (apply seg_length; lia).
      f_equal. apply nth_error_ext. intros i.
      destruct (Nat.ltb_spec i (Z.to_nat k)) as [Hi|Hi].
      + destruct (Hv (p + Z.of_nat i) ltac:(lia)) as (xs & F & E).
        assert (Es := seg_nth vals p k (Z.of_nat i) Hp ltac:(lia)). rewrite Nat2Z.id in Es. rewrite Es, E.
        apply Ht; [lia|]. rewrite <- (Nat2Z.id i). apply Hlane; [lia|]. rewrite combine_adv. apply Forall2_map_l.
        eapply Forall2_impl_in; [|exact F]. cbn. intros rp x _ Hx. unfold shown, move. cbn [fst snd].
        rewrite (Ho p k Hc (Z.of_nat i) ltac:(lia)) in Hx. fold (perm (Z.of_nat i)) in Hx. fold (lane_order k (Z.of_nat i)) in Hx.
        rewrite !Z.add_assoc in Hx. exact Hx.
      + rewrite (proj2 (nth_error_None _ _)) by lia. symmetry. apply nth_error_None. lia.
  Qed.

  Theorem sreduce_any_order c pol w rs first last srcs2 (m : mem W) init kd d :
    sreduce_runs c pol w first last kd -> c_ce c = false -> option_map r_kind (hd_error rs) = Some kd ->
    Forall (fun r => kind_ok (r_kind r) (r_k r)) rs -> length rs = S (length srcs2) ->
    Forall (fun rp => range_mapped m (fst rp) (snd rp) (last - first)) (combine rs (first :: srcs2)) ->
    (forall k, 0 < k <= w -> (p_match pol = true -> k = w) -> transforms_structs (map r_k rs) g tr k) ->
    prologue_length c pol w first (last - first) d ->
    exists order vals x, (first < last -> chunk_order w d (last - first) order) /\ rearranges (last - first) order
      /\ values_in_order order g m (combine rs (first :: srcs2)) (last - first) vals
      /\ stransform_reduce zero tr c op rs m pol w first last srcs2 init = Ok x /\ gsum op (init :: vals) x
      /\ x = grouped op (Z.to_nat w) (Z.to_nat (p_unroll pol)) d init vals.
  Proof.
    intros Hrun Hce Hhd Hk Hl Hmap Htr Hd. pose proof (runs_target _ _ _ _ _ _ Hrun) as Ht.
    pose proof (struct_leaves _ _ _ _ _ _ Hrun) as Hleaves.
    destruct Hrun as (Hot & Hp & Hw & Hr & Hm & _).
    assert (Hr' : first <= last) by (destruct Hr; lia).
    assert (Hw' : 1 <= w) by (destruct Hw; lia).
    destruct (Z.eq_dec first last) as [E|Hne].
    { subst last. exists (fun i => i), [], init. unfold values_in_order, rearranges. rewrite Z.sub_diag.
      split; [lia|]. split; [split; intros; lia|]. split; [split; [reflexivity|intros; lia]|]. split; [|split; [apply gsum_one|reflexivity] ].
      unfold stransform_reduce, transform_reduce_on. now rewrite Z.eqb_refl. }
    assert (Hargs : (forall maxe tp, prologue_args c pol w (last - first) first = Some (maxe, tp) -> tp = d /\ d < last - first)
                    /\ (prologue_args c pol w (last - first) first = None -> d = 0) /\ 0 <= d <= last - first /\ d < w).
    { destruct (prologue_args c pol w (last - first) first) as [[maxe tp]|] eqn:Epa.
      - destruct (prologue_some_length c pol w _ first maxe tp (target_cfg c Ht) Hw Epa) as (Hd' & _ & Hb & _).
        pose proof (prologue_length_unique _ _ _ _ _ _ _ Hd Hd'). specialize (Hleaves _ _ eq_refl).
        split; [intros ? ? E; injection E as <- <-; lia|]. split; [discriminate|lia].
      - assert (d = 0).
        { eapply prologue_length_unique; [eassumption|]. apply prologue_none_length; [now apply target_cfg|exact Hw|exact Epa]. }
        split; [discriminate|]. split; [auto|lia]. }
    destruct Hargs as (H1 & H2 & H3 & H4).
    assert (Ho := reorder_chunk w d (last - first) Hw' H3). set (order := reorder w d (last - first)) in *.
    assert (Hre := chunk_order_rearranges w d (last - first) Hw' H3 order Ho).
    destruct (values_exist m order (last - first) (combine rs (first :: srcs2)) ltac:(lia) Hre) as [vals Hv]; [|exact Hmap|].
    { rewrite Forall_forall in *. intros [r q] Hin. apply in_combine_l in Hin. specialize (Hk r Hin). cbn [fst]. unfold kind_ok in Hk.
      destruct (r_kind r); lia. }
    destruct (transform_reduce_on_exact op (sload zero tr c rs m) c pol w first last srcs2 vals init d) as [Ex Gx];
      try assumption; [right; destruct (prologue_args c pol w (last - first) first) as [[maxe tp]|] eqn:Epa; [now apply (H1 maxe tp)|specialize (H2 eq_refl); lia]|apply Hv| | |].
    - intros al p k P1 P2 P3 P4 P5 P6 P7. cbn [adv map]. rewrite sload_aligned by exact P7.
      apply (sload_order c m rs first srcs2 order vals (last - first) w d p k); try assumption.
      apply Htr; [lia|exact P5].
    - intros al p k v P1 P2 P3 P4 P5 P6 E. apply sload_any in E.
      rewrite (sload_order c m rs first srcs2 order vals (last - first) w d p k) in E; try assumption; [congruence|].
      apply Htr; [lia|exact P5].
    - eexists order, vals, _. split; [intros _; exact Ho|]. split; [exact Hre|]. split; [exact Hv|]. split; [exact Ex|].
      split; [exact Gx|reflexivity].
  Qed.
End Thm.
