(** Proofs about transform_reduce over structs (C54). *)
From Verif Require Import Base BaseFacts PermuteModel SimdizeModel SimdizeSpec SimdizeProofs ExecModel ExecProofs
  ExecForEach ExecSpec ExecThm TransformModel ReduceModel ReduceSpec ReduceProofs TReduceModel TReduceSpec
  TReduceProofs TReduceThm StructRunModel StructRunSpec StructRunProofs StructTransformModel StructTransformSpec
  StructTransformProofs StructReduceModel StructReduceSpec.
From Coq Require Import Permutation.
Ltac Zify.zify_post_hook ::= idtac.

Lemma perm8_permutation {A} (s v : list A) : length s = 8%nat -> length v = 8%nat ->
  (forall j, 0 <= j < 8 -> nth_error v (Z.to_nat j) = nth_error s (Z.to_nat (perm j))) -> Permutation v s.
Proof.
  intros Ls Lv H.
  destruct s as [|a0 [|a1 [|a2 [|a3 [|a4 [|a5 [|a6 [|a7 [|? ?] ] ] ] ] ] ] ] ]; try discriminate Ls.
  assert (v = map (fun i => nth i [a0; a1; a2; a3; a4; a5; a6; a7] a0) [0; 3; 6; 1; 4; 7; 2; 5]%nat) as ->.
  { apply nth_error_ext. intros i. destruct (Nat.ltb_spec i 8) as [Hi|Hi].
    - specialize (H (Z.of_nat i) ltac:(lia)). rewrite Nat2Z.id in H. rewrite H. clear - Hi.
      do 8 (destruct i as [|i]; [reflexivity|]). lia.
    - rewrite (proj2 (nth_error_None v i)) by lia. symmetry. apply nth_error_None. cbn. lia. }
  change [a0; a1; a2; a3; a4; a5; a6; a7]
    with (map (fun i => nth i [a0; a1; a2; a3; a4; a5; a6; a7] a0) [0; 1; 2; 3; 4; 5; 6; 7]%nat) at 2.
  apply Permutation_map. apply NoDup_Permutation.
  - repeat constructor; cbn; intuition discriminate.
  - repeat constructor; cbn; intuition discriminate.
  - intros x. cbn. intuition.
Qed.

Lemma seg_nth {A} (vals : list A) p k i : 0 <= p -> 0 <= i < k ->
  nth_error (seg vals p k) (Z.to_nat i) = nth_error vals (Z.to_nat (p + i)).
Proof.
  intros Hp Hi. unfold seg. rewrite nth_error_firstn', nth_error_skipn'.
  destruct (Nat.ltb_spec (Z.to_nat i) (Z.to_nat k)); [|lia]. f_equal. lia.
Qed.

Section Thm.
  Context {W A : Type}.
  Variable zero : W.
  Variables (g : list (list W) -> A) (tr : list (list (list W)) -> list A) (op : A -> A -> A).

  Lemma elem_fun m (r : srange) p (x y : list W) : elem m r p x -> elem m r p y -> x = y.
  Proof. unfold elem. congruence. Qed.

  Lemma values_mapped m ins n vals : 0 <= n -> Forall (fun rp => kind_ok (r_kind (fst rp)) (r_k (fst rp))) ins ->
    values_are g m ins n vals -> Forall (fun rp => range_mapped m (fst rp) (snd rp) n) ins.
  Proof.
    intros Hn Hk [_ Hv]. rewrite Forall_forall in *. intros rp Hin a Ha.
    assert (K : 1 <= r_k (fst rp)).
    { specialize (Hk rp Hin). unfold kind_ok in Hk. destruct (r_kind (fst rp)); lia. }
    set (r := fst rp) in *. set (p := snd rp) in *.
    pose (i := (a - (r_base r + r_k r * p)) / r_k r).
    assert (Hi : 0 <= i < n).
    { unfold i. split; [apply Z.div_pos; lia|apply Z.div_lt_upper_bound; nia]. }
    assert (Hq : r_base r + r_k r * (p + i) <= a < r_base r + r_k r * (p + i) + r_k r).
    { pose proof (Z.div_mod (a - (r_base r + r_k r * p)) (r_k r) ltac:(lia)).
      pose proof (Z.mod_pos_bound (a - (r_base r + r_k r * p)) (r_k r) ltac:(lia)). fold i in H. nia. }
    destruct (Hv i Hi) as (xs & F & _).
    assert (exists x, elem m r (p + i) x) as [x Ex].
    { clear - F Hin. induction F as [|rp' x ins xs E F IH]; [destruct Hin|].
      destruct Hin as [->|Hin]; [now exists x|now apply IH]. }
    unfold elem in Ex. rewrite (load_nth _ _ _ _ Ex a) in * by lia.
    intros E. apply nth_error_None in E. apply load_length in Ex. lia.
  Qed.

  Lemma sload_ok c m (rs : list srange) first srcs2 vals (N : Z) al p k :
    Forall (fun r => kind_ok (r_kind r) (r_k r)) rs -> length rs = S (length srcs2) ->
    values_are g m (combine rs (first :: srcs2)) N vals ->
    0 <= p -> 0 < k -> p + k <= N -> transforms_structs (map r_k rs) g tr k ->
    (k <> 8 \/ Forall (fun r => ~ unordered_range r) rs \/ Forall unordered_range rs) ->
    (forall r, hd_error rs = Some r -> r_kind r = RScalar -> al = true -> aligned_at c (first + p) k = true) ->
    exists v, sload zero tr c rs m al (adv p (first :: srcs2)) k = Ok v /\ Permutation v (seg vals p k).
  Proof.
    intros Hk Hl Hv Hp Hk0 Hpk Htr Hord Hal.
    assert (Hm : Forall (fun rp => range_mapped m (fst rp) (snd rp) N) (combine rs (first :: srcs2))).
    { apply (values_mapped m _ N vals); [lia| |exact Hv]. clear - Hk. revert Hk. generalize (first :: srcs2) as ps.
      induction rs as [|r rs IH]; intros [|q ps] Hk; cbn; try constructor; inversion Hk; subst; [assumption|auto]. }
    assert (Hm' : Forall (fun rp => range_mapped m (fst rp) (snd rp) k) (combine rs (adv p (first :: srcs2)))).
    { rewrite combine_adv. rewrite Forall_forall in *. intros rp Hin. apply in_map_iff in Hin.
      destruct Hin as (rp' & <- & Hin). unfold move. cbn [fst snd]. specialize (Hm rp' Hin).
      assert (K : 1 <= r_k (fst rp')).
      { destruct rp' as [r q]. apply in_combine_l in Hin. specialize (Hk r Hin). unfold kind_ok in Hk. cbn [fst].
        destruct (r_kind r); lia. }
      intros a Ha. apply Hm. nia. }
    destruct (range_loads_ok zero m k ltac:(lia) rs (adv p (first :: srcs2))) as (os & Eos & Hs & Hlane);
      [unfold adv; rewrite map_length; exact Hl|exact Hk|exact Hm'|].
    destruct (Htr os Hs) as [Lt Ht]. exists (tr os). split.
    - destruct rs as [|r rs']; [discriminate Hl|]. cbn [adv map]. unfold sload.
      cbn [adv map] in Eos. rewrite Eos. cbn [bindR].
      destruct (r_kind r) eqn:Ek; [|reflexivity].
      destruct al; cbn [andb]; [|reflexivity]. rewrite (Hal r eq_refl Ek eq_refl). reflexivity.
    - destruct Hv as [Lv Hv].
      assert (Ls : length (seg vals p k) = Z.to_nat k) by (apply seg_length; lia).
      assert (Hj : forall j q, 0 <= j < k -> 0 <= q < k ->
                (forall rp, In rp (combine rs (first :: srcs2)) ->
                   forall x, elem m (fst rp) (snd rp + (p + q)) x -> shown m k j (move p rp) x) ->
                nth_error (tr os) (Z.to_nat j) = nth_error (seg vals p k) (Z.to_nat q)).
      { intros j q Hjk Hqk Hsh. destruct (Hv (p + q) ltac:(lia)) as (xs & F & E).
        rewrite seg_nth, E by lia. apply Ht; [lia|]. apply Hlane; [lia|].
        rewrite combine_adv. apply Forall2_map_l.
        eapply Forall2_impl_in; [|exact F]. cbn. intros rp x Hin Ex. now apply Hsh. }
      clear Hal Htr Hs Eos Hlane Hm Hm' Ht.
      destruct (Z.eq_dec k 8) as [E8|N8].
      + destruct Hord as [N0|[Hord|Hord] ]; [contradiction| |].
        * replace (tr os) with (seg vals p k); [reflexivity|]. symmetry. apply nth_error_ext. intros i.
          destruct (Nat.ltb_spec i (Z.to_nat k)) as [Hi|Hi].
          -- specialize (Hj (Z.of_nat i) (Z.of_nat i) ltac:(lia) ltac:(lia)). rewrite Nat2Z.id in Hj. apply Hj.
             intros rp Hin x Ex. right. unfold move. cbn [fst snd]. split.
             ++ destruct rp as [r q]. apply in_combine_l in Hin. rewrite Forall_forall in Hord. now apply Hord.
             ++ replace (snd rp + p + Z.of_nat i) with (snd rp + (p + Z.of_nat i)) by lia. exact Ex.
          -- rewrite (proj2 (nth_error_None _ _)) by lia. symmetry. apply nth_error_None. lia.
        * rewrite E8 in *. clear E8. apply perm8_permutation; [lia|lia|]. intros j Hjk. apply Hj; [exact Hjk|now apply perm_range|].
          intros rp Hin x Ex. left. unfold move. cbn [fst snd]. split.
          -- destruct rp as [r q]. apply in_combine_l in Hin. rewrite Forall_forall in Hord. now apply Hord.
          -- unfold lane_order. cbn [Z.eqb Pos.eqb].
             replace (snd rp + p + perm j) with (snd rp + (p + perm j)) by lia. exact Ex.
      + replace (tr os) with (seg vals p k); [reflexivity|]. symmetry. apply nth_error_ext. intros i.
        destruct (Nat.ltb_spec i (Z.to_nat k)) as [Hi|Hi].
        -- specialize (Hj (Z.of_nat i) (Z.of_nat i) ltac:(lia) ltac:(lia)). rewrite Nat2Z.id in Hj. apply Hj.
           intros rp Hin x Ex. unfold shown, move. cbn [fst snd].
           replace (lane_order k (Z.of_nat i)) with (Z.of_nat i)
             by (unfold lane_order; destruct (Z.eqb_spec k 8); [contradiction|reflexivity]).
           replace (snd rp + p + Z.of_nat i) with (snd rp + (p + Z.of_nat i)) by lia.
           destruct (unordered_range_dec (fst rp)); auto.
        -- rewrite (proj2 (nth_error_None _ _)) by lia. symmetry. apply nth_error_None. lia.
  Qed.

  Lemma struct_leaves c pol w first last kd : sreduce_runs c pol w first last kd ->
    forall maxe tp, prologue_args c pol w (last - first) first = Some (maxe, tp) -> tp < last - first.
  Proof.
    intros (Ht & Hp & Hw & Hr & Hm & Hroom) maxe tp E. destruct kd as [|kd].
    - apply (room_leaves c pol w first last Ht Hw Hr (Hroom eq_refl) maxe tp E).
    - exfalso. unfold prologue_args, use_aligned_loadstore, maybe_prologue in E.
      assert (F : prologue_is_possible c w = false).
      { destruct Ht as [Hsz Hma]. unfold prologue_is_possible. specialize (Hma w ltac:(destruct Hw; lia)).
        destruct (Z.ltb_spec (c_sz c) (c_malign c w)); [lia|]. apply andb_false_r. }
      rewrite F, !andb_false_r in E. discriminate.
  Qed.

  Lemma runs_target c pol w first last kd : sreduce_runs c pol w first last kd -> target_ok c.
  Proof. intros (Ht & _). destruct kd; [exact Ht|now apply struct_target_ok]. Qed.

  Lemma sreduce_runtime c pol w rs first last srcs2 (m : mem W) vals init kd :
    sreduce_runs c pol w first last kd -> c_ce c = false -> option_map r_kind (hd_error rs) = Some kd ->
    Forall (fun r => kind_ok (r_kind r) (r_k r)) rs -> length rs = S (length srcs2) ->
    same_order rs w (last - first) ->
    (forall k, 0 < k <= w -> (p_match pol = true -> k = w) -> transforms_structs (map r_k rs) g tr k) ->
    values_are g m (combine rs (first :: srcs2)) (last - first) vals ->
    exists x, stransform_reduce zero tr c op rs m pol w first last srcs2 init = Ok x /\ gsum op (init :: vals) x.
  Proof.
    intros Hrun Hce Hhd Hk Hl Hord Htr Hv. pose proof (runs_target _ _ _ _ _ _ Hrun) as Ht.
    pose proof (struct_leaves _ _ _ _ _ _ Hrun) as Hleaves.
    destruct Hrun as (Hot & Hp & Hw & Hr & Hm & _).
    unfold stransform_reduce. apply transform_reduce_on_fit; try assumption; [apply Hv|].
    intros al p k H1 H2 H3 H4 H5 H6. apply (sload_ok c m rs first srcs2 vals (last - first)); try assumption.
    - apply Htr; [lia|exact H5].
    - destruct Hord as [ [H|[H|H] ]|H]; [left; lia|left; lia|right; left; exact H|right; right; exact H].
    - intros r _ _ E. now apply H6.
  Qed.

  Lemma sreduce_consteval c pol w rs first last srcs2 (m : mem W) vals init :
    c_ce c = true -> width_ok w -> range_ok first last -> size_matches pol w first last ->
    Forall (fun r => kind_ok (r_kind r) (r_k r)) rs -> length rs = S (length srcs2) ->
    transforms_structs (map r_k rs) g tr 1 ->
    values_are g m (combine rs (first :: srcs2)) (last - first) vals ->
    stransform_reduce zero tr c op rs m pol w first last srcs2 init = Ok (seq_sum op init vals).
  Proof.
    intros Hce Hw Hr Hm Hk Hl Htr Hv. unfold stransform_reduce.
    apply transform_reduce_on_consteval; try assumption; [apply Hv|].
    intros p H1 H2. apply (sload_ok c m rs first srcs2 vals (last - first)); try assumption; [lia|left; lia|].
    intros r _ _ E. discriminate.
  Qed.

  Lemma sreduce_one_range c pol w r first last (m : mem W) vals init :
    sreduce_runs c pol w first last (r_kind r) -> c_ce c = false -> kind_ok (r_kind r) (r_k r) ->
    (forall k, 0 < k <= w -> (p_match pol = true -> k = w) -> transforms_structs [r_k r] g tr k) ->
    values_are g m [(r, first)] (last - first) vals ->
    exists x, stransform_reduce zero tr c op [r] m pol w first last [] init = Ok x /\ gsum op (init :: vals) x.
  Proof.
    intros Hrun Hce Hk Htr Hv. apply (sreduce_runtime c pol w [r] first last [] m vals init (r_kind r)); try assumption.
    - reflexivity.
    - constructor; [exact Hk|constructor].
    - reflexivity.
    - destruct (unordered_range_dec r) as [U|U].
      + right. constructor; [exact U|constructor].
      + left. right. right. constructor; [exact U|constructor].
  Qed.
End Thm.
