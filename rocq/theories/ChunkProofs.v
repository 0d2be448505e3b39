(** The chunks of transform_reduce: they cover the range without overlap (C66), and the result is determined by them. *)
From Verif Require Import Base BaseFacts ExecModel ExecProofs ExecForEach ExecSpec ExecThm TransformModel ReduceModel
  ReduceSpec ReduceProofs TReduceModel TReduceSpec TReduceProofs TReduceThm ScheduleSpec ScheduleProofs OrderSpec
  OrderProofs OrderThm.
From Coq Require Import Permutation.
Ltac Zify.zify_post_hook ::= idtac.

(** ** The chunks do not overlap and cover the range. *)
Lemma mod_pow2_mono x a b : 0 <= a <= b -> x mod 2 ^ a <= x mod 2 ^ b.
Proof.
  intros H. pose proof (pow2_pos a ltac:(lia)). pose proof (pow2_pos b ltac:(lia)).
  pose proof (Z.mod_pos_bound x (2 ^ b) ltac:(lia)).
  replace (x mod 2 ^ a) with ((x mod 2 ^ b) mod 2 ^ a); [apply Z.mod_le; lia|].
  replace b with (a + (b - a)) by lia. rewrite Z.pow_add_r by lia.
  pose proof (pow2_pos (b - a) ltac:(lia)). rewrite Z.rem_mul_r by lia.
  rewrite Z.mul_comm, Z.mod_add by lia. apply Z.mod_mod. lia.
Qed.

Lemma bit_chunk x i : 0 <= i -> Z.testbit x i = true -> x mod 2 ^ (i + 1) = x mod 2 ^ i + 2 ^ i.
Proof. intros Hi Hb. rewrite (mod_pow2_split x i Hi), Hb. lia. Qed.

Lemma bit_chunks_disjoint x i j : 0 <= i -> 0 <= j -> Z.testbit x i = true -> Z.testbit x j = true ->
  x mod 2 ^ i < x mod 2 ^ (j + 1) -> x mod 2 ^ j < x mod 2 ^ (i + 1) -> i = j.
Proof.
  intros Hi Hj Bi Bj H1 H2. destruct (Z.lt_trichotomy i j) as [L|[L|L] ]; [|exact L|].
  - pose proof (mod_pow2_mono x (i + 1) j ltac:(lia)). lia.
  - pose proof (mod_pow2_mono x (j + 1) i ltac:(lia)). lia.
Qed.

Lemma mod_le' (x i : Z) : 0 <= x -> 0 <= i -> 0 <= x mod 2 ^ i <= x.
Proof. intros Hx Hi. pose proof (pow2_pos i Hi). split; [apply Z.mod_pos_bound; lia|apply Z.mod_le; lia]. Qed.

Section Chunks.
  Variables w d n : Z.
  Hypothesis Hw : 1 <= w.
  Hypothesis Hd : 0 <= d <= n.
  Let lo := (n - d) mod w.

  Lemma lo_bound : 0 <= lo < w /\ lo <= n - d.
  Proof. unfold lo. split; [apply Z.mod_pos_bound; lia|]. apply Z.mod_le; lia. Qed.

  Lemma chunk_disjoint p k p' k' : tr_chunk w d n p k -> tr_chunk w d n p' k' -> p < p' + k' -> p' < p + k -> p = p' /\ k = k'.
  Proof.
    pose proof lo_bound as HL.
    assert (Main : forall q, d <= q -> (w | q - d) -> q + w <= n -> q + w <= n - lo).
    { intros q H1 [z Hz] H3. pose proof (Z.div_mod (n - d) w ltac:(lia)) as Hdm. fold lo in Hdm.
      assert (z + 1 <= (n - d) / w) by (apply Z.div_le_lower_bound; nia). nia. }
    assert (Pro : forall i, 0 <= i -> Z.testbit d i = true -> d mod 2 ^ i + 2 ^ i <= d).
    { intros i Hi Hb. rewrite <- (bit_chunk d i Hi Hb). apply mod_le'; lia. }
    assert (Epi : forall i, 0 <= i -> Z.testbit lo i = true -> n - lo <= n - lo mod 2 ^ (i + 1)).
    { intros i Hi Hb. pose proof (mod_le' lo (i + 1) ltac:(lia) ltac:(lia)). lia. }
    intros C C' H1 H2. unfold tr_chunk in C, C'. fold lo in C, C'.
    destruct C as [(i & Hi & Bi & -> & ->)|[(-> & D & V & E)|(i & Hi & Bi & -> & ->)] ];
    destruct C' as [(j & Hj & Bj & -> & ->)|[(-> & D' & V' & E')|(j & Hj & Bj & -> & ->)] ].
    - assert (i = j) as ->; [|now split]. apply (bit_chunks_disjoint d); try assumption.
      + now rewrite (bit_chunk d j).
      + now rewrite (bit_chunk d i).
    - specialize (Pro i Hi Bi). lia.
    - specialize (Pro i Hi Bi). specialize (Epi j Hj Bj). lia.
    - specialize (Pro j Hj Bj). lia.
    - split; [|reflexivity]. destruct V as [z Hz]. destruct V' as [z' Hz']. assert (z = z') by nia. nia.
    - specialize (Main p D V E). specialize (Epi j Hj Bj). lia.
    - specialize (Pro j Hj Bj). specialize (Epi i Hi Bi). lia.
    - specialize (Main p' D' V' E'). specialize (Epi i Hi Bi). lia.
    - assert (i = j) as ->; [|now split]. rewrite (bit_chunk lo i), (bit_chunk lo j) in * by assumption.
      apply (bit_chunks_disjoint lo); try assumption; rewrite (bit_chunk lo) by assumption; lia.
  Qed.

  Lemma chunk_inside p k : tr_chunk w d n p k -> 0 <= p /\ 0 < k /\ p + k <= n.
  Proof.
    pose proof lo_bound as HL. unfold tr_chunk. fold lo.
    intros [(i & Hi & Bi & -> & ->)|[(-> & D & V & E)|(i & Hi & Bi & -> & ->)] ]; [|lia|];
      pose proof (pow2_pos i Hi).
    - pose proof (mod_le' d i ltac:(lia) Hi). pose proof (mod_le' d (i + 1) ltac:(lia) ltac:(lia)).
      pose proof (bit_chunk d i Hi Bi). lia.
    - pose proof (mod_le' lo i ltac:(lia) Hi). pose proof (mod_le' lo (i + 1) ltac:(lia) ltac:(lia)).
      pose proof (bit_chunk lo i Hi Bi). lia.
  Qed.

  (** The digit whose chunk holds position [r] of [x]. *)
  Lemma bit_cover x : 0 <= x -> forall r, 0 <= r < x -> exists i, 0 <= i /\ Z.testbit x i = true /\ x mod 2 ^ i <= r < x mod 2 ^ (i + 1).
  Proof.
    intros Hx r Hr.
    assert (G : forall k : nat, r < x mod 2 ^ Z.of_nat k ->
              exists i, 0 <= i /\ Z.testbit x i = true /\ x mod 2 ^ i <= r < x mod 2 ^ (i + 1)).
    { induction k as [|k IH]; intros H; [change (2 ^ Z.of_nat 0) with 1 in H; rewrite Z.mod_1_r in H; lia|].
      destruct (Z_lt_le_dec r (x mod 2 ^ Z.of_nat k)) as [L|L]; [now apply IH|]. exists (Z.of_nat k).
      replace (Z.of_nat (S k)) with (Z.of_nat k + 1) in H by lia.
      split; [lia|]. split; [|split; assumption]. destruct (Z.testbit x (Z.of_nat k)) eqn:E; [reflexivity|].
      rewrite (mod_pow2_split x) in H by lia. rewrite E in H. lia. }
    apply (G (S (Z.to_nat (Z.log2 x)))). rewrite Z.mod_small; [lia|]. split; [lia|].
    pose proof (Z.log2_spec x ltac:(lia)). pose proof (Z.log2_nonneg x).
    replace (Z.of_nat (S (Z.to_nat (Z.log2 x)))) with (Z.succ (Z.log2 x)) by lia. lia.
  Qed.

  Lemma chunk_cover r : 0 <= r < n -> exists p k, tr_chunk w d n p k /\ p <= r < p + k.
  Proof.
    intros Hr. pose proof lo_bound as HL.
    destruct (Z_lt_le_dec r d) as [L|L].
    - destruct (bit_cover d ltac:(lia) r ltac:(lia)) as (i & Hi & Bi & H). exists (d mod 2 ^ i), (2 ^ i).
      split; [left; now exists i|]. pose proof (bit_chunk d i Hi Bi). lia.
    - destruct (Z_lt_le_dec r (n - lo)) as [L2|L2].
      + exists (d + (r - d) / w * w), w. pose proof (Z.div_mod (r - d) w ltac:(lia)) as Hq.
        pose proof (Z.mod_pos_bound (r - d) w ltac:(lia)). assert (0 <= (r - d) / w) by (apply Z.div_pos; lia).
        split; [|nia]. right. left. split; [reflexivity|]. split; [nia|].
        split; [exists ((r - d) / w); lia|]. pose proof (Z.div_mod (n - d) w ltac:(lia)) as Hn. fold lo in Hn.
        assert ((r - d) / w < (n - d) / w) by (apply Z.div_lt_upper_bound; nia). nia.
      + destruct (bit_cover lo ltac:(lia) (n - 1 - r) ltac:(lia)) as (i & Hi & Bi & H).
        exists (n - lo mod 2 ^ (i + 1)), (2 ^ i). split; [right; right; now exists i|].
        pose proof (bit_chunk lo i Hi Bi). lia.
  Qed.
End Chunks.

Lemma list_choice {B} (P : nat -> B -> Prop) n : (forall i, (i < n)%nat -> exists b, P i b) ->
  exists l, length l = n /\ forall i, (i < n)%nat -> exists b, nth_error l i = Some b /\ P i b.
Proof.
  induction n as [|n IH]; intros H; [exists []; split; [reflexivity|lia]|].
  destruct IH as (l & L & Hl); [intros i Hi; apply H; lia|]. destruct (H n ltac:(lia)) as [b Hb].
  exists (l ++ [b]). rewrite app_length, L. split; [cbn; lia|]. intros i Hi.
  destruct (Nat.eq_dec i n) as [->|N].
  - exists b. rewrite nth_error_app2, L, Nat.sub_diag by lia. now split.
  - destruct (Hl i ltac:(lia)) as (b' & E & P'). exists b'. rewrite nth_error_app1 by lia. now split.
Qed.

Definition chunkb (w d n p k : Z) : bool :=
  let i := Z.log2 k in let lo := (n - d) mod w in
  ((k =? 2 ^ i) && Z.testbit d i && (p =? d mod 2 ^ i))
  || ((k =? w) && (d <=? p) && ((p - d) mod w =? 0) && (p + w <=? n))
  || ((k =? 2 ^ i) && Z.testbit lo i && (p =? n - lo mod 2 ^ (i + 1))).

Lemma chunkb_iff w d n p k : 1 <= w -> (chunkb w d n p k = true <-> tr_chunk w d n p k).
Proof.
  intros Hw. unfold chunkb, tr_chunk. cbv zeta. rewrite !orb_true_iff, !andb_true_iff, !Z.eqb_eq, !Z.leb_le.
  rewrite Z.mod_divide by lia. pose proof (Z.log2_nonneg k). split.
  - intros [[[[E B] P]|[[[E D] V] L]]|[[E B] P]].
    + left. now exists (Z.log2 k).
    + right. left. now repeat split.
    + right. right. now exists (Z.log2 k).
  - intros [(i & Hi & B & P & ->)|[(E & D & V & L)|(i & Hi & B & P & ->)] ].
    + left. left. rewrite Z.log2_pow2 by lia. now repeat split.
    + left. right. now repeat split.
    + right. rewrite Z.log2_pow2 by lia. now repeat split.
Qed.

Section On.
  Context {A : Type}.
  Variables (op : A -> A -> A) (ldf : bool -> list Z -> Z -> res (list A)).

  Definition restricted (mt : bool) (w d n first : Z) (ps0 : list Z) (al : bool) (ps : list Z) (k : Z) : res (list A) :=
    let p := hd 0 ps - first in
    if chunkb w d n p k && ((k <=? w) && (negb mt || (k =? w)))
       && (if list_eq_dec Z.eq_dec ps (adv p ps0) then true else false) then ldf al ps k else Stop SUB.

  Lemma transform_reduce_on_exact c pol w first last srcs2 (vals : list A) init d :
    target_ok c -> c_ce c = false -> policy_ok pol -> width_ok w -> range_ok first last ->
    size_matches pol w first last ->
    prologue_length c pol w first (last - first) d -> (first = last \/ d < last - first) ->
    Z.of_nat (length vals) = last - first ->
    (forall al p k, 0 <= p -> 0 < k -> p + k <= last - first -> k <= w -> (p_match pol = true -> k = w) ->
       tr_chunk w d (last - first) p k -> (al = true -> aligned_at c (first + p) k = true) ->
       ldf al (adv p (first :: srcs2)) k = Ok (seg vals p k)) ->
    (forall al p k v, 0 <= p -> 0 < k -> p + k <= last - first -> k <= w -> (p_match pol = true -> k = w) ->
       tr_chunk w d (last - first) p k -> ldf al (adv p (first :: srcs2)) k = Ok v -> v = seg vals p k) ->
    transform_reduce_on op ldf c pol w first last srcs2 init
    = Ok (grouped op (Z.to_nat w) (Z.to_nat (p_unroll pol)) d init vals)
    /\ gsum op (init :: vals) (grouped op (Z.to_nat w) (Z.to_nat (p_unroll pol)) d init vals).
  Proof.
    intros Hc Hce Hpol Hw Hr Hm Hd Hdn Hlen Hld Hld'.
    assert (Hw1 : 1 <= w) by (destruct Hw; lia).
    destruct (Z.eq_dec first last) as [E|Hne].
    { subst last. unfold transform_reduce_on. rewrite Z.eqb_refl. destruct vals; [|cbn in Hlen; lia]. split; [reflexivity|apply gsum_one]. }
    destruct Hdn as [|Hdn]; [contradiction|].
    set (ldr := restricted (p_match pol) w d (last - first) first (first :: srcs2)).
    assert (Hr1 : forall al p k, tr_chunk w d (last - first) p k -> k <= w -> (p_match pol = true -> k = w) -> ldr al (adv p (first :: srcs2)) k = ldf al (adv p (first :: srcs2)) k).
    { intros al p k C C1 C2. unfold ldr, restricted. cbn [adv map hd]. replace (first + p - first) with p by lia.
      rewrite (proj2 (chunkb_iff w d (last - first) p k Hw1) C), (proj2 (Z.leb_le k w) C1). cbn [andb].
      replace (negb (p_match pol) || (k =? w)) with true
        by (destruct (p_match pol); [cbn; symmetry; now apply Z.eqb_eq, C2|reflexivity]). destruct (list_eq_dec _ _ _) as [_|N]; [reflexivity|].
      now destruct N. }
    destruct (transform_reduce_on_chunks op ldr c pol w first last srcs2 vals init d) as (x & Ex & Gx); try assumption.
    { intros maxe tp Epa. destruct (prologue_some_length c pol w _ first maxe tp (target_cfg c Hc) Hw Epa) as (Hd' & _).
      pose proof (prologue_length_unique _ _ _ _ _ _ _ Hd Hd'). lia. }
    { intros Epa. eapply prologue_length_unique; [eassumption|].
      apply prologue_none_length; [now apply target_cfg|exact Hw|exact Epa]. }
    { intros al p k P1 P2 P3 P4 P5 P6 P7. exists (seg vals p k). split; [|reflexivity]. rewrite Hr1 by assumption. now apply Hld. }
    assert (Eg : x = grouped op (Z.to_nat w) (Z.to_nat (p_unroll pol)) d init vals).
    { apply (transform_reduce_on_order op ldr c pol w first last srcs2); try assumption; [now right|].
      intros al p k v P1 P2 P3 E. unfold ldr, restricted in E. cbn [adv map hd] in E. replace (first + p - first) with p in E by lia.
      destruct (chunkb w d (last - first) p k) eqn:Ec; [|discriminate]. apply chunkb_iff in Ec; [|exact Hw1]. cbn [andb] in E.
      destruct (k <=? w) eqn:Ek; [|discriminate]. apply Z.leb_le in Ek. cbn [andb] in E.
      destruct (negb (p_match pol) || (k =? w)) eqn:Em; [|discriminate]. cbn [andb] in E.
      assert (Em' : p_match pol = true -> k = w) by (intros M; rewrite M in Em; cbn in Em; now apply Z.eqb_eq).
      destruct (list_eq_dec _ _ _) as [_|N]; [|discriminate]. now apply (Hld' al p k v). }
    rewrite <- Eg. split; [|exact Gx]. revert Ex. apply transform_reduce_on_mono.
    intros al ps k v. unfold ldr, restricted. destruct (chunkb _ _ _ _ _ && _ && _); [auto|discriminate].
  Qed.
End On.
