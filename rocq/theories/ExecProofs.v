(** Facts about the chunking of [for_each]. *)
From Verif Require Import Base BaseFacts ExecModel.
From Coq Require Import ZifyBool ZifyNat.
Ltac Zify.zify_post_hook ::= Z.div_mod_to_equations.

(** ** Shapes of call sequences *)

(** Consecutive calls covering [a,b). *)
Inductive tiles : Z -> Z -> list call -> Prop :=
| tiles_nil a : tiles a a []
| tiles_cons a b k n al l : 0 < k -> (0 < n)%nat -> tiles (a + k * Z.of_nat n) b l ->
                            tiles a b (mkcall a k n al :: l).

(** Single chunks of strictly decreasing power-of-two size below 2^j. *)
Inductive desc (al : bool) : Z -> Z -> Z -> list call -> Prop :=
| desc_nil j a : desc al j a a []
| desc_cons j i a b l : 0 <= i < j -> desc al i (a + 2 ^ i) b l ->
                        desc al j a b (mkcall a (2 ^ i) 1 al :: l).

(** Single aligned chunks of strictly increasing size 2^k, i <= k < K. *)
Inductive asc (K : Z) : Z -> Z -> Z -> list call -> Prop :=
| asc_nil i a : asc K i a a []
| asc_cons i k a b l : 0 <= i <= k -> k < K -> asc K (k + 1) (a + 2 ^ k) b l ->
                       asc K i a b (mkcall a (2 ^ k) 1 true :: l).

(** [n] calls of [u] chunks of width [w]. *)
Inductive uniform (w : Z) (u : nat) (al : bool) : Z -> Z -> list call -> Prop :=
| uniform_nil a : uniform w u al a a []
| uniform_cons a b l : uniform w u al (a + w * Z.of_nat u) b l ->
                       uniform w u al a b (mkcall a w u al :: l).

Lemma tiles_le a b l : tiles a b l -> a <= b.
Proof. induction 1; [lia|]. nia. Qed.

Lemma tiles_app a b c l l' : tiles a b l -> tiles b c l' -> tiles a c (l ++ l').
Proof. induction 1; intros; cbn; [assumption|]. constructor; auto. Qed.

Lemma desc_tiles al j a b l : desc al j a b l -> tiles a b l.
Proof.
  induction 1; [constructor|]. constructor; [apply pow2_pos; lia|lia|].
  replace (2^i * Z.of_nat 1) with (2^i) by lia. assumption.
Qed.

Lemma asc_tiles K i a b l : asc K i a b l -> tiles a b l.
Proof.
  induction 1; [constructor|]. constructor; [apply pow2_pos; lia|lia|].
  replace (2^k * Z.of_nat 1) with (2^k) by lia. assumption.
Qed.

Lemma uniform_tiles w u al a b l : 0 < w -> (0 < u)%nat -> uniform w u al a b l -> tiles a b l.
Proof. intros Hw Hu. induction 1; constructor; auto. Qed.

(** ** Alignment of the positions *)
Lemma desc_pos al j a b l : desc al j a b l -> 0 <= j -> forall s, (2 ^ j | a - s) ->
  Forall (fun c => exists i, 0 <= i < j /\ k_k c = 2 ^ i /\ k_n c = 1%nat /\ k_al c = al
                              /\ (2 ^ i | k_pos c - s)) l.
Proof.
  induction 1 as [|j i a b l Hi H IH]; intros Hj s Hs; constructor.
  - exists i. cbn. repeat split; try lia.
    eapply Z.divide_trans; [apply pow2_divide|exact Hs]. lia.
  - assert (Hs' : (2^i | a - s)).
    { eapply Z.divide_trans; [apply pow2_divide|exact Hs]. lia. }
    eapply Forall_impl; [|apply (IH ltac:(lia) s)].
    + intros c (i' & H1 & H2). exists i'. split; [lia|exact H2].
    + replace (a + 2^i - s) with (a - s + 2^i) by lia.
      apply Z.divide_add_r; [assumption|apply Z.divide_refl].
Qed.

Lemma asc_pos K i a b l : asc K i a b l -> 0 <= i ->
  (2 ^ i | b - a) /\
  Forall (fun c => exists k, 0 <= k < K /\ k_k c = 2 ^ k /\ k_n c = 1%nat /\ k_al c = true
                              /\ (2 ^ k | b - k_pos c)) l.
Proof.
  induction 1 as [|i k a b l Hi HK H IH]; intros Hi0.
  - split; [rewrite Z.sub_diag; apply Z.divide_0_r|constructor].
  - destruct (IH ltac:(lia)) as [H1 H2].
    assert (Hk : (2^k | b - a)).
    { replace (b - a) with ((b - (a + 2^k)) + 2^k) by lia.
      apply Z.divide_add_r; [|apply Z.divide_refl].
      eapply Z.divide_trans; [apply pow2_divide|exact H1]. lia. }
    split; [eapply Z.divide_trans; [apply pow2_divide|exact Hk]; lia|].
    constructor; [|exact H2]. exists k. cbn. repeat split; try lia. exact Hk.
Qed.

Lemma uniform_pos w u al a b l : uniform w u al a b l -> forall s, (w | a - s) ->
  Forall (fun c => k_k c = w /\ k_n c = u /\ k_al c = al /\ (w | k_pos c - s)) l.
Proof.
  induction 1 as [|a b l H IH]; intros s Hs; constructor; [now repeat split|].
  apply IH. replace (a + w * Z.of_nat u - s) with ((a - s) + Z.of_nat u * w) by lia.
  apply Z.divide_add_r; [assumption|apply Z.divide_factor_r].
Qed.

(** ** Jump tables *)
Fixpoint zlist (a : Z) (n : nat) : list Z :=
  match n with O => [] | S n' => a :: zlist (a + 1) n' end.
Lemma zlist_in a n x : a <= x < a + Z.of_nat n -> In x (zlist a n).
Proof. revert a; induction n as [|n IH]; intros a H; [lia|]. cbn.
  destruct (Z.eq_dec a x); [now left|right]. apply IH. lia. Qed.

Lemma epilogue_lookup n : 1 <= n <= 63 ->
  exists i, 0 <= i <= 5 /\ 2 ^ i <= n < 2 ^ (i + 1) /\ lookup epilogue_table n = Some (n - 2 ^ i).
Proof.
  intros Hn.
  assert (H : forallb (fun n => match lookup epilogue_table n with
     | Some m => (m =? n - 2 ^ Z.log2 n) && (2 ^ Z.log2 n <=? n) && (n <? 2 ^ (Z.log2 n + 1))
                 && (Z.log2 n <=? 5)
     | None => false end) (zlist 1 63) = true) by (vm_compute; reflexivity).
  rewrite forallb_forall in H. specialize (H n (zlist_in 1 63 n ltac:(lia))).
  destruct (lookup epilogue_table n) as [m|]; [|discriminate].
  exists (Z.log2 n). pose proof (Z.log2_nonneg n). repeat split; try lia. f_equal; lia.
Qed.

(** The prologue table strips the lowest set bit, for every entry below 32 (beyond 37 one
    entry does not). *)
Lemma prologue_lookup n : 1 <= n <= 31 ->
  exists k m, 0 <= k /\ lookup prologue_table n = Some m /\ n = 2 ^ k + m /\ 0 <= m
              /\ (2 ^ (k + 1) | m).
Proof.
  intros Hn.
  assert (H : forallb (fun n => match lookup prologue_table n with
     | Some m => (n =? 2 ^ Z.log2 (n - m) + m) && (0 <=? m)
                 && (m mod 2 ^ (Z.log2 (n-m) + 1) =? 0)
     | None => false end) (zlist 1 31) = true) by (vm_compute; reflexivity).
  rewrite forallb_forall in H. specialize (H n (zlist_in 1 31 n ltac:(lia))).
  destruct (lookup prologue_table n) as [m|]; [|discriminate].
  exists (Z.log2 (n - m)), m. pose proof (Z.log2_nonneg (n - m)).
  rewrite !andb_true_iff in H. destruct H as [[H1 H2] H3].
  repeat split; try lia. apply Z.mod_divide; [|lia].
  pose proof (pow2_pos (Z.log2 (n - m) + 1)). lia.
Qed.

Lemma jumptable_epilogue fuel bound al : forall n ptr j,
  0 <= j <= 6 -> 0 <= n < 2 ^ j -> n < bound -> j < Z.of_nat fuel ->
  exists l, jumptable fuel epilogue_table bound al n ptr = (l, Ok tt)
            /\ desc al j ptr (ptr + n) l.
Proof.
  induction fuel as [|fuel IH]; intros n ptr j Hj Hn Hb Hf; [lia|].
  cbn [jumptable]. destruct (Z.eqb_spec n 0) as [->|Hn0].
  - exists []. split; [reflexivity|]. rewrite Z.add_0_r. constructor.
  - assert (Hn63 : 1 <= n <= 63).
    { assert (2^j <= 2^6) by (apply Z.pow_le_mono_r; lia). change (2^6) with 64 in *. lia. }
    destruct (epilogue_lookup n Hn63) as (i & Hi & Hin & ->).
    destruct (Z.leb_spec bound n); [lia|].
    assert (Hij : i < j) by (apply pow2_lt_inv; lia).
    destruct (IH (n - 2^i) (ptr + (n - (n - 2^i))) i) as (l & El & Hl); try lia.
    { rewrite Z.pow_add_r in Hin by lia. change (2^1) with 2 in Hin. lia. }
    unfold bindW, tellW. cbn [app]. rewrite El.
    replace (n - (n - 2^i)) with (2^i) in * by lia.
    eexists. split; [reflexivity|]. constructor; [lia|].
    replace (ptr + n) with (ptr + 2^i + (n - 2^i)) by lia. exact Hl.
Qed.

Lemma jumptable_prologue fuel bound K : forall n ptr i,
  0 <= n <= 31 -> 0 <= i -> (2 ^ i | n) -> n < bound -> n < 2 ^ K -> 0 <= K ->
  n < Z.of_nat fuel ->
  exists l, jumptable fuel prologue_table bound true n ptr = (l, Ok tt)
            /\ asc K i ptr (ptr + n) l.
Proof.
  induction fuel as [|fuel IH]; intros n ptr i Hn Hi Hdiv Hb HK HK0 Hf; [lia|].
  cbn [jumptable]. destruct (Z.eqb_spec n 0) as [->|Hn0].
  - exists []. split; [reflexivity|]. rewrite Z.add_0_r. constructor.
  - destruct (prologue_lookup n ltac:(lia)) as (k & m & Hk & -> & En & Hm & Hdm).
    destruct (Z.leb_spec bound n); [lia|].
    pose proof (pow2_pos k Hk).
    destruct (IH m (ptr + (n - m)) (k+1)) as (l & El & Hl); try lia; try assumption.
    unfold bindW, tellW. cbn [app]. rewrite El.
    replace (n - m) with (2^k) in * by lia.
    eexists. split; [reflexivity|]. constructor.
    + split; [lia|]. destruct (Z_lt_le_dec k i) as [Hlt|]; [|assumption]. exfalso.
      (* 2^(k+1) divides both n and m, hence 2^k *)
      assert (H2 : (2^(k+1) | 2^k)).
      { replace (2^k) with (n - m) by lia. apply Z.divide_sub_r; [|assumption].
        eapply Z.divide_trans; [apply pow2_divide|exact Hdiv]. lia. }
      apply Z.divide_pos_le in H2; [|lia]. rewrite Z.pow_add_r in H2 by lia.
      change (2^1) with 2 in H2. lia.
    + apply pow2_lt_inv; lia.
    + replace (ptr + n) with (ptr + 2^k + m) by lia. exact Hl.
Qed.

(** ** Prologue *)
Lemma asc_weaken K i i' a b l : 0 <= i' <= i -> asc K i a b l -> asc K i' a b l.
Proof. intros H D. inversion D; subst; constructor; try lia; assumption. Qed.

Lemma for_each_prologue_ok c K fuel : forall i ptr tp,
  1 <= K -> 0 <= i < K -> (Z.to_nat (K - i) <= fuel)%nat -> 0 < tp < 2 ^ K ->
  exists l, for_each_prologue fuel c (2 ^ i) (2 ^ K) ptr tp = (l, Ok tt)
            /\ asc K i ptr (ptr + 2 ^ i * (tp / 2 ^ i)) l.
Proof.
  induction fuel as [|fuel IH]; intros i ptr tp HK Hi Hfuel Htp; [lia|].
  cbn [for_each_prologue].
  assert (Hsb : ((1 <? 2 ^ K) && has_single_bit (2 ^ K) && has_single_bit (2 ^ i)) = true).
  { assert (2 ^ 1 <= 2 ^ K) by (apply Z.pow_le_mono_r; lia). change (2^1) with 2 in *.
    rewrite !andb_true_iff. rewrite !has_single_bit_spec.
    repeat split; [lia|exists K; split; [lia|reflexivity]|exists i; split; [lia|reflexivity]]. }
  rewrite Hsb. cbn [negb].
  destruct (Z.eqb_spec tp 0); [lia|]. destruct (Z.leb_spec (2^K) tp); [lia|]. cbn [orb].
  destruct (Z.eqb_spec (2^K) 2) as [E2|N2].
  { assert (HK1 : K = 1) by (apply (Z.pow_inj_r 2); [lia|lia|lia|exact E2]).
    assert (i = 0) by lia. subst K i. assert (tp = 1) by lia. subst tp.
    eexists. split; [reflexivity|]. change (2^0) with 1. change (1 * (1/1)) with 1.
    apply (asc_cons 1 0 0); [lia|lia|]. change (2^0) with 1. constructor. }
  destruct (negb (c_osize c) && (2^i =? 1) && (2^K <? 64) && negb (c_ce c)) eqn:Ejt.
  { rewrite !andb_true_iff in Ejt. destruct Ejt as [[[_ E1] E64] _].
    assert (i = 0). { destruct (Z.eq_dec i 0); [assumption|].
      assert (2^1 <= 2^i) by (apply Z.pow_le_mono_r; lia). lia. }
    subst i. change (2^0) with 1.
    assert (H31 : 2^K <= 32).
    { destruct (Z_lt_le_dec K 6) as [|]; [change 32 with (2^5); apply Z.pow_le_mono_r; lia|].
      assert (2^6 <= 2^K) by (apply Z.pow_le_mono_r; lia). change (2^6) with 64 in *. lia. }
    unfold jumptable_entry. destruct (Z.eqb_spec tp 0); [lia|].
    destruct (jumptable_prologue 64 (2^K) K tp ptr 0) as (l & El & Hl); try lia.
    { change (2^0) with 1. apply Z.divide_1_l. }
    exists l. split; [exact El|]. rewrite Z.div_1_r, Z.mul_1_l. exact Hl. }
  pose proof (pow2_pos i ltac:(lia)) as Hp.
  rewrite Z.land_comm, land_pow2 by lia.
  assert (Hbit : tp / 2^i = 2 * (tp / 2^(i+1)) + Z.b2z (Z.testbit tp i)).
  { rewrite Z.pow_add_r by lia. change (2^1) with 2. rewrite <- Z.div_div by lia.
    rewrite Z.testbit_eqb by lia.
    destruct (Z.eqb_spec ((tp / 2^i) mod 2) 1); cbn [Z.b2z]; lia. }
  assert (Hsz2 : 2^i * 2 = 2^(i+1)) by (rewrite Z.pow_add_r by lia; reflexivity).
  assert (Hdone : ~ (2^i * 2 < 2^K) -> tp / 2^(i+1) = 0 /\ i + 1 = K).
  { intros Hge. rewrite Hsz2 in Hge.
    assert (K <= i + 1). { destruct (Z_lt_le_dec (i+1) K); [|assumption].
      exfalso. apply Hge. apply Z.pow_lt_mono_r; lia. }
    assert (K = i+1) by lia. subst K. split; [apply Z.div_small; lia|lia]. }
  destruct (Z.testbit tp i) eqn:Eb; cbn [negb].
  - destruct (Z.eqb_spec (2^i) 0); [lia|]. cbn [negb].
    destruct (Z.ltb_spec (2^i*2) (2^K)) as [Hlt|Hge].
    + assert (i + 1 < K) by (apply pow2_lt_inv; [lia|]; rewrite <- Hsz2; exact Hlt).
      destruct (IH (i+1) (ptr + 2^i) tp) as (l & El & Hl); try lia.
      rewrite Hsz2, Hbit. unfold bindW, tellW. cbn [app]. rewrite El.
      eexists. split; [reflexivity|]. constructor; [lia|lia|].
      cbn [Z.b2z]. replace (ptr + 2 ^ i * (2 * (tp / 2 ^ (i + 1)) + 1))
        with (ptr + 2^i + 2^(i+1) * (tp / 2^(i+1))) by (rewrite <- Hsz2; ring). exact Hl.
    + destruct (Hdone ltac:(lia)) as [Hz HKi]. unfold bindW, tellW. cbn.
      eexists. split; [reflexivity|]. constructor; [lia|lia|].
      rewrite Hbit, Hz. cbn [Z.b2z]. replace (ptr + 2^i * (2*0+1)) with (ptr + 2^i) by ring.
      constructor.
  - cbn [Z.eqb negb].
    destruct (Z.ltb_spec (2^i*2) (2^K)) as [Hlt|Hge].
    + assert (i + 1 < K) by (apply pow2_lt_inv; [lia|]; rewrite <- Hsz2; exact Hlt).
      destruct (IH (i+1) ptr tp) as (l & El & Hl); try lia.
      rewrite Hsz2, Hbit. unfold bindW, retW. cbn [app]. rewrite El.
      eexists. split; [reflexivity|].
      cbn [Z.b2z]. replace (ptr + 2 ^ i * (2 * (tp / 2 ^ (i + 1)) + 0))
        with (ptr + 2^(i+1) * (tp / 2^(i+1))) by (rewrite <- Hsz2; ring).
      apply (asc_weaken _ (i + 1)); [lia|exact Hl].
    + destruct (Hdone ltac:(lia)) as [Hz HKi]. unfold bindW, retW. cbn.
      eexists. split; [reflexivity|]. rewrite Hbit, Hz. cbn [Z.b2z].
      replace (ptr + 2^i * (2*0+0)) with ptr by ring. constructor.
Qed.

(** ** Epilogue *)
Lemma desc_weaken al j j' a b l : j <= j' -> desc al j a b l -> desc al j' a b l.
Proof. intros H D. inversion D; subst; constructor; [lia|assumption]. Qed.

Lemma for_each_epilogue_ok c al fuel : forall vs0 j leftover last,
  2 <= vs0 <= 2 ^ j -> 0 <= j <= Z.of_nat fuel -> 0 < leftover < vs0 ->
  exists l, for_each_epilogue fuel c vs0 leftover last al = (l, Ok tt)
            /\ desc al j (last - leftover) last l.
Proof.
  induction fuel as [|fuel IH]; intros vs0 j leftover last Hvs Hj Hlo.
  { assert (j = 0) by lia. subst j. change (2^0) with 1 in *. lia. }
  cbn [for_each_epilogue].
  destruct (Z.ltb_spec 1 vs0); [|lia]. cbn [negb].
  assert (Hj1 : 1 <= j). { destruct (Z_lt_le_dec j 1); [|assumption].
    assert (j = 0) by lia. subst j. change (2^0) with 1 in *. lia. }
  destruct (Z.eqb_spec vs0 2) as [->|Hne2].
  { assert (leftover = 1) by lia. subst leftover. eexists. split; [reflexivity|].
    change (mkcall (last - 1) 1 1 al) with (mkcall (last - 1) (2^0) 1 al).
    apply desc_cons; [lia|]. change (2^0) with 1. replace (last - 1 + 1) with last by lia.
    constructor. }
  assert (Hjt : vs0 <= 64 ->
    exists l, jumptable_entry epilogue_table vs0 al leftover (last - leftover) = (l, Ok tt)
              /\ desc al j (last - leftover) last l).
  { intros Hle. unfold jumptable_entry. destruct (Z.eqb_spec leftover 0); [lia|].
    set (j' := Z.min j 6).
    assert (Hj' : leftover < 2 ^ j').
    { destruct (Z_le_gt_dec j 6); unfold j'; [rewrite Z.min_l by lia; lia|].
      rewrite Z.min_r by lia. change (2^6) with 64. lia. }
    destruct (jumptable_epilogue 64 vs0 al leftover (last - leftover) j') as (l & El & Hl);
      [unfold j'; lia|lia|lia|unfold j'; lia|].
    exists l. split; [exact El|]. apply (desc_weaken _ j'); [unfold j'; lia|].
    replace (last - leftover + leftover) with last in Hl by lia. exact Hl. }
  destruct ((vs0 <=? 4) && negb (c_ce c)) eqn:E4; [apply Hjt; lia|].
  destruct (negb (c_osize c) && (vs0 <=? 64) && negb (c_ce c)) eqn:E64; [apply Hjt; lia|].
  clear E4 E64 Hjt.
  destruct (bit_ceil_half vs0 ltac:(lia)) as (k & Hk & -> & Hkv).
  assert (Hk1 : 1 <= k). { destruct (Z_lt_le_dec k 1); [|assumption].
    assert (k = 0) by lia. subst k. change (2^(0+1)) with 2 in *. lia. }
  assert (Hkj : k < j). { apply pow2_lt_inv; [lia|]. lia. }
  pose proof (pow2_pos k ltac:(lia)) as Hp.
  assert (H2k : 2^(k+1) = 2 * 2^k) by (rewrite Z.pow_add_r by lia; change (2^1) with 2; lia).
  assert (H2 : 2 <= 2^k). { change 2 with (2^1) at 1. apply Z.pow_le_mono_r; lia. }
  rewrite land_pow2 by lia. rewrite testbit_small by lia.
  destruct (Z.ltb_spec 1 (2^k)); [|lia].
  destruct (Z.leb_spec (2^k) leftover) as [Hge|Hlt].
  - destruct (Z.eqb_spec (2^k) 0); [lia|]. cbn [negb andb].
    destruct (Z.eqb_spec (leftover - 2^k) 0) as [Hz|Hnz]; cbn [negb].
    + eexists. split; [reflexivity|]. cbn. apply desc_cons; [lia|].
      replace (last - leftover + 2^k) with last by lia. constructor.
    + destruct (IH (2^k) k (leftover - 2^k) last) as (l & El & Hl); try lia.
      unfold bindW, tellW. cbn [app]. rewrite El. eexists. split; [reflexivity|].
      apply desc_cons; [lia|].
      replace (last - leftover + 2^k) with (last - (leftover - 2^k)) by lia. exact Hl.
  - cbn [Z.eqb negb andb]. destruct (Z.eqb_spec leftover 0); [lia|]. cbn [negb].
    destruct (IH (2^k) k leftover last) as (l & El & Hl); try lia.
    unfold bindW, retW. cbn [app]. rewrite El. eexists. split; [reflexivity|].
    apply (desc_weaken _ k); [lia|exact Hl].
Qed.

(** With nothing left over the epilogue is harmless except for width 2. *)
Lemma for_each_epilogue_zero c al fuel w last :
  c_ce c = true -> 3 <= w -> for_each_epilogue (S fuel) c w 0 last al = ([], Ok tt).
Proof.
  intros Hce Hw. cbn [for_each_epilogue]. rewrite Hce. cbn [negb].
  rewrite !andb_false_r. destruct (Z.ltb_spec 1 w); [|lia]. cbn [negb].
  destruct (Z.eqb_spec w 2); [lia|]. cbn. destruct (1 <? bit_ceil w / 2); reflexivity.
Qed.

(** ** Loops *)
Lemma main_loop_ok w n al fuel : forall limit first,
  0 < w -> (0 < n)%nat -> (Z.to_nat (limit + w * Z.of_nat n - first) < fuel)%nat ->
  exists l first', main_loop fuel w n al limit first = (l, Ok first')
    /\ uniform w n al first first' l
    /\ (first <= limit + w * Z.of_nat n -> limit < first' <= limit + w * Z.of_nat n)
    /\ (limit < first -> first' = first)
    /\ (w * Z.of_nat n | first' - first).
Proof.
  induction fuel as [|fuel IH]; intros limit first Hw Hn Hf; [lia|].
  cbn [main_loop]. set (s := w * Z.of_nat n) in *. assert (0 < s) by (unfold s; nia).
  destruct (Z.leb_spec first limit) as [Hle|Hgt].
  - destruct (IH limit (first + s)) as (l & f' & El & Hu & H1 & H2 & H3); try lia.
    unfold bindW, tellW. cbn [app]. rewrite El.
    exists (mkcall first w n al :: l), f'. split; [reflexivity|]. split; [constructor; exact Hu|].
    split; [intros _; apply H1; lia|]. split; [intros; lia|].
    replace (f' - first) with ((f' - (first + s)) + s) by lia.
    apply Z.divide_add_r; [assumption|apply Z.divide_refl].
  - exists [], first. split; [reflexivity|]. split; [constructor|]. split; [lia|].
    split; [reflexivity|]. rewrite Z.sub_diag. apply Z.divide_0_r.
Qed.

Lemma match_loop_ok w al fuel : forall last first,
  0 < w -> first <= last -> (w | last - first) -> (Z.to_nat (last - first) < fuel)%nat ->
  exists l, match_loop fuel w al last first = (l, Ok last) /\ uniform w 1 al first last l.
Proof.
  induction fuel as [|fuel IH]; intros last first Hw Hle Hd Hf; [lia|].
  cbn [match_loop]. destruct (Z.eqb_spec first last) as [->|Hne].
  - exists []. split; [reflexivity|constructor].
  - assert (w <= last - first) by (apply Z.divide_pos_le; [lia|assumption]).
    destruct (IH last (first + w)) as (l & El & Hu); try lia.
    { replace (last - (first + w)) with ((last - first) - w) by lia.
      apply Z.divide_sub_r; [assumption|apply Z.divide_refl]. }
    unfold bindW, tellW. cbn [app]. rewrite El. eexists. split; [reflexivity|].
    constructor. replace (first + w * Z.of_nat 1) with (first + w) by lia. exact Hu.
Qed.

Lemma const_loop_ok w fuel : forall last first,
  0 < w -> first <= last -> (Z.to_nat (last - first) < fuel)%nat ->
  const_loop fuel w last first
  = (fst (const_loop fuel w last first), Ok (last - (last - first) mod w))
  /\ uniform w 1 false first (last - (last - first) mod w) (fst (const_loop fuel w last first)).
Proof.
  induction fuel as [|fuel IH]; intros last first Hw Hle Hf; [lia|].
  cbn [const_loop]. destruct (Z.ltb_spec (first + (w-1)) last) as [Hlt|Hge].
  - destruct (IH last (first + w)) as [E Hu]; try lia.
    assert (Hm : (last - (first + w)) mod w = (last - first) mod w).
    { replace (last - first) with (last - (first + w) + 1 * w) by lia.
      rewrite Z.mod_add by lia. reflexivity. }
    rewrite Hm in *. unfold bindW, tellW. cbn [app]. rewrite E. cbn [fst].
    split; [reflexivity|]. constructor.
    replace (first + w * Z.of_nat 1) with (first + w) by lia. exact Hu.
  - rewrite Z.mod_small by lia. cbn [fst retW].
    replace (last - (last - first)) with first by lia. split; [reflexivity|constructor].
Qed.
