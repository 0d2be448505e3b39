(** Lemmas on memory, lists and powers of two. *)
From Verif Require Import Base.
From Coq Require Import Znumtheory ZifyBool ZifyNat.
Ltac Zify.zify_post_hook ::= Z.div_mod_to_equations.

Section Mem.
  Context {T : Type}.
  Implicit Types (m : mem T) (p : Z) (l : list T).

  Lemma upd_same m p x : upd m p x p = Some x.
  Proof. unfold upd. now rewrite Z.eqb_refl. Qed.
  Lemma upd_other m p x a : a <> p -> upd m p x a = m a.
  Proof. unfold upd. intros H. destruct (Z.eqb_spec a p); congruence. Qed.

  Lemma load_length m p n l : load m p n = Some l -> length l = n.
  Proof.
    revert p l; induction n as [|n IH]; cbn; intros p l H.
    - now inversion H.
    - destruct (m p); [|discriminate]. destruct (load m (p+1) n) eqn:E; [|discriminate].
      inversion H; cbn. f_equal. eauto.
  Qed.

  Lemma load_ok m p n : (forall a, p <= a < p + Z.of_nat n -> m a <> None) ->
                        exists l, load m p n = Some l.
  Proof.
    revert p; induction n as [|n IH]; intros p H; [now exists []|].
    cbn. destruct (m p) eqn:E.
    - destruct (IH (p+1)) as [l ->]; [intros a Ha; apply H; lia|]. eauto.
    - exfalso. apply (H p); [lia|assumption].
  Qed.

  Lemma load_nth m p n l : load m p n = Some l ->
    forall a, p <= a < p + Z.of_nat n -> m a = nth_error l (Z.to_nat (a - p)).
  Proof.
    revert p l; induction n as [|n IH]; cbn [load]; intros p l H a Ha; [lia|].
    destruct (m p) eqn:E; [|discriminate]. destruct (load m (p+1) n) eqn:E2; [|discriminate].
    inversion H; subst. destruct (Z.eq_dec a p) as [->|Hne].
    - rewrite Z.sub_diag. exact E.
    - rewrite (IH _ _ E2 a) by lia.
      replace (Z.to_nat (a - p)) with (S (Z.to_nat (a - (p+1)))) by lia. reflexivity.
  Qed.

  Lemma load_defined m p n l : load m p n = Some l ->
    forall a, p <= a < p + Z.of_nat n -> m a <> None.
  Proof.
    intros H a Ha. rewrite (load_nth _ _ _ _ H a Ha).
    apply nth_error_Some. rewrite (load_length _ _ _ _ H). lia.
  Qed.

  Lemma load_ext m m' p n : (forall a, p <= a < p + Z.of_nat n -> m a = m' a) ->
                            load m p n = load m' p n.
  Proof.
    revert p; induction n as [|n IH]; intros p H; [reflexivity|].
    cbn. rewrite (H p) by lia. rewrite (IH (p+1)) by (intros; apply H; lia). reflexivity.
  Qed.

  Lemma load_app m p n1 n2 : load m p (n1 + n2) =
    match load m p n1 with
    | None => None
    | Some l1 => match load m (p + Z.of_nat n1) n2 with
                 | None => None | Some l2 => Some (l1 ++ l2) end
    end.
  Proof.
    revert p; induction n1 as [|n1 IH]; intros p; cbn [load Nat.add].
    - rewrite Z.add_0_r. destruct (load m p n2); reflexivity.
    - destruct (m p); [|reflexivity]. rewrite IH.
      replace (p + 1 + Z.of_nat n1) with (p + Z.of_nat (S n1)) by lia.
      destruct (load m (p+1) n1); [|reflexivity].
      destruct (load m (p + Z.of_nat (S n1)) n2); reflexivity.
  Qed.

  Lemma load_intro m p l :
    (forall i, (i < length l)%nat -> m (p + Z.of_nat i) = nth_error l i) ->
    load m p (length l) = Some l.
  Proof.
    revert p; induction l as [|x l IH]; intros p H; [reflexivity|].
    cbn. generalize (H 0%nat ltac:(cbn; lia)). cbn. rewrite Z.add_0_r. intros ->.
    rewrite IH; [reflexivity|]. intros i Hi. specialize (H (S i) ltac:(cbn; lia)). cbn in H.
    rewrite <- H. f_equal. lia.
  Qed.

  Lemma store_ok m p l : (forall a, p <= a < p + Z.of_nat (length l) -> m a <> None) ->
    exists m', store m p l = Some m'.
  Proof.
    revert m p; induction l as [|x l IH]; intros m p H; [cbn; eauto|].
    cbn [store]. cbn [length] in H. destruct (m p) eqn:E; [|exfalso; apply (H p); [lia|assumption]].
    apply IH. intros a Ha. rewrite upd_other by lia. apply H. lia.
  Qed.

  Lemma store_outside m p l m' : store m p l = Some m' ->
    forall a, ~ (p <= a < p + Z.of_nat (length l)) -> m' a = m a.
  Proof.
    revert m p; induction l as [|x l IH]; cbn [store length]; intros m p H a Ha.
    - now inversion H.
    - destruct (m p); [|discriminate]. rewrite (IH _ _ H) by lia. apply upd_other. lia.
  Qed.

  Lemma store_inside m p l m' : store m p l = Some m' ->
    forall a, p <= a < p + Z.of_nat (length l) -> m' a = nth_error l (Z.to_nat (a - p)).
  Proof.
    revert m p; induction l as [|x l IH]; cbn [store length]; intros m p H a Ha; [lia|].
    destruct (m p); [|discriminate]. destruct (Z.eq_dec a p) as [->|Hne].
    - rewrite Z.sub_diag. cbn. rewrite (store_outside _ _ _ _ H) by lia. apply upd_same.
    - rewrite (IH _ _ H) by lia.
      replace (Z.to_nat (a - p)) with (S (Z.to_nat (a - (p+1)))) by lia. reflexivity.
  Qed.

  Lemma store_load m p l m' : store m p l = Some m' -> load m' p (length l) = Some l.
  Proof.
    intros H. apply load_intro. intros i Hi. rewrite (store_inside _ _ _ _ H) by lia.
    f_equal. lia.
  Qed.

  Lemma store_defined m p l m' : store m p l = Some m' -> forall a, m' a = None <-> m a = None.
  Proof.
    revert m p; induction l as [|x l IH]; cbn [store]; intros m p H a.
    - inversion H. tauto.
    - destruct (m p) eqn:E; [|discriminate]. rewrite (IH _ _ H). unfold upd.
      destruct (Z.eqb_spec a p); [subst; rewrite E; split; discriminate|tauto].
  Qed.
End Mem.

Lemma divide_pow2 d n : 0 <= n -> 0 < d -> (d | 2 ^ n) -> exists k, 0 <= k <= n /\ d = 2 ^ k.
Proof.
  intros Hn Hd. revert d Hd. pattern n. apply natlike_ind; [| |exact Hn].
  - intros d Hd H. exists 0. split; [lia|]. change (2^0) with 1 in *.
    apply Z.divide_1_r_nonneg in H; lia.
  - clear n Hn. intros n Hn IH d Hd H. rewrite Z.pow_succ_r in H by lia.
    destruct (Z.Even_or_Odd d) as [[e He]|[e He]].
    + assert (H2 : (e | 2 ^ n)).
      { destruct H as [q Hq]. exists q. subst d. nia. }
      destruct (IH e ltac:(lia) H2) as [k [Hk ->]]. exists (k+1).
      split; [lia|]. rewrite Z.pow_add_r by lia. subst d. change (2^1) with 2. lia.
    + assert (H2 : (d | 2 ^ n)).
      { apply Gauss with 2; [exact H|]. apply Zgcd_1_rel_prime.
        apply Zgcd_1_rel_prime. apply rel_prime_sym. apply prime_rel_prime; [apply prime_2|].
        intros [q Hq]. lia. }
      destruct (IH d Hd H2) as [k [Hk ->]]. exists k. split; [lia|reflexivity].
Qed.

Lemma has_single_bit_spec x : has_single_bit x = true <-> exists k, 0 <= k /\ x = 2 ^ k.
Proof.
  unfold has_single_bit. split.
  - rewrite andb_true_iff, Z.ltb_lt, Z.eqb_eq. intros [H1 H2].
    exists (Z.log2 x). split; [apply Z.log2_nonneg|exact H2].
  - intros [k [Hk ->]]. rewrite andb_true_iff, Z.ltb_lt, Z.eqb_eq. split.
    + apply Z.pow_pos_nonneg; lia.
    + now rewrite Z.log2_pow2.
Qed.

Lemma bit_ceil_pow2 k : 0 <= k -> bit_ceil (2 ^ k) = 2 ^ k.
Proof. intros H. unfold bit_ceil. now rewrite Z.log2_up_pow2. Qed.

Lemma bit_ceil_ge x : 1 <= x -> x <= bit_ceil x.
Proof.
  intros H. unfold bit_ceil. destruct (Z.eq_dec x 1) as [->|Hne]; [reflexivity|].
  destruct (Z.log2_up_spec x); lia.
Qed.

Lemma bit_ceil_half x : 2 <= x ->
  exists k, 0 <= k /\ bit_ceil x / 2 = 2 ^ k /\ 2 ^ k < x <= 2 ^ (k + 1).
Proof.
  intros H. unfold bit_ceil. destruct (Z.log2_up_spec x ltac:(lia)) as [H1 H2].
  assert (Hp : 0 < Z.log2_up x) by (apply Z.log2_up_pos; lia).
  exists (Z.pred (Z.log2_up x)). split; [lia|].
  replace (Z.pred (Z.log2_up x) + 1) with (Z.log2_up x) by lia.
  split; [|lia].
  replace (Z.log2_up x) with (Z.succ (Z.pred (Z.log2_up x))) at 1 by lia.
  rewrite Z.pow_succ_r by lia. rewrite Z.mul_comm, Z.div_mul; lia.
Qed.

(** Testing one bit by [land] with a power of two. *)
Lemma land_pow2 x k : 0 <= k -> Z.land x (2 ^ k) = if Z.testbit x k then 2 ^ k else 0.
Proof.
  intros Hk. apply Z.bits_inj'. intros n Hn. rewrite Z.land_spec.
  rewrite Z.pow2_bits_eqb by lia. destruct (Z.eqb_spec k n) as [->|Hne].
  - destruct (Z.testbit x n) eqn:E; cbn.
    + now rewrite Z.pow2_bits_true by lia.
    + now rewrite Z.bits_0.
  - rewrite andb_false_r. destruct (Z.testbit x k).
    + rewrite Z.pow2_bits_eqb by lia. destruct (Z.eqb_spec k n); congruence.
    + now rewrite Z.bits_0.
Qed.

Lemma testbit_small x k : 0 <= k -> 0 <= x < 2 ^ (k + 1) -> Z.testbit x k = (2 ^ k <=? x).
Proof.
  intros Hk Hx. rewrite Z.pow_add_r in Hx by lia. change (2^1) with 2 in Hx.
  assert (0 < 2 ^ k) by (apply Z.pow_pos_nonneg; lia).
  rewrite Z.testbit_eqb by lia. destruct (Z.leb_spec (2^k) x).
  - replace (x / 2^k) with 1; [reflexivity|].
    apply Z.div_unique with (x - 2^k); lia.
  - rewrite Z.div_small by lia. reflexivity.
Qed.

Lemma pow2_pos k : 0 <= k -> 0 < 2 ^ k.
Proof. intros. apply Z.pow_pos_nonneg; lia. Qed.

Lemma pow2_lt_inv a b : 0 <= a -> 2 ^ a < 2 ^ b -> a < b.
Proof. intros Ha H. destruct (Z_lt_le_dec a b); [assumption|].
  exfalso. assert (2^b <= 2^a) by (apply Z.pow_le_mono_r; lia). lia. Qed.

Lemma pow2_divide a b : 0 <= a <= b -> (2 ^ a | 2 ^ b).
Proof. intros H. exists (2 ^ (b - a)). rewrite <- Z.pow_add_r by lia. f_equal. lia. Qed.

Lemma land_ldiff_split a b : a = Z.land a b + Z.ldiff a b.
Proof.
  rewrite Z.add_nocarry_lxor.
  - apply Z.bits_inj'. intros n Hn. rewrite Z.lxor_spec, Z.land_spec, Z.ldiff_spec by lia.
    destruct (Z.testbit a n), (Z.testbit b n); reflexivity.
  - apply Z.bits_inj'. intros n Hn. rewrite !Z.land_spec, Z.ldiff_spec, Z.bits_0 by lia.
    destruct (Z.testbit a n), (Z.testbit b n); reflexivity.
Qed.

Lemma land_le a b : 0 <= a -> Z.land a b <= a.
Proof.
  intros Ha. rewrite (land_ldiff_split a b) at 2.
  assert (0 <= Z.ldiff a b) by (apply Z.ldiff_nonneg; lia). lia.
Qed.

Lemma nth_error_ext {A} (l l' : list A) : (forall n, nth_error l n = nth_error l' n) -> l = l'.
Proof.
  revert l'. induction l as [|x l IH]; intros [|y l'] H.
  - reflexivity.
  - specialize (H 0%nat). discriminate.
  - specialize (H 0%nat). discriminate.
  - f_equal; [specialize (H 0%nat); cbn in H; congruence|]. apply IH. intros n. apply (H (S n)).
Qed.

Lemma skipn_skipn' {A} n : forall m (l : list A), skipn n (skipn m l) = skipn (m + n) l.
Proof.
  intros m. induction m as [|m IH]; intros l; [reflexivity|].
  destruct l; [now rewrite !skipn_nil|]. apply IH.
Qed.
