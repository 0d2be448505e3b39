(** Proofs about simdize.h (C31, C32, C33, C42). *)
From Verif Require Import Base BaseFacts PermuteModel PermuteSpec PermuteProofs PermuteThm LaneModel LaneProofs
  WhereProofs ShapeProofs SimdizeModel SimdizeSpec.
From Coq Require Import ZifyBool ZifyNat.
Ltac Zify.zify_post_hook ::= idtac.

Lemma lanes_of_app {X} a b (f : Z -> X) : 0 <= a -> 0 <= b ->
  map f (lanes_of a) ++ map (fun i => f (a + i)) (lanes_of b) = map f (lanes_of (a + b)).
Proof.
  intros Ha Hb. unfold lanes_of. rewrite !map_map, Z2Nat.inj_add, seq_app, map_app by lia. f_equal.
  rewrite <- (Nat.add_0_r (0 + Z.to_nat a)). generalize (Z.to_nat b), 0%nat at 1 3. clear b Hb.
  intros b. induction b as [|b IH]; intros s; [reflexivity|]. cbn [seq map]. f_equal; [f_equal; lia|].
  rewrite IH. f_equal. f_equal. lia.
Qed.

(** ** Vectors as functions of the lane *)
Section Vec.
  Context {W : Type}.
  Implicit Types (f g : Z -> PermuteModel.lane W) (m : mem W).

  Definition vecf n f : list (PermuteModel.lane W) := map f (lanes_of n).

  Lemma vecf_length n f : 0 <= n -> Z.of_nat (length (vecf n f)) = n.
  Proof. intros H. unfold vecf. rewrite map_length, lanes_of_length. lia. Qed.

  Lemma vecf_nth n f i : 0 <= i < n -> nth_error (vecf n f) (Z.to_nat i) = Some (f i).
  Proof. intros H. unfold vecf. apply map_nth_error. now apply lanes_of_nth. Qed.

  Lemma vecf_ext n f g : (forall i, 0 <= i < n -> f i = g i) -> vecf n f = vecf n g.
  Proof. intros H. apply map_ext_in. intros i Hi. apply H. now apply lanes_of_in. Qed.

  (** The lane an index of a shuffle selects. *)
  Definition pick n f g (j : Z) : PermuteModel.lane W :=
    if j =? -1 then Any else if j <? n then f j else g (j - n).

  Lemma shuffle_lane_vecf n f g j : 0 <= n -> -1 <= j < 2 * n ->
    bindR (shuffle_lane (vecf n f) (vecf n g) j) (fun l => Ok (join l)) = Ok (pick n f g j).
  Proof.
    intros Hn Hj. unfold shuffle_lane, pick. destruct (Z.eqb_spec j (-1)) as [->|]; [reflexivity|].
    pose proof (vecf_length n f Hn). pose proof (vecf_length n g Hn).
    replace ((0 <=? j) && _) with true by lia. destruct (Z.ltb_spec j n).
    - rewrite nth_error_app1 by lia. now rewrite vecf_nth by lia.
    - rewrite nth_error_app2 by lia. replace (Z.to_nat j - length (vecf n f))%nat with (Z.to_nat (j - n)) by lia.
      now rewrite vecf_nth by lia.
  Qed.

  Lemma shuffle_vecf n f g (ix : Z -> Z) k : 0 <= n -> (forall i, 0 <= i < k -> -1 <= ix i < 2 * n) ->
    shuffle (vecf n f) (vecf n g) (map ix (lanes_of k)) = Ok (vecf k (fun i => pick n f g (ix i))).
  Proof.
    intros Hn H. unfold shuffle. rewrite mapR_map. unfold vecf at 3. apply mapR_ok. intros i Hi.
    apply shuffle_lane_vecf; [assumption|]. apply H. now apply lanes_of_in.
  Qed.

  (** Memory that holds [w 0], [w 1], ..., [w (n - 1)] at [p]. *)
  Definition holds m p n (w : Z -> W) := forall q, 0 <= q < n -> m (p + q) = Some (w q).

  Lemma memcpy_in_vecf m p n w o k : holds m p n w -> 0 <= o -> 0 <= k -> o + k <= n ->
    memcpy_in m (p + o) k = Ok (vecf k (fun i => Val (w (o + i)))).
  Proof.
    intros H Ho Hk Hb. unfold memcpy_in.
    assert (L : load m (p + o) (Z.to_nat k) = Some (map (fun i => w (o + i)) (lanes_of k))).
    { rewrite <- (lanes_of_length k), <- (map_length (fun i => w (o + i))). apply load_intro. intros i Hi.
      rewrite map_length, lanes_of_length in Hi. rewrite <- (Nat2Z.id i) at 2.
      rewrite (map_nth_error (fun i => w (o + i)) _ _ (lanes_of_nth k (Z.of_nat i) ltac:(lia))).
      rewrite <- Z.add_assoc. apply H. lia. }
    rewrite L. cbn [of_option bindR]. unfold vecf. now rewrite map_map.
  Qed.

  Lemma memcpy_in_vecf0 m p n w k : holds m p n w -> 0 <= k <= n ->
    memcpy_in m p k = Ok (vecf k (fun i => Val (w i))).
  Proof.
    intros H Hk. rewrite <- (Z.add_0_r p) at 1. rewrite (memcpy_in_vecf m p n w 0 k H) by lia. reflexivity.
  Qed.

  (** ** The specification of a load: lane i of member j is member j of struct i. *)
  Definition loaded (w : Z -> W) (k n : Z) : list (list (PermuteModel.lane W)) :=
    map (fun j => vecf n (fun i => Val (w (k * i + j)))) (lanes_of k).

  Lemma loaded_2 w n : loaded w 2 n = [vecf n (fun i => Val (w (2 * i + 0))); vecf n (fun i => Val (w (2 * i + 1)))].
  Proof. reflexivity. Qed.
  Lemma loaded_3 w n : loaded w 3 n = [vecf n (fun i => Val (w (3 * i + 0))); vecf n (fun i => Val (w (3 * i + 1)));
    vecf n (fun i => Val (w (3 * i + 2)))].
  Proof. reflexivity. Qed.

  Lemma load_fallback_ok m p k n w : 0 <= k -> 0 <= n -> holds m p (k * n) w -> load_fallback m p k n = Ok (loaded w k n).
  Proof.
    intros Hk Hn H. unfold load_fallback, loaded. apply mapR_ok. intros j Hj. apply lanes_of_in in Hj.
    unfold vecf. apply mapR_ok. intros i Hi. apply lanes_of_in in Hi.
    rewrite <- Z.add_assoc, H by nia. reflexivity.
  Qed.

  Lemma load2_ok m p n w : 0 <= n -> n mod 2 = 0 -> holds m p (2 * n) w -> load2 m p n = Ok (loaded w 2 n).
  Proof.
    intros Hn He H. unfold load2. set (n2 := n / 2). assert (E : n = 2 * n2) by (pose proof (Z.div_mod n 2); lia).
    rewrite (memcpy_in_vecf0 m p (2 * n) w n H) by lia. cbn [bindR].
    rewrite (memcpy_in_vecf m p (2 * n) w (2 * n2) n H) by lia. cbn [bindR].
    assert (A : forall c, 0 <= c <= 1 ->
      shuffle (vecf n (fun i => Val (w i))) (vecf n (fun i => Val (w (2 * n2 + i))))
        (map (fun i => c + i * 2) (lanes_of n2) ++ map (fun i => c + n + i * 2) (lanes_of n2))
      = Ok (vecf n (fun i => Val (w (2 * i + c))))).
    { intros c Hc. replace (map (fun i => c + i * 2) (lanes_of n2) ++ map (fun i => c + n + i * 2) (lanes_of n2))
        with (map (fun i => c + i * 2) (lanes_of n)).
      - rewrite shuffle_vecf by lia. f_equal. apply vecf_ext. intros i Hi. unfold pick.
        replace (c + i * 2 =? -1) with false by lia. destruct (Z.ltb_spec (c + i * 2) n); do 2 f_equal; lia.
      - rewrite (map_ext (fun i => c + n + i * 2) (fun i => c + (n2 + i) * 2)) by (intros; lia).
        rewrite (lanes_of_app n2 n2 (fun i => c + i * 2)) by lia. do 2 f_equal. lia. }
    rewrite (map_ext (fun i => i * 2) (fun i => 0 + i * 2)), (map_ext (fun i => n + i * 2) (fun i => 0 + n + i * 2))
      by (intros; lia).
    rewrite (A 0), (A 1) by lia. cbn [bindR]. now rewrite loaded_2.
  Qed.

  Lemma mod3 x : 0 <= x mod 3 < 3 /\ x = 3 * (x / 3) + x mod 3.
  Proof. split; [apply Z.mod_pos_bound; lia|apply Z.div_mod; lia]. Qed.

  Lemma load3_member_ok n w j : 0 <= n -> n mod 3 <> 0 -> 0 <= j <= 2 ->
    load3_member (vecf n (fun i => Val (w i))) (vecf n (fun i => Val (w (n + i)))) (vecf n (fun i => Val (w (2 * n + i)))) n j
    = Ok (vecf n (fun i => Val (w (3 * i + j)))).
  Proof.
    intros Hn H3 Hj. unfold load3_member. rewrite shuffle_vecf; [cbn [bindR]|lia|].
    - rewrite shuffle_vecf; [|lia|].
      + f_equal. apply vecf_ext. intros i Hi. unfold pick. pose proof (mod3 n) as [N1 N2].
        destruct (Z.ltb_spec (i * 3 + j) n) as [L|L].
        * replace (i * 3 + j =? -1) with false by lia. replace (i * 3 + j <? n) with true by lia.
          assert (M : (i * 3 + j) mod 3 = j) by (rewrite Z.add_comm, Z.mod_add by lia; apply Z.mod_small; lia).
          rewrite M, Z.eqb_refl. replace (i * 3 + j =? -1) with false by lia. replace (i * 3 + j <? n) with true by lia.
          do 2 f_equal. lia.
        * set (q := i * 3 - n + j). replace (q =? -1) with false by lia. destruct (Z.ltb_spec q n) as [L'|L'].
          -- assert (M : (q + n) mod 3 = j).
             { replace (q + n) with (j + i * 3) by (unfold q; lia). rewrite Z.mod_add by lia. apply Z.mod_small; lia. }
             assert (M' : q mod 3 <> j).
             { intros E. pose proof (mod3 q) as [Q1 Q2]. pose proof (mod3 (q + n)) as [R1 R2]. lia. }
             rewrite M, Z.eqb_refl. replace (q mod 3 =? j) with false by lia.
             replace (q + n =? -1) with false by lia. replace (q + n <? n) with false by lia.
             do 2 f_equal. unfold q. lia.
          -- do 2 f_equal. unfold q. lia.
      + intros i Hi. destruct (Z.ltb_spec (i * 3 + j) n); lia.
    - intros i Hi. destruct (i mod 3 =? j); [lia|]. destruct ((i + n) mod 3 =? j); lia.
  Qed.

  Lemma load3_ok m p n w : 0 <= n -> n mod 3 <> 0 -> holds m p (3 * n) w -> load3 m p n = Ok (loaded w 3 n).
  Proof.
    intros Hn H3 H. unfold load3. rewrite (memcpy_in_vecf0 m p (3 * n) w n H) by lia. cbn [bindR].
    rewrite (memcpy_in_vecf m p (3 * n) w n n H) by lia. cbn [bindR].
    rewrite (memcpy_in_vecf m p (3 * n) w (2 * n) n H) by lia. cbn [bindR].
    rewrite !load3_member_ok by lia. cbn [bindR]. now rewrite loaded_3.
  Qed.

  Lemma load3_4_ok m p w : holds m p 12 w -> load3_4 m p = Ok (loaded w 3 4).
  Proof.
    intros H. unfold load3_4. rewrite (memcpy_in_vecf0 m p 12 w 4 H) by lia. cbn [bindR].
    rewrite (memcpy_in_vecf m p 12 w 4 4 H) by lia. cbn [bindR].
    rewrite (memcpy_in_vecf m p 12 w 8 4 H) by lia. cbn [bindR].
    vm_compute. reflexivity.
  Qed.

  Lemma permute_rotate zero e f r : 0 <= r <= 8 -> permute zero e (rotate r) (vecf 8 f) = Ok (vecf 8 (fun i => f ((i + r) mod 8))).
  Proof.
    intros Hr. unfold permute. pose proof (vecf_length 8 f ltac:(lia)) as L.
    destruct (rotate_lanes (Val zero) e (vecf 8 f) r) as (v & -> & Hl & Hv).
    - unfold size_ok. lia.
    - unfold rotation_supported, is_avx2_case. rewrite L. repeat split; try lia.
    - cbn [bindR]. f_equal. rewrite L in Hl, Hv. apply nth_error_ext. intros i.
      destruct (Z.lt_ge_cases (Z.of_nat i) 8) as [B|B].
      + rewrite <- (Nat2Z.id i). rewrite vecf_nth by lia.
        rewrite (map_nth_error join _ _ (Hv (Z.of_nat i) ltac:(lia))). cbn [join]. f_equal. unfold at_lane.
        apply nth_error_nth. apply vecf_nth. apply Z.mod_pos_bound. lia.
      + rewrite !(proj2 (nth_error_None _ _)); [reflexivity| |].
        * pose proof (vecf_length 8 (fun i => f ((i + r) mod 8)) ltac:(lia)). lia.
        * rewrite map_length. lia.
  Qed.

  (** The order in which the 8-lane load of three floats delivers the structs. *)
  Definition unordered (i : Z) : Z := nth (Z.to_nat i) [0; 3; 6; 1; 4; 7; 2; 5] 0.

  Lemma load3_8_lanes zero e m p w : holds m p 24 w ->
    load3_8 zero e m p = Ok (map (fun j => vecf 8 (fun i => Val (w (3 * unordered i + j)))) [0; 1; 2]).
  Proof.
    intros H. unfold load3_8. rewrite (memcpy_in_vecf0 m p 24 w 8 H) by lia. cbn [bindR].
    rewrite (memcpy_in_vecf m p 24 w 8 8 H) by lia. cbn [bindR].
    rewrite (memcpy_in_vecf m p 24 w 16 8 H) by lia. cbn [bindR].
    assert (B : forall ix f g, (length ix <= 8)%nat -> (forall i, In i ix -> i <= 8) ->
      blend ix (vecf 8 f) (vecf 8 g) = Ok (vecf 8 (fun i => if existsb (Z.eqb i) ix then g i else f i))).
    { intros ix f g Hl Hi. unfold blend. rewrite vecf_length by lia.
      replace ((Z.of_nat (length ix) <=? 8) && forallb (fun i => i <=? 8) ix) with true.
      - rewrite shuffle_vecf; [|lia|].
        + f_equal. apply vecf_ext. intros i Hi'. unfold pick. destruct (existsb (Z.eqb i) ix).
          * replace (i + 8 =? -1) with false by lia. replace (i + 8 <? 8) with false by lia. f_equal. lia.
          * replace (i =? -1) with false by lia. replace (i <? 8) with true by lia. reflexivity.
        + intros i Hi'. destruct (existsb (Z.eqb i) ix); lia.
      - symmetry. apply andb_true_iff. split; [lia|]. apply forallb_forall. intros i Hi'. specialize (Hi i Hi'). lia. }
    repeat (rewrite B by first [cbn; lia | cbn; intros i Hi; lia]; cbn [bindR]).
    rewrite !permute_rotate by lia. cbn [bindR]. vm_compute. reflexivity.
  Qed.

  (** ** Dispatch *)

  Lemma single_bit_mod n : 2 < n -> has_single_bit n = true -> n mod 2 = 0 /\ n mod 3 <> 0.
  Proof.
    intros Hn H. apply has_single_bit_spec in H. destruct H as (k & Hk & ->).
    assert (k <> 0) by (intros ->; cbn in Hn; lia). split.
    - replace k with (Z.succ (k - 1)) by lia. rewrite Z.pow_succ_r by lia. rewrite Z.mul_comm. apply Z.mod_mul. lia.
    - clear Hn. assert (A : forall j : nat, 2 ^ Z.of_nat j mod 3 = 1 \/ 2 ^ Z.of_nat j mod 3 = 2).
      { induction j as [|j IH]; [now left|]. rewrite Nat2Z.inj_succ, Z.pow_succ_r by lia.
        rewrite Z.mul_mod by lia. destruct IH as [-> | ->]; [now right|now left]. }
      specialize (A (Z.to_nat k)). rewrite Z2Nat.id in A by lia. lia.
  Qed.

  (** The one path that does not keep the order. *)
  Theorem load_elements_ok zero s m p k n w : 1 <= k -> 1 <= n -> holds m p (k * n) w -> ~ unordered_path s k n ->
    load_elements zero s m p k n = Ok (loaded w k n).
  Proof.
    intros Hk Hn H U. unfold load_elements.
    assert (F : load_fallback m p k n = Ok (loaded w k n)) by (apply load_fallback_ok; [lia|lia|assumption]).
    destruct (s_shuffle s) eqn:E1; [|exact F]. destruct (s_ce s) eqn:E2; [exact F|].
    destruct (1 <? n) eqn:E3; [|exact F]. destruct (s_unpadded s) eqn:E4; [|exact F].
    destruct (2 <=? k) eqn:E5; [|exact F]. destruct (has_single_bit n) eqn:E6; [|exact F]. cbn [andb negb].
    assert (T : (if (k =? 3) && (2 <? n) && s_same_size s && (n <=? s_native s) then load3 m p n
                 else load_fallback m p k n) = Ok (loaded w k n)).
    { destruct (Z.eqb_spec k 3) as [->|]; [|exact F]. destruct (Z.ltb_spec 2 n) as [N2|]; [|exact F].
      destruct (s_same_size s && (n <=? s_native s)) eqn:E7.
      - rewrite <- andb_assoc, E7. cbn [andb]. apply load3_ok; [lia|now apply single_bit_mod|assumption].
      - rewrite <- andb_assoc, E7. exact F. }
    cbv zeta. destruct ((k =? 2) && (2 <? n)) eqn:E8.
    - destruct (s_same_size s && (n <=? s_native s)) eqn:E9; [|exact T].
      assert (k = 2) as -> by lia. apply load2_ok; [lia|apply single_bit_mod; [lia|assumption]|assumption].
    - destruct (s_floats s && (k =? 3)) eqn:E9; [|exact T]. apply andb_true_iff in E9. destruct E9 as [E9 K].
      assert (k = 3) as -> by lia. destruct (s_tuple3 s) eqn:E10; cbn [andb]; [|exact T].
      destruct (Z.eqb_spec n 8) as [->|]; [exfalso; apply U; repeat split; assumption|].
      destruct (Z.eqb_spec n 4) as [->|]; [now apply load3_4_ok|exact T].
  Qed.

  Theorem load_elements_unordered zero s m p k n w : unordered_path s k n -> holds m p (k * n) w ->
    load_elements zero s m p k n = Ok (map (fun j => vecf 8 (fun i => Val (w (3 * unordered i + j)))) [0; 1; 2]).
  Proof.
    intros (E1 & E2 & E4 & E9 & E10 & -> & ->) H. unfold load_elements. rewrite E1, E2, E4, E9, E10.
    change (load3_8 zero (s_perm s) m p = Ok (map (fun j => vecf 8 (fun i => Val (w (3 * unordered i + j)))) [0; 1; 2])).
    now apply load3_8_lanes.
  Qed.

  (** ** Stores *)

  Lemma element_ok (vs : list (list W)) k n i : shaped vs k n -> 0 <= i < n ->
    exists x, element vs i = Ok x /\ Z.of_nat (length x) = k
      /\ forall j v, nth_error vs j = Some v -> nth_error x j = nth_error v (Z.to_nat i).
  Proof.
    intros [Hk Hv] Hi. unfold element. revert k Hk. induction vs as [|v vs IH]; intros k Hk.
    - exists []. cbn in Hk |- *. repeat split; [lia|]. now intros [|j] v E.
    - destruct (IH (fun u Hu => Hv u (or_intror Hu)) (k - 1)) as (x & Ex & Lx & Nx).
      { cbn [length] in Hk. lia. }
      pose proof (Hv v (or_introl eq_refl)) as Lv.
      destruct (nth_error v (Z.to_nat i)) as [y|] eqn:Ey; [|apply nth_error_None in Ey; lia].
      exists (y :: x). cbn [mapR]. unfold subscript at 1, lane. replace ((0 <=? i) && _) with true by lia.
      rewrite Ey. cbn [of_option bindR]. rewrite Ex. cbn [bindR length]. repeat split; [lia|].
      intros [|j] u Hu; cbn [nth_error] in Hu |- *; [injection Hu as <-; now rewrite Ey|now apply Nx].
  Qed.

  Lemma store_loop_ok (vs : list (list W)) p k n : shaped vs k n -> 0 <= k -> forall n' i m, 0 <= i -> i + Z.of_nat n' = n ->
    defined_at m (p + k * i) (k * Z.of_nat n') ->
    exists m', store_loop vs p k i n' m = Ok m'
      /\ (forall i' j v, i <= i' < n -> 0 <= j < k -> nth_error vs (Z.to_nat j) = Some v ->
            m' (p + k * i' + j) = nth_error v (Z.to_nat i'))
      /\ (forall a, a < p + k * i \/ p + k * n <= a -> m' a = m a).
  Proof.
    intros Hs Hk. induction n' as [|n' IH]; intros i m Hi Hn Hd.
    - exists m. cbn [store_loop]. repeat split. intros; lia.
    - destruct (element_ok vs k n i Hs ltac:(lia)) as (x & Ex & Lx & Nx). cbn [store_loop]. rewrite Ex. cbn [bindR].
      destruct (store_ok m (p + k * i) x) as (m1 & E1).
      { intros a Ha. replace a with (p + k * i + (a - (p + k * i))) by lia. apply Hd. nia. }
      rewrite E1. cbn [of_option bindR].
      destruct (IH (i + 1) m1) as (m' & Em & Hin & Hout).
      + lia.
      + lia.
      + intros q Hq. rewrite (store_defined _ _ _ _ E1). replace (p + k * (i + 1) + q) with (p + k * i + (k + q)) by lia.
        apply Hd. nia.
      + exists m'. split; [assumption|]. split.
        * intros i' j v Hi' Hj Hv. destruct (Z.eq_dec i' i) as [->|]; [|apply Hin; [lia|lia|assumption]].
          rewrite Hout by nia. rewrite (store_inside _ _ _ _ E1) by lia.
          replace (p + k * i + j - (p + k * i)) with j by lia. now apply Nx.
        * intros a Ha. rewrite Hout by nia. apply (store_outside _ _ _ _ E1). nia.
  Qed.

  Lemma memcpy_out_vecf m p n (g : Z -> W) : 0 <= n -> defined_at m p n ->
    exists m', memcpy_out m p (vecf n (fun i => Val (g i))) = Ok m'
      /\ (forall q, 0 <= q < n -> m' (p + q) = Some (g q)) /\ (forall a, a < p \/ p + n <= a -> m' a = m a).
  Proof.
    intros Hn Hd. unfold memcpy_out, vecf. rewrite mapR_map.
    rewrite (mapR_ok _ g) by reflexivity. cbn [bindR].
    assert (L : Z.of_nat (length (map g (lanes_of n))) = n) by (rewrite map_length, lanes_of_length; lia).
    destruct (store_ok m p (map g (lanes_of n))) as (m' & E).
    { intros a Ha. replace a with (p + (a - p)) by lia. apply Hd. lia. }
    exists m'. rewrite E. split; [reflexivity|]. split.
    - intros q Hq. rewrite (store_inside _ _ _ _ E) by lia. replace (p + q - p) with q by lia.
      apply map_nth_error. now apply lanes_of_nth.
    - intros a Ha. apply (store_outside _ _ _ _ E). lia.
  Qed.

  (** Word q of the array that [a], [b], [c] become. *)
  Definition word3 (a b c : Z -> W) (q : Z) : W :=
    if q mod 3 =? 0 then a (q / 3) else if q mod 3 =? 1 then b (q / 3) else c (q / 3).

  Lemma word3_at a b c q i j : q = 3 * i + j -> 0 <= j < 3 ->
    word3 a b c q = if j =? 0 then a i else if j =? 1 then b i else c i.
  Proof.
    intros -> Hj. unfold word3. replace (3 * i + j) with (j + i * 3) by lia.
    rewrite Z.mod_add, Z.div_add, Z.mod_small, Z.div_small by lia. reflexivity.
  Qed.

  Lemma pick_lo n f g j : 0 <= j < n -> pick n f g j = f j.
  Proof. intros. unfold pick. replace (j =? -1) with false by lia. now replace (j <? n) with true by lia. Qed.
  Lemma pick_hi n f g j k : n <= j -> 0 <= n -> k = j - n -> pick n f g j = g k.
  Proof. intros ? ? ->. unfold pick. replace (j =? -1) with false by lia. now replace (j <? n) with false by lia. Qed.

  Lemma sel3_vecf n f g : 0 <= n ->
    shuffle (vecf n f) (vecf n g) (sel3 n) = Ok (vecf n (fun i => if i mod 3 =? 2 then g i else f i)).
  Proof.
    intros Hn. unfold sel3. rewrite shuffle_vecf by (try lia; intros i Hi; destruct (negb _); lia). f_equal. apply vecf_ext.
    intros i Hi. destruct (i mod 3 =? 2); cbn [negb]; [apply pick_hi|apply pick_lo]; lia.
  Qed.

  Lemma idx3_vecf n x y pos ia ib ic : 0 <= n ->
    (forall i, 0 <= i < n -> -1 <= idx3 n i pos ia ib ic < 2 * n) ->
    shuffle (vecf n x) (vecf n y) (map (fun i => idx3 n i pos ia ib ic) (lanes_of n))
      = Ok (vecf n (fun i => pick n x y (idx3 n i pos ia ib ic))).
  Proof. intros Hn H1. now apply shuffle_vecf. Qed.

  Ltac cases3 :=
    repeat match goal with
      | |- context [?x =? ?y] => destruct (Z.eqb_spec x y); try (exfalso; lia)
      | |- context [?x <? ?y] => destruct (Z.ltb_spec x y); try (exfalso; lia)
      end; cbn [negb].
  Lemma store3_arranged a b c m p n : 2 < n -> n mod 3 <> 0 -> defined_at m p (3 * n) ->
    exists m', store3 (vecf n (fun i => Val (a i))) (vecf n (fun i => Val (b i))) (vecf n (fun i => Val (c i))) m p n = Ok m'
      /\ (forall q, 0 <= q < 3 * n -> m' (p + q) = Some (word3 a b c q)) /\ (forall x, x < p \/ p + 3 * n <= x -> m' x = m x).
  Proof.
    intros Hn H3 Hd. pose proof (mod3 n) as [N1 N2].
    (* the three writes *)
    assert (Wr : exists m', bindR (memcpy_out m p (vecf n (fun i => Val (word3 a b c (0 * n + i))))) (fun m1 =>
        bindR (memcpy_out m1 (p + n) (vecf n (fun i => Val (word3 a b c (1 * n + i))))) (fun m2 =>
        memcpy_out m2 (p + 2 * n) (vecf n (fun i => Val (word3 a b c (2 * n + i)))))) = Ok m'
      /\ (forall q, 0 <= q < 3 * n -> m' (p + q) = Some (word3 a b c q)) /\ (forall x, x < p \/ p + 3 * n <= x -> m' x = m x)).
    { destruct (memcpy_out_vecf m p n (fun i => word3 a b c (0 * n + i)) ltac:(lia)) as (m1 & -> & I1 & O1).
      { intros q Hq. apply Hd. lia. }
      cbn [bindR]. destruct (memcpy_out_vecf m1 (p + n) n (fun i => word3 a b c (1 * n + i)) ltac:(lia)) as (m2 & -> & I2 & O2).
      { intros q Hq. rewrite O1 by lia. rewrite <- Z.add_assoc. apply Hd. lia. }
      cbn [bindR]. destruct (memcpy_out_vecf m2 (p + 2 * n) n (fun i => word3 a b c (2 * n + i)) ltac:(lia)) as (m3 & -> & I3 & O3).
      { intros q Hq. rewrite O2, O1 by lia. rewrite <- Z.add_assoc. apply Hd. lia. }
      exists m3. split; [reflexivity|]. split.
      - intros q Hq. destruct (Z.lt_ge_cases q n) as [A|A]; [rewrite O3, O2, I1 by lia; do 2 f_equal; lia|].
        destruct (Z.lt_ge_cases q (2 * n)) as [B|B].
        + rewrite O3 by lia. replace (p + q) with (p + n + (q - n)) by lia. rewrite I2 by lia. do 2 f_equal. lia.
        + replace (p + q) with (p + 2 * n + (q - 2 * n)) by lia. rewrite I3 by lia. do 2 f_equal. lia.
      - intros x Hx. rewrite O3, O2, O1 by lia. reflexivity. }
    assert (E : forall x y pos1 pos2 ia ib ic ia' ib' ic' z w t,
      (forall i, 0 <= i < n -> (if i mod 3 =? 2 then pick n z w (idx3 n i pos2 ia' ib' ic') else pick n x y (idx3 n i pos1 ia ib ic))
         = Val (word3 a b c (t * n + i))) ->
      vecf n (fun i => if i mod 3 =? 2 then pick n z w (idx3 n i pos2 ia' ib' ic') else pick n x y (idx3 n i pos1 ia ib ic))
        = vecf n (fun i => Val (word3 a b c (t * n + i)))) by (intros; now apply vecf_ext).
    unfold store3. destruct (Z.eqb_spec (n mod 3) 1) as [R|R].
    - rewrite !idx3_vecf by (try lia; intros i Hi; unfold idx3; pose proof (mod3 i); rewrite R; change ((0 + 1) mod 3) with 1; change ((1 + 1) mod 3) with 2; change ((2 + 1) mod 3) with 0; cases3; lia).
      cbn [bindR]. rewrite !sel3_vecf by lia. cbn [bindR].
      rewrite (E _ _ _ _ _ _ _ _ _ _ _ _ 0), (E _ _ _ _ _ _ _ _ _ _ _ _ 1), (E _ _ _ _ _ _ _ _ _ _ _ _ 2); [exact Wr| | |];
        intros i Hi; unfold pick, idx3, word3; rewrite R; change ((0 + 1) mod 3) with 1; change ((1 + 1) mod 3) with 2; change ((2 + 1) mod 3) with 0; pose proof (mod3 i);
        (match goal with |- context [Val (if ?q mod 3 =? 0 then _ else _)] => pose proof (mod3 q) end);
        destruct (Z.eqb_spec (i mod 3) 0), (Z.eqb_spec (i mod 3) 1), (Z.eqb_spec (i mod 3) 2); try (exfalso; lia);
        cases3; f_equal; f_equal; lia.
    - assert (R2 : n mod 3 = 2) by lia. clear R. rename R2 into R. replace (n mod 3 =? 2) with true by lia.
      rewrite !idx3_vecf by (try lia; intros i Hi; unfold idx3; pose proof (mod3 i); rewrite R; change ((0 + 2) mod 3) with 2; change ((1 + 2) mod 3) with 0; change ((2 + 2) mod 3) with 1; cases3; lia).
      cbn [bindR]. rewrite !sel3_vecf by lia. cbn [bindR].
      rewrite (E _ _ _ _ _ _ _ _ _ _ _ _ 0), (E _ _ _ _ _ _ _ _ _ _ _ _ 1), (E _ _ _ _ _ _ _ _ _ _ _ _ 2); [exact Wr| | |];
        intros i Hi; unfold pick, idx3, word3; rewrite R; change ((0 + 2) mod 3) with 2; change ((1 + 2) mod 3) with 0; change ((2 + 2) mod 3) with 1; pose proof (mod3 i);
        (match goal with |- context [Val (if ?q mod 3 =? 0 then _ else _)] => pose proof (mod3 q) end);
        destruct (Z.eqb_spec (i mod 3) 0), (Z.eqb_spec (i mod 3) 1), (Z.eqb_spec (i mod 3) 2); try (exfalso; lia);
        cases3; f_equal; f_equal; lia.
  Qed.

  Lemma map_Val_vecf (v : list W) n (d : W) : Z.of_nat (length v) = n ->
    map Val v = vecf n (fun i => Val (nth (Z.to_nat i) v d)).
  Proof.
    intros <-. unfold vecf, lanes_of. rewrite Nat2Z.id, map_map.
    rewrite (map_ext _ (fun i => Val (nth i v d))) by (intros; now rewrite Nat2Z.id).
    rewrite <- (map_map (fun i => nth i v d) Val). f_equal.
    induction v as [|x v IH]; [reflexivity|]. cbn [length seq map nth]. f_equal. now rewrite <- seq_shift, map_map.
  Qed.

  Lemma store_loop_stored (vs : list (list W)) m p k n : shaped vs k n -> 0 <= k -> 0 <= n -> defined_at m p (k * n) ->
    exists m', store_loop vs p k 0 (Z.to_nat n) m = Ok m' /\ stored m m' p k n vs.
  Proof.
    intros Hs Hk Hn Hd. destruct (store_loop_ok vs p k n Hs Hk (Z.to_nat n) 0 m) as (m' & E & I & O); [lia|lia| |].
    - rewrite Z.mul_0_r, Z.add_0_r, Z2Nat.id by lia. exact Hd.
    - exists m'. rewrite Z.mul_0_r, Z.add_0_r in O. repeat split; assumption.
  Qed.

  Theorem store_elements_ok s vs m p k n : shaped vs k n -> 1 <= k -> 1 <= n -> defined_at m p (k * n) ->
    exists m', store_elements s vs m p k n = Ok m' /\ stored m m' p k n vs.
  Proof.
    intros Hs Hk Hn Hd. unfold store_elements.
    destruct (s_shuffle s && _ && _ && _ && _ && _ && _ && _ && _) eqn:E; [|apply store_loop_stored; (assumption || lia)].
    repeat (apply andb_true_iff in E; destruct E as [E ?]). assert (k = 3) as -> by lia.
    assert (M : n mod 3 <> 0) by (apply single_bit_mod; [lia|assumption]).
    destruct Hs as [Hk3 Hv]. destruct vs as [|a [|b [|c [|? ?]]]]; cbn [length] in Hk3; try lia.
    pose proof (Hv a ltac:(cbn; auto)) as La. pose proof (Hv b ltac:(cbn; auto)) as Lb. pose proof (Hv c ltac:(cbn; auto)) as Lc.
    destruct a as [|d a0] eqn:Ea; [cbn in La; lia|]. rewrite <- Ea in *. clear Ea a0.
    rewrite (map_Val_vecf a n d La), (map_Val_vecf b n d Lb), (map_Val_vecf c n d Lc).
    destruct (store3_arranged (fun i => nth (Z.to_nat i) a d) (fun i => nth (Z.to_nat i) b d)
      (fun i => nth (Z.to_nat i) c d) m p n ltac:(lia) M Hd) as (m' & -> & I & O).
    exists m'. split; [reflexivity|]. split; [|exact O].
    intros i j v Hi Hj Ev. rewrite <- Z.add_assoc, I, (word3_at _ _ _ _ i j) by lia.
    assert (j = 0 \/ j = 1 \/ j = 2) as [-> | [-> | ->]] by lia; cbn [Z.eqb]; cbv in Ev; injection Ev as <-;
      symmetry; apply nth_error_nth'; lia.
  Qed.

  Theorem tuple_store_ok vs m p k n : shaped vs k n -> 1 <= k -> 1 <= n -> defined_at m p (k * n) ->
    exists m', tuple_store vs p k 0 (Z.to_nat n) m = Ok m' /\ stored m m' p k n vs.
  Proof. intros. apply store_loop_stored; (assumption || lia). Qed.

  (** ** Loads as lists *)
  Definition columns (w : Z -> W) k n : list (list W) := map (fun j => map (fun i => w (k * i + j)) (lanes_of n)) (lanes_of k).

  Lemma columns_loaded w k n : loaded w k n = map (map Val) (columns w k n).
  Proof. unfold loaded, columns, vecf. rewrite map_map. apply map_ext. intros j. now rewrite map_map. Qed.

  Lemma columns_shaped w k n : 0 <= k -> 0 <= n -> shaped (columns w k n) k n.
  Proof.
    intros Hk Hn. unfold columns. split.
    - rewrite map_length, lanes_of_length. lia.
    - intros v Hv. apply in_map_iff in Hv. destruct Hv as (j & <- & _). rewrite map_length, lanes_of_length. lia.
  Qed.

  Lemma columns_nth w k n j : 0 <= j < k -> nth_error (columns w k n) (Z.to_nat j) = Some (map (fun i => w (k * i + j)) (lanes_of n)).
  Proof. intros Hj. unfold columns. now apply (map_nth_error (fun j => map (fun i => w (k * i + j)) (lanes_of n))), lanes_of_nth. Qed.

  Lemma columns_from m p k n w : 0 <= k -> 0 <= n -> holds m p (k * n) w -> lanes_from m p k n (columns w k n).
  Proof.
    intros Hk Hn H i j v Hi Hj Ev. rewrite columns_nth in Ev by lia. injection Ev as <-.
    rewrite <- Z.add_assoc, H by nia. apply (map_nth_error (fun i => w (k * i + j))). now apply lanes_of_nth.
  Qed.

  Definition word_at (m : mem W) p (zero : W) q := match m (p + q) with Some x => x | None => zero end.
  Lemma word_at_holds m p n zero : defined_at m p n -> holds m p n (word_at m p zero).
  Proof. intros H q Hq. unfold word_at. specialize (H q Hq). now destruct (m (p + q)). Qed.

  Theorem load_elements_lanes zero s m p k n : 1 <= k -> 1 <= n -> defined_at m p (k * n) -> ~ unordered_path s k n ->
    exists vs, load_elements zero s m p k n = Ok (map (map Val) vs) /\ shaped vs k n /\ lanes_from m p k n vs.
  Proof.
    intros Hk Hn Hd U. pose proof (word_at_holds m p (k * n) zero Hd) as H.
    exists (columns (word_at m p zero) k n). rewrite <- columns_loaded. split; [now apply load_elements_ok|].
    split; [apply columns_shaped; lia|apply columns_from; (lia || assumption)].
  Qed.

  Theorem tuple_load_lanes (zero : W) m p k n : 1 <= k -> 1 <= n -> defined_at m p (k * n) ->
    exists vs, tuple_load m p k n = Ok vs /\ shaped vs k n /\ lanes_from m p k n vs.
  Proof.
    intros Hk Hn Hd. pose proof (word_at_holds m p (k * n) zero Hd) as H.
    exists (columns (word_at m p zero) k n). split; [|split; [apply columns_shaped; lia|apply columns_from; (lia || assumption)]].
    unfold tuple_load, columns. apply mapR_ok. intros j Hj. apply lanes_of_in in Hj. apply mapR_ok. intros i Hi.
    apply lanes_of_in in Hi. rewrite <- Z.add_assoc, H by nia. reflexivity.
  Qed.

  (** v[i] is it[i] *)
  Theorem element_is_struct m p k n vs i : shaped vs k n -> lanes_from m p k n vs -> 0 <= k -> 0 <= i < n ->
    exists x, element vs i = Ok x /\ load m (p + k * i) (Z.to_nat k) = Some x.
  Proof.
    intros Hs Hl Hk Hi. destruct (element_ok vs k n i Hs Hi) as (x & E & Lx & Nx). exists x. split; [exact E|].
    replace (Z.to_nat k) with (length x) by lia. apply load_intro. intros j Hj.
    destruct (nth_error vs j) as [v|] eqn:Ev.
    - rewrite (Nx j v Ev). rewrite <- (Nat2Z.id j) in Ev. now rewrite (Hl i (Z.of_nat j) v Hi ltac:(lia) Ev).
    - apply nth_error_None in Ev. destruct Hs. lia.
  Qed.

  (** Storing what was loaded changes nothing. *)
  Theorem stored_back m m' p k n vs : 1 <= k -> 1 <= n -> shaped vs k n -> lanes_from m p k n vs -> stored m m' p k n vs ->
    forall a, m' a = m a.
  Proof.
    intros Hk Hn [Hs _] Hl [I O] a. destruct (Z.lt_ge_cases a p) as [|A]; [apply O; lia|].
    destruct (Z.lt_ge_cases a (p + k * n)) as [B|]; [|apply O; lia].
    set (i := (a - p) / k). set (j := (a - p) mod k).
    assert (D : a - p = k * i + j) by (apply Z.div_mod; lia).
    assert (Hj : 0 <= j < k) by (apply Z.mod_pos_bound; lia).
    assert (Hi : 0 <= i < n) by nia.
    destruct (nth_error vs (Z.to_nat j)) as [v|] eqn:Ev; [|apply nth_error_None in Ev; lia].
    replace a with (p + k * i + j) by lia. now rewrite (I i j v Hi Hj Ev), (Hl i j v Hi Hj Ev).
  Qed.
End Vec.

(** ** The unordered path *)
Section Unordered.
  Context {W : Type}.

  Definition unordered_columns (w : Z -> W) : list (list W) :=
    map (fun j => map (fun i => w (3 * unordered i + j)) (lanes_of 8)) [0; 1; 2].

  Theorem load_elements_unordered_lanes (zero : W) s m p k n : unordered_path s k n -> defined_at m p (k * n) ->
    exists vs, load_elements zero s m p k n = Ok (map (map Val) vs) /\ shaped vs k n
      /\ forall i j v, 0 <= i < n -> 0 <= j < k -> nth_error vs (Z.to_nat j) = Some v ->
           nth_error v (Z.to_nat i) = m (p + k * unordered i + j).
  Proof.
    intros U Hd. pose proof (word_at_holds m p (k * n) zero Hd) as H.
    exists (unordered_columns (word_at m p zero)). rewrite (load_elements_unordered zero s m p k n _ U H).
    destruct U as (_ & _ & _ & _ & _ & -> & ->). split; [|split; [split|]].
    - unfold unordered_columns. rewrite !map_map. f_equal.
    - reflexivity.
    - intros v Hv. unfold unordered_columns in Hv. apply in_map_iff in Hv. destruct Hv as (j & <- & _).
      now rewrite map_length, lanes_of_length.
    - intros i j v Hi Hj Ev.
      assert (v = map (fun i => word_at m p zero (3 * unordered i + j)) (lanes_of 8)) as ->.
      { assert (j = 0 \/ j = 1 \/ j = 2) as [-> | [-> | ->]] by lia; unfold unordered_columns in Ev;
          cbn [map nth_error Z.to_nat Pos.to_nat Pos.iter_op Nat.add] in Ev; injection Ev as <-; reflexivity. }
      rewrite (map_nth_error (fun i => word_at m p zero (3 * unordered i + j)) _ _ (lanes_of_nth 8 i Hi)).
      rewrite <- Z.add_assoc. symmetry. apply H.
      assert (0 <= unordered i <= 7); [|lia]. unfold unordered.
      assert (i = 0 \/ i = 1 \/ i = 2 \/ i = 3 \/ i = 4 \/ i = 5 \/ i = 6 \/ i = 7) as Q by lia.
      destruct Q as [-> | [-> | [-> | [-> | [-> | [-> | [-> | ->] ] ] ] ] ] ]; vm_compute; split; discriminate.
  Qed.
End Unordered.

(** ** Flattened members *)
Lemma tree_ind' {A} (P : tree A -> Prop) : (forall a, P (Leaf a)) -> (forall ms, Forall P ms -> P (Struct ms)) -> forall t, P t.
Proof.
  intros HL HS. fix IH 1. intros [a|ms]; [apply HL|]. apply HS.
  induction ms as [|x ms IHms]; constructor; [apply IH|exact IHms].
Qed.

Section Flat.
  Context {A : Type}.
  Implicit Types (t x : tree A) (ms : list (tree A)).

  Lemma populated_struct ms : populated (Struct ms) -> ms <> [] /\ Forall populated ms.
  Proof. intros H. inversion H as [|? N F]; subst. split; [exact N|]. now apply Forall_forall. Qed.

  Lemma populated_leaves t : populated t -> (1 <= length (leaves t))%nat.
  Proof.
    induction t as [a|ms IH] using tree_ind'; intros H; [cbn; lia|]. apply populated_struct in H. destruct H as [N F].
    destruct ms as [|x ms]; [congruence|]. inversion IH; subst. inversion F; subst.
    cbn [leaves flat_map]. rewrite app_length. specialize (H1 H3). lia.
  Qed.

  Theorem flat_member_count_ok t : populated t -> flat_member_count t = Ok (length (leaves t)).
  Proof.
    induction t as [a|ms IH] using tree_ind'; intros H; [reflexivity|]. apply populated_struct in H. destruct H as [N F].
    cbn [flat_member_count leaves]. induction ms as [|x ms IHms]; [congruence|].
    inversion IH as [|? ? Hx Hms]; subst. inversion F as [|? ? Fx Fms]; subst.
    destruct ms as [|y ms]; [cbn [flat_map]; rewrite app_nil_r; now apply Hx|].
    rewrite (Hx Fx). cbn [bindR]. rewrite (IHms Hms ltac:(congruence) Fms). cbn [bindR].
    change (flat_map leaves (x :: y :: ms)) with (leaves x ++ flat_map leaves (y :: ms)). now rewrite app_length.
  Qed.

  Lemma leaves_ge ms : Forall populated ms -> (length ms <= length (flat_map leaves ms))%nat.
  Proof.
    induction 1 as [|x ms Hx _ IH]; [cbn; lia|]. cbn [flat_map length]. rewrite app_length.
    pose proof (populated_leaves x Hx). lia.
  Qed.

  (** As many scalars as members: every member is one scalar. *)
  Lemma one_each ms : Forall populated ms -> length (flat_map leaves ms) = length ms ->
    forall i x, nth_error ms i = Some x -> exists a, leaves x = [a] /\ nth_error (flat_map leaves ms) i = Some a.
  Proof.
    induction 1 as [|y ms Hy F IH]; intros E i x Ex; [now destruct i|].
    cbn [flat_map length] in E. rewrite app_length in E. pose proof (populated_leaves y Hy) as P.
    pose proof (leaves_ge ms F) as G. destruct (leaves y) as [|a [|b l]] eqn:Ey; cbn [length] in E, P; try lia.
    cbn [flat_map]. rewrite Ey. cbn [app]. destruct i as [|i]; cbn [nth_error] in Ex |- *.
    - injection Ex as <-. exists a. auto.
    - apply IH; [lia|exact Ex].
  Qed.

  Theorem flat_element_ok t : populated t -> forall i x, flat_element i t = Ok x ->
    exists a, leaves x = [a] /\ nth_error (leaves t) i = Some a.
  Proof.
    induction t as [a|ms IH] using tree_ind'; intros H i x E.
    - cbn [flat_element] in E. destruct (Nat.eqb_spec i 0) as [->|]; [|discriminate]. injection E as <-. exists a. auto.
    - pose proof (flat_member_count_ok _ H) as C. apply populated_struct in H. destruct H as [N F].
      destruct ms as [|y ms]; [congruence|]. inversion IH as [|? ? Hy _]; subst. inversion F as [|? ? Fy _]; subst.
      change (flat_element i (Struct (y :: ms))) with
        (bindR (flat_member_count (Struct (y :: ms))) (fun cnt =>
           if (cnt =? length (y :: ms))%nat && (i <? length (y :: ms))%nat then member (y :: ms) i
           else bindR (flat_member_count y) (fun c0 =>
             if (length (y :: ms) <? cnt)%nat && (i <? c0)%nat then flat_element i y else Stop SIllFormed))) in E.
      rewrite C in E. cbn [bindR] in E.
      destruct ((_ =? _)%nat && _) eqn:B.
      + apply andb_true_iff in B. destruct B as [B _]. apply Nat.eqb_eq in B. unfold member in E.
        destruct (nth_error (y :: ms) i) as [z|] eqn:Ez; [|discriminate]. injection E as <-.
        cbn [leaves] in B |- *. exact (one_each _ F B i z Ez).
      + rewrite (flat_member_count_ok y Fy) in E. cbn [bindR] in E. destruct ((_ <? _)%nat && _) eqn:B2; [|discriminate].
        apply andb_true_iff in B2. destruct B2 as [_ B2]. apply Nat.ltb_lt in B2.
        destruct (Hy Fy i x E) as (a & La & Na). exists a. split; [exact La|]. cbn [leaves flat_map].
        now rewrite nth_error_app1.
  Qed.

  Theorem flat_get_element fuel : forall i t x y, flat_get fuel i 0 t = Ok y -> flat_element i t = Ok x -> y = x.
  Proof.
    induction fuel as [|fuel IH]; intros i t x y G E; [discriminate|]. destruct t as [a|ms]; [discriminate|].
    cbn [flat_get] in G. destruct (flat_member_count (Struct ms)) as [cnt|] eqn:C; cbn [bindR] in G; [|discriminate].
    destruct ms as [|z ms]; [discriminate|].
    change (flat_element i (Struct (z :: ms))) with
        (bindR (flat_member_count (Struct (z :: ms))) (fun cnt =>
           if (cnt =? length (z :: ms))%nat && (i <? length (z :: ms))%nat then member (z :: ms) i
           else bindR (flat_member_count z) (fun c0 =>
             if (length (z :: ms) <? cnt)%nat && (i <? c0)%nat then flat_element i z else Stop SIllFormed))) in E.
    rewrite C in E. cbn [bindR] in E. destruct (Nat.eqb_spec cnt (length (z :: ms))) as [Q|Q].
    - destruct (i <? length (z :: ms))%nat; cbn [andb Nat.eqb] in E, G; [congruence|discriminate].
    - cbn [andb] in E. destruct (length (z :: ms) <? cnt)%nat; [|discriminate].
      change (member (z :: ms) 0) with (Ok z) in G. cbn [bindR andb] in G, E.
      destruct (flat_member_count z) as [c0|]; cbn [bindR] in E, G; [|discriminate].
      destruct (i <? c0)%nat; [|discriminate]. exact (IH i z x y G E).
  Qed.

  (** Where every member is one scalar every index works. *)
  Theorem flat_get_flat ms fuel i : populated (Struct ms) -> length (leaves (Struct ms)) = length ms -> (i < length ms)%nat ->
    exists x a, flat_get (S fuel) i 0 (Struct ms) = Ok x /\ flat_element i (Struct ms) = Ok x
      /\ leaves x = [a] /\ nth_error (leaves (Struct ms)) i = Some a.
  Proof.
    intros P L Hi. pose proof (flat_member_count_ok _ P) as C. apply populated_struct in P. destruct P as [N F].
    destruct (nth_error ms i) as [x|] eqn:Ex; [|apply nth_error_None in Ex; lia].
    destruct (one_each ms F L i x Ex) as (a & La & Na). exists x, a. rewrite L in C.
    assert (Lt : (i <? length ms)%nat = true) by now apply Nat.ltb_lt.
    split; [|split; [|auto]].
    - cbn [flat_get]. rewrite C. cbn [bindR]. rewrite Nat.eqb_refl, Lt. unfold member. now rewrite Ex.
    - destruct ms as [|z ms]; [congruence|].
      change (flat_element i (Struct (z :: ms))) with
        (bindR (flat_member_count (Struct (z :: ms))) (fun cnt =>
           if (cnt =? length (z :: ms))%nat && (i <? length (z :: ms))%nat then member (z :: ms) i
           else bindR (flat_member_count z) (fun c0 =>
             if (length (z :: ms) <? cnt)%nat && (i <? c0)%nat then flat_element i z else Stop SIllFormed))).
      rewrite C. cbn [bindR]. rewrite Nat.eqb_refl, Lt. unfold member. now rewrite Ex.
  Qed.
End Flat.

(** ** Sizes *)
Theorem simdize_size_ok t : populated t -> (forall c, In c (leaves t) -> 0 <= c) ->
  exists n, simdize_size t = Ok n /\ (0 < n -> forall c, In c (leaves t) -> c = n)
    /\ (forall c, 0 < c -> (forall d, In d (leaves t) -> d = c) -> n = c) /\ 0 <= n.
Proof.
  induction t as [a|ms IH] using tree_ind'; intros P H.
  - exists a. cbn. split; [reflexivity|]. split; [intros _ c [<-|[]]; reflexivity|].
    split; [intros c _ Hc; apply Hc; cbn; auto|apply H; cbn; auto].
  - apply populated_struct in P. destruct P as [N F]. destruct ms as [|x ms]; [congruence|].
    assert (Hx : In x (x :: ms)) by (cbn; auto).
    assert (IH' : forall y, In y (x :: ms) -> exists n, simdize_size y = Ok n /\ (0 < n -> forall c, In c (leaves y) -> c = n)
      /\ (forall c, 0 < c -> (forall d, In d (leaves y) -> d = c) -> n = c) /\ 0 <= n).
    { intros y Hy. rewrite Forall_forall in IH, F. apply IH; [exact Hy|now apply F|].
      intros c Hc. apply H. cbn [leaves]. apply in_flat_map. eauto. }
    clear IH. destruct (IH' x Hx) as (s0 & E0 & A0 & B0 & P0).
    assert (G : forall l, (forall y, In y l -> In y (x :: ms)) -> exists b,
      (fix all (ms : list (tree Z)) : res bool :=
              match ms with
              | [] => Ok true
              | y :: ms' => bindR (simdize_size y) (fun s => bindR (all ms') (fun b => Ok ((s0 =? s) && b)))
              end) l = Ok b /\ (b = true <-> forall y, In y l -> simdize_size y = Ok s0)).
    { induction l as [|y l IHl]; intros Hl; [exists true; split; [reflexivity|split; [intros _ y []|reflexivity]]|].
      destruct (IH' y (Hl y (or_introl eq_refl))) as (s & Es & _). destruct (IHl (fun z Hz => Hl z (or_intror Hz))) as (b & Eb & Ib).
      exists ((s0 =? s) && b). rewrite Es. cbn [bindR]. rewrite Eb. cbn [bindR]. split; [reflexivity|].
      rewrite andb_true_iff, Z.eqb_eq, Ib. split.
      - intros [<- K] z [<-|Hz]; [exact Es|now apply K].
      - intros K. split; [|intros z Hz; apply K; cbn; auto]. specialize (K y (or_introl eq_refl)). congruence. }
    destruct (G (x :: ms) (fun y Hy => Hy)) as (b & Eb & Ib).
    exists (if b then s0 else 0). split.
    { cbn [simdize_size]. rewrite E0 at 1. cbn [bindR]. change (simdize_size x) with (simdize_size x). rewrite Eb. reflexivity. }
    split; [|split; [|destruct b; lia]].
    + destruct b; [|lia]. intros Hp c Hc. cbn [leaves] in Hc. apply in_flat_map in Hc. destruct Hc as (y & Hy & Hc).
      destruct (IH' y Hy) as (s & Es & As & _). rewrite (proj1 Ib eq_refl y Hy) in Es. injection Es as <-. now apply As.
    + intros c Hc Hall.
      assert (Ay : forall y, In y (x :: ms) -> simdize_size y = Ok c).
      { intros y Hy. destruct (IH' y Hy) as (s & Es & _ & Bs & _). rewrite Es. f_equal. apply Bs; [exact Hc|].
        intros d Hd. apply Hall. cbn [leaves]. apply in_flat_map. eauto. }
      assert (s0 = c) as -> by (specialize (Ay x Hx); congruence).
      now rewrite (proj2 Ib Ay).
Qed.

Theorem default_simdize_size_ok t : populated t -> (forall c, In c (leaves t) -> 0 < c) ->
  exists n, default_simdize_size t = Ok n /\ In n (leaves t) /\ forall c, In c (leaves t) -> c <= n.
Proof.
  induction t as [a|ms IH] using tree_ind'; intros P H.
  - exists a. cbn [default_simdize_size leaves]. replace (0 <? a) with true by (symmetry; apply Z.ltb_lt, H; cbn; auto).
    split; [reflexivity|]. split; [cbn; auto|]. intros c [<-|[]]. lia.
  - apply populated_struct in P. destruct P as [N F]. cbn [leaves] in *.
    assert (G : exists n, (fix mx (ms : list (tree Z)) : res Z :=
              match ms with
              | [] => Stop SIllFormed
              | [y] => default_simdize_size y
              | y :: ms' => bindR (default_simdize_size y) (fun s => bindR (mx ms') (fun b => Ok (Z.max s b)))
              end) ms = Ok n /\ In n (flat_map leaves ms) /\ forall c, In c (flat_map leaves ms) -> c <= n).
    { induction ms as [|x ms IHms]; [congruence|]. inversion IH as [|? ? Hx Hms]; subst. inversion F as [|? ? Fx Fms]; subst.
      destruct (Hx Fx) as (n & En & In_ & Mn); [intros c Hc; apply H; cbn [flat_map]; apply in_app_iff; auto|].
      destruct ms as [|y ms].
      - exists n. cbn [flat_map]. rewrite app_nil_r. auto.
      - destruct (IHms Hms ltac:(congruence) Fms) as (n2 & En2 & In2 & Mn2).
        { intros c Hc. apply H. cbn [flat_map] in Hc |- *. rewrite in_app_iff. auto. }
        exists (Z.max n n2). rewrite En. cbn [bindR]. rewrite En2. cbn [bindR]. split; [reflexivity|].
        change (flat_map leaves (x :: y :: ms)) with (leaves x ++ flat_map leaves (y :: ms)). split.
        + apply in_app_iff. destruct (Z.max_spec n n2) as [[_ ->]|[_ ->]]; auto.
        + intros c Hc. apply in_app_iff in Hc. destruct Hc as [Hc|Hc]; [specialize (Mn c Hc)|specialize (Mn2 c Hc)]; lia. }
    destruct G as (n & En & I & M). exists n. split; [|auto].
    cbn [default_simdize_size]. rewrite En. cbn [bindR]. now replace (0 <? n) with true by (symmetry; apply Z.ltb_lt, H, I).
Qed.

(** ** Instances and witnesses *)

(** AVX2, eight floats per register, a struct of three floats. *)
Definition env_3f : senv := mksenv true false true true 8 true true env_avx2.
(** The same for a struct of three ints or two floats. *)
Definition env_int : senv := mksenv true false true true 8 false false env_avx2.

(** Words 0, 1, 2, ... from address 100. *)
Definition ramp (n : Z) : mem Z := fun a => if (100 <=? a) && (a <? 100 + n) then Some (a - 100) else None.

Lemma ramp_defined n k : k <= n -> defined_at (ramp n) 100 k.
Proof. intros H q Hq. unfold ramp. replace (_ && _) with true by lia. discriminate. Qed.

Theorem lane_order_refuted : exists (m : mem Z) p vs x, defined_at m p 24 /\
  load_elements 0 env_3f m p 3 8 = Ok (map (map Val) vs) /\
  element vs 1 = Ok x /\ load m (p + 3 * 1) 3 = Some [3; 4; 5] /\ x = [9; 10; 11].
Proof.
  exists (ramp 24), 100.
  exists [[0; 9; 18; 3; 12; 21; 6; 15]; [1; 10; 19; 4; 13; 22; 7; 16]; [2; 11; 20; 5; 14; 23; 8; 17]], [9; 10; 11].
  split; [apply ramp_defined; lia|]. now vm_compute.
Qed.

Theorem round_trip_refuted : exists (m m' : mem Z) p vs, defined_at m p 24 /\
  load_elements 0 env_3f m p 3 8 = Ok (map (map Val) vs) /\ store_elements env_3f vs m p 3 8 = Ok m' /\
  load m (p + 3) 3 = Some [3; 4; 5] /\ load m' (p + 3) 3 = Some [9; 10; 11].
Proof.
  pose (vs := [[0; 9; 18; 3; 12; 21; 6; 15]; [1; 10; 19; 4; 13; 22; 7; 16]; [2; 11; 20; 5; 14; 23; 8; 17]]).
  destruct (store_elements_ok env_3f vs (ramp 24) 100 3 8) as (m' & E & I & _); [| | |apply ramp_defined; lia|].
  - split; [reflexivity|]. intros v [<-|[<-|[<-|[] ] ] ]; reflexivity.
  - lia.
  - lia.
  - exists (ramp 24), m', 100, vs. split; [apply ramp_defined; lia|]. split; [now vm_compute|]. split; [exact E|].
    split; [now vm_compute|].
    pose proof (I 1 0 _ ltac:(lia) ltac:(lia) eq_refl) as I0. pose proof (I 1 1 _ ltac:(lia) ltac:(lia) eq_refl) as I1.
    pose proof (I 1 2 _ ltac:(lia) ltac:(lia) eq_refl) as I2.
    vm_compute in I0, I1, I2. vm_compute. now rewrite I0, I1, I2.
Qed.

(** Unmodified structs copied back through the unordered path end up permuted. *)
Theorem round_trip_unordered {W} (zero : W) s (m : mem W) p : unordered_path s 3 8 -> defined_at m p 24 ->
  exists vs m', load_elements zero s m p 3 8 = Ok (map (map Val) vs) /\ store_elements s vs m p 3 8 = Ok m'
    /\ forall i j, 0 <= i < 8 -> 0 <= j < 3 -> m' (p + 3 * i + j) = m (p + 3 * unordered i + j).
Proof.
  intros U Hd. destruct (load_elements_unordered_lanes zero s m p 3 8 U Hd) as (vs & E & Sh & L).
  destruct (store_elements_ok s vs m p 3 8 Sh ltac:(lia) ltac:(lia) Hd) as (m' & E' & I & _).
  exists vs, m'. split; [exact E|]. split; [exact E'|]. intros i j Hi Hj.
  destruct (nth_error vs (Z.to_nat j)) as [v|] eqn:Ev; [|apply nth_error_None in Ev; destruct Sh; lia].
  now rewrite (I i j v Hi Hj Ev), (L i j v Hi Hj Ev).
Qed.

Theorem round_trip {W} (zero : W) s (m : mem W) p k n : 1 <= k -> 1 <= n -> defined_at m p (k * n) -> ~ unordered_path s k n ->
  exists vs m', load_elements zero s m p k n = Ok (map (map Val) vs) /\ store_elements s vs m p k n = Ok m'
    /\ forall a, m' a = m a.
Proof.
  intros Hk Hn Hd U. destruct (load_elements_lanes zero s m p k n Hk Hn Hd U) as (vs & E & Sh & L).
  destruct (store_elements_ok s vs m p k n Sh Hk Hn Hd) as (m' & E' & S'). exists vs, m'. split; [exact E|]. split; [exact E'|].
  exact (stored_back m m' p k n vs Hk Hn Sh L S').
Qed.

Theorem tuple_round_trip {W} (zero : W) (m : mem W) p k n : 1 <= k -> 1 <= n -> defined_at m p (k * n) ->
  exists vs m', tuple_load m p k n = Ok vs /\ tuple_store vs p k 0 (Z.to_nat n) m = Ok m' /\ forall a, m' a = m a.
Proof.
  intros Hk Hn Hd. destruct (tuple_load_lanes zero m p k n Hk Hn Hd) as (vs & E & Sh & L).
  destruct (tuple_store_ok vs m p k n Sh Hk Hn Hd) as (m' & E' & S'). exists vs, m'. split; [exact E|]. split; [exact E'|].
  exact (stored_back m m' p k n vs Hk Hn Sh L S').
Qed.

Theorem load_is_array {W} (zero : W) s (m : mem W) p k n : 1 <= k -> 1 <= n -> defined_at m p (k * n) -> ~ unordered_path s k n ->
  exists vs, load_elements zero s m p k n = Ok (map (map Val) vs) /\ shaped vs k n
    /\ forall i, 0 <= i < n -> exists x, element vs i = Ok x /\ load m (p + k * i) (Z.to_nat k) = Some x.
Proof.
  intros Hk Hn Hd U. destruct (load_elements_lanes zero s m p k n Hk Hn Hd U) as (vs & E & Sh & L).
  exists vs. split; [exact E|]. split; [exact Sh|]. intros i Hi. apply (element_is_struct m p k n); (assumption || lia).
Qed.

Theorem tuple_load_is_array {W} (zero : W) (m : mem W) p k n : 1 <= k -> 1 <= n -> defined_at m p (k * n) ->
  exists vs, tuple_load m p k n = Ok vs /\ shaped vs k n
    /\ forall i, 0 <= i < n -> exists x, tuple_element vs i = Ok x /\ load m (p + k * i) (Z.to_nat k) = Some x.
Proof.
  intros Hk Hn Hd. destruct (tuple_load_lanes zero m p k n Hk Hn Hd) as (vs & E & Sh & L).
  exists vs. split; [exact E|]. split; [exact Sh|]. intros i Hi. apply (element_is_struct m p k n); (assumption || lia).
Qed.

Theorem load_unordered_structs {W} (zero : W) s (m : mem W) p : unordered_path s 3 8 -> defined_at m p 24 ->
  exists vs, load_elements zero s m p 3 8 = Ok (map (map Val) vs) /\ shaped vs 3 8
    /\ forall i, 0 <= i < 8 -> exists x, element vs i = Ok x
         /\ load m (p + 3 * nth (Z.to_nat i) [0; 3; 6; 1; 4; 7; 2; 5] 0) 3 = Some x.
Proof.
  intros U Hd. destruct (load_elements_unordered_lanes zero s m p 3 8 U Hd) as (vs & E & Sh & L).
  exists vs. split; [exact E|]. split; [exact Sh|]. intros i Hi.
  destruct (element_ok vs 3 8 i Sh Hi) as (x & Ex & Lx & Nx). exists x. split; [exact Ex|].
  replace 3%nat with (length x) by lia. apply load_intro. intros j Hj.
  destruct (nth_error vs j) as [v|] eqn:Ev; [|apply nth_error_None in Ev; destruct Sh; lia].
  rewrite (Nx j v Ev). rewrite <- (Nat2Z.id j) in Ev. rewrite (L i (Z.of_nat j) v Hi ltac:(lia) Ev). reflexivity.
Qed.

Definition pair (a b : Z) : tree Z := Struct [Leaf a; Leaf b].
Definition pairs3 : tree Z := Struct [pair 0 1; pair 2 3; pair 4 5].

Theorem flat_get_refuted : exists t x, populated t /\ nth_error (leaves t) 2 = Some 2 /\
  flat_get 10 2 0 t = Ok x /\ leaves x = [4].
Proof.
  exists pairs3, (Leaf 4). split; [|now vm_compute].
  repeat (constructor; [discriminate|]; intros ? Q; cbn in Q; repeat (destruct Q as [<-|Q]; [|]); try contradiction); constructor.
Qed.

Ltac populate :=
  repeat (constructor; [discriminate|]; intros ? Q; cbn in Q; repeat (destruct Q as [<-|Q]; [|]); try contradiction);
  constructor.

Theorem flat_get_rejects_refuted : exists t u, populated t /\ populated u /\
  nth_error (leaves t) 2 = Some 2 /\ flat_get 10 2 0 t = Stop SIllFormed /\ flat_element 2 t = Stop SIllFormed /\
  nth_error (leaves u) 2 = Some 2 /\ flat_get 10 2 0 u = Stop SIllFormed /\ flat_element 2 u = Stop SIllFormed.
Proof.
  exists (Struct [pair 0 1; pair 2 3]), (Struct [pair 0 1; Leaf 2]). split; [populate|]. split; [populate|]. now vm_compute.
Qed.

Theorem flat_element_wrapper_refuted : exists t x, populated t /\ flat_element 0 t = Ok x /\ x <> Leaf 0 /\ leaves t = [0].
Proof. exists (Struct [Struct [Leaf 0] ]), (Struct [Leaf 0]). split; [populate|]. split; [reflexivity|]. split; [discriminate|reflexivity]. Qed.
