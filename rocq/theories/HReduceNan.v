(** hmin(v) and hmax(v) for every floating-point content (C21). *)
From Verif Require Import Base BaseFacts LaneModel IntModel ReduceModel ReduceProofs ShapeModel HReduceModel HReduceProofs
  HReduceExact HReduceSpec.
From Coq Require Import ZifyBool ZifyNat.
Ltac Zify.zify_post_hook ::= idtac.
#[local] Open Scope nat_scope.

Lemma top_unique n h k : 2 ^ S h <= n < 2 ^ S (S h) -> 2 ^ S k <= n < 2 ^ S (S k) -> h = k.
Proof.
  intros H K. pose proof (Nat.log2_unique n (S h) ltac:(lia) H). pose proof (Nat.log2_unique n (S k) ltac:(lia) K). lia.
Qed.

Lemma pow_pos' k : 0 < 2 ^ k.
Proof. apply Nat.neq_0_lt_0, Nat.pow_nonzero. lia. Qed.

Lemma decides_lt n j a : decides n j a -> j < n -> a < n.
Proof.
  induction 1 as [n j|n j|h n j a B J _ IH|h n j a B J _ IH]; intros L; [assumption|lia| |].
  - assert (j mod 2 ^ h < 2 ^ h) by (apply Nat.mod_upper_bound; pose proof (pow_pos' h); lia).
    specialize (IH H). cbn [Nat.pow] in *. lia.
  - specialize (IH ltac:(lia)). lia.
Qed.

Lemma decides_small n j a : decides n j a -> j < n -> n <= 3 -> a = j \/ a = 0.
Proof.
  intros D L N. inversion D as [| |h n' j' a' B J D'|h n' j' a' B J D']; subst; [now left|now right| |].
  - assert (h = 0) as ->. { apply (top_unique n h 0 B). cbn. pose proof (pow_pos' h). cbn [Nat.pow] in B. lia. }
    cbn [Nat.pow] in D'. rewrite Nat.mod_1_r in D'.
    pose proof (decides_lt 1 0 a D' ltac:(lia)). lia.
  - assert (h = 0) as ->. { apply (top_unique n h 0 B). cbn. pose proof (pow_pos' h). cbn [Nat.pow] in B. lia. }
    cbn [Nat.pow] in *. left. pose proof (decides_lt _ _ _ D' ltac:(lia)). lia.
Qed.

(** The result as specified. *)
Definition good (v : list fval) (r : fval) : Prop :=
  (nth_error v 0 = Some FNaN -> r = FNaN)
  /\ (nth_error v 0 <> Some FNaN -> r <> FNaN
      /\ (exists j, considered v j /\ nth_error v j = Some r)
      /\ forall j a, considered v j -> nth_error v j = Some a -> flt a r = false).

Lemma flt_nan_l a : flt FNaN a = false.
Proof. reflexivity. Qed.
Lemma flt_nan_r a : flt a FNaN = false.
Proof. now destruct a. Qed.

Lemma min_cases a b : a <> FNaN ->
  let r := std_min flt a b in r <> FNaN /\ (r = a \/ (r = b /\ b <> FNaN)) /\ flt a r = false /\ flt b r = false.
Proof.
  intros N. unfold std_min. destruct (flt b a) eqn:E; cbv zeta.
  - assert (b <> FNaN) by (intros ->; discriminate). split; [assumption|]. split; [now right|].
    destruct a, b; cbn in *; try congruence; split; try reflexivity; lia.
  - split; [assumption|]. split; [now left|]. split; [|assumption]. destruct a; cbn; try congruence; lia.
Qed.

Lemma min_nan b : std_min flt FNaN b = FNaN.
Proof. unfold std_min. now rewrite flt_nan_r. Qed.

Lemma flt_trans a b c : b <> FNaN -> flt a b = false -> flt b c = false -> flt a c = false.
Proof. destruct a, b, c; cbn; try congruence; lia. Qed.

Lemma fold_nan l : fold_left (std_min flt) l FNaN = FNaN.
Proof. induction l as [|x l IH]; cbn [fold_left]; [reflexivity|]. now rewrite min_nan. Qed.

Lemma good_small x l : length (x :: l) <= 3 -> good (x :: l) (fold_left (std_min flt) l x).
Proof.
  intros L. split; cbn [nth_error].
  - intros E. injection E as ->. apply fold_nan.
  - intros E. assert (N : x <> FNaN) by congruence.
    destruct (fold_min_nan l x N) as (I & R & A & B). split; [exact R|].
    set (r := fold_left (std_min flt) l x) in *. split.
    + assert (I' : In r (x :: l)) by (destruct I as [->|I]; [now left|now right]).
      apply In_nth_error in I' as [j J]. exists j. split; [|exact J].
      assert (J' : j < length (x :: l)) by (apply nth_error_Some; congruence). split; [exact J'|].
      intros a D. destruct (decides_small _ _ _ D J' L) as [->| ->]; [congruence|exact E].
    + intros j a _ J. apply nth_error_In in J as [<-|J]; auto.
Qed.

Lemma map2_nth l r i a b : nth_error l i = Some a -> nth_error r i = Some b ->
  nth_error (map2 (std_min flt) l r) i = Some (std_min flt a b).
Proof.
  revert r i. induction l as [|x l IH]; intros [|y r] [|i] A B; try discriminate; cbn in *.
  - congruence.
  - now apply IH.
Qed.

Lemma nth_firstn {A} (l : list A) n i : i < n -> nth_error (firstn n l) i = nth_error l i.
Proof. revert n i. induction l as [|x l IH]; intros [|n] [|i] L; cbn; try reflexivity; try lia. apply IH. lia. Qed.
Lemma nth_skipn {A} (l : list A) n i : nth_error (skipn n l) i = nth_error l (n + i).
Proof. revert n. induction l as [|x l IH]; intros [|n]; cbn; try reflexivity; [now destruct i|apply IH]. Qed.

Section Step.
  Variables (v : list fval) (h : nat).
  Hypothesis B : 2 ^ S h <= length v < 2 ^ S (S h).
  Let w := map2 (std_min flt) (firstn (2 ^ h) v) (firstn (2 ^ h) (skipn (2 ^ h) v)).
  Let rem := skipn (2 ^ S h) v.

  Lemma w_length : length w = 2 ^ h.
  Proof.
    unfold w. rewrite map2_length; rewrite ?firstn_length, ?skipn_length; cbn [Nat.pow] in B; lia.
  Qed.

  Lemma lanes_of_w i : i < 2 ^ h -> exists a b, nth_error v i = Some a /\ nth_error v (2 ^ h + i) = Some b
    /\ nth_error w i = Some (std_min flt a b).
  Proof.
    intros L. cbn [Nat.pow] in B.
    destruct (nth_error v i) as [a|] eqn:Ea; [|apply nth_error_None in Ea; lia].
    destruct (nth_error v (2 ^ h + i)) as [b|] eqn:Eb; [|apply nth_error_None in Eb; lia].
    exists a, b. split; [reflexivity|]. split; [reflexivity|]. unfold w. apply map2_nth.
    - now rewrite nth_firstn.
    - rewrite nth_firstn by exact L. now rewrite nth_skipn.
  Qed.

  Lemma w_nan i : i < 2 ^ h -> (nth_error w i = Some FNaN <-> nth_error v i = Some FNaN).
  Proof.
    intros L. destruct (lanes_of_w i L) as (a & b & Ea & Eb & Ew). rewrite Ea, Ew. split; intros E; injection E as E.
    - assert (Q : a = FNaN \/ a <> FNaN) by (destruct a; (now left) || (right; discriminate)).
      destruct Q as [->|Q]; [reflexivity|]. destruct (min_cases a b Q) as [N _]. contradiction.
    - subst a. now rewrite min_nan.
  Qed.

  Lemma considered_w j : j < 2 ^ S h -> considered v j -> considered w (j mod 2 ^ h).
  Proof.
    intros L [_ C]. assert (M : j mod 2 ^ h < 2 ^ h) by (apply Nat.mod_upper_bound; pose proof (pow_pos' h); lia).
    split; [rewrite w_length; exact M|]. rewrite w_length. intros a D.
    rewrite (w_nan a) by exact (decides_lt _ _ _ D M). apply C. exact (decides_half h _ j a B L D).
  Qed.

  Lemma considered_v i j a : i < 2 ^ h -> j mod 2 ^ h = i -> j < 2 ^ S h -> considered w i ->
    nth_error v j = Some a -> a <> FNaN -> considered v j.
  Proof.
    intros L M J [_ C] E N. rewrite w_length in C. split; [cbn [Nat.pow] in *; lia|]. intros x D.
    inversion D as [| |k n' j' a' B' J' D'|k n' j' a' B' J' D']; subst.
    - congruence.
    - rewrite <- (w_nan 0) by lia. apply C. constructor.
    - assert (k = h) as -> by exact (top_unique _ _ _ B' B).
      rewrite <- (w_nan x) by exact (decides_lt _ _ _ D' L). now apply C.
    - assert (k = h) as -> by exact (top_unique _ _ _ B' B). lia.
  Qed.

  (** The lanes in front *)
  Definition good_front (r : fval) : Prop :=
    (nth_error v 0 = Some FNaN -> r = FNaN)
    /\ (nth_error v 0 <> Some FNaN -> r <> FNaN
        /\ (exists j, j < 2 ^ S h /\ considered v j /\ nth_error v j = Some r)
        /\ forall j a, j < 2 ^ S h -> considered v j -> nth_error v j = Some a -> flt a r = false).

  Lemma front r : good w r -> good_front r.
  Proof.
    intros [G1 G2]. pose proof (pow_pos' h) as P. split; intros E.
    - apply G1. now apply w_nan.
    - destruct G2 as (N & (i & Ci & Ei) & Lo); [intros H; apply E; now apply w_nan|]. split; [exact N|]. split.
      + assert (L : i < 2 ^ h) by (destruct Ci as [L _]; now rewrite w_length in L).
        destruct (lanes_of_w i L) as (a & b & Ea & Eb & Ew).
        assert (Na : a <> FNaN).
        { intros ->. destruct Ci as [_ C]. rewrite w_length in C. specialize (C i (decides_self _ _)). apply C. now apply w_nan. }
        rewrite Ei in Ew. injection Ew as Ew. destruct (min_cases a b Na) as (_ & [M|[M Nb] ] & _); rewrite <- Ew in M; clear Ew; subst r.
        * exists i. split; [cbn [Nat.pow]; lia|]. split; [|exact Ea].
          apply (considered_v i i a); auto; [now apply Nat.mod_small|cbn [Nat.pow]; lia].
        * exists (2 ^ h + i). split; [cbn [Nat.pow]; lia|]. split; [|exact Eb].
          apply (considered_v i (2 ^ h + i) b); auto; [|cbn [Nat.pow]; lia].
          rewrite <- (Nat.mul_1_l (2 ^ h)) at 1. rewrite Nat.add_comm, Nat.mod_add by lia. now apply Nat.mod_small.
      + intros j a J C Ej. pose proof (considered_w j J C) as Cw.
        assert (M : j mod 2 ^ h < 2 ^ h) by (apply Nat.mod_upper_bound; lia).
        destruct (lanes_of_w (j mod 2 ^ h) M) as (x & y & Ex & Ey & Ew).
        assert (Nx : x <> FNaN).
        { intros ->. destruct C as [_ C]. apply (C (j mod 2 ^ h)); [|exact Ex]. apply (decides_half h _ j _ B J). constructor. }
        destruct (min_cases x y Nx) as (Nm & _ & Lx & Ly).
        apply (flt_trans a (std_min flt x y)); [exact Nm| |exact (Lo _ _ Cw Ew)].
        assert (Q : j = j mod 2 ^ h \/ j = 2 ^ h + j mod 2 ^ h).
        { pose proof (Nat.div_mod j (2 ^ h) ltac:(lia)) as Dm. cbn [Nat.pow] in J.
          assert (j / 2 ^ h < 2) by (apply Nat.div_lt_upper_bound; lia).
          destruct (j / 2 ^ h) as [|[|?] ]; lia. }
        destruct Q as [Q|Q]; rewrite Q in Ej; congruence.
  Qed.

  Lemma considered_rem j : considered v (2 ^ S h + j) <-> considered rem j /\ nth_error v 0 <> Some FNaN.
  Proof.
    assert (Lr : length rem = length v - 2 ^ S h) by (unfold rem; apply skipn_length).
    assert (Nr : forall i, nth_error rem i = nth_error v (2 ^ S h + i)) by (intros i; unfold rem; apply nth_skipn).
    split.
    - intros [L C]. split; [split; [lia|] |].
      + intros a D. rewrite Nr. apply C. apply (decides_rest h); [exact B|lia|].
        replace (2 ^ S h + j - 2 ^ S h) with j by lia. now rewrite <- Lr.
      + apply C. constructor.
    - intros [[L C] Z]. split; [lia|]. intros a D.
      inversion D as [| |k n' j' a' B' J' D'|k n' j' a' B' J' D']; subst.
      + rewrite <- Nr. apply C. constructor.
      + exact Z.
      + assert (k = h) as -> by exact (top_unique _ _ _ B' B). lia.
      + assert (k = h) as -> by exact (top_unique _ _ _ B' B). rewrite <- Nr. apply C. rewrite Lr.
        replace j with (2 ^ S h + j - 2 ^ S h) by lia. exact D'.
  Qed.

  Lemma good_alone x : length v = 2 ^ S h -> good w x -> good v x.
  Proof.
    intros E G. apply front in G as [G1 G2]. split; [exact G1|]. intros Z. destruct (G2 Z) as (N & (j & _ & C) & Lo).
    split; [exact N|]. split; [now exists j|]. intros i a C' Ei. apply (Lo i a); auto. destruct C' as [L _]. lia.
  Qed.

  Lemma good_both x y : 2 ^ S h < length v -> good w x -> good rem y -> good v (std_min flt x y).
  Proof.
    intros L G [R1 R2]. apply front in G as [G1 G2].
    assert (Nr : forall i, nth_error rem i = nth_error v (2 ^ S h + i)) by (intros i; unfold rem; apply nth_skipn).
    split; intros Z.
    - rewrite (G1 Z). apply min_nan.
    - destruct (G2 Z) as (N & (j & J & Cj & Ej) & Lo). destruct (min_cases x y N) as (Nm & M & Lx & Ly). split; [exact Nm|]. split.
      + destruct M as [M|[M Ny] ]; rewrite M.
        * exists j. auto.
        * assert (Z' : nth_error rem 0 <> Some FNaN) by (intros H; apply Ny; now apply R1).
          destruct (R2 Z') as (_ & (i & Ci & Ei) & _). exists (2 ^ S h + i). split; [now apply considered_rem|]. now rewrite <- Nr.
      + intros i a Ci Ei. destruct (Nat.lt_ge_cases i (2 ^ S h)) as [Li|Li].
        * apply (flt_trans a x); [exact N|exact (Lo i a Li Ci Ei)|exact Lx].
        * replace i with (2 ^ S h + (i - 2 ^ S h)) in Ci, Ei by lia. rewrite <- Nr in Ei.
          apply considered_rem in Ci as [Ci _].
          assert (Z' : nth_error rem 0 <> Some FNaN) by (apply Ci; constructor).
          destruct (R2 Z') as (Ny & _ & Lo'). apply (flt_trans a y); [exact Ny|exact (Lo' _ _ Ci Ei)|exact Ly].
  Qed.
End Step.

Lemma reduce_good fuel : forall v, length v <= fuel -> v <> [] -> (Z.of_nat (length v) < two64)%Z ->
  exists r, reduce_fuel (std_min flt) fuel v = Some r /\ good v r.
Proof.
  induction fuel as [|fuel IH]; intros v F NE L64; [destruct v; [contradiction|cbn in F; lia]|].
  cbn [reduce_fuel]. destruct (Z.ltb_spec 3 (Z.of_nat (length v))) as [H3|H3].
  - set (h := Nat.log2 (length v) - 1).
    assert (Hh : S h = Nat.log2 (length v)).
    { assert (1 <= Nat.log2 (length v)); [|lia]. change 1 with (Nat.log2 2). apply Nat.log2_le_mono. lia. }
    assert (Hh1 : 1 <= h).
    { assert (2 <= Nat.log2 (length v)); [|lia]. change 2 with (Nat.log2 4). apply Nat.log2_le_mono. lia. }
    assert (B : 2 ^ S h <= length v < 2 ^ S (S h)) by (rewrite Hh; apply Nat.log2_spec; lia).
    assert (Hd : (0 < Z.of_nat (length v) / 2 < two64)%Z).
    { split; [apply Z.div_str_pos; lia|]. apply Z.div_lt_upper_bound; unfold two64 in *; lia. }
    rewrite bit_floor_ok by exact Hd.
    assert (El : (2 ^ Z.log2 (Z.of_nat (length v) / 2))%Z = Z.of_nat (2 ^ h)).
    { rewrite Nat2Z.inj_pow. f_equal. apply Z.log2_unique; [lia|].
      change 2%Z with (Z.of_nat 2) at 1 2. rewrite <- Nat2Z.inj_succ, <- !Nat2Z.inj_pow.
      change 2%Z with (Z.of_nat 2). rewrite <- Nat2Z.inj_div.
      assert (2 ^ h <= length v / 2 < 2 ^ S h); [|lia]. split.
      - apply Nat.div_le_lower_bound; [lia|]. cbn [Nat.pow] in B. lia.
      - apply Nat.div_lt_upper_bound; [lia|]. cbn [Nat.pow] in *. lia. }
    rewrite El. rewrite Nat2Z.id. cbv zeta.
    assert (Lw := w_length v h B). assert (P2 : 2 <= 2 ^ h) by (change 2 with (2 ^ 1) at 1; apply Nat.pow_le_mono_r; lia).
    assert (E2 : 2 * 2 ^ h = 2 ^ S h) by reflexivity.
    destruct (IH (map2 (std_min flt) (firstn (2 ^ h) v) (firstn (2 ^ h) (skipn (2 ^ h) v)))) as (x & Ex & Gx).
    { rewrite Lw. lia. }
    { intros E. rewrite E in Lw. cbn in Lw. lia. }
    { rewrite Lw. lia. }
    rewrite Ex. destruct (Z.ltb_spec 0 (Z.of_nat (length v) - 2 * Z.of_nat (2 ^ h))) as [Hr|Hr].
    + assert (Lr : length (skipn (2 ^ S h) v) = length v - 2 ^ S h) by apply skipn_length.
      destruct (IH (skipn (2 ^ S h) v)) as (y & Ey & Gy).
      { rewrite Lr. lia. }
      { intros E. rewrite E in Lr. cbn in Lr. lia. }
      { rewrite Lr. lia. }
      change (2 * 2 ^ h) with (2 ^ S h). rewrite Ey. eexists. split; [reflexivity|]. apply (good_both v h B); auto. lia.
    + exists x. split; [reflexivity|]. apply (good_alone v h B); auto. lia.
  - destruct v as [|x l]; [contradiction|]. eexists. split; [reflexivity|]. apply good_small. lia.
Qed.

Theorem hmin_float v : v <> [] -> (Z.of_nat (length v) < two64)%Z ->
  exists r, hmin flt v = Some r
    /\ (r = FNaN <-> nth_error v 0 = Some FNaN)
    /\ (r <> FNaN -> (exists j, considered v j /\ nth_error v j = Some r)
                     /\ forall j a, considered v j -> nth_error v j = Some a -> flt a r = false).
Proof.
  intros NE L. destruct (reduce_good (length v) v (le_n _) NE L) as (r & E & G1 & G2). exists r. split; [exact E|].
  assert (D : nth_error v 0 = Some FNaN \/ nth_error v 0 <> Some FNaN).
  { destruct (nth_error v 0) as [[| | |]|]; (left; reflexivity) || (right; discriminate). }
  split.
  - split; [|exact G1]. intros N. destruct D as [D|D]; [exact D|]. now destruct (G2 D).
  - intros N. destruct D as [D|D]; [elim N; auto|]. now destruct (G2 D).
Qed.

(** hmax: with the signs changed. *)
Lemma reduce_fuel_map {A C} (f : C -> A) (opa : A -> A -> A) (opc : C -> C -> C) :
  (forall x y, f (opc x y) = opa (f x) (f y)) ->
  forall fuel v, reduce_fuel opa fuel (map f v) = option_map f (reduce_fuel opc fuel v).
Proof.
  intros H.
  assert (M2 : forall l r, map2 opa (map f l) (map f r) = map f (map2 opc l r)).
  { induction l as [|x l IHl]; intros [|y r]; cbn; try reflexivity. now rewrite H, IHl. }
  assert (FL : forall l x, fold_left opa (map f l) (f x) = f (fold_left opc l x)).
  { induction l as [|y l IHl]; intros x; cbn; [reflexivity|]. now rewrite <- H, IHl. }
  induction fuel as [|fuel IH]; intros v; [reflexivity|]. cbn [reduce_fuel]. rewrite map_length.
  destruct (3 <? Z.of_nat (length v))%Z.
  - destruct (bit_floor _) as [z|]; [|reflexivity]. cbv zeta.
    rewrite skipn_map, !firstn_map, M2, IH, skipn_map, IH.
    destruct (0 <? _)%Z; [|reflexivity].
    destruct (reduce_fuel opc fuel (map2 _ _ _)) as [x|]; [|reflexivity].
    destruct (reduce_fuel opc fuel (skipn _ _)) as [y|]; [|reflexivity]. cbn [option_map]. now rewrite H.
  - destruct v as [|x l]; [reflexivity|]. cbn [map option_map]. now rewrite FL.
Qed.

Lemma hmax_hmin v : hmax flt (map fneg v) = option_map fneg (hmin flt v).
Proof.
  unfold hmax, hmin, reduce. rewrite map_length. apply reduce_fuel_map. intros x y.
  now rewrite std_max_fneg, !fneg_fneg.
Qed.

Lemma fneg_nan a : fneg a = FNaN <-> a = FNaN.
Proof. destruct a; cbn; split; congruence. Qed.

Lemma nth_nan v a : nth_error (map fneg v) a = Some FNaN <-> nth_error v a = Some FNaN.
Proof.
  rewrite nth_error_map. destruct (nth_error v a) as [x|]; cbn; [|now split]. split; intros E; injection E as E.
  - now apply fneg_nan in E as ->.
  - now subst x.
Qed.

Lemma considered_fneg v j : considered (map fneg v) j <-> considered v j.
Proof. unfold considered. rewrite map_length. split; intros [L C]; (split; [exact L|]); intros a D; specialize (C a D); now rewrite nth_nan in *. Qed.

Theorem hmax_float v : v <> [] -> (Z.of_nat (length v) < two64)%Z ->
  exists r, hmax flt v = Some r
    /\ (r = FNaN <-> nth_error v 0 = Some FNaN)
    /\ (r <> FNaN -> (exists j, considered v j /\ nth_error v j = Some r)
                     /\ forall j a, considered v j -> nth_error v j = Some a -> flt r a = false).
Proof.
  intros NE L. destruct (hmin_float (map fneg v)) as (r & E & N & G); [destruct v; [contradiction|discriminate]|rewrite map_length; exact L|].
  exists (fneg r). assert (Ev : map fneg (map fneg v) = v).
  { rewrite map_map. rewrite (map_ext _ id); [apply map_id|apply fneg_fneg]. }
  split; [rewrite <- Ev, hmax_hmin, E; reflexivity|]. split; [rewrite fneg_nan, N; apply nth_nan|].
  intros Nr. destruct G as [(j & C & J) Lo]; [now rewrite fneg_nan in Nr|]. split.
  - exists j. split; [now apply considered_fneg|]. rewrite <- Ev, nth_error_map, J. reflexivity.
  - intros i a Ci Ei. rewrite <- (fneg_fneg a), flt_fneg. apply (Lo i); [now apply considered_fneg|].
    now rewrite nth_error_map, Ei.
Qed.

(** A power of two of lanes: lane j does not matter iff one of the lanes j mod 2^s is NaN. *)
Lemma decides_pow k j a : j < 2 ^ k -> (decides (2 ^ k) j a <-> a = j \/ exists s, s < k /\ a = j mod 2 ^ s).
Proof.
  revert j a. induction k as [|k IH]; intros j a L.
  - cbn [Nat.pow] in *. split; intros D.
    + left. pose proof (decides_lt _ _ _ D L). lia.
    + destruct D as [->|(s & ? & _)]; [constructor|lia].
  - destruct k as [|h].
    + cbn [Nat.pow Nat.mul Nat.add] in *. split; intros D.
      * destruct (decides_small _ _ _ D L ltac:(lia)) as [->| ->]; [now left|]. right. exists 0. split; [lia|]. now rewrite Nat.mod_1_r.
      * destruct D as [->|(s & Ls & ->)]; [constructor|]. assert (s = 0) as -> by lia. cbn [Nat.pow]. rewrite Nat.mod_1_r. constructor.
    + pose proof (pow_pos' h) as P. assert (P' := pow_pos' (S h)).
      assert (M : j mod 2 ^ S h < 2 ^ S h) by (apply Nat.mod_upper_bound; lia).
      assert (MM : forall s, s <= S h -> (j mod 2 ^ S h) mod 2 ^ s = j mod 2 ^ s).
      { intros s Hs. replace (S h) with (s + (S h - s)) by lia. rewrite Nat.pow_add_r, Nat.mod_mul_r by (apply Nat.pow_nonzero; lia).
        rewrite Nat.mul_comm, Nat.mod_add by (apply Nat.pow_nonzero; lia). apply Nat.mod_mod, Nat.pow_nonzero. lia. }
      split; intros D.
      * inversion D as [| |k n' j' a' B' J' D'|k n' j' a' B' J' D']; subst.
        -- now left.
        -- right. exists 0. split; [lia|]. now rewrite Nat.mod_1_r.
        -- assert (k = S h) as ->. { apply (top_unique (2 ^ S (S h))); [exact B'|]. cbn [Nat.pow] in *. lia. }
           apply IH in D'; [|exact M]. destruct D' as [->|(s & Ls & ->)]; right.
           ++ exists (S h). split; [lia|reflexivity].
           ++ exists s. split; [lia|]. apply MM. lia.
        -- assert (k = S h) as ->. { apply (top_unique (2 ^ S (S h))); [exact B'|]. cbn [Nat.pow] in *. lia. }
           lia.
      * destruct D as [->|(s & Ls & ->)]; [constructor|].
        apply (decides_half (S h)); [cbn [Nat.pow] in *; lia|exact L|]. apply IH; [exact M|].
        destruct (Nat.eq_dec s (S h)) as [->|Hs]; [now left|]. right. exists s. split; [lia|]. symmetry. apply MM. lia.
Qed.

Theorem considered_pow v k : length v = 2 ^ k -> forall j, considered v j <->
  (exists a, nth_error v j = Some a /\ a <> FNaN) /\ forall s, s < k -> nth_error v (j mod 2 ^ s) <> Some FNaN.
Proof.
  intros E j. unfold considered. rewrite E. split.
  - intros [L C]. split.
    + destruct (nth_error v j) as [a|] eqn:Ej; [|apply nth_error_None in Ej; lia]. exists a. split; [reflexivity|].
      intros ->. now apply (C j); [constructor|].
    + intros s Ls. apply C. apply decides_pow; [exact L|]. right. now exists s.
  - intros [(a & Ej & N) C]. assert (L : j < 2 ^ k) by (rewrite <- E; apply nth_error_Some; congruence). split; [exact L|].
    intros x D. apply decides_pow in D; [|exact L]. destruct D as [->|(s & Ls & ->)]; [congruence|now apply C].
Qed.

Theorem hmin_nan_refuted : exists v r, ~ In FNaN (firstn 1 v) /\ hmin flt v = Some r /\ ~ is_min flt v r.
Proof.
  exists [FFin 1; FNaN; FFin 2; FFin 0], (FFin 1). split; [intros [H|[]]; discriminate|]. split; [reflexivity|].
  intros [_ H]. specialize (H (FFin 0)). discriminate H. cbn. tauto.
Qed.
Theorem hmax_nan_refuted : exists v r, ~ In FNaN (firstn 1 v) /\ hmax flt v = Some r /\ ~ is_max flt v r.
Proof.
  exists [FFin 1; FNaN; FFin 0; FFin 2], (FFin 1). split; [intros [H|[]]; discriminate|]. split; [reflexivity|].
  intros [_ H]. specialize (H (FFin 2)). discriminate H. cbn. tauto.
Qed.
