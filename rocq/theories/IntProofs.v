(** Proofs about the integer operators of simd (C13, C14). *)
From Verif Require Import Base BaseFacts LaneModel LaneProofs IntModel.
From Coq Require Import ZifyBool ZifyNat.
Ltac Zify.zify_post_hook ::= idtac.

(** ** Specification *)

(** [r] has in each lane static_cast<T> of the scalar expression [f] on the lanes of [x] (and [y]). *)
Definition lanes1 (t : ity) (f : Z -> res Z) (x r : list Z) : Prop :=
  length r = length x
  /\ forall i a, nth_error x i = Some a -> exists e, f a = Ok e /\ nth_error r i = Some (convert t e).
Definition lanes2 (t : ity) (f : Z -> Z -> res Z) (x y r : list Z) : Prop :=
  length r = length x
  /\ forall i a b, nth_error x i = Some a -> nth_error y i = Some b ->
       exists e, f a b = Ok e /\ nth_error r i = Some (convert t e).
(** The scalar expression is undefined on some lane. *)
Definition faults1 (f : Z -> res Z) (x : list Z) : Prop :=
  exists i a, nth_error x i = Some a /\ f a = Stop SUB.
Definition faults2 (f : Z -> Z -> res Z) (x y : list Z) : Prop :=
  exists i a b, nth_error x i = Some a /\ nth_error y i = Some b /\ f a b = Stop SUB.

(** [res] is [lanes] when all lanes are defined, undefined behaviour otherwise. *)
Definition computes (r : res (list Z)) (good : list Z -> Prop) (bad : Prop) : Prop :=
  (forall v, r = Ok v <-> good v) /\ (r = Stop SUB <-> bad) /\ (forall s, r = Stop s -> s = SUB).

(** ** C14 *)

Lemma lane_eq2 t (f : Z -> Z -> res Z) x y : length x = length y ->
  gen_conv t (length x) (fun i => bindR (lane x i) (fun a => bindR (lane y i) (f a)))
  = mapR (fun '(a, b) => bindR (f a b) (fun e => Ok (convert t e))) (combine x y).
Proof.
  intros H. rewrite <- (gen_lanes2 (fun a b => bindR (f a b) (fun e => Ok (convert t e))) x y H).
  unfold gen_conv, gen. apply mapR_ext'. intros i _. rewrite bindR_assoc.
  destruct (lane x i); [|reflexivity]. cbn [bindR]. now rewrite bindR_assoc.
Qed.

Lemma lane_eq1 t (f : Z -> res Z) x :
  gen_conv t (length x) (fun i => bindR (lane x i) f) = mapR (fun a => bindR (f a) (fun e => Ok (convert t e))) x.
Proof.
  rewrite <- (gen_lanes (fun a => bindR (f a) (fun e => Ok (convert t e))) x).
  unfold gen_conv, gen. apply mapR_ext'. intros i _. now rewrite bindR_assoc.
Qed.

Lemma conv_only_ub t (r : res Z) : only_ub r -> only_ub (bindR r (fun e => Ok (convert t e))).
Proof. intros H s E. destruct r; cbn in E; [discriminate|]. apply H. congruence. Qed.

Lemma lanes1_computes t f x : (forall a, only_ub (f a)) ->
  computes (mapR (fun a => bindR (f a) (fun e => Ok (convert t e))) x) (lanes1 t f x) (faults1 f x).
Proof.
  intros Hf. split; [|split].
  - intros v. rewrite mapR_iff. unfold lanes1. split; intros [Hl Hn]; (split; [assumption|]); intros i a Ha.
    + destruct (Hn i a Ha) as (y & Ey & Hy). destruct (f a) as [e|]; [|discriminate]. cbn in Ey. injection Ey as <-.
      eauto.
    + destruct (Hn i a Ha) as (e & Ee & Hy). rewrite Ee. cbn. eauto.
  - rewrite (proj1 (mapR_ub _ x (fun a => conv_only_ub t _ (Hf a)))). unfold faults1.
    split; intros (i & a & Ha & E); exists i, a; (split; [assumption|]).
    + destruct (f a); cbn in E; congruence.
    + now rewrite E.
  - intros s. apply (proj2 (mapR_ub _ x (fun a => conv_only_ub t _ (Hf a)))).
Qed.

Lemma lanes2_computes t f x y : (forall a b, only_ub (f a b)) -> length x = length y ->
  computes (mapR (fun '(a, b) => bindR (f a b) (fun e => Ok (convert t e))) (combine x y))
    (lanes2 t f x y) (faults2 f x y).
Proof.
  intros Hf Hlen.
  assert (Hu : forall p : Z * Z, only_ub ((fun '(a, b) => bindR (f a b) (fun e => Ok (convert t e))) p))
    by (intros [a b]; apply conv_only_ub, Hf).
  split; [|split].
  - intros v. rewrite mapR_iff. rewrite combine_length. unfold lanes2.
    replace (Nat.min (length x) (length y)) with (length x) by lia.
    split; intros [Hl Hn]; (split; [assumption|]).
    + intros i a b Ha Hb. destruct (Hn i (a, b)) as (r & Er & Hr); [now apply combine_nth_some|].
      destruct (f a b) as [e|]; [|discriminate]. cbn in Er. injection Er as <-. eauto.
    + intros i [a b] Hab. apply combine_nth_some in Hab. destruct Hab as [Ha Hb].
      destruct (Hn i a b Ha Hb) as (e & Ee & Hr). rewrite Ee. cbn. eauto.
  - rewrite (proj1 (mapR_ub _ (combine x y) Hu)). unfold faults2. split.
    + intros (i & [a b] & Hab & E). apply combine_nth_some in Hab. destruct Hab as [Ha Hb].
      exists i, a, b. split; [assumption|]. split; [assumption|]. destruct (f a b); cbn in E; congruence.
    + intros (i & a & b & Ha & Hb & E). exists i, (a, b). split; [now apply combine_nth_some|]. now rewrite E.
  - intros s. apply (proj2 (mapR_ub _ (combine x y) Hu)).
Qed.

Lemma computed_only_ub p x : only_ub (computed p x).
Proof. unfold computed. intros s. destruct (sgn p); [|discriminate]. destruct (in_type p x); [discriminate|congruence]. Qed.

Lemma shift_left_only_ub l p x y : only_ub (shift_left l p x y).
Proof.
  unfold shift_left. intros s. destruct ((0 <=? y) && (y <? bits p)); [|congruence].
  destruct (sgn p && negb (l_cxx20 l)); [|discriminate].
  destruct ((0 <=? x) && (x * 2 ^ y <? 2 ^ bits p)); [discriminate|congruence].
Qed.

Lemma shift_right_only_ub p x y : only_ub (shift_right p x y).
Proof. unfold shift_right. intros s. destruct ((0 <=? y) && (y <? bits p)); [discriminate|congruence]. Qed.

Lemma expr_bin_only_ub l t o a b : only_ub (expr_bin l t o a b).
Proof.
  unfold expr_bin, eval_bin. destruct o; try apply computed_only_ub; try (intros s; discriminate).
  - destruct (b =? 0); [intros s; congruence|apply computed_only_ub].
  - destruct (b =? 0); [intros s; congruence|]. intros s H.
    destruct (computed (promote l t) (Z.quot a b)) as [q|s'] eqn:E; [discriminate|].
    apply (computed_only_ub (promote l t) (Z.quot a b)). cbn in H. congruence.
  - apply shift_left_only_ub.
  - apply shift_right_only_ub.
Qed.

Theorem binary_lanes l t o x y : length x = length y ->
  computes (f_bin l t o x y) (lanes2 t (expr_bin l t o) x y) (faults2 (expr_bin l t o) x y).
Proof.
  intros H. unfold f_bin. rewrite (lane_eq2 t (expr_bin l t o) x y H).
  apply lanes2_computes; [intros; apply expr_bin_only_ub|assumption].
Qed.

Theorem shift_int_lanes l t left x n :
  computes (f_shift_int l t left x n) (lanes1 t (fun a => expr_shift_int l t left a n) x)
    (faults1 (fun a => expr_shift_int l t left a n) x).
Proof.
  unfold f_shift_int. rewrite (lane_eq1 t (fun a => expr_shift_int l t left a n) x). apply lanes1_computes.
  intros a. unfold expr_shift_int. destruct left; [apply shift_left_only_ub|apply shift_right_only_ub].
Qed.

Theorem neg_lanes l t x : computes (f_neg l t x) (lanes1 t (expr_neg l t) x) (faults1 (expr_neg l t) x).
Proof. unfold f_neg. rewrite lane_eq1. apply lanes1_computes. intros a. apply computed_only_ub. Qed.

Theorem compl_lanes l t x : computes (f_compl l t x) (lanes1 t (expr_compl l t) x) (faults1 (expr_compl l t) x).
Proof. unfold f_compl. rewrite lane_eq1. apply lanes1_computes. intros a s. discriminate. Qed.

Theorem lnot_lanes x : exists r, f_lnot x = Ok r /\ length r = length x
  /\ forall i a, nth_error x i = Some a -> nth_error r i = Some (a =? 0).
Proof.
  exists (map (fun a => a =? 0) x). unfold f_lnot. rewrite (gen_lanes (fun a => Ok (a =? 0)) x), mapR_pure.
  split; [reflexivity|]. split; [apply map_length|]. intros i a Ha.
  exact (map_nth_error (fun a => a =? 0) i x Ha).
Qed.

Theorem cmp_lanes o x y : length x = length y -> exists r, f_cmp o x y = Ok r /\ length r = length x
  /\ forall i a b, nth_error x i = Some a -> nth_error y i = Some b -> nth_error r i = Some (expr_cmp o a b).
Proof.
  intros Hl. exists (map (fun '(a, b) => expr_cmp o a b) (combine x y)). unfold f_cmp.
  rewrite (gen_lanes2 (fun a b => Ok (expr_cmp o a b)) x y Hl).
  rewrite (mapR_ext' _ (fun p => Ok ((fun '(a, b) => expr_cmp o a b) p))) by (intros [a b] _; reflexivity).
  rewrite mapR_pure. split; [reflexivity|]. rewrite map_length, combine_length. split; [lia|].
  intros i a b Ha Hb.
  apply (map_nth_error (fun '(a, b) => expr_cmp o a b) i (combine x y) (d := (a, b))).
  now apply combine_nth_some.
Qed.

(** Compound assignment, also with the same object on both sides. *)
Theorem assign_is_binary l t o x y : length x = length y -> f_assign l t o false x y = f_bin l t o x y.
Proof.
  intros H. unfold f_bin. rewrite (lane_eq2 t (expr_bin l t o) x y H). unfold f_assign.
  apply (loop_lanes2 (fun a b => bindR (expr_bin l t o a b) (fun e => Ok (convert t e)))); [assumption|].
  intros d a p. rewrite lane_app. cbn [bindR]. rewrite bindR_assoc.
  destruct (lane y (length d)) as [b|]; [|reflexivity]. cbn [bindR]. unfold assign_bin. rewrite !bindR_assoc.
  destruct (expr_bin l t o a b); [|reflexivity]. cbn [bindR]. now rewrite set_lane_app.
Qed.

Theorem assign_alias l t o x y : f_assign l t o true x y = f_bin l t o x x.
Proof.
  unfold f_bin. rewrite (lane_eq2 t (expr_bin l t o) x x eq_refl). unfold f_assign.
  rewrite (loop_lanes (fun a => bindR (expr_bin l t o a a) (fun e => Ok (convert t e)))).
  - induction x as [|a x IH]; [reflexivity|]. cbn [mapR combine]. now rewrite IH.
  - intros d a p. rewrite lane_app. cbn [bindR]. unfold assign_bin. rewrite !bindR_assoc.
    destruct (expr_bin l t o a a); [|reflexivity]. cbn [bindR]. now rewrite set_lane_app.
Qed.

Lemma step_is_binary l t o x : o = Add \/ o = Sub ->
  loop 0 (length x) (fun i cur => bindR (lane cur i) (fun a =>
    bindR (assign_bin l t o a 1) (fun r => Ok (set_lane cur i r)))) x = f_bin l t o x (repeat 1 (length x)).
Proof.
  intros _. unfold f_bin. rewrite (lane_eq2 t (expr_bin l t o)) by now rewrite repeat_length.
  rewrite (loop_lanes (fun a => bindR (expr_bin l t o a 1) (fun e => Ok (convert t e)))).
  - induction x as [|a x IH]; [reflexivity|]. cbn [length repeat mapR combine]. now rewrite IH.
  - intros d a p. rewrite lane_app. cbn [bindR]. unfold assign_bin. rewrite !bindR_assoc.
    destruct (expr_bin l t o a 1); [|reflexivity]. cbn [bindR]. now rewrite set_lane_app.
Qed.

Theorem incr_is_binary l t x : f_incr l t x = f_bin l t Add x (repeat 1 (length x)).
Proof. apply (step_is_binary l t Add). now left. Qed.
Theorem decr_is_binary l t x : f_decr l t x = f_bin l t Sub x (repeat 1 (length x)).
Proof. apply (step_is_binary l t Sub). now right. Qed.

Theorem post_steps l t x :
  f_post_incr l t x = bindR (f_incr l t x) (fun v => Ok (x, v))
  /\ f_post_decr l t x = bindR (f_decr l t x) (fun v => Ok (x, v)).
Proof. split; reflexivity. Qed.

(** The scalar ABI agrees with the one-lane fixed_size. *)
Theorem scalar_is_fixed l t o c left a b :
  f_bin l t o [a] [b] = bindR (s_bin l t o a b) (fun r => Ok [r])
  /\ f_assign l t o false [a] [b] = bindR (s_assign l t o a b) (fun r => Ok [r])
  /\ f_shift_int l t left [a] b = bindR (s_shift_int l t left a b) (fun r => Ok [r])
  /\ f_incr l t [a] = bindR (s_incr l t a) (fun r => Ok [r])
  /\ f_decr l t [a] = bindR (s_decr l t a) (fun r => Ok [r])
  /\ f_compl l t [a] = bindR (s_compl l t a) (fun r => Ok [r])
  /\ f_neg l t [a] = bindR (s_neg l t a) (fun r => Ok [r])
  /\ f_lnot [a] = Ok [s_lnot a] /\ f_cmp c [a] [b] = Ok [s_cmp c a b].
Proof.
  rewrite assign_is_binary by reflexivity. rewrite incr_is_binary, decr_is_binary. cbn [length repeat].
  unfold f_bin, f_shift_int, f_compl, f_neg.
  rewrite !(lane_eq2 t (expr_bin l t _)) by reflexivity. rewrite !lane_eq1.
  cbn [combine mapR]. unfold s_bin, s_assign, s_shift_int, s_incr, s_decr, s_compl, s_neg, incr, decr, assign_bin.
  repeat apply conj; try reflexivity.
  all: match goal with |- bindR ?r _ = _ => destruct r; reflexivity end.
Qed.

(** ** Scalar facts *)

Definition type_ok (t : ity) : Prop := 0 < bits t.

Lemma pow_half n : 0 < n -> 2 ^ n = 2 * 2 ^ (n - 1).
Proof. intros H. rewrite <- Z.pow_succ_r by lia. f_equal. lia. Qed.

(** static_cast gives the unique value of the type congruent to its operand. *)
Theorem convert_spec t x : type_ok t ->
  in_type t (convert t x) = true /\ (convert t x) mod 2 ^ bits t = x mod 2 ^ bits t
  /\ forall y, in_type t y = true -> y mod 2 ^ bits t = x mod 2 ^ bits t -> y = convert t x.
Proof.
  intros Ht. unfold type_ok in Ht. unfold in_type, convert.
  pose proof (pow_half (bits t) Ht) as Hp. assert (0 < 2 ^ (bits t - 1)) by (apply Z.pow_pos_nonneg; lia).
  set (M := 2 ^ bits t) in *. set (h := 2 ^ (bits t - 1)) in *. destruct (sgn t).
  - pose proof (Z.mod_pos_bound (x + h) M ltac:(lia)) as Hb. split; [lia|]. split.
    + rewrite Zminus_mod, Zmod_mod, <- Zminus_mod. f_equal. lia.
    + intros y Hy E. enough ((y + h) mod M = (x + h) mod M) as E'.
      { rewrite Z.mod_small in E' by lia. lia. }
      rewrite Zplus_mod, E, <- Zplus_mod. reflexivity.
  - pose proof (Z.mod_pos_bound x M ltac:(lia)) as Hb. split; [lia|]. split; [apply Zmod_mod|].
    intros y Hy E. rewrite Z.mod_small in E by lia. exact E.
Qed.

Lemma convert_id t x : type_ok t -> in_type t x = true -> convert t x = x.
Proof. intros Ht Hx. symmetry. apply (convert_spec t x Ht); [assumption|reflexivity]. Qed.

(** ** C13 *)

(** The supported widths: nothing strictly between half of int and int. *)
Definition width_ok (l : lang) (t : ity) : Prop := 0 < bits t /\ 0 < l_int l /\ (2 * bits t <= l_int l \/ l_int l <= bits t).

Definition is_unsigned (t : ity) : Prop := sgn t = false.

Definition math (o : binop) (a b : Z) : Z :=
  match o with
  | Add => a + b | Sub => a - b | Mul => a * b | And => Z.land a b | Or => Z.lor a b | Xor => Z.lxor a b
  | _ => 0
  end.

Lemma unsigned_range t a : is_unsigned t -> in_type t a = true <-> 0 <= a < 2 ^ bits t.
Proof. unfold is_unsigned, in_type. intros ->. lia. Qed.

Lemma computed_conv l t x : width_ok l t -> is_unsigned t ->
  (bits t < l_int l -> - 2 ^ (l_int l - 1) <= x < 2 ^ (l_int l - 1)) ->
  bindR (computed (promote l t) x) (fun e => Ok (convert t e)) = Ok (x mod 2 ^ bits t).
Proof.
  intros Hw Hu Hx. unfold promote. destruct (Z.ltb_spec (bits t) (l_int l)) as [H|H].
  - specialize (Hx H). unfold computed, in_type. cbn [sgn bits].
    assert (((- 2 ^ (l_int l - 1) <=? x) && (x <? 2 ^ (l_int l - 1))) = true) as E by lia. rewrite E.
    cbn [bindR]. unfold convert. rewrite Hu. reflexivity.
  - unfold computed. rewrite Hu. cbn [bindR]. unfold convert. rewrite Hu. f_equal.
    apply Zmod_mod.
Qed.

Lemma small_pow l t : width_ok l t -> bits t < l_int l -> 2 * 2 ^ bits t <= 2 ^ (l_int l - 1) \/ (bits t = 1 /\ l_int l = 2).
Proof.
  intros (Hb & Hi & [H|H]) Hlt; [|lia]. destruct (Z.eq_dec (bits t) 1) as [E|E].
  - destruct (Z.eq_dec (l_int l) 2); [now right|]. left. rewrite <- Z.pow_succ_r by lia.
    apply Z.pow_le_mono_r; lia.
  - left. rewrite <- Z.pow_succ_r by lia. apply Z.pow_le_mono_r; lia.
Qed.

(** int has at least 16 bits. *)
Definition lang_ok (l : lang) : Prop := 16 <= l_int l.

Lemma small_pow' l t : lang_ok l -> width_ok l t -> bits t < l_int l -> 2 * 2 ^ bits t <= 2 ^ (l_int l - 1).
Proof. unfold lang_ok. intros Hl Hw Hlt. destruct (small_pow l t Hw Hlt) as [H|[? H]]; [assumption|lia]. Qed.

Lemma pow_pos n : 0 <= n -> 0 < 2 ^ n.
Proof. intros H. apply Z.pow_pos_nonneg; lia. Qed.

Lemma bitwise_range o a b n : 0 <= n -> 0 <= a < 2 ^ n -> 0 <= b < 2 ^ n -> o = And \/ o = Or \/ o = Xor ->
  0 <= math o a b < 2 ^ n.
Proof.
  intros Hn Ha Hb Ho.
  assert (K : forall x, 0 <= x -> (x < 2 ^ n <-> Z.shiftr x n = 0)).
  { intros x Hx. rewrite Z.shiftr_div_pow2 by assumption. pose proof (pow_pos n Hn) as Hp. split.
    - intros H. apply Z.div_small. lia.
    - intros H. apply Z.div_small_iff in H; lia. }
  assert (Ka := proj1 (K a ltac:(lia)) ltac:(lia)). assert (Kb := proj1 (K b ltac:(lia)) ltac:(lia)).
  destruct Ho as [->|[->| ->]]; cbn [math].
  - split; [apply Z.land_nonneg; lia|]. apply K; [apply Z.land_nonneg; lia|]. now rewrite Z.shiftr_land, Ka, Kb.
  - split; [apply Z.lor_nonneg; lia|]. apply K; [apply Z.lor_nonneg; lia|]. now rewrite Z.shiftr_lor, Ka, Kb.
  - split; [apply Z.lxor_nonneg; lia|]. apply K; [apply Z.lxor_nonneg; lia|]. now rewrite Z.shiftr_lxor, Ka, Kb.
Qed.

(** The multiplication is safe if int is at least as wide, plus one bit, as twice the operands, or
    if the operands are not promoted at all. *)
Definition mul_ok (l : lang) (t : ity) : Prop := l_int l <= bits t \/ 2 * bits t < l_int l.

Lemma unsigned_bin l t o a b : lang_ok l -> width_ok l t -> is_unsigned t ->
  in_type t a = true -> in_type t b = true ->
  o = Add \/ o = Sub \/ o = And \/ o = Or \/ o = Xor \/ (o = Mul /\ mul_ok l t) ->
  bindR (expr_bin l t o a b) (fun e => Ok (convert t e)) = Ok (math o a b mod 2 ^ bits t).
Proof.
  intros Hl Hw Hu Ha Hb Ho. apply (unsigned_range t a Hu) in Ha. apply (unsigned_range t b Hu) in Hb.
  assert (Hn : 0 < bits t) by apply Hw. unfold expr_bin, eval_bin.
  pose proof (pow_pos (bits t) ltac:(lia)) as Hp.
  destruct Ho as [->|[->|[->|[->|[->|[-> Hm]]]]]]; cbn [math].
  - apply computed_conv; [assumption|assumption|]. intros Hlt. pose proof (small_pow' l t Hl Hw Hlt). lia.
  - apply computed_conv; [assumption|assumption|]. intros Hlt. pose proof (small_pow' l t Hl Hw Hlt). lia.
  - cbn [bindR]. unfold convert. now rewrite Hu.
  - cbn [bindR]. unfold convert. now rewrite Hu.
  - cbn [bindR]. unfold convert. now rewrite Hu.
  - apply computed_conv; [assumption|assumption|]. intros Hlt. destruct Hm as [Hm|Hm]; [lia|].
    assert (2 ^ bits t * 2 ^ bits t <= 2 ^ (l_int l - 1)).
    { rewrite <- Z.pow_add_r by lia. apply Z.pow_le_mono_r; lia. }
    clear - Ha Hb H Hp. nia.
Qed.

Definition all_in (t : ity) (x : list Z) : Prop := forall a, In a x -> in_type t a = true.

(** [r] is the mathematical result modulo 2^w in each lane. *)
Definition modular2 (t : ity) (f : Z -> Z -> Z) (x y r : list Z) : Prop :=
  length r = length x /\ forall i a b, nth_error x i = Some a -> nth_error y i = Some b ->
    nth_error r i = Some (f a b mod 2 ^ bits t).
Definition modular1 (t : ity) (f : Z -> Z) (x r : list Z) : Prop :=
  length r = length x /\ forall i a, nth_error x i = Some a -> nth_error r i = Some (f a mod 2 ^ bits t).

Theorem unsigned_binary l t o x y : lang_ok l -> width_ok l t -> is_unsigned t -> length x = length y ->
  all_in t x -> all_in t y ->
  o = Add \/ o = Sub \/ o = And \/ o = Or \/ o = Xor \/ (o = Mul /\ mul_ok l t) ->
  exists r, f_bin l t o x y = Ok r /\ f_assign l t o false x y = Ok r /\ modular2 t (math o) x y r.
Proof.
  intros Hl Hw Hu Hlen Hx Hy Ho. exists (map (fun '(a, b) => math o a b mod 2 ^ bits t) (combine x y)).
  assert (E : f_bin l t o x y = Ok (map (fun '(a, b) => math o a b mod 2 ^ bits t) (combine x y))).
  { unfold f_bin. rewrite (lane_eq2 t (expr_bin l t o) x y Hlen), <- mapR_pure. apply mapR_ext'.
    intros [a b] Hab. pose proof (in_combine_l _ _ _ _ Hab) as Ha. pose proof (in_combine_r _ _ _ _ Hab) as Hb.
    apply unsigned_bin; auto. }
  split; [exact E|]. split; [rewrite assign_is_binary by assumption; exact E|].
  split; [rewrite map_length, combine_length; lia|]. intros i a b Ha Hb.
  apply (map_nth_error (fun '(a, b) => math o a b mod 2 ^ bits t) i (combine x y) (d := (a, b))).
  now apply combine_nth_some.
Qed.

Lemma repeat_nth {A} (c : A) n i : (i < n)%nat -> nth_error (repeat c n) i = Some c.
Proof. revert i. induction n as [|n IH]; intros i H; [lia|]. destruct i as [|i]; [reflexivity|]. apply IH. lia. Qed.

Theorem unsigned_unary l t x : lang_ok l -> width_ok l t -> is_unsigned t -> all_in t x ->
  (exists r, f_neg l t x = Ok r /\ modular1 t (fun a => - a) x r)
  /\ (exists r, f_compl l t x = Ok r /\ modular1 t (fun a => 2 ^ bits t - 1 - a) x r)
  /\ (exists r, f_incr l t x = Ok r /\ modular1 t (fun a => a + 1) x r)
  /\ (exists r, f_decr l t x = Ok r /\ modular1 t (fun a => a - 1) x r).
Proof.
  intros Hl Hw Hu Hx. assert (Hn : 0 < bits t) by apply Hw. pose proof (pow_pos (bits t) ltac:(lia)) as Hp.
  assert (step : forall o f, (forall a b, math o a b = f a b) -> (o = Add \/ o = Sub) -> exists r,
      f_bin l t o x (repeat 1 (length x)) = Ok r /\ modular1 t (fun a => f a 1) x r).
  { intros o f Hf Ho. destruct (unsigned_binary l t o x (repeat 1 (length x))) as (r & E & _ & Hlen & Hr);
      [assumption|assumption|assumption|now rewrite repeat_length|assumption|..].
    - intros b Hb. apply repeat_spec in Hb. subst b. apply (unsigned_range t 1 Hu). split; [lia|].
      apply (Z.pow_gt_1 2 (bits t)); lia.
    - destruct Ho; auto.
    - exists r. split; [exact E|]. split; [exact Hlen|]. intros i a Ha. rewrite <- Hf. apply Hr; [assumption|].
      apply repeat_nth. apply nth_error_Some. congruence. }
  split; [|split; [|split]].
  - exists (map (fun a => (- a) mod 2 ^ bits t) x). unfold f_neg. rewrite lane_eq1. split.
    + rewrite <- mapR_pure. apply mapR_ext'. intros a Ha. apply computed_conv; [assumption|assumption|].
      intros Hlt. apply Hx in Ha. apply (unsigned_range t a Hu) in Ha. pose proof (small_pow' l t Hl Hw Hlt). lia.
    + split; [apply map_length|]. intros i a Ha. exact (map_nth_error (fun a => (- a) mod 2 ^ bits t) i x Ha).
  - exists (map (fun a => (2 ^ bits t - 1 - a) mod 2 ^ bits t) x). unfold f_compl. rewrite lane_eq1. split.
    + rewrite <- mapR_pure. apply mapR_ext'. intros a Ha. unfold expr_compl. cbn [bindR]. f_equal.
      apply Hx in Ha. apply (unsigned_range t a Hu) in Ha. unfold promote.
      destruct (Z.ltb_spec (bits t) (l_int l)) as [Hlt|Hge].
      * pose proof (small_pow' l t Hl Hw Hlt) as Hs. rewrite (convert_id (mkity (l_int l) true)).
        -- unfold convert. rewrite Hu. rewrite (Z.mod_small (2 ^ bits t - 1 - a)) by lia. symmetry.
           apply Z.mod_unique_pos with (-1); [lia|]. unfold Z.lnot. lia.
        -- unfold type_ok. cbn [bits]. lia.
        -- unfold in_type. cbn [sgn bits]. unfold Z.lnot. lia.
      * unfold convert. rewrite Hu, Zmod_mod. rewrite (Z.mod_small (2 ^ bits t - 1 - a)) by lia. symmetry.
        apply Z.mod_unique_pos with (-1); [lia|]. unfold Z.lnot. lia.
    + split; [apply map_length|]. intros i a Ha.
      exact (map_nth_error (fun a => (2 ^ bits t - 1 - a) mod 2 ^ bits t) i x Ha).
  - rewrite incr_is_binary. apply (step Add Z.add); auto.
  - rewrite decr_is_binary. apply (step Sub Z.sub); auto.
Qed.

(** The multiplication of 16-bit unsigned integers with a 32-bit int. *)
Definition lp64 := mklang 32 true.
Definition u16 := mkity 16 false.

Theorem unsigned_mul_refuted :
  exists l t x y, lang_ok l /\ width_ok l t /\ is_unsigned t /\ length x = length y /\ all_in t x /\ all_in t y
    /\ f_bin l t Mul x y = Stop SUB.
Proof.
  exists lp64, u16, [65535], [65535].
  assert (W : width_ok lp64 u16) by (unfold width_ok, lp64, u16; cbn [bits l_int]; lia).
  assert (I : all_in u16 [65535]) by (intros a [<-|[]]; reflexivity).
  split; [unfold lang_ok, lp64; cbn; lia|]. split; [exact W|]. split; [reflexivity|]. split; [reflexivity|].
  split; [exact I|]. split; [exact I|]. vm_compute. reflexivity.
Qed.

(** In general: without the guard there are always operands for which it is undefined. *)
Theorem unsigned_mul_needs_guard l t : lang_ok l -> width_ok l t -> is_unsigned t -> ~ mul_ok l t ->
  exists a, in_type t a = true /\ f_bin l t Mul [a] [a] = Stop SUB.
Proof.
  intros Hl Hw Hu Hm. unfold mul_ok in Hm. destruct Hw as (Hb & Hi & Hw).
  assert (E : l_int l = 2 * bits t) by lia. exists (2 ^ bits t - 1).
  pose proof (pow_pos (bits t) ltac:(lia)) as Hp. split; [apply (unsigned_range t _ Hu); lia|].
  unfold f_bin. rewrite (lane_eq2 t (expr_bin l t Mul)) by reflexivity. cbn [combine mapR].
  unfold expr_bin, eval_bin, promote. destruct (Z.ltb_spec (bits t) (l_int l)); [|lia].
  unfold computed, in_type. cbn [sgn bits].
  assert (2 ^ (l_int l - 1) = 2 ^ bits t * 2 ^ (bits t - 1)) as Ep by (rewrite <- Z.pow_add_r by lia; f_equal; lia).
  assert (2 ^ bits t = 2 * 2 ^ (bits t - 1)) as Eh by (apply pow_half; lia).
  assert (4 <= 2 ^ (bits t - 1)).
  { change 4 with (2 ^ 2). apply Z.pow_le_mono_r; unfold lang_ok in Hl; lia. }
  assert (2 ^ (l_int l - 1) <= (2 ^ bits t - 1) * (2 ^ bits t - 1)).
  { rewrite Ep, Eh. clear - H0. nia. }
  destruct (Z.ltb_spec ((2 ^ bits t - 1) * (2 ^ bits t - 1)) (2 ^ (l_int l - 1))); [lia|].
  rewrite andb_false_r. reflexivity.
Qed.
