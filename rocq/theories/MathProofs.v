(** The math functions work lane by lane. *)
From Verif Require Import Base BaseFacts LaneModel LaneProofs IntModel IntProofs IntSpec IntSpecProofs MathModel.
From Coq Require Import ZifyBool ZifyNat.
Ltac Zify.zify_post_hook ::= idtac.

Lemma seq_nth_error n i j : nth_error (seq 0 n) i = Some j <-> j = i /\ (i < n)%nat.
Proof.
  split.
  - intros H. assert (i < n)%nat by (rewrite <- (seq_length n 0); apply nth_error_Some; congruence).
    rewrite (nth_error_nth' _ 0%nat) in H by (rewrite seq_length; lia). rewrite seq_nth in H by lia.
    split; [|assumption]. now injection H.
  - intros [-> H]. rewrite (nth_error_nth' _ 0%nat) by (rewrite seq_length; lia). now rewrite seq_nth by lia.
Qed.

Lemma lane_some {A} (v : list A) i a : lane v i = Ok a <-> nth_error v i = Some a.
Proof. unfold lane. destruct (nth_error v i); cbn; split; congruence. Qed.

(** A generator over the lanes of [x]. *)
Lemma gen_iff {R} (n : nat) (g : nat -> res R) r :
  gen n g = Ok r <-> length r = n /\ forall i, (i < n)%nat -> exists b, g i = Ok b /\ nth_error r i = Some b.
Proof.
  unfold gen. rewrite mapR_iff, seq_length. split; intros [L H]; (split; [assumption|]).
  - intros i Hi. apply (H i i). now apply seq_nth_error.
  - intros i j Hj. apply seq_nth_error in Hj. destruct Hj as [-> Hi]. now apply H.
Qed.

Lemma gen_ub {R} (n : nat) (g : nat -> res R) : (forall i, only_ub (g i)) ->
  (gen n g = Stop SUB <-> exists i, (i < n)%nat /\ g i = Stop SUB) /\ only_ub (gen n g).
Proof.
  intros H. unfold gen. destruct (mapR_ub g (seq 0 n) H) as [A B]. split; [|exact B]. rewrite A. split.
  - intros (i & j & Hj & E). apply seq_nth_error in Hj. destruct Hj as [-> Hi]. eauto.
  - intros (i & Hi & E). exists i, i. split; [now apply seq_nth_error|assumption].
Qed.

Lemma in_range {A} (x : list A) i : (i < length x)%nat -> exists a, nth_error x i = Some a.
Proof. intros H. destruct (nth_error x i) eqn:E; [eauto|]. apply nth_error_None in E. lia. Qed.

Theorem math1_lanes {A R} (f : A -> res R) x : (forall a, only_ub (f a)) ->
  (forall r, math1 f x = Ok r <->
     length r = length x /\ forall i a, nth_error x i = Some a -> exists b, f a = Ok b /\ nth_error r i = Some b)
  /\ (math1 f x = Stop SUB <-> exists i a, nth_error x i = Some a /\ f a = Stop SUB)
  /\ only_ub (math1 f x).
Proof.
  intros Hf. unfold math1. split; [|split].
  - intros r. rewrite gen_iff. split; intros [L H]; (split; [assumption|]).
    + intros i a Ha. assert (Hi : (i < length x)%nat) by (apply nth_error_Some; congruence).
      destruct (H i Hi) as (b & Eb & Hb). exists b. split; [|assumption].
      apply lane_some in Ha. rewrite Ha in Eb. exact Eb.
    + intros i Hi. destruct (in_range x i Hi) as [a Ha]. destruct (H i a Ha) as (b & Eb & Hb).
      exists b. split; [|assumption]. apply lane_some in Ha. now rewrite Ha.
  - rewrite gen_lanes. rewrite (proj1 (mapR_ub f x Hf)). reflexivity.
  - rewrite gen_lanes. apply (proj2 (mapR_ub f x Hf)).
Qed.

Theorem math2_lanes {A B R} (f : A -> B -> res R) x y : length x = length y -> forall r, math2 f x y = Ok r <->
  length r = length x /\ forall i a b, nth_error x i = Some a -> nth_error y i = Some b ->
    exists c, f a b = Ok c /\ nth_error r i = Some c.
Proof.
  intros L r. unfold math2. rewrite gen_iff. split; intros [Lr H]; (split; [assumption|]).
  - intros i a b Ha Hb. assert (Hi : (i < length x)%nat) by (apply nth_error_Some; congruence).
    destruct (H i Hi) as (c & Ec & Hc). exists c. split; [|assumption].
    apply lane_some in Ha. apply lane_some in Hb. rewrite Ha in Ec. cbn in Ec. rewrite Hb in Ec. exact Ec.
  - intros i Hi. destruct (in_range x i Hi) as [a Ha]. destruct (in_range y i ltac:(lia)) as [b Hb].
    destruct (H i a b Ha Hb) as (c & Ec & Hc). exists c. split; [|assumption].
    apply lane_some in Ha. apply lane_some in Hb. rewrite Ha. cbn. now rewrite Hb.
Qed.

Theorem math3_lanes {A B C R} (f : A -> B -> C -> res R) x y z : length x = length y -> length x = length z ->
  forall r, math3 f x y z = Ok r <->
  length r = length x /\ forall i a b c, nth_error x i = Some a -> nth_error y i = Some b -> nth_error z i = Some c ->
    exists d, f a b c = Ok d /\ nth_error r i = Some d.
Proof.
  intros L L' r. unfold math3. rewrite gen_iff. split; intros [Lr H]; (split; [assumption|]).
  - intros i a b c Ha Hb Hc. assert (Hi : (i < length x)%nat) by (apply nth_error_Some; congruence).
    destruct (H i Hi) as (d & Ed & Hd). exists d. split; [|assumption].
    apply lane_some in Ha. apply lane_some in Hb. apply lane_some in Hc.
    rewrite Ha in Ed. cbn in Ed. rewrite Hb in Ed. cbn in Ed. rewrite Hc in Ed. exact Ed.
  - intros i Hi. destruct (in_range x i Hi) as [a Ha]. destruct (in_range y i ltac:(lia)) as [b Hb].
    destruct (in_range z i ltac:(lia)) as [c Hc].
    destruct (H i a b c Ha Hb Hc) as (d & Ed & Hd). exists d. split; [|assumption].
    apply lane_some in Ha. apply lane_some in Hb. apply lane_some in Hc. rewrite Ha. cbn. rewrite Hb. cbn. now rewrite Hc.
Qed.

Lemma lane_bind_ub {A R} (x : list A) (k : A -> res R) i : (forall a, only_ub (k a)) -> only_ub (bindR (lane x i) k).
Proof.
  intros H s. unfold lane. destruct (nth_error x i) as [a|]; cbn; [apply H|congruence].
Qed.

Theorem math2_ub {A B R} (f : A -> B -> res R) x y : length x = length y -> (forall a b, only_ub (f a b)) ->
  (math2 f x y = Stop SUB <-> exists i a b, nth_error x i = Some a /\ nth_error y i = Some b /\ f a b = Stop SUB)
  /\ only_ub (math2 f x y).
Proof.
  intros L Hf. unfold math2.
  destruct (gen_ub (length x) (fun i => bindR (lane x i) (fun a => bindR (lane y i) (f a)))) as [E O].
  { intros i. apply lane_bind_ub. intros a. apply lane_bind_ub. intros b. apply Hf. }
  split; [|exact O]. rewrite E. split.
  - intros (i & Hi & H). destruct (in_range x i Hi) as [a Ha]. destruct (in_range y i ltac:(lia)) as [b Hb].
    exists i, a, b. split; [assumption|]. split; [assumption|].
    apply lane_some in Ha. apply lane_some in Hb. rewrite Ha in H. cbn in H. rewrite Hb in H. exact H.
  - intros (i & a & b & Ha & Hb & H). exists i. split; [apply nth_error_Some; congruence|].
    apply lane_some in Ha. apply lane_some in Hb. rewrite Ha. cbn. now rewrite Hb.
Qed.

Theorem math3_ub {A B C R} (f : A -> B -> C -> res R) x y z : length x = length y -> length x = length z ->
  (forall a b c, only_ub (f a b c)) ->
  (math3 f x y z = Stop SUB <->
   exists i a b c, nth_error x i = Some a /\ nth_error y i = Some b /\ nth_error z i = Some c /\ f a b c = Stop SUB)
  /\ only_ub (math3 f x y z).
Proof.
  intros L L' Hf. unfold math3.
  destruct (gen_ub (length x) (fun i => bindR (lane x i) (fun a => bindR (lane y i) (fun b => bindR (lane z i) (f a b)))))
    as [E O].
  { intros i. apply lane_bind_ub. intros a. apply lane_bind_ub. intros b. apply lane_bind_ub. intros c. apply Hf. }
  split; [|exact O]. rewrite E. split.
  - intros (i & Hi & H). destruct (in_range x i Hi) as [a Ha]. destruct (in_range y i ltac:(lia)) as [b Hb].
    destruct (in_range z i ltac:(lia)) as [c Hc].
    exists i, a, b, c. split; [assumption|]. split; [assumption|]. split; [assumption|].
    apply lane_some in Ha. apply lane_some in Hb. apply lane_some in Hc.
    rewrite Ha in H. cbn in H. rewrite Hb in H. cbn in H. rewrite Hc in H. exact H.
  - intros (i & a & b & c & Ha & Hb & Hc & H). exists i. split; [apply nth_error_Some; congruence|].
    apply lane_some in Ha. apply lane_some in Hb. apply lane_some in Hc. rewrite Ha. cbn. rewrite Hb. cbn. now rewrite Hc.
Qed.

(** ** Output parameters *)

Lemma set_lane_nth {A} : forall (v : list A) i x j, (i < length v)%nat ->
  nth_error (set_lane v i x) j = if Nat.eqb j i then Some x else nth_error v j.
Proof.
  induction v as [|a v IH]; intros i x j H; [cbn in H; lia|].
  destruct i as [|i], j as [|j]; try reflexivity. cbn [set_lane nth_error Nat.eqb]. apply IH. cbn in H. lia.
Qed.

Lemma set_lane_length {A} : forall (v : list A) i x, length (set_lane v i x) = length v.
Proof. induction v as [|a v IH]; intros [|i] x; cbn; try reflexivity. now rewrite IH. Qed.

(** The body may read the lane it is about to write, and no lane already written. *)
Lemma out_gen_iff {R O} (g : nat -> res (R * O)) (body : nat -> list O -> res (R * O)) (out0 : list O) :
  (forall i out, nth_error out i = nth_error out0 i -> body i out = g i) ->
  forall n i out r out', length out = length out0 -> (i + n)%nat = length out0 ->
    (forall j, (i <= j)%nat -> nth_error out j = nth_error out0 j) ->
    (out_gen i n body out = Ok (r, out') <->
       length r = n /\ length out' = length out0 /\
       (forall j, (j < i)%nat -> nth_error out' j = nth_error out j) /\
       forall j, (j < n)%nat -> exists a o, g (i + j)%nat = Ok (a, o) /\ nth_error r j = Some a
                                            /\ nth_error out' (i + j) = Some o).
Proof.
  intros Hb. induction n as [|n IH]; intros i out r out' Lo Hn Hrest; cbn [out_gen].
  - split.
    + intros E. injection E as <- <-. repeat split; try assumption; try reflexivity. intros j Hj. lia.
    + intros (Lr & Lo' & Hj & _). destruct r; [|discriminate]. f_equal. f_equal.
      apply nth_error_ext. intros j. destruct (Nat.lt_ge_cases j i) as [H|H]; [symmetry; now apply Hj|].
      rewrite (proj2 (nth_error_None out j)) by lia. symmetry. apply nth_error_None. lia.
  - rewrite (Hb i out) by (apply Hrest; lia).
    destruct (in_range out i ltac:(lia)) as [old Hold]. apply lane_some in Hold.
    destruct (g i) as [ [a o]|s] eqn:G; cbn [bindR].
    + rewrite Hold. cbn [bindR].
      assert (Hi : (i < length out)%nat) by lia.
      assert (IH' := fun r out' => IH (S i) (set_lane out i o) r out' ltac:(rewrite set_lane_length; assumption) ltac:(lia)
                       ltac:(intros j Hj; rewrite set_lane_nth by assumption; destruct (Nat.eqb_spec j i); [lia|apply Hrest; lia])).
      split.
      * intros E. destruct (out_gen (S i) n body (set_lane out i o)) as [ [rs o']|] eqn:E'; [|discriminate].
        cbn [bindR] in E. injection E as <- <-. destruct (proj1 (IH' rs o') eq_refl) as (Lr & Lo' & Hj & Hk).
        split; [cbn; lia|]. split; [assumption|]. split.
        -- intros j Hji. rewrite Hj by lia. rewrite set_lane_nth by assumption.
           destruct (Nat.eqb_spec j i); [lia|reflexivity].
        -- intros [|j] Hjn.
           ++ exists a, o. rewrite Nat.add_0_r. split; [assumption|]. split; [reflexivity|].
              rewrite Hj by lia. rewrite set_lane_nth by assumption. now rewrite Nat.eqb_refl.
           ++ destruct (Hk j ltac:(lia)) as (a' & o'' & E1 & E2 & E3). exists a', o''.
              replace (i + S j)%nat with (S i + j)%nat by lia. repeat split; assumption.
      * intros (Lr & Lo' & Hj & Hk). destruct r as [|b rs]; [discriminate|].
        destruct (Hk 0%nat ltac:(lia)) as (a' & o' & E1 & E2 & E3). rewrite Nat.add_0_r in *. rewrite G in E1.
        injection E1 as <- <-. cbn in E2. injection E2 as ->.
        assert (E : out_gen (S i) n body (set_lane out i o) = Ok (rs, out')).
        { apply IH'. split; [cbn in Lr; lia|]. split; [assumption|]. split.
          - intros j Hji. rewrite set_lane_nth by assumption. destruct (Nat.eqb_spec j i) as [->|]; [assumption|].
            apply Hj. lia.
          - intros j Hjn. destruct (Hk (S j) ltac:(lia)) as (a' & o' & F1 & F2 & F3). exists a', o'.
            replace (S i + j)%nat with (i + S j)%nat by lia. repeat split; assumption. }
        rewrite E. reflexivity.
    + split; [discriminate|]. intros (_ & _ & _ & Hk). destruct (Hk 0%nat ltac:(lia)) as (a & o & E & _).
      rewrite Nat.add_0_r in E. congruence.
Qed.

Theorem math1_out_lanes {A R O} (f : A -> res (R * O)) x out r out' : length out = length x ->
  (math1_out f x out = Ok (r, out') <->
   length r = length x /\ length out' = length x /\
   forall i a, nth_error x i = Some a -> exists b o, f a = Ok (b, o) /\ nth_error r i = Some b /\ nth_error out' i = Some o).
Proof.
  intros L. unfold math1_out.
  rewrite (out_gen_iff (fun i => bindR (lane x i) f) _ out) by (reflexivity || lia).
  rewrite L. cbn [Nat.add]. split.
  - intros (Lr & Lo & _ & H). split; [assumption|]. split; [assumption|]. intros i a Ha.
    destruct (H i) as (b & o & E & P); [apply nth_error_Some; congruence|]. exists b, o. split; [|exact P].
    apply lane_some in Ha. rewrite Ha in E. exact E.
  - intros (Lr & Lo & H). split; [assumption|]. split; [assumption|]. split; [intros j Hj; lia|]. intros i Hi.
    destruct (in_range x i Hi) as [a Ha]. destruct (H i a Ha) as (b & o & E & P). exists b, o. split; [|exact P].
    apply lane_some in Ha. now rewrite Ha.
Qed.

Theorem math2_out_lanes {A B R O} (f : A -> B -> res (R * O)) x y out r out' :
  length out = length x -> length y = length x ->
  (math2_out f x y out = Ok (r, out') <->
   length r = length x /\ length out' = length x /\
   forall i a b, nth_error x i = Some a -> nth_error y i = Some b ->
     exists c o, f a b = Ok (c, o) /\ nth_error r i = Some c /\ nth_error out' i = Some o).
Proof.
  intros L L'. unfold math2_out.
  rewrite (out_gen_iff (fun i => bindR (lane x i) (fun a => bindR (lane y i) (f a))) _ out) by (reflexivity || lia).
  rewrite L. cbn [Nat.add]. split.
  - intros (Lr & Lo & _ & H). split; [assumption|]. split; [assumption|]. intros i a b Ha Hb.
    destruct (H i) as (c & o & E & P); [apply nth_error_Some; congruence|]. exists c, o. split; [|exact P].
    apply lane_some in Ha. apply lane_some in Hb. rewrite Ha in E. cbn in E. rewrite Hb in E. exact E.
  - intros (Lr & Lo & H). split; [assumption|]. split; [assumption|]. split; [intros j Hj; lia|]. intros i Hi.
    destruct (in_range x i Hi) as [a Ha]. destruct (in_range y i ltac:(lia)) as [b Hb].
    destruct (H i a b Ha Hb) as (c & o & E & P). exists c, o. split; [|exact P].
    apply lane_some in Ha. apply lane_some in Hb. rewrite Ha. cbn. now rewrite Hb.
Qed.

(** Undefined behaviour with an output parameter. *)
Lemma out_gen_ub {R O} (g : nat -> res (R * O)) (body : nat -> list O -> res (R * O)) (out0 : list O) :
  (forall i out, nth_error out i = nth_error out0 i -> body i out = g i) -> (forall i, only_ub (g i)) ->
  forall n i out, length out = length out0 -> (i + n)%nat = length out0 ->
    (forall j, (i <= j)%nat -> nth_error out j = nth_error out0 j) ->
    (out_gen i n body out = Stop SUB <-> exists j, (i <= j < i + n)%nat /\ g j = Stop SUB)
    /\ only_ub (out_gen i n body out).
Proof.
  intros Hb Hg. induction n as [|n IH]; intros i out Lo Hn Hrest; cbn [out_gen].
  - split; [|intros s; discriminate]. split; [discriminate|]. intros (j & Hj & _). lia.
  - rewrite (Hb i out) by (apply Hrest; lia).
    destruct (in_range out i ltac:(lia)) as [old Hold]. apply lane_some in Hold.
    destruct (g i) as [ [a o]|s] eqn:G; cbn [bindR].
    + rewrite Hold. cbn [bindR]. assert (Hi : (i < length out)%nat) by lia.
      destruct (IH (S i) (set_lane out i o)) as [E U].
      { now rewrite set_lane_length. }
      { lia. }
      { intros j Hj. rewrite set_lane_nth by assumption. destruct (Nat.eqb_spec j i); [lia|apply Hrest; lia]. }
      destruct (out_gen (S i) n body (set_lane out i o)) as [ [rs o']|s] eqn:E'; cbn [bindR].
      * split; [|intros s; discriminate]. split; [discriminate|]. intros (j & Hj & F).
        destruct (Nat.eq_dec j i) as [->|N]; [congruence|].
        assert (X : Ok (rs, o') = Stop SUB :> res (list R * list O)).
        { apply E. exists j. split; [lia|assumption]. }
        discriminate X.
      * split; [|exact U]. rewrite E. split; intros (j & Hj & F).
        -- exists j. split; [lia|assumption].
        -- exists j. split; [|assumption]. destruct (Nat.eq_dec j i) as [->|N]; [congruence|lia].
    + assert (s = SUB) by (exact (Hg i s G)). subst s. split; [|intros s; congruence].
      split; [|reflexivity]. intros _. exists i. split; [lia|assumption].
Qed.

Theorem math1_out_ub {A R O} (f : A -> res (R * O)) x out : length out = length x -> (forall a, only_ub (f a)) ->
  (math1_out f x out = Stop SUB <-> exists i a, nth_error x i = Some a /\ f a = Stop SUB)
  /\ only_ub (math1_out f x out).
Proof.
  intros L Hf. unfold math1_out.
  destruct (out_gen_ub (fun i => bindR (lane x i) f) (fun i _ => bindR (lane x i) f) out
              ltac:(reflexivity) ltac:(intros i; now apply lane_bind_ub) (length x) 0 out
              eq_refl ltac:(lia) ltac:(reflexivity)) as [E U].
  split; [|exact U]. rewrite E. split.
  - intros (i & Hi & H). destruct (in_range x i ltac:(lia)) as [a Ha]. exists i, a. split; [assumption|].
    apply lane_some in Ha. rewrite Ha in H. exact H.
  - intros (i & a & Ha & H). exists i. assert (i < length x)%nat by (apply nth_error_Some; congruence).
    split; [lia|]. apply lane_some in Ha. now rewrite Ha.
Qed.

Theorem math2_out_ub {A B R O} (f : A -> B -> res (R * O)) x y out : length out = length x -> length y = length x ->
  (forall a b, only_ub (f a b)) ->
  (math2_out f x y out = Stop SUB <-> exists i a b, nth_error x i = Some a /\ nth_error y i = Some b /\ f a b = Stop SUB)
  /\ only_ub (math2_out f x y out).
Proof.
  intros L L' Hf. unfold math2_out.
  destruct (out_gen_ub (fun i => bindR (lane x i) (fun a => bindR (lane y i) (f a)))
              (fun i _ => bindR (lane x i) (fun a => bindR (lane y i) (f a))) out
              ltac:(reflexivity) ltac:(intros i; apply lane_bind_ub; intros a; now apply lane_bind_ub) (length x) 0 out
              eq_refl ltac:(lia) ltac:(reflexivity)) as [E U].
  split; [|exact U]. rewrite E. split.
  - intros (i & Hi & H). destruct (in_range x i ltac:(lia)) as [a Ha]. destruct (in_range y i ltac:(lia)) as [b Hb].
    exists i, a, b. split; [assumption|]. split; [assumption|].
    apply lane_some in Ha. apply lane_some in Hb. rewrite Ha in H. cbn in H. rewrite Hb in H. exact H.
  - intros (i & a & b & Ha & Hb & H). exists i. assert (i < length x)%nat by (apply nth_error_Some; congruence).
    split; [lia|]. apply lane_some in Ha. apply lane_some in Hb. rewrite Ha. cbn. now rewrite Hb.
Qed.

(** modf(x, &x) stores and returns what modf(x, &other) does. *)
Theorem modf_alias_same {R O} (f : O -> res (R * O)) x out r out' : length out = length x ->
  (modf_alias f x = Ok (r, out') <-> math1_out f x out = Ok (r, out')).
Proof.
  intros L. unfold modf_alias, math1_out.
  rewrite (out_gen_iff (fun i => bindR (lane x i) f) _ x).
  - rewrite (out_gen_iff (fun i => bindR (lane x i) f) _ out) by (reflexivity || lia). rewrite L.
    split; intros (A & B & C & D); (split; [assumption|]); (split; [assumption|]); (split; [intros j Hj; lia|assumption]).
  - intros i cur H. unfold lane. now rewrite H.
  - reflexivity.
  - reflexivity.
  - reflexivity.
Qed.

(** ** abs *)

Theorem abs_lanes l t x : lang_ok l -> type_ok t -> sgn t = true -> (forall a, In a x -> value_of t a) ->
  (bits t < l_int l ->
     exists r, simd_abs l t x = Ok r /\ length r = length x
       /\ forall i a, nth_error x i = Some a ->
            nth_error r i = Some (if a =? - 2 ^ (bits t - 1) then a else Z.abs a))
  /\ (l_int l <= bits t ->
      (forall r, simd_abs l t x = Ok r <-> ~ In (- 2 ^ (bits t - 1)) x /\ r = map Z.abs x)
      /\ (simd_abs l t x = Stop SUB <-> In (- 2 ^ (bits t - 1)) x)).
Proof.
  intros Hl Ht Hs Hx. unfold lang_ok, type_ok in *.
  pose proof (pow2_pos (bits t - 1) ltac:(lia)) as P. pose proof (pow_half (bits t) Ht) as P2.
  unfold simd_abs. rewrite lane_eq1. split.
  - intros Hb. set (g := fun a => if a =? - 2 ^ (bits t - 1) then a else Z.abs a).
    exists (map g x).
    assert (E : mapR (fun a => bindR (std_abs l t a) (fun e => Ok (convert t e))) x = Ok (map g x)).
    { rewrite <- mapR_pure. apply mapR_ext'. intros a Ha. specialize (Hx a Ha). unfold value_of in Hx. rewrite Hs in Hx.
      assert (PI : 2 ^ bits t <= 2 ^ (l_int l - 1)) by (apply Z.pow_le_mono_r; lia).
      assert (S : std_abs l t a = Ok (Z.abs a)).
      { unfold std_abs, expr_neg, computed, promote. destruct (Z.ltb_spec a 0); [|f_equal; lia].
        destruct (Z.ltb_spec (bits t) (l_int l)); [|lia]. cbn [sgn bits].
        replace (in_type _ _) with true; [f_equal; lia|]. unfold in_type. cbn [sgn bits]. lia. }
      rewrite S. cbn [bindR]. f_equal. unfold g. destruct (Z.eqb_spec a (- 2 ^ (bits t - 1))) as [->|N].
      - rewrite Z.abs_neq by lia. rewrite Z.opp_involutive. unfold convert. rewrite Hs.
        replace (2 ^ (bits t - 1) + 2 ^ (bits t - 1)) with (1 * 2 ^ bits t) by lia. rewrite Z.mod_mul; lia.
      - apply convert_id; [assumption|]. apply in_type_value. unfold value_of. rewrite Hs. lia. }
    split; [exact E|]. split; [apply map_length|]. intros i a Ha. exact (map_nth_error g i x Ha).
  - intros Hb.
    assert (PR : promote l t = t) by (unfold promote; destruct (Z.ltb_spec (bits t) (l_int l)); [lia|reflexivity]).
    assert (S : forall a, value_of t a -> bindR (std_abs l t a) (fun e => Ok (convert t e))
                = if a =? - 2 ^ (bits t - 1) then Stop SUB else Ok (Z.abs a)).
    { intros a Ha. unfold value_of in Ha. rewrite Hs in Ha. unfold std_abs, expr_neg. rewrite PR. unfold computed. rewrite Hs.
      destruct (Z.eqb_spec a (- 2 ^ (bits t - 1))) as [->|N].
      - destruct (Z.ltb_spec (- 2 ^ (bits t - 1)) 0); [|lia]. rewrite Z.opp_involutive.
        replace (in_type t (2 ^ (bits t - 1))) with false; [reflexivity|]. unfold in_type. rewrite Hs. lia.
      - assert (I : in_type t (Z.abs a) = true) by (apply in_type_value; unfold value_of; rewrite Hs; lia).
        destruct (Z.ltb_spec a 0).
        + replace (- a) with (Z.abs a) by lia. rewrite I. cbn [bindR]. f_equal. now apply convert_id.
        + replace a with (Z.abs a) at 1 by lia. cbn [bindR]. f_equal. now apply convert_id. }
    rewrite (mapR_ext' _ (fun a => if a =? - 2 ^ (bits t - 1) then Stop SUB else Ok (Z.abs a)) x)
      by (intros a Ha; apply S, Hx, Ha).
    assert (I : forall y, (~ In (- 2 ^ (bits t - 1)) y
                  /\ mapR (fun a => if a =? - 2 ^ (bits t - 1) then Stop SUB else Ok (Z.abs a)) y = Ok (map Z.abs y))
                \/ (In (- 2 ^ (bits t - 1)) y
                  /\ mapR (fun a => if a =? - 2 ^ (bits t - 1) then Stop SUB else Ok (Z.abs a)) y = Stop SUB)).
    { induction y as [|a y IH]; [left; split; [intros []|reflexivity]|]. cbn [mapR In map].
      destruct (Z.eqb_spec a (- 2 ^ (bits t - 1))) as [->|N]; [right; split; [now left|reflexivity]|].
      destruct IH as [ [N' ->]|[N' ->] ]; cbn [bindR]; [left|right]; (split; [|reflexivity]).
      - intros [H|H]; [congruence|contradiction].
      - now right. }
    destruct (I x) as [ [N ->]|[N ->] ]; (split; [intros r|]); split; try congruence; intuition congruence.
Qed.

(** abs(int8_t(-128)) *)
Lemma abs_negative : exists l t x r, lang_ok l /\ type_ok t /\ sgn t = true /\ (forall a, In a x -> value_of t a)
  /\ simd_abs l t x = Ok r /\ exists a, In a r /\ a < 0.
Proof.
  exists (mklang 32 false), (mkity 8 true), [-128], [-128].
  split; [unfold lang_ok; cbn; lia|]. split; [unfold type_ok; cbn; lia|]. split; [reflexivity|].
  split; [intros a [<-|[] ]; unfold value_of; cbn; lia|]. split; [vm_compute; reflexivity|].
  exists (-128). split; [now left|lia].
Qed.
