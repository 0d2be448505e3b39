From Verif Require Import Base BaseFacts DetailModel DetailSpec.
From Verif Require BitModel.
From Coq Require Import ZifyBool ZifyNat.

Definition unsigned_of (i : ity) : ity := mkity (i_rank i) false.

Lemma as_unsigned_int p t : as_unsigned p t = option_map unsigned_of (as_int p t).
Proof.
  unfold as_unsigned, as_unsigned_long, as_unsigned_int, as_unsigned_short, as_unsigned_char, as_unsigned_i128.
  unfold as_int, as_int_long, as_int_int, as_int_short, as_int_char, as_int_i128.
  destruct (t =? s_llong p); [reflexivity|]. destruct (t =? s_long p); [reflexivity|].
  destruct (t =? s_int p); [reflexivity|]. destruct (t =? s_short p); [reflexivity|].
  destruct (t =? s_char p); [reflexivity|]. destruct (s_i128 p) as [s|]; [|reflexivity].
  destruct (t =? s); reflexivity.
Qed.

Ltac chain p t :=
  unfold as_int, as_int_long, as_int_int, as_int_short, as_int_char, as_int_i128;
  destruct (Z.eqb_spec t (s_llong p)); [|destruct (Z.eqb_spec t (s_long p)); [|destruct (Z.eqb_spec t (s_int p));
    [|destruct (Z.eqb_spec t (s_short p)); [|destruct (Z.eqb_spec t (s_char p)) ] ] ] ].

Lemma as_int_none p t : as_int p t = None <-> forall r, ~ size_is p r t.
Proof.
  split.
  - chain p t; intros H; try discriminate H. intros r Hr. destruct (s_i128 p) as [s|] eqn:E.
    + destruct (Z.eqb_spec t s); [discriminate H|]. destruct r; cbn in Hr; congruence.
    + destruct r; cbn in Hr; congruence.
  - intros H. pose proof (H LLong). pose proof (H Long). pose proof (H Int). pose proof (H Short). pose proof (H Char).
    pose proof (H I128) as H6. cbn in *. chain p t; try (subst; contradiction).
    destruct (s_i128 p) as [s|]; [|reflexivity]. destruct (Z.eqb_spec t s); [subst; contradiction|reflexivity].
Qed.

Lemma as_int_some p t i : as_int p t = Some i -> size_is p (i_rank i) t /\ i_signed i = true.
Proof.
  chain p t; intros H; try (injection H as <-; split; [cbn; congruence|reflexivity]).
  destruct (s_i128 p) as [s|] eqn:E; [|discriminate H]. destruct (Z.eqb_spec t s); [|discriminate H].
  injection H as <-. split; [cbn; congruence|reflexivity].
Qed.

Lemma as_int_greatest p t r : standard p -> (as_int p t = Some (mkity r true) <-> greatest p t r).
Proof.
  intros (C & A1 & A2 & A3 & A4 & A5).
  assert (F : forall r0, as_int p t = Some (mkity r0 true) -> greatest p t r0).
  { intros r0 H. split; [exact (proj1 (as_int_some p t _ H))|].
    assert (L : s_i128 p = Some t -> r0 = I128).
    { intros E. specialize (A5 t E). pose proof (proj1 (as_int_some p t _ H)) as Z. cbn in Z.
      destruct r0; cbn in Z; try lia. reflexivity. }
    intros r' Hr. destruct r'; cbn in Hr; try (rewrite (L Hr); cbn; lia);
      revert H; chain p t; intros H; try (injection H as <-; cbn; lia); try congruence. }
  split; [apply F|]. intros [S G]. destruct (as_int p t) as [i|] eqn:E.
  - destruct (as_int_some p t i E) as [S' B]. destruct i as [r' b]. cbn in B, S'. subst b.
    destruct (F r' eq_refl) as [_ G']. pose proof (G r' S'). pose proof (G' r S).
    destruct r, r'; cbn in *; try lia; reflexivity.
  - exfalso. exact (proj1 (as_int_none p t) E r S).
Qed.

(** unroll *)
Lemma unroll_ok depth n i : (n <= depth)%nat -> unroll depth (Z.of_nat n) i = Ok (map (fun k => i + Z.of_nat k) (seq 0 n)).
Proof.
  revert n i. induction depth as [|depth IH]; intros n i L.
  - replace n with 0%nat by lia. reflexivity.
  - destruct n as [|n]; [reflexivity|]. cbn [unroll]. destruct (Z.eqb_spec (Z.of_nat (S n)) 0); [lia|].
    replace (Z.of_nat (S n) - 1) with (Z.of_nat n) by lia. rewrite IH by lia. cbn [bindR seq map].
    rewrite Z.add_0_r. do 2 f_equal. rewrite <- seq_shift, map_map. apply map_ext. intros k. lia.
Qed.

Lemma unroll_stop depth n i : n < 0 \/ Z.of_nat depth < n -> unroll depth n i = Stop SIllFormed.
Proof.
  revert n i. induction depth as [|depth IH]; intros n i L; cbn [unroll]; destruct (Z.eqb_spec n 0); try lia; [reflexivity|].
  rewrite IH by lia. reflexivity.
Qed.

Lemma unroll_iff depth n is :
  unroll depth n 0 = Ok is <-> 0 <= n <= Z.of_nat depth /\ is = map Z.of_nat (seq 0 (Z.to_nat n)).
Proof.
  destruct (Z.lt_ge_cases n 0) as [L|L]; [|destruct (Z.lt_ge_cases (Z.of_nat depth) n) as [D|D] ].
  1,2: rewrite unroll_stop by lia; split; [discriminate|lia].
  pose proof (unroll_ok depth (Z.to_nat n) 0 ltac:(lia)) as E. rewrite Z2Nat.id in E by lia. rewrite E. split.
  - intros H. injection H as <-. split; [lia|]. apply map_ext. reflexivity.
  - intros [_ ->]. reflexivity.
Qed.

(** ** Platforms *)
Definition lp64 : sizes := mksizes 8 8 4 2 1 (Some 16).
Definition ilp32 : sizes := mksizes 8 4 4 2 1 None.

Lemma lp64_standard : standard lp64.
Proof. unfold standard. cbn. repeat split; try lia. intros s E. injection E as <-. lia. Qed.
Lemma ilp32_standard : standard ilp32.
Proof. unfold standard. cbn. repeat split; try lia. intros s E. discriminate E. Qed.

(** The type that &, | and ^ of C36 use *)
Lemma lp64_bits size :
  BitModel.as_unsigned size = match as_unsigned lp64 (Z.of_nat size) with Some _ => Some (8 * Z.of_nat size) | None => None end.
Proof.
  unfold BitModel.as_unsigned. rewrite as_unsigned_int.
  chain lp64 (Z.of_nat size); cbn [s_llong s_long s_int s_short s_char s_i128 lp64] in *;
    try (replace size with 8%nat by lia; reflexivity); try (replace size with 4%nat by lia; reflexivity);
    try (replace size with 2%nat by lia; reflexivity); try (replace size with 1%nat by lia; reflexivity).
  destruct (Z.eqb_spec (Z.of_nat size) 16); [replace size with 16%nat by lia; reflexivity|].
  assert (E : existsb (Nat.eqb size) [8; 8; 4; 2; 1; 16]%nat = false).
  { cbn [existsb]. rewrite !(proj2 (Nat.eqb_neq size _)) by lia. reflexivity. }
  rewrite E. reflexivity.
Qed.
