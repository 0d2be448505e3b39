(** What rotate and simd_shift_in do outside of the documented behaviour. *)
From Verif Require Import Base BaseFacts PermuteModel PermuteSpec PermuteProofs PermuteThm.
From Coq Require Import ZifyBool ZifyNat.
Ltac Zify.zify_post_hook ::= idtac.

Lemma NoDup_at {T} (zero : T) v i j : NoDup v -> 0 <= i < Z.of_nat (length v) -> 0 <= j < Z.of_nat (length v) ->
  at_lane zero v i = at_lane zero v j -> i = j.
Proof.
  intros Hd Hi Hj E. unfold at_lane in E. apply (proj1 (NoDup_nth v zero) Hd) in E; lia.
Qed.

Section Exact.
  Context {T : Type}.
  Variable zero : T.

  (** The int sum converted to std::size_t, modulo the size. *)
  Lemma rotate_exact e v ofs : size_ok v -> -2147483648 <= ofs -> ofs + Z.of_nat (length v) <= 2147483648 ->
    (Z.rem ofs 2 = 0 -> ~ is_avx2_case e v) ->
    exists r, simd_permute zero e (rotate ofs) v (Z.of_nat (length v)) = Ok r
      /\ lanes_are (Z.of_nat (length v))
           (fun i => at_lane zero v (((i + ofs) mod 18446744073709551616) mod Z.of_nat (length v))) r.
  Proof.
    intros Hs H1 H2 Hna. pose proof Hs as Hs'. unfold size_ok in Hs'. set (n := Z.of_nat (length v)) in *.
    apply (permute_lanes zero e (rotate ofs) v n (fun i => ((i + ofs) mod two64) mod n)); [assumption| |lia| |].
    - unfold no_avx2. cbn [pf_rot rotate]. destruct (Z.eqb_spec (Z.rem ofs 2) 0); [now apply Hna|exact I].
    - intros i Hi. cbn [call_idx pf_one pf_two rotate]. rewrite int_ce_ok by lia. cbn [bindR].
      fold n. destruct (Z.eqb_spec n 0); [lia|]. f_equal.
      apply i32_small. change (2 ^ 31) with 2147483648.
      pose proof (Z.mod_pos_bound ((i + ofs) mod two64) n ltac:(lia)). lia.
    - intros i Hi. split; [apply Z.mod_pos_bound; lia|left]. reflexivity.
  Qed.

  (** Hence correct exactly for non-negative offsets or power-of-two sizes. *)
  Theorem rotate_correct_iff e v ofs : size_ok v -> NoDup v ->
    -2147483648 <= ofs -> ofs + Z.of_nat (length v) <= 2147483648 ->
    (Z.rem ofs 2 = 0 -> ~ is_avx2_case e v) ->
    ((exists r, simd_permute zero e (rotate ofs) v (Z.of_nat (length v)) = Ok r
        /\ lanes_are (Z.of_nat (length v)) (fun i => at_lane zero v ((i + ofs) mod Z.of_nat (length v))) r)
     <-> 0 <= ofs \/ pow2_size v).
  Proof.
    intros Hs Hd H1 H2 Hna. split.
    - intros (r & Er & Lr). destruct (Z.le_gt_cases 0 ofs) as [|Hneg]; [now left|right].
      destruct (rotate_exact e v ofs Hs H1 H2 Hna) as (r' & Er' & Lr').
      rewrite Er in Er'. injection Er' as <-. destruct Lr as [_ Lr], Lr' as [_ Lr'].
      unfold size_ok in Hs. specialize (Lr 0 ltac:(lia)). specialize (Lr' 0 ltac:(lia)). rewrite Lr in Lr'.
      injection Lr' as E. apply NoDup_at in E; [|assumption| |].
      2, 3: apply Z.mod_pos_bound; lia.
      replace (0 + ofs) with ofs in E by lia.
      assert (M : ofs mod 18446744073709551616 = ofs + 18446744073709551616).
      { symmetry. apply (Z.mod_unique_pos _ _ (-1)); lia. }
      rewrite M in E. destruct (divide_pow2 (Z.of_nat (length v)) 64) as (k & Hk & Ek); [lia|lia| |exists k; split; [lia|exact Ek] ].
      change (2 ^ 64) with 18446744073709551616.
      apply Z.mod_divide; [lia|].
      replace 18446744073709551616 with ((ofs + 18446744073709551616) - ofs) by lia.
      rewrite Zminus_mod, <- E, Z.sub_diag. apply Z.mod_0_l. lia.
    - intros Hc. apply rotate_lanes; [assumption|]. split; [assumption|]. split; [assumption|]. split; [assumption|].
      intros Ev A. now destruct (Hna Ev).
  Qed.

  (** ** AVX2: vpermpd on 8 floats *)

  Lemma control_negative q : q < 0 -> permdf256_control (2 * q) < 0.
  Proof.
    intros Hq. unfold permdf256_control. rewrite (Z.mul_comm 2 q), Z.quot_mul by lia.
    apply Z.lor_neg. left. apply Z.lor_neg. left. apply Z.lor_neg. now left.
  Qed.

  Lemma lor_ge a b : 0 <= a -> 0 <= b -> a <= Z.lor a b.
  Proof.
    intros Ha Hb. apply Z.ldiff_le; [apply Z.lor_nonneg; now split|].
    apply Z.bits_inj. intros n. rewrite Z.ldiff_spec, Z.lor_spec, Z.bits_0.
    destruct (Z.testbit a n), (Z.testbit b n); reflexivity.
  Qed.

  Lemma control_large q : 0 <= q -> q <= permdf256_control (2 * q).
  Proof.
    intros Hq. unfold permdf256_control. rewrite (Z.mul_comm 2 q), Z.quot_mul by lia.
    assert (S : forall x k, 0 <= x -> 0 <= Z.shiftl (Z.rem x 4) k).
    { intros x k Hx. apply Z.shiftl_nonneg. apply Z.rem_nonneg; lia. }
    etransitivity; [apply (lor_ge q (Z.shiftl (Z.rem (q + 1) 4) 2)); [lia|apply S; lia]|].
    etransitivity; [apply (lor_ge _ (Z.shiftl (Z.rem (q + 2) 4) 4)); [|apply S; lia]|].
    { apply Z.lor_nonneg. split; [lia|apply S; lia]. }
    apply lor_ge; [|apply S; lia].
    apply Z.lor_nonneg. split; [|apply S; lia]. apply Z.lor_nonneg. split; [lia|apply S; lia].
  Qed.

  Definition right_halves : list Z :=
    [0; 1; 2; 3; 4; 6; 9; 10; 14; 17; 19; 25; 32; 33; 36; 41; 49; 57; 64; 66; 68; 70; 74; 78; 96; 100; 128; 131; 132;
     147; 160; 164; 192; 196; 224; 228].

  Definition field (q i : Z) : Z := Z.land (Z.shiftr (permdf256_control (2 * q)) (2 * i)) 3.

  Lemma fields_right q : 0 <= q <= 255 ->
    permdf256_control (2 * q) <= 255
    /\ (In q right_halves <-> forall i, 0 <= i < 4 -> field q i = (i + q) mod 4).
  Proof.
    intros Hq.
    assert (H : forallb (fun k => let q := Z.of_nat k in
                  (permdf256_control (2 * q) <=? 255)
                  && Bool.eqb (existsb (Z.eqb q) right_halves)
                       (forallb (fun i => field q i =? (i + q) mod 4) [0; 1; 2; 3])) (seq 0 256) = true)
      by (vm_compute; reflexivity).
    rewrite forallb_forall in H. specialize (H (Z.to_nat q)). rewrite in_seq in H. specialize (H ltac:(lia)).
    cbv zeta in H. rewrite Z2Nat.id in H by lia. apply andb_prop in H. destruct H as [H1 H2].
    split; [lia|]. apply eqb_prop in H2. split.
    - intros I i Hi.
      assert (X : existsb (Z.eqb q) right_halves = true) by (apply existsb_exists; exists q; split; [assumption|lia]).
      rewrite H2, forallb_forall in X. specialize (X i). apply Z.eqb_eq, X. cbn. lia.
    - intros F. assert (X : forallb (fun i => field q i =? (i + q) mod 4) [0; 1; 2; 3] = true).
      { apply forallb_forall. intros i Hi. apply Z.eqb_eq, F. cbn in Hi. lia. }
      rewrite <- H2 in X. apply existsb_exists in X. destruct X as (x & Hx & E). apply Z.eqb_eq in E. now subst.
  Qed.

  (** An even offset compiles exactly in [0, 510]. *)
  Theorem rotate_avx2_exact e v q :
    e_gnuc e = true -> e_ce e = false -> 8 <= e_native e -> e_sizeof e = 4 -> length v = 8%nat ->
    e_avx2 e = true -> e_float e = true ->
    (0 <= q <= 255 -> exists r, simd_permute zero e (rotate (2 * q)) v 8 = Ok r
        /\ lanes_are 8 (fun i => at_lane zero v (2 * field q (i / 2) + i mod 2)) r)
    /\ (~ 0 <= q <= 255 -> simd_permute zero e (rotate (2 * q)) v 8 = Stop SIllFormed).
  Proof.
    intros G C N S L A F.
    assert (E : simd_permute zero e (rotate (2 * q)) v 8 = permdf256 v (permdf256_control (2 * q))).
    { unfold simd_permute. rewrite G, C, S, L, A, F. cbn [pf_rot rotate]. rewrite (Z.mul_comm 2 q), Z.rem_mul by lia.
      change (Z.of_nat 8 * 4) with 32. change (Z.of_nat 8) with 8. destruct (Z.leb_spec 8 (e_native e)); [|lia].
      reflexivity. }
    rewrite E. unfold permdf256. split.
    - intros Hq. destruct (fields_right q Hq) as [Hc _]. pose proof (control_large q ltac:(lia)) as Hc'.
      destruct (Z.leb_spec 0 (permdf256_control (2 * q))); [|lia].
      destruct (Z.leb_spec (permdf256_control (2 * q)) 255); [|lia]. cbn [andb].
      rewrite (mapR_ok _ (fun i => Val (at_lane zero v (2 * field q (i / 2) + i mod 2)))).
      + eexists. split; [reflexivity|]. split; [reflexivity|]. intros i Hi.
        now rewrite nth_error_map, lanes_of_nth by assumption.
      + intros i Hi. apply lanes_of_in in Hi. cbv zeta. fold (field q (i / 2)).
        assert (0 <= field q (i / 2) < 4).
        { unfold field. change 3 with (Z.ones 2). rewrite Z.land_ones by lia. apply Z.mod_pos_bound. reflexivity. }
        pose proof (Z.mod_pos_bound i 2 ltac:(lia)).
        rewrite nth_error_at with (zero := zero) by lia. reflexivity.
    - intros Hq. destruct (Z.le_gt_cases 0 q) as [Hp|Hn].
      + pose proof (control_large q Hp). destruct (Z.leb_spec (permdf256_control (2 * q)) 255); [lia|].
        now rewrite andb_false_r.
      + pose proof (control_negative q Hn). destruct (Z.leb_spec 0 (permdf256_control (2 * q))); [lia|]. reflexivity.
  Qed.

  Theorem rotate_avx2_accepted e v q :
    e_gnuc e = true -> e_ce e = false -> 8 <= e_native e -> e_sizeof e = 4 -> length v = 8%nat ->
    e_avx2 e = true -> e_float e = true ->
    (0 <= q <= 255 <-> exists r, simd_permute zero e (rotate (2 * q)) v 8 = Ok r).
  Proof.
    intros G C N S L A F. destruct (rotate_avx2_exact e v q G C N S L A F) as [H1 H2]. split.
    - intros H. destruct (H1 H) as (r & Er & _). now exists r.
    - intros (r & Er). destruct (Z.le_gt_cases 0 q) as [Hp|]; [|rewrite H2 in Er by lia; discriminate].
      destruct (Z.le_gt_cases q 255) as [Hq|]; [lia|rewrite H2 in Er by lia; discriminate].
  Qed.

  Theorem rotate_avx2_correct_iff e v q :
    e_gnuc e = true -> e_ce e = false -> 8 <= e_native e -> e_sizeof e = 4 -> length v = 8%nat ->
    e_avx2 e = true -> e_float e = true -> NoDup v ->
    ((exists r, simd_permute zero e (rotate (2 * q)) v 8 = Ok r
        /\ lanes_are 8 (fun i => at_lane zero v ((i + 2 * q) mod 8)) r)
     <-> In q right_halves).
  Proof.
    intros G C N S L A F D.
    assert (Hidx : forall i, 0 <= i < 8 -> (i + 2 * q) mod 8 = 2 * ((i / 2 + q) mod 4) + i mod 2).
    { intros i Hi. pose proof (Z.div_mod i 2 ltac:(lia)). pose proof (Z.mod_pos_bound i 2 ltac:(lia)).
      pose proof (Z.div_mod (i / 2 + q) 4 ltac:(lia)). pose proof (Z.mod_pos_bound (i / 2 + q) 4 ltac:(lia)).
      symmetry. apply (Z.mod_unique_pos _ _ ((i / 2 + q) / 4)); lia. }
    destruct (rotate_avx2_exact e v q G C N S L A F) as [H1 H2]. split.
    - intros (r & Er & [_ Lr]). destruct (Z.le_gt_cases 0 q) as [Hp|]; [|rewrite H2 in Er by lia; discriminate].
      destruct (Z.le_gt_cases q 255) as [Hq|]; [|rewrite H2 in Er by lia; discriminate].
      destruct (H1 (conj Hp Hq)) as (r' & Er' & [_ Lr']). rewrite Er in Er'. injection Er' as <-.
      apply (proj2 (fields_right q (conj Hp Hq))). intros i Hi.
      assert (Hi2 : 0 <= 2 * i < 8) by lia. specialize (Lr _ Hi2). specialize (Lr' _ Hi2). rewrite Lr in Lr'.
      assert (E : at_lane zero v ((2 * i + 2 * q) mod 8) = at_lane zero v (2 * field q (2 * i / 2) + (2 * i) mod 2))
        by congruence.
      rewrite (Hidx _ Hi2) in E.
      rewrite (Z.mul_comm 2 i), Z.div_mul, Z.mod_mul in E by lia.
      assert (0 <= field q i < 4).
      { unfold field. change 3 with (Z.ones 2). rewrite Z.land_ones by lia. apply Z.mod_pos_bound. reflexivity. }
      pose proof (Z.mod_pos_bound (i + q) 4 ltac:(lia)).
      apply NoDup_at in E; [lia|assumption|lia|lia].
    - intros I. assert (Hq : 0 <= q <= 255).
      { revert I. unfold right_halves. cbn [In]. lia. }
      destruct (H1 Hq) as (r & Er & Lr). exists r. split; [assumption|].
      apply (lanes_are_ext 8 _ _ r Lr). intros i Hi. rewrite (Hidx i Hi). f_equal. f_equal. f_equal.
      apply (proj2 (fields_right q Hq)); [assumption|]. split; [apply Z.div_pos; lia|apply Z.div_lt_upper_bound; lia].
  Qed.

  (** ** shift_in *)

  (** A negative index counts from the end of the first argument; beyond that it is zero. *)
  Theorem shift_in_exact ofs a more : size_ok a -> -2147483648 <= ofs ->
    Forall (fun u => length u = length a) more ->
    ofs + Z.of_nat (length a) <= 2147483648 -> Z.of_nat (length a) * (1 + Z.of_nat (length more)) < 2147483648 ->
    exists r, shift_in zero ofs a more = Ok r /\ length r = length a
      /\ forall i, 0 <= i < Z.of_nat (length a) -> nth_error r (Z.to_nat i) = Some
           (if 0 <=? i + ofs then at_lane zero (concat (a :: more)) (i + ofs)
            else if - Z.of_nat (length a) <=? i + ofs then at_lane zero a (i + ofs + Z.of_nat (length a)) else zero).
  Proof.
    intros Hs Hofs HF H1 H2. pose proof Hs as Hs'. unfold size_ok in Hs'. set (w := Z.of_nat (length a)) in *.
    set (g := fun i => if 0 <=? i + ofs then at_lane zero (concat (a :: more)) (i + ofs)
            else if - w <=? i + ofs then at_lane zero a (i + ofs + w) else zero).
    assert (E : shift_in zero ofs a more = Ok (map g (lanes_of w))).
    { unfold shift_in. apply mapR_ok. intros i Hi. apply lanes_of_in in Hi. fold w in Hi. unfold g.
      destruct (Z.leb_spec 0 (i + ofs)) as [Hj|Hj].
      - (* as for the offset i + ofs at lane 0 *)
        assert (Hi0 : shift_in_lane zero ofs a more i = shift_in_lane zero (i + ofs) a more 0).
        { unfold shift_in_lane. replace (ofs + i) with (i + ofs + 0) by lia. reflexivity. }
        rewrite Hi0. destruct (Z.le_gt_cases (w * (1 + Z.of_nat (length more))) (i + ofs)) as [Hge|Hlt].
        + unfold shift_in_lane. fold w. rewrite !int_ce_ok by nia. cbn [bindR]. rewrite Z.add_0_r.
          destruct (Z.leb_spec (w * (1 + Z.of_nat (length more))) (i + ofs)); [|lia]. f_equal. unfold at_lane.
          symmetry. apply nth_overflow.
          assert (Hl : Z.of_nat (length (concat (a :: more))) = w * (1 + Z.of_nat (length more))).
          { clear - HF. unfold w. cbn [concat]. rewrite app_length.
            induction HF as [|u l Hu HF IH]; cbn [concat length]; [lia|]. rewrite app_length. lia. }
          lia.
        + unfold shift_in_lane. fold w. rewrite !int_ce_ok by nia. cbn [bindR]. rewrite Z.add_0_r.
          destruct (Z.leb_spec (w * (1 + Z.of_nat (length more))) (i + ofs)); [lia|].
          destruct (Z.leb_spec 0 (i + ofs)); [|lia].
          assert (Hmb : 0 <= (i + ofs) mod w < w) by (apply Z.mod_pos_bound; lia).
          destruct (nth_concat_uniform zero w (a :: more) ((i + ofs) / w) ((i + ofs) mod w))
            as (u & Eu & Lu & Hn); [lia| |assumption| |].
          { constructor; [reflexivity|]. eapply Forall_impl; [|exact HF]. cbn. intros u Hu. unfold w. lia. }
          { split; [apply Z.div_pos; lia|]. apply Z.div_lt_upper_bound; [lia|]. cbn [length]. lia. }
          rewrite Eu. rewrite nth_error_at with (zero := zero) by lia. f_equal. unfold at_lane. rewrite <- Hn. f_equal.
          f_equal. pose proof (Z.div_mod (i + ofs) w ltac:(lia)). lia.
      - unfold shift_in_lane. fold w. rewrite !int_ce_ok by nia. cbn [bindR].
        replace (ofs + i) with (i + ofs) by lia.
        destruct (Z.leb_spec (w * (1 + Z.of_nat (length more))) (i + ofs)); [nia|].
        destruct (Z.leb_spec 0 (i + ofs)); [lia|].
        destruct (Z.ltb_spec (i + ofs) (- w)), (Z.leb_spec (- w) (i + ofs)); try lia; [reflexivity|].
        rewrite nth_error_at with (zero := zero) by (fold w; lia). f_equal. unfold at_lane. f_equal. lia. }
    rewrite E. eexists. split; [reflexivity|]. split; [rewrite map_length, lanes_of_length; unfold w; lia|].
    intros i Hi. rewrite nth_error_map, lanes_of_nth by assumption. reflexivity.
  Qed.
End Exact.
