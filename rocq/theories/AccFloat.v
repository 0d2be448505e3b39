(** C80, binary floating-point numbers: the addition of IEEE 754, as formalised by Flocq, adds up
    in the sense of AccSpec. *)
From Verif Require Import AccSpec.
From Coq Require Import ZArith QArith Qabs Qpower Qreals Reals Lra Lia Bool.
From Flocq Require Import Core Relative Plus_error BinarySingleNaN.
#[local] Open Scope Z_scope.

Section Float.
  Variables prec emax : Z.
  Context (Hprec : Prec_gt_0 prec) (Hemax : Prec_lt_emax prec emax).
  Notation float := (binary_float prec emax).

  (** The value of a number; 0 for infinities and NaN. *)
  Definition float_value (x : float) : Q :=
    match x with
    | B754_finite s m e _ => (inject_Z (if s then Z.neg m else Z.pos m) * 2 ^ e)%Q
    | _ => 0%Q
    end.

  Definition float_finite (x : float) : Prop := is_finite x = true.

  (** Half the distance from 1 to the next number, and the largest number. *)
  Definition unit_roundoff : Q := (2 ^ (- prec))%Q.
  Definition largest : Q := (inject_Z (2 ^ prec - 1) * 2 ^ (emax - prec))%Q.

  Lemma Q2R_zero : Q2R 0 = 0%R.
  Proof. unfold Q2R. cbn [Qnum Qden]. lra. Qed.

  Lemma Q2R_pow2 e : Q2R (2 ^ e)%Q = bpow radix2 e.
  Proof.
    assert (Hp : forall p, Q2R (2 ^ Z.pos p)%Q = bpow radix2 (Z.pos p)).
    { intros p. rewrite <- IZR_Zpower by lia.
      assert (E : (2 ^ Z.pos p == inject_Z (2 ^ Z.pos p))%Q) by now rewrite Zpower_Qpower by lia.
      rewrite (Qeq_eqR _ _ E). unfold Q2R, inject_Z. cbn [Qnum Qden]. simpl (radix_val radix2). lra. }
    destruct e as [|p|p].
    - change (2 ^ 0)%Q with 1%Q. change (bpow radix2 0) with 1%R. unfold Q2R. cbn [Qnum Qden]. lra.
    - apply Hp.
    - change (2 ^ Z.neg p)%Q with (/ 2 ^ Z.pos p)%Q. rewrite Q2R_inv.
      + rewrite Hp. rewrite <- bpow_opp. reflexivity.
      + intros H. apply Qeq_eqR in H. rewrite Hp in H. pose proof (bpow_gt_0 radix2 (Z.pos p)).
        rewrite Q2R_zero in H. lra.
  Qed.

  Lemma Q2R_inject z : Q2R (inject_Z z) = IZR z.
  Proof. unfold Q2R, inject_Z. cbn. lra. Qed.

  Lemma Q2R_value x : Q2R (float_value x) = B2R x.
  Proof.
    destruct x as [s|s| |s m e Hb]; cbn [float_value B2R]; try apply Q2R_zero.
    rewrite Q2R_mult, Q2R_pow2, Q2R_inject. unfold F2R. cbn [Fnum Fexp]. now destruct s.
  Qed.

  Lemma Q2R_abs q : Q2R (Qabs q) = Rabs (Q2R q).
  Proof.
    destruct (Qlt_le_dec q 0) as [H|H].
    - rewrite (Qeq_eqR _ _ (Qabs_neg q (Qlt_le_weak _ _ H))), Q2R_opp. apply Qlt_Rlt in H.
      rewrite Q2R_zero in H. rewrite Rabs_left; lra.
    - rewrite (Qeq_eqR _ _ (Qabs_pos q H)). apply Qle_Rle in H. rewrite Q2R_zero in H.
      rewrite Rabs_pos_eq; lra.
  Qed.

  Lemma Q2R_largest : Q2R largest = F2R (Float radix2 (2 ^ prec - 1) (emax - prec)).
  Proof. unfold largest. now rewrite Q2R_mult, Q2R_pow2, Q2R_inject. Qed.

  Lemma largest_format : generic_format radix2 (SpecFloat.fexp prec emax) (Q2R largest).
  Proof.
    rewrite Q2R_largest. unfold Prec_gt_0 in Hprec. unfold Prec_lt_emax in Hemax.
    apply generic_format_FLT. exists (Float radix2 (2 ^ prec - 1) (emax - prec)); [reflexivity| |].
    - cbn [Fnum]. assert (0 < 2 ^ prec) by (apply Z.pow_pos_nonneg; lia). simpl (radix_val radix2). lia.
    - cbn [Fexp]. unfold SpecFloat.emin. lia.
  Qed.

  Lemma largest_below : (Q2R largest < bpow radix2 emax)%R.
  Proof.
    rewrite Q2R_largest. unfold F2R. cbn [Fnum Fexp].
    replace (bpow radix2 emax) with (bpow radix2 prec * bpow radix2 (emax - prec))%R
      by (rewrite <- bpow_plus; f_equal; lia).
    apply Rmult_lt_compat_r; [apply bpow_gt_0|]. unfold Prec_gt_0 in Hprec.
    rewrite <- IZR_Zpower by lia. apply IZR_lt. simpl (radix_val radix2). lia.
  Qed.

  Lemma float_adds_up : adds_up float_value float_finite (Bplus mode_NE) unit_roundoff largest.
  Proof.
    intros x y Fx Fy HL. apply Qle_Rle in HL. rewrite Q2R_abs, Q2R_plus, !Q2R_value in HL.
    set (s := (B2R x + B2R y)%R) in *. set (fexp := SpecFloat.fexp prec emax).
    assert (Vf : Valid_exp fexp) by (apply FLT_exp_valid; exact Hprec).
    set (r := round radix2 fexp (round_mode mode_NE) s).
    assert (Hr : (Rabs r < bpow radix2 emax)%R).
    { eapply Rle_lt_trans; [|exact largest_below]. unfold r. apply abs_round_le_generic; try typeclasses eauto.
      - exact largest_format.
      - exact HL. }
    pose proof (Bplus_correct prec emax Hprec Hemax mode_NE x y Fx Fy) as H.
    fold s fexp r in H. rewrite Rlt_bool_true in H by exact Hr. destruct H as (HB & HF & _).
    split; [exact HF|].
    apply Rle_Qle. rewrite Q2R_abs, Q2R_minus, Q2R_mult, Q2R_abs, Q2R_plus, !Q2R_value, HB. fold s.
    destruct (FLT_plus_error_N_ex radix2 (SpecFloat.emin prec emax) prec (fun n => negb (Z.even n))
                (B2R x) (B2R y)) as (e & He & Er).
    - apply generic_format_B2R.
    - apply generic_format_B2R.
    - change (round radix2 (FLT_exp (SpecFloat.emin prec emax) prec) (Znearest (fun n => negb (Z.even n))) (B2R x + B2R y))
        with r in Er. fold s in Er. rewrite Er. replace (s * (1 + e) - s)%R with (e * s)%R by ring.
      rewrite Rabs_mult. apply Rmult_le_compat_r; [apply Rabs_pos|].
      eapply Rle_trans; [exact He|]. eapply Rle_trans; [apply u_rod1pu_ro_le_u_ro|].
      unfold unit_roundoff. rewrite Q2R_pow2. unfold u_ro.
      replace (bpow radix2 (- prec + 1)) with (2 * bpow radix2 (- prec))%R.
      + lra.
      + rewrite bpow_plus. simpl (bpow radix2 1). lra.
  Qed.
End Float.

(** ** binary32 *)
Definition prec32 : Prec_gt_0 24 := eq_refl.
Definition emax32 : Prec_lt_emax 24 128 := eq_refl.
Definition binary32 := binary_float 24 128.
Definition of_int32 (z : Z) : binary32 := binary_normalize 24 128 prec32 emax32 mode_NE z 0 false.
Definition add32 : binary32 -> binary32 -> binary32 := Bplus (prec_gt_0_ := prec32) (prec_lt_emax_ := emax32) mode_NE.
