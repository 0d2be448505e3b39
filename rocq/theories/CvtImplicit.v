(** C68: which conversions of simds exist without cvt. *)
From Verif Require Import Base IntModel IntProofs ValueModel ValueProofs ValueExact CvtModel CvtSpec.

Lemma same_abi_eq A B : same_abi A B = true -> A = B.
Proof. destruct A, B; cbn; try discriminate; [reflexivity|]. intros H. apply Nat.eqb_eq in H. now subst. Qed.

Lemma implicit_simd l sum a A b B :
  lang_ok l -> aty_ok (a_kind a) -> aty_ok (a_kind b) ->
  (a_id a = a_id b -> a_kind a = a_kind b) ->
  (a_kind a = ABool -> a_kind b = ABool -> a_id a = a_id b) ->
  convertible l sum (Simd a A) (Simd b B) = true ->
  (a_id a = a_id b /\ A = B) \/
  exists n, A = AFixed n /\ B = AFixed n /\
    ((forall m e, has_value (a_kind a) m e -> has_value (a_kind b) m e) \/
     exists p emax t, a_kind a = AFloat p emax /\ a_kind b = AInt t /\ sgn t = true /\ emax < bits t - 1).
Proof.
  intros Hl Ha Hb Hs Hbool H. cbn [convertible] in H. apply orb_prop in H as [H|H].
  - apply andb_prop in H as [H1 H2]. left. split; [now apply Z.eqb_eq|now apply same_abi_eq].
  - right. destruct A as [|n], B as [|m]; try discriminate.
    apply andb_prop in H as [H _]. apply andb_prop in H as [H1 H2]. apply Nat.eqb_eq in H1. subst m.
    exists n. split; [reflexivity|]. split; [reflexivity|].
    apply (value_preserving_exact l (same a b)) in H2; try assumption.
    + intros E. apply Hs. now apply Z.eqb_eq.
    + intros E1 E2. apply Z.eqb_eq. now apply Hbool.
Qed.

(** Neither int nor unsigned int: the value is kept, too. *)
Lemma implicit_broadcast l sum a b B :
  lang_ok l -> aty_ok (a_kind a) -> aty_ok (a_kind b) ->
  (a_id a = a_id b -> a_kind a = a_kind b) ->
  (a_kind a = ABool -> a_kind b = ABool -> a_id a = a_id b) ->
  convertible l sum (Arith a) (Simd b B) = true ->
  a_id a = id_int \/ (a_id a = id_unsigned /\ is_unsigned_ty (a_kind b) = true) \/
  (forall m e, has_value (a_kind a) m e -> has_value (a_kind b) m e) \/
  exists p emax t, a_kind a = AFloat p emax /\ a_kind b = AInt t /\ sgn t = true /\ emax < bits t - 1.
Proof.
  intros Hl Ha Hb Hs Hbool H. cbn [convertible] in H. unfold preserving_or_int, value_preserving_or_int in H.
  apply orb_prop in H as [H|H]; [apply orb_prop in H as [H|H]; [apply orb_prop in H as [H|H]|]|].
  - right. right. left. intros m e. rewrite Hs by (now apply Z.eqb_eq). tauto.
  - left. now apply Z.eqb_eq.
  - apply andb_prop in H as [H1 H2]. right. left. split; [now apply Z.eqb_eq|exact H2].
  - right. right. apply (value_preserving_exact l (same a b)) in H; try assumption.
    + intros E. apply Hs. now apply Z.eqb_eq.
    + intros E3 E4. apply Z.eqb_eq. now apply Hbool.
Qed.
