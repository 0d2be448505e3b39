(** Proofs for C68. *)
From Verif Require Import Base BaseFacts LaneModel LaneProofs IntModel ValueModel CvtModel CvtSpec.
From Coq Require Import ZifyBool ZifyNat.
Ltac Zify.zify_post_hook ::= idtac.

Lemma subscript_in {A} (x : list A) i : (i < length x)%nat -> subscript x (Z.of_nat i) = lane x i.
Proof. intros H. unfold subscript. replace (_ && _) with true by lia. now rewrite Nat2Z.id. Qed.

Lemma subscript_out {A} (x : list A) i : (length x <= i)%nat -> subscript x (Z.of_nat i) = Stop STrap.
Proof. intros H. unfold subscript. now replace (_ && _) with false by lia. Qed.

Lemma gen_ext {A} n (f g : nat -> res A) : (forall i, (i < n)%nat -> f i = g i) -> gen n f = gen n g.
Proof. intros H. apply mapR_ext'. intros i Hi. apply H. apply in_seq in Hi. lia. Qed.

Lemma gen_iff {A} n (f : nat -> res A) r : gen n f = Ok r <->
  length r = n /\ forall i, (i < n)%nat -> exists w, f i = Ok w /\ nth_error r i = Some w.
Proof.
  unfold gen. rewrite mapR_iff, seq_length. split; intros [Hl H]; (split; [exact Hl|]).
  - intros i Hi. destruct (H i i) as (y & E1 & E2); [|eauto]. rewrite nth_error_nth' with (d := 0%nat) by now rewrite seq_length.
    now rewrite seq_nth.
  - intros i j Hj. assert (Hi : (i < n)%nat).
    { rewrite <- (seq_length n 0). apply nth_error_Some. congruence. }
    rewrite nth_error_nth' with (d := 0%nat) in Hj by now rewrite seq_length. rewrite seq_nth in Hj by exact Hi.
    injection Hj as <-. now apply H.
Qed.

Lemma mapR_stop {A B} (f : A -> res B) : forall l s, mapR f l = Stop s -> exists x, In x l /\ f x = Stop s.
Proof.
  induction l as [|a l IH]; intros s H; [discriminate|]. cbn [mapR] in H.
  destruct (f a) as [b|s'] eqn:E; cbn [bindR] in H.
  - destruct (mapR f l) as [r|s'] eqn:E2; cbn [bindR] in H; [discriminate|]. injection H as ->.
    destruct (IH s eq_refl) as (x & Hx & Hf). exists x. split; [now right|exact Hf].
  - injection H as ->. exists a. split; [now left|exact E].
Qed.

Lemma gen_stop {A} n (f : nat -> res A) s : gen n f = Stop s -> exists i, (i < n)%nat /\ f i = Stop s.
Proof. intros H. destruct (mapR_stop _ _ _ H) as (i & Hi & Hf). apply in_seq in Hi. exists i. split; [lia|exact Hf]. Qed.

Lemma gen_const {A} n (r : res A) : (0 < n)%nat -> bindR r (fun w => gen n (fun _ => Ok w)) = gen n (fun _ => r).
Proof.
  intros Hn. destruct r as [w|s]; [reflexivity|]. cbn [bindR]. destruct n; [lia|]. reflexivity.
Qed.

Lemma gen_self {A} (x : list A) n : length x = n -> gen n (lane x) = Ok x.
Proof.
  intros <-. apply gen_iff. split; [reflexivity|]. intros i Hi. unfold lane, of_option.
  destruct (nth_error x i) as [v|] eqn:E; [eauto|]. apply nth_error_None in E. lia.
Qed.

Lemma lane_ok {A} (x : list A) i v : lane x i = Ok v <-> nth_error x i = Some v.
Proof. unfold lane, of_option. destruct (nth_error x i); split; congruence. Qed.

Lemma lanes_abi a A : lanes_of (Simd a A) = abi_size A.
Proof. now destruct A. Qed.
Lemma lanes_abi_mask a A : lanes_of (Mask a A) = abi_size A.
Proof. now destruct A. Qed.

Lemma same_iff a b : same a b = true <-> a_id a = a_id b.
Proof. unfold same. lia. Qed.
Lemma same_abi_size A B : same_abi A B = true -> abi_size A = abi_size B.
Proof. destruct A, B; cbn [same_abi abi_size]; try discriminate; lia. Qed.

Section Proofs.
  Context {V : Type}.
  Variable l : lang.
  Variable sum : arith -> arith -> bool.
  Variable boolty : arith.
  Variable conv : arith -> arith -> V -> res V.
  Hypothesis Hrefl : conv_refl conv.

  Notation init := (init_from_cvt l sum boolty conv).
  Notation plain := (convertible l sum).

  (** The lane-by-lane value all conversions are compared with. *)
  Definition cval (T U : ty) (x : list V) : res (list V) :=
    gen (lanes_of U) (fun i => bindR (lane x (source_lane T i)) (conv (lane_type boolty T) (lane_type boolty U))).

  Lemma cval_iff T U x r : cval T U x = Ok r <-> converted conv boolty T U x r.
  Proof.
    unfold cval, converted. rewrite gen_iff. split; intros [Hl H]; (split; [exact Hl|]); intros i Hi.
    - destruct (H i Hi) as (w & E & Hn). destruct (lane x (source_lane T i)) as [v|] eqn:El; [|discriminate].
      apply lane_ok in El. exists v, w. auto.
    - destruct (H i Hi) as (v & w & El & E & Hn). exists w. apply lane_ok in El. rewrite El. auto.
  Qed.

  Lemma cval_stop T U x s : (forall i, (i < lanes_of U)%nat -> (source_lane T i < length x)%nat) ->
    cval T U x = Stop s -> exists v, In v x /\ conv (lane_type boolty T) (lane_type boolty U) v = Stop s.
  Proof.
    intros Hx H. apply gen_stop in H. destruct H as (i & Hi & H). specialize (Hx i Hi).
    destruct (lane x (source_lane T i)) as [v|] eqn:E; cbn [bindR] in H.
    - apply lane_ok in E. exists v. split; [now apply nth_error_In in E|exact H].
    - exfalso. unfold lane, of_option in E. destruct (nth_error x (source_lane T i)) eqn:E2; [discriminate|].
      apply nth_error_None in E2. lia.
  Qed.

  Lemma gen_sub_cval a b B A x : (abi_size B <= length x)%nat ->
    gen (abi_size B) (fun i => bindR (subscript x (Z.of_nat i)) (conv a b)) = cval (Simd a A) (Simd b B) x.
  Proof.
    intros H. unfold cval. rewrite lanes_abi. cbn [source_lane lane_type]. apply gen_ext. intros i Hi.
    now rewrite subscript_in by lia.
  Qed.

  Lemma gen_mask_cval a b B A x : (abi_size B <= length x)%nat ->
    gen (abi_size B) (fun i => subscript x (Z.of_nat i)) = cval (Mask a A) (Mask b B) x.
  Proof.
    intros H. unfold cval. rewrite lanes_abi_mask. cbn [source_lane lane_type]. apply gen_ext. intros i Hi.
    rewrite subscript_in by lia. destruct (lane x i) as [v|]; [|reflexivity]. cbn [bindR]. now rewrite Hrefl.
  Qed.

  Lemma same_cval_simd a b B A x : same a b = true -> length x = abi_size B ->
    Ok x = cval (Simd a A) (Simd b B) x.
  Proof.
    intros Hs H. unfold cval. rewrite lanes_abi. cbn [source_lane lane_type]. rewrite <- (gen_self x _ H).
    apply gen_ext. intros i Hi. destruct (lane x i) as [v|]; [|reflexivity]. cbn [bindR]. apply same_iff in Hs.
    now rewrite Hrefl.
  Qed.

  Lemma same_cval_mask a b B A x : length x = abi_size B -> Ok x = cval (Mask a A) (Mask b B) x.
  Proof.
    intros H. unfold cval. rewrite lanes_abi_mask. cbn [source_lane lane_type]. rewrite <- (gen_self x _ H).
    apply gen_ext. intros i Hi. destruct (lane x i) as [v|]; [|reflexivity]. cbn [bindR]. now rewrite Hrefl.
  Qed.

  Lemma arith_cval a b x : bindR (lane x 0) (fun v => bindR (conv a b v) (fun w => Ok [w])) = cval (Arith a) (Arith b) x.
  Proof.
    unfold cval. cbn [lanes_of source_lane lane_type gen seq mapR].
    destruct (lane x 0) as [v|]; [|reflexivity]. cbn [bindR]. unfold gen. cbn [seq mapR]. destruct (conv a b v); reflexivity.
  Qed.

  Lemma broadcast_cval a b B x : (0 < abi_size B)%nat ->
    bindR (lane x 0) (fun v => bindR (conv a b v) (fun w => gen (abi_size B) (fun _ => Ok w))) =
    cval (Arith a) (Simd b B) x.
  Proof.
    intros Hn. unfold cval. rewrite lanes_abi. cbn [source_lane lane_type]. rewrite <- gen_const by exact Hn.
    destruct (lane x 0) as [v|]; [|reflexivity]. reflexivity.
  Qed.

  (** ** The conversion function *)

  Lemma operator_arith a b x : cvt_operator l sum boolty conv (Arith a) (Arith b) x = cval (Arith a) (Arith b) x.
  Proof. unfold cvt_operator. cbn [convertible convert_implicitly]. apply arith_cval. Qed.

  Lemma operator_broadcast a b B x : (0 < abi_size B)%nat -> plain (Arith a) (Simd b B) = true ->
    cvt_operator l sum boolty conv (Arith a) (Simd b B) x = cval (Arith a) (Simd b B) x.
  Proof. intros Hn Hc. unfold cvt_operator. rewrite Hc. cbn [convert_implicitly]. now apply broadcast_cval. Qed.

  Lemma operator_simd a A b B x : (abi_size B <= abi_size A)%nat -> length x = abi_size A ->
    cvt_operator l sum boolty conv (Simd a A) (Simd b B) x = cval (Simd a A) (Simd b B) x.
  Proof.
    intros Hle Hx. unfold cvt_operator. destruct (plain _ _) eqn:Ec.
    - cbn [convert_implicitly]. destruct (same a b && same_abi A B) eqn:Es.
      + apply andb_true_iff in Es. destruct Es as [Hs Ha]. apply same_abi_size in Ha. apply same_cval_simd; [exact Hs|lia].
      + apply gen_sub_cval. lia.
    - cbn [static_cast_value]. apply gen_sub_cval. lia.
  Qed.

  Lemma operator_simd_more a A b B x : (abi_size A < abi_size B)%nat -> length x = abi_size A ->
    cvt_operator l sum boolty conv (Simd a A) (Simd b B) x =
    gen (abi_size B) (fun i => bindR (subscript x (Z.of_nat i)) (conv a b)).
  Proof.
    intros Hlt Hx. unfold cvt_operator. replace (plain _ _) with false; [reflexivity|]. symmetry.
    cbn [convertible]. apply orb_false_iff. split.
    - destruct (same_abi A B) eqn:E; [apply same_abi_size in E; lia|]. apply andb_false_r.
    - destruct A, B; try reflexivity. cbn [abi_size] in Hlt. replace (n =? n0)%nat with false by lia. reflexivity.
  Qed.

  Lemma operator_mask a A b B x : abi_size A = abi_size B -> length x = abi_size A ->
    cvt_operator l sum boolty conv (Mask a A) (Mask b B) x = cval (Mask a A) (Mask b B) x.
  Proof.
    intros Hle Hx. unfold cvt_operator. destruct (plain _ _) eqn:Ec.
    - cbn [convert_implicitly]. destruct (same a b && same_abi A B) eqn:Es.
      + apply same_cval_mask. lia.
      + apply gen_mask_cval. lia.
    - cbn [static_cast_value]. apply gen_mask_cval. lia.
  Qed.

  Lemma operator_mask_simd a A b B x : abi_size A = abi_size B -> length x = abi_size A ->
    cvt_operator l sum boolty conv (Mask a A) (Simd b B) x = cval (Mask a A) (Simd b B) x.
  Proof.
    intros Hle Hx. unfold cvt_operator. cbn [convertible static_cast_value]. unfold cval. rewrite lanes_abi.
    cbn [source_lane lane_type]. apply gen_ext. intros i Hi. now rewrite subscript_in by lia.
  Qed.

  (** ** The constraint *)

  Lemma con_arith a b : cvt_constraint l sum (Arith a) (Arith b) = true.
  Proof. reflexivity. Qed.
  Lemma con_broadcast a b B : cvt_constraint l sum (Arith a) (Simd b B) = plain (Arith a) (Simd b B).
  Proof. unfold cvt_constraint. cbn [static_cast_type]. apply orb_false_r. Qed.
  Lemma con_arith_mask a b B : cvt_constraint l sum (Arith a) (Mask b B) = false.
  Proof. reflexivity. Qed.
  Lemma con_simd_arith a A b : cvt_constraint l sum (Simd a A) (Arith b) = false.
  Proof. unfold cvt_constraint. cbn [convertible static_cast_type]. now destruct (vectorizable b). Qed.
  Lemma same_refl a : same a a = true.
  Proof. unfold same. lia. Qed.
  Lemma same_abi_refl A : same_abi A A = true.
  Proof. destruct A; cbn [same_abi]; [reflexivity|lia]. Qed.
  Lemma con_simd a A b B : cvt_constraint l sum (Simd a A) (Simd b B) = true.
  Proof.
    unfold cvt_constraint. cbn [static_cast_type same_ty]. rewrite same_refl, same_abi_refl. apply orb_true_r.
  Qed.
  Lemma con_simd_mask a A b B : cvt_constraint l sum (Simd a A) (Mask b B) = false.
  Proof. reflexivity. Qed.
  Lemma con_mask_arith a A b : cvt_constraint l sum (Mask a A) (Arith b) = false.
  Proof. unfold cvt_constraint. cbn [convertible static_cast_type]. now destruct (vectorizable b). Qed.
  Lemma con_mask_simd a A b B : cvt_constraint l sum (Mask a A) (Simd b B) = (abi_size B =? abi_size A)%nat.
  Proof.
    unfold cvt_constraint. cbn [convertible static_cast_type same_ty].
    destruct (_ =? _)%nat; [|reflexivity]. cbn [same_ty]. now rewrite same_refl, same_abi_refl.
  Qed.
  Lemma con_mask a A b B : cvt_constraint l sum (Mask a A) (Mask b B) = (abi_size B =? abi_size A)%nat.
  Proof.
    unfold cvt_constraint. cbn [static_cast_type].
    destruct (_ =? _)%nat eqn:E; [cbn [same_ty]; rewrite same_refl, same_abi_refl; apply orb_true_r|].
    rewrite orb_false_r. cbn [convertible]. apply orb_false_iff. split.
    - destruct (same_abi A B) eqn:Es; [apply same_abi_size in Es; lia|]. apply andb_false_r.
    - destruct A, B; try reflexivity. cbn [abi_size] in E. lia.
  Qed.

  (** ** Initialisation *)

  Lemma init_arith c k a b x : init c k (Arith a) (Arith b) x = cval (Arith a) (Arith b) x.
  Proof. unfold init_from_cvt. cbn [resolve]. rewrite con_arith. apply operator_arith. Qed.

  Definition blocked (c : context) (k : bool) (T U : ty) : bool :=
    match c, T, U with CopyInit, Arith _, Simd _ _ => k && plain T U | _, _, _ => false end.

  Lemma by_broadcast a b B x : (0 < abi_size B)%nat ->
    bindR (cvt_operator l sum boolty conv (Arith a) (Arith b) x)
      (fun w => bindR (lane w 0) (fun v => gen (abi_size B) (fun _ => Ok v))) = cval (Arith a) (Simd b B) x.
  Proof.
    intros Hn. rewrite operator_arith, <- arith_cval, <- broadcast_cval by exact Hn.
    destruct (lane x 0) as [v|]; [|reflexivity]. cbn [bindR]. now destruct (conv a b v).
  Qed.

  Lemma init_broadcast c k a b B x : (0 < abi_size B)%nat ->
    init c k (Arith a) (Simd b B) x = if blocked c k (Arith a) (Simd b B) then Stop SIllFormed else cval (Arith a) (Simd b B) x.
  Proof.
    intros Hn. unfold init_from_cvt, resolve, broadcast_viable. rewrite con_arith, con_broadcast. unfold blocked.
    destruct c.
    - destruct (plain (Arith a) (Simd b B)) eqn:E, k; cbn [andb]; try reflexivity; now apply by_broadcast.
    - now apply by_broadcast.
    - destruct (plain (Arith a) (Simd b B)) eqn:E; [now apply operator_broadcast|now apply by_broadcast].
  Qed.

  Lemma init_arith_mask c k a b B x : (0 < abi_size B)%nat ->
    init c k (Arith a) (Mask b B) x = match c with DirectInit => cval (Arith a) (Mask b B) x | _ => Stop SIllFormed end.
  Proof.
    intros Hn. unfold init_from_cvt, resolve. rewrite con_arith, con_arith_mask. destruct c; try reflexivity.
    rewrite operator_arith, <- arith_cval. unfold cval. rewrite lanes_abi_mask. cbn [source_lane lane_type].
    rewrite <- gen_const by exact Hn. destruct (lane x 0) as [v|]; [|reflexivity]. cbn [bindR]. now destruct (conv a boolty v).
  Qed.

  Lemma init_simd c k a A b B x :
    init c k (Simd a A) (Simd b B) x = cvt_operator l sum boolty conv (Simd a A) (Simd b B) x.
  Proof. unfold init_from_cvt, resolve, broadcast_viable. rewrite con_simd_arith, con_simd. now destruct c. Qed.
  Lemma init_simd_arith c k a A b x : init c k (Simd a A) (Arith b) x = Stop SIllFormed.
  Proof. unfold init_from_cvt, resolve. now rewrite con_simd_arith. Qed.
  Lemma init_simd_mask c k a A b B x : init c k (Simd a A) (Mask b B) x = Stop SIllFormed.
  Proof. unfold init_from_cvt, resolve. rewrite con_simd_mask, con_simd_arith. now destruct c. Qed.
  Lemma init_mask_arith c k a A b x : init c k (Mask a A) (Arith b) x = Stop SIllFormed.
  Proof. unfold init_from_cvt, resolve. now rewrite con_mask_arith. Qed.
  Lemma init_mask_simd c k a A b B x :
    init c k (Mask a A) (Simd b B) x =
    if (abi_size B =? abi_size A)%nat then cvt_operator l sum boolty conv (Mask a A) (Simd b B) x else Stop SIllFormed.
  Proof.
    unfold init_from_cvt, resolve, broadcast_viable. rewrite con_mask_arith, con_mask_simd.
    now destruct c, (abi_size B =? abi_size A)%nat.
  Qed.
  Lemma init_mask c k a A b B x :
    init c k (Mask a A) (Mask b B) x =
    if (abi_size B =? abi_size A)%nat then cvt_operator l sum boolty conv (Mask a A) (Mask b B) x else Stop SIllFormed.
  Proof.
    unfold init_from_cvt, resolve. rewrite con_mask_arith, con_mask. now destruct c, (abi_size B =? abi_size A)%nat.
  Qed.

  (** Lane-wise conversions. *)
  Lemma init_lane_wise c k T U x : lane_wise T U -> (0 < lanes_of U)%nat -> length x = lanes_of T ->
    blocked c k T U = false -> init c k T U x = cval T U x.
  Proof.
    intros H Hn Hx Hb. destruct H as [a b|a b B|a A b B He|a A b B He].
    - apply init_arith.
    - rewrite lanes_abi in Hn. rewrite init_broadcast by exact Hn. now rewrite Hb.
    - rewrite !lanes_abi in *. rewrite init_simd. apply operator_simd; lia.
    - rewrite !lanes_abi_mask in *. rewrite init_mask. replace (_ =? _)%nat with true by lia. apply operator_mask; lia.
  Qed.

  Lemma lane_wise_src T U (x : list V) : lane_wise T U -> length x = lanes_of T ->
    forall i, (i < lanes_of U)%nat -> (source_lane T i < length x)%nat.
  Proof.
    intros H Hx i Hi. destruct H as [a b|a b B|a A b B He|a A b B He]; cbn [source_lane]; rewrite Hx; try (cbn [lanes_of]; lia); now rewrite He.
  Qed.

  Lemma converts c k T U x r : lane_wise T U -> (0 < lanes_of U)%nat -> length x = lanes_of T ->
    blocked c k T U = false -> (init c k T U x = Ok r <-> converted conv boolty T U x r).
  Proof. intros H Hn Hx Hb. rewrite init_lane_wise by assumption. apply cval_iff. Qed.

  Lemma fails c k T U x s : lane_wise T U -> (0 < lanes_of U)%nat -> length x = lanes_of T ->
    blocked c k T U = false -> init c k T U x = Stop s ->
    exists v, In v x /\ conv (lane_type boolty T) (lane_type boolty U) v = Stop s.
  Proof.
    intros H Hn Hx Hb. rewrite init_lane_wise by assumption. apply cval_stop. now apply (lane_wise_src T U).
  Qed.

  Lemma const_copy a b B x : (0 < abi_size B)%nat ->
    init CopyInit true (Arith a) (Simd b B) x =
    if preserving_or_int l a b then Stop SIllFormed else cval (Arith a) (Simd b B) x.
  Proof. intros Hn. rewrite init_broadcast by exact Hn. reflexivity. Qed.

  Lemma fewer c k a A b B x r : (lanes_of (Simd b B) < lanes_of (Simd a A))%nat -> length x = lanes_of (Simd a A) ->
    (init c k (Simd a A) (Simd b B) x = Ok r <-> converted conv boolty (Simd a A) (Simd b B) x r).
  Proof.
    rewrite !lanes_abi. intros Hl Hx. rewrite init_simd, operator_simd by lia. apply cval_iff.
  Qed.

  Lemma more c k a A b B x : conv_ub conv -> (lanes_of (Simd a A) < lanes_of (Simd b B))%nat ->
    length x = lanes_of (Simd a A) ->
    (init c k (Simd a A) (Simd b B) x = Stop STrap <-> forall v, In v x -> exists w, conv a b v = Ok w) /\
    (init c k (Simd a A) (Simd b B) x = Stop SUB <-> exists v, In v x /\ conv a b v = Stop SUB).
  Proof.
    intros Hub. rewrite !lanes_abi. intros Hl Hx. rewrite init_simd, operator_simd_more by lia.
    set (f := fun i => bindR (subscript x (Z.of_nat i)) (conv a b)).
    assert (Hin : forall i, (i < length x)%nat -> exists v, nth_error x i = Some v /\ f i = conv a b v).
    { intros i Hi. destruct (nth_error x i) as [v|] eqn:E; [|apply nth_error_None in E; lia].
      exists v. split; [reflexivity|]. unfold f. rewrite subscript_in by exact Hi. apply lane_ok in E. now rewrite E. }
    assert (Hout : forall i, (length x <= i)%nat -> f i = Stop STrap).
    { intros i Hi. unfold f. now rewrite subscript_out. }
    assert (Hsplit : gen (abi_size B) f = bindR (mapR f (seq 0 (length x))) (fun _ => Stop STrap)).
    { unfold gen. replace (abi_size B) with (length x + S (abi_size B - length x - 1))%nat by lia.
      generalize (abi_size B - length x - 1)%nat. intros m. rewrite seq_app.
      generalize (seq 0 (length x)). intros q. induction q as [|j q IH]; cbn [app mapR].
      - cbn [seq mapR]. now rewrite Hout by lia.
      - destruct (f j); [|reflexivity]. cbn [bindR]. rewrite IH. now destruct (mapR f q). }
    rewrite Hsplit. destruct (mapR f (seq 0 (length x))) as [r|s] eqn:E; cbn [bindR].
    - assert (Hall : forall v, In v x -> exists w, conv a b v = Ok w).
      { intros v Hv. apply In_nth_error in Hv. destruct Hv as [i Hi].
        assert (Hlt : (i < length x)%nat) by (apply nth_error_Some; congruence).
        apply gen_iff in E. destruct E as [_ E]. destruct (E i Hlt) as (w & Ew & _).
        destruct (Hin i Hlt) as (v' & Ev' & Ef). exists w. congruence. }
      split; split; intros H; auto; try discriminate.
      destruct H as (v & Hv & Hs). destruct (Hall v Hv). congruence.
    - destruct (mapR_stop _ _ _ E) as (i & Hi & Hf). apply in_seq in Hi.
      destruct (Hin i) as (v & Ev & Ef); [lia|]. rewrite Ef in Hf. apply nth_error_In in Ev.
      assert (Hs : s = SUB) by (eapply Hub; exact Hf). subst s.
      split; split; intros H; try discriminate; eauto.
      destruct (H v Ev). congruence.
  Qed.

  Lemma mask_to_simd c k a A b B x r : length x = lanes_of (Mask a A) -> lanes_of (Mask a A) = lanes_of (Simd b B) ->
    (init c k (Mask a A) (Simd b B) x = Ok r <-> converted conv boolty (Mask a A) (Simd b B) x r).
  Proof.
    rewrite lanes_abi, lanes_abi_mask. intros Hx He. rewrite init_mask_simd.
    replace (_ =? _)%nat with true by lia. rewrite operator_mask_simd by lia. apply cval_iff.
  Qed.

  Lemma plain_kept c k T U x : (0 < lanes_of U)%nat -> length x = lanes_of T -> blocked c k T U = false ->
    plain T U = true -> init c k T U x = convert_implicitly conv T U x.
  Proof.
    intros Hn Hx Hb Hp.
    assert (Ho : convert_implicitly conv T U x = cvt_operator l sum boolty conv T U x).
    { unfold cvt_operator. now rewrite Hp. }
    rewrite Ho. assert (Hc : cvt_constraint l sum T U = true) by (unfold cvt_constraint; now rewrite Hp).
    destruct T as [a|a A|a A], U as [b|b B|b B]; try discriminate Hp.
    - rewrite init_arith. now rewrite operator_arith.
    - rewrite lanes_abi in Hn. rewrite init_broadcast by exact Hn. rewrite Hb. now rewrite operator_broadcast.
    - now rewrite init_simd.
    - rewrite init_mask. rewrite con_mask in Hc. now rewrite Hc.
  Qed.

  Lemma agree c1 k1 c2 k2 T U x : (0 < lanes_of U)%nat ->
    init c1 k1 T U x <> Stop SIllFormed -> init c2 k2 T U x <> Stop SIllFormed ->
    init c1 k1 T U x = init c2 k2 T U x.
  Proof.
    intros Hn. destruct T as [a|a A|a A], U as [b|b B|b B]; try rewrite lanes_abi in Hn; try rewrite lanes_abi_mask in Hn.
    - now rewrite !init_arith.
    - rewrite !init_broadcast by exact Hn. now destruct (blocked c1 _ _ _), (blocked c2 _ _ _).
    - rewrite !init_arith_mask by exact Hn. destruct c1, c2; congruence.
    - now rewrite !init_simd_arith.
    - now rewrite !init_simd.
    - now rewrite !init_simd_mask.
    - now rewrite !init_mask_arith.
    - now rewrite !init_mask_simd.
    - now rewrite !init_mask.
  Qed.

  Lemma accepts c k T U x : conv_ub conv -> (0 < lanes_of U)%nat -> length x = lanes_of T ->
    (init c k T U x = Stop SIllFormed <->
     match T, U with
     | Arith _, Arith _ => False
     | Arith a, Simd b _ => c = CopyInit /\ k = true /\ preserving_or_int l a b = true
     | Arith _, Mask _ _ => c <> DirectInit
     | Simd _ _, Simd _ _ => False
     | Mask _ _, Mask _ _ | Mask _ _, Simd _ _ => lanes_of T <> lanes_of U
     | _, Arith _ | Simd _ _, Mask _ _ => True
     end).
  Proof.
    intros Hub Hn Hx.
    assert (Hcv : (forall i, (i < lanes_of U)%nat -> (source_lane T i < length x)%nat) -> cval T U x <> Stop SIllFormed).
    { intros Hs Hc. apply (cval_stop T U x _ Hs) in Hc. destruct Hc as (v & _ & Hv). apply Hub in Hv. discriminate. }
    destruct T as [a|a A|a A], U as [b|b B|b B].
    - rewrite init_arith. split; [intros H; apply Hcv; [|exact H]|tauto].
      intros i Hi. cbn [lanes_of source_lane] in *. lia.
    - rewrite init_broadcast by (rewrite lanes_abi in Hn; exact Hn).
      assert (Hc : cval (Arith a) (Simd b B) x <> Stop SIllFormed) by (apply Hcv; intros i Hi; cbn [lanes_of source_lane] in *; lia).
      unfold blocked. cbn [convertible].
      destruct c; [|split; [tauto|intros (E & _); discriminate]..].
      destruct k, (preserving_or_int l a b); cbn [andb]; split; try tauto; try (intros _; auto; fail);
        intros (_ & E1 & E2); discriminate.
    - rewrite init_arith_mask by (rewrite lanes_abi_mask in Hn; exact Hn). destruct c; split; try congruence.
      intros H. exfalso. revert H. apply Hcv. intros i Hi; cbn [lanes_of source_lane] in *; lia.
    - now rewrite init_simd_arith.
    - rewrite init_simd. split; [|tauto]. intros H. rewrite lanes_abi in Hx.
      destruct (Nat.le_gt_cases (abi_size B) (abi_size A)) as [Hle|Hgt].
      + rewrite operator_simd in H by lia. apply Hcv in H; [exact H|]. intros i Hi. rewrite lanes_abi in Hi. cbn [source_lane]. lia.
      + rewrite operator_simd_more in H by lia. apply gen_stop in H. destruct H as (i & Hi & H).
        destruct (Nat.lt_ge_cases i (length x)) as [Hil|Hil].
        * rewrite subscript_in in H by exact Hil. destruct (lane x i) as [v|s] eqn:El; cbn [bindR] in H.
          -- apply Hub in H. discriminate.
          -- unfold lane, of_option in El. destruct (nth_error x i); congruence.
        * rewrite subscript_out in H by exact Hil. discriminate.
    - now rewrite init_simd_mask.
    - now rewrite init_mask_arith.
    - rewrite init_mask_simd, lanes_abi_mask, lanes_abi. rewrite lanes_abi_mask in Hx.
      destruct (abi_size B =? abi_size A)%nat eqn:E; split; intros H; try lia; try reflexivity.
      rewrite operator_mask_simd in H by lia. exfalso. revert H. apply Hcv. intros i Hi. rewrite lanes_abi in Hi. cbn [source_lane]. lia.
    - rewrite init_mask, !lanes_abi_mask. rewrite lanes_abi_mask in Hx.
      destruct (abi_size B =? abi_size A)%nat eqn:E; split; intros H; try lia; try reflexivity.
      rewrite operator_mask in H by lia. exfalso. revert H. apply Hcv. intros i Hi. rewrite lanes_abi_mask in Hi. cbn [source_lane]. lia.
  Qed.

  Notation excl := (const_copy_of_convertible l sum).

  Lemma blocked_iff c k T U : blocked c k T U = true <-> excl c k T U.
  Proof.
    unfold blocked, const_copy_of_convertible. split.
    - destruct c; try discriminate. destruct T; try discriminate. destruct U; try discriminate. intros H.
      apply andb_true_iff in H. destruct H. repeat split; eauto.
    - intros (-> & -> & (a & ->) & (b & B & ->) & H). exact H.
  Qed.

  Lemma not_blocked c k T U : ~ excl c k T U -> blocked c k T U = false.
  Proof. rewrite <- blocked_iff. now destruct (blocked c k T U). Qed.

  Lemma converts' c k T U x r : lane_wise T U -> (0 < lanes_of U)%nat -> length x = lanes_of T ->
    ~ excl c k T U -> (init c k T U x = Ok r <-> converted conv boolty T U x r).
  Proof. intros H Hn Hx Hb. apply not_blocked in Hb. now apply converts. Qed.

  Lemma fails' c k T U x s : lane_wise T U -> (0 < lanes_of U)%nat -> length x = lanes_of T ->
    ~ excl c k T U -> init c k T U x = Stop s ->
    exists v, In v x /\ conv (lane_type boolty T) (lane_type boolty U) v = Stop s.
  Proof. intros H Hn Hx Hb. apply not_blocked in Hb. now apply fails. Qed.

  Lemma plain_kept' c k T U x : (0 < lanes_of U)%nat -> length x = lanes_of T -> ~ excl c k T U ->
    plain T U = true -> init c k T U x = convert_implicitly conv T U x.
  Proof. intros Hn Hx Hb. apply not_blocked in Hb. now apply plain_kept. Qed.

  Lemma const_copy_fails c k T U x : excl c k T U -> (0 < lanes_of U)%nat -> init c k T U x = Stop SIllFormed.
  Proof.
    intros (-> & -> & (a & ->) & (b & B & ->) & H) Hn. rewrite lanes_abi in Hn. rewrite const_copy by exact Hn.
    cbn [convertible] in H. now rewrite H.
  Qed.

  Lemma accepts' c k T U x : conv_ub conv -> (0 < lanes_of U)%nat -> length x = lanes_of T ->
    (init c k T U x <> Stop SIllFormed <-> (lane_wise T U /\ ~ excl c k T U) \/ also_accepted c T U).
  Proof.
    intros Hub Hn Hx. rewrite (accepts c k T U x Hub Hn Hx). rewrite <- blocked_iff. unfold blocked.
    destruct T as [a|a A|a A], U as [b|b B|b B].
    - split; [intros _; left|tauto]. split; [constructor|]. destruct c; discriminate.
    - cbn [convertible]. split.
      + intros H. left. split; [constructor|]. destruct c; try discriminate. intros Hb.
        apply andb_true_iff in Hb. tauto.
      + intros [[_ H]|H]; [|inversion H]. intros (-> & -> & E). apply H. rewrite E. reflexivity.
    - split.
      + intros H. right. constructor. destruct c; try reflexivity; exfalso; apply H; discriminate.
      + intros [[H _]|H]; inversion H; subst. tauto.
    - split; [tauto|]. intros [[H _]|H]; inversion H.
    - split; [|tauto]. intros _. destruct (Nat.eq_dec (lanes_of (Simd a A)) (lanes_of (Simd b B))) as [E|E].
      + left. split; [now constructor|]. destruct c; discriminate.
      + right. now constructor.
    - split; [tauto|]. intros [[H _]|H]; inversion H.
    - split; [tauto|]. intros [[H _]|H]; inversion H.
    - split.
      + intros H. right. constructor. destruct (Nat.eq_dec (lanes_of (Mask a A)) (lanes_of (Simd b B))); tauto.
      + intros [[H _]|H]; inversion H; subst. tauto.
    - split.
      + intros H. left. split; [constructor|destruct c; discriminate].
        destruct (Nat.eq_dec (lanes_of (Mask a A)) (lanes_of (Mask b B))); tauto.
      + intros [[H _]|H]; inversion H; subst. tauto.
  Qed.

  Lemma direct_mask k a b B x r : (0 < lanes_of (Mask b B))%nat ->
    (init DirectInit k (Arith a) (Mask b B) x = Ok r <-> converted conv boolty (Arith a) (Mask b B) x r).
  Proof. rewrite lanes_abi_mask. intros Hn. rewrite init_arith_mask by exact Hn. apply cval_iff. Qed.

  (** The same line of code on scalars and on simds. *)
  Lemma generic c k a A b B x r c' k' : lanes_of (Simd a A) = lanes_of (Simd b B) -> (0 < lanes_of (Simd b B))%nat ->
    length x = lanes_of (Simd a A) -> length r = length x ->
    (init c k (Simd a A) (Simd b B) x = Ok r <->
     forall i v w, nth_error x i = Some v -> nth_error r i = Some w -> init c' k' (Arith a) (Arith b) [v] = Ok [w]).
  Proof.
    intros He Hn Hx Hr. rewrite (converts c k _ _ x r (lw_simd a A b B He) Hn Hx) by (destruct c; reflexivity).
    unfold converted. cbn [lane_type source_lane]. split.
    - intros [_ H] i v w Hv Hw. rewrite init_arith. unfold cval, gen. cbn [lanes_of seq mapR source_lane lane_type].
      assert (Hi : (i < lanes_of (Simd b B))%nat) by (rewrite <- He, <- Hx; apply nth_error_Some; congruence).
      destruct (H i Hi) as (v' & w' & E1 & E2 & E3). cbn [lane nth_error of_option bindR].
      change (bindR (lane [v] 0) (conv a b)) with (conv a b v). replace v with v' by congruence. rewrite E2. cbn [bindR]. congruence.
    - intros H. split; [lia|]. intros i Hi.
      destruct (nth_error x i) as [v|] eqn:Ev; [|apply nth_error_None in Ev; lia].
      destruct (nth_error r i) as [w|] eqn:Ew; [|apply nth_error_None in Ew; lia].
      exists v, w. split; [reflexivity|]. split; [|reflexivity].
      specialize (H i v w Ev Ew). rewrite init_arith in H. unfold cval, gen in H. cbn [lanes_of seq mapR source_lane lane_type] in H.
      change (bindR (lane [v] 0) (conv a b)) with (conv a b v) in H. destruct (conv a b v); cbn [bindR] in H; congruence.
  Qed.
End Proofs.
