(** The property-level lemmas of C79. *)
From Verif Require Import Base BaseFacts ExecModel ExecProofs ExecForEach ExecSpec ExecThm TransformModel
  ReduceModel ReduceSpec ReduceProofs TReduceModel TReduceSpec TReduceProofs TReduceThm
  ScheduleSpec ScheduleProofs OrderSpec OrderProofs OrderThm AccSpec AccProofs.
From Coq Require Import Permutation ZifyBool ZifyNat QArith Qabs Qpower Sorted Lqa.
Ltac Zify.zify_post_hook ::= idtac.
#[local] Open Scope Z_scope.

Lemma digits_sorted d : StronglySorted lt (digits d).
Proof. unfold digits. apply filter_sorted, seq_sorted. Qed.

Lemma digits_none : digits 0 = [].
Proof. vm_compute. reflexivity. Qed.

Lemma digits_below d w : 0 <= d < Z.of_nat w -> Forall (fun i => S i <= Nat.log2_up w)%nat (digits d).
Proof.
  intros Hd. apply Forall_forall. intros i. unfold digits. rewrite filter_In. intros [_ H].
  apply log2_up_above. assert (2 ^ Z.of_nat i <= d).
  { destruct (Z.le_gt_cases (2 ^ Z.of_nat i) d) as [|G]; [assumption|].
    rewrite Z.bits_above_log2 in H; [discriminate|lia|].
    destruct (Z.eq_dec d 0) as [->|]; [rewrite Z.bits_0 in H; discriminate|].
    apply Z.log2_lt_pow2; lia. }
  apply Nat2Z.inj_lt. rewrite Nat2Z.inj_pow. change (Z.of_nat 2) with 2. lia.
Qed.

Opaque digits.

Lemma range_of_length c pol w first n d :
  target_ok c -> width_ok w -> prologue_length c pol w first n d -> 0 <= d /\ (d = 0 \/ d < w).
Proof.
  intros Hc Hw Hd. destruct (prologue_args c pol w n first) as [[maxe tp]|] eqn:Epa.
  - destruct (prologue_some_length c pol w n first maxe tp (target_cfg c Hc) Hw Epa) as (Hd' & _ & Htp & _).
    rewrite (prologue_length_unique _ _ _ _ _ _ _ Hd Hd'). lia.
  - pose proof (prologue_none_length c pol w n first (target_cfg c Hc) Hw Epa) as Hd'.
    rewrite (prologue_length_unique _ _ _ _ _ _ _ Hd Hd'). lia.
Qed.

Section Tree.
  Context {A : Type}.
  Variable x0 : A.

  Lemma totals_depth k ds : forall (l : list (expr A)) t j,
    StronglySorted lt ds -> Forall (fun i => S i <= k)%nat ds -> Forall (fun i => j <= i)%nat ds ->
    (j <= k)%nat -> (depth t <= j)%nat -> below 0 l ->
    (depth (fold_left (fun t ch => Comb t (across Comb (Elem x0) ch)) (parts (map (Nat.pow 2) ds) l) t) <= k)%nat.
  Proof.
    induction ds as [|i ds IH]; intros l t j Hs Hk Hj Hjk Ht Hl; [cbn; lia|].
    inversion Hs as [|? ? Hs' Hlt]; subst. inversion Hk as [|? ? Hik Hk']; subst. inversion Hj as [|? ? Hji Hj']; subst.
    cbn [map parts fold_left]. apply (IH _ _ (S i)); try assumption.
    - pose proof (across_depth x0 0 (firstn (2 ^ i) l) (below_firstn 0 _ _ Hl)) as D.
      assert (Nat.log2_up (length (firstn (2 ^ i) l)) <= i)%nat by (apply log2_up_upto; rewrite firstn_length; lia).
      cbn [depth]. lia.
    - now apply below_skipn.
  Qed.

  Lemma below_elems (l : list A) : below 0 (map Elem l).
  Proof. induction l; constructor; [cbn; lia|assumption]. Qed.

  Lemma grouped_depth w u d (vals : list A) :
    (1 <= w)%nat -> 0 <= d -> (d = 0 \/ d < Z.of_nat w) -> (vals = [] \/ d < Z.of_nat (length vals)) ->
    (depth (grouped Comb w u d (Elem x0) (map Elem vals))
     <= depth_bound w u (length vals - Z.to_nat d))%nat.
  Proof.
    intros Hw H0 Hdw Hdn. unfold grouped. destruct vals as [|v vals]; [cbn [map depth]; lia|].
    destruct Hdn as [|Hdn]; [discriminate|]. set (V := v :: vals) in *.
    change (map Elem V) with (Elem v :: map Elem vals) at 1. cbv iota.
    replace (length V - Z.to_nat d)%nat with (length (skipn (Z.to_nat d) (map Elem V)))
      by (rewrite skipn_length, map_length; reflexivity).
    apply main_depth; try assumption.
    - intros E. apply (f_equal (@length (expr A))) in E. rewrite skipn_length, map_length in E. cbn [length] in E. lia.
    - apply below_skipn, below_elems.
    - unfold prologue_total. apply (totals_depth _ (digits d) _ _ 0%nat).
      + apply digits_sorted.
      + destruct Hdw as [->|Hdw]; [rewrite digits_none; constructor|apply digits_below; lia].
      + apply Forall_forall. intros i _. apply Nat.le_0_l.
      + apply Nat.le_0_l.
      + apply Nat.le_refl.
      + apply below_elems.
  Qed.

  Lemma gncsum_elems (l : list (expr A)) t : gncsum Comb l t -> elems t = flat_map elems l.
  Proof.
    induction 1 as [x|l1 l2 a b H1 IH1 H2 IH2]; [cbn; now rewrite app_nil_r|].
    cbn. now rewrite IH1, IH2, flat_map_app.
  Qed.

  Lemma flat_map_elems (l : list A) : flat_map elems (map Elem l) = l.
  Proof. induction l as [|x l IH]; [reflexivity|]. cbn. now rewrite IH. Qed.

  Lemma gsum_elems (l : list A) t : gsum Comb (map Elem l) t -> Permutation (elems t) l.
  Proof.
    intros (l' & Hp & H). rewrite (gncsum_elems _ _ H), <- (flat_map_elems l).
    symmetry. now apply Permutation_flat_map.
  Qed.

  Lemma depth_elems (t : expr A) : (depth t < length (elems t))%nat.
  Proof. induction t; cbn; [lia|]. rewrite app_length. lia. Qed.

  (** The elements of the grouping. *)
  Lemma grouped_elems c pol w first last (vals : list A) d :
    target_ok c -> c_ce c = false -> policy_ok pol -> width_ok w -> range_ok first last ->
    size_matches pol w first last ->
    prologue_length c pol w first (last - first) d -> (first = last \/ d < last - first) ->
    Z.of_nat (length vals) = last - first ->
    Permutation (elems (grouped Comb (Z.to_nat w) (Z.to_nat (p_unroll pol)) d (Elem x0) (map Elem vals))) (x0 :: vals).
  Proof.
    intros Hc Hce Hp Hw Hr Hm Hd Hdn Hlen. apply gsum_elems. cbn [map].
    set (m := fun a => if first <=? a then nth_error (map Elem vals) (Z.to_nat (a - first)) else None).
    assert (Hm' : range_is m first last (map Elem vals)).
    { split; [now rewrite map_length|]. intros i Hi. unfold m.
      replace (first <=? first + Z.of_nat i) with true by lia. f_equal. lia. }
    pose proof (reduce_alg_order Comb c pol w first last m (map Elem vals) (Elem x0) d Hc Hce Hp Hw Hr Hm Hd Hdn Hm') as E.
    destruct (Z.eq_dec first last) as [->|Hne].
    { destruct vals; [|cbn in Hlen; lia]. exists [Elem x0]. split; [apply Permutation_refl|constructor]. }
    destruct Hdn as [|Hdn]; [contradiction|].
    destruct (transform_reduce_fit (fun args => hd (Elem x0) args) (fun chunks => hd [] chunks) Comb
                c pol w first last [] m (map Elem vals) (Elem x0)) as (x & Ex & Hx); try assumption.
    - intros maxe tp Epa. destruct (prologue_some_length c pol w _ first maxe tp (target_cfg c Hc) Hw Epa) as (Hd' & _).
      rewrite <- (prologue_length_unique _ _ _ _ _ _ _ Hd Hd'). exact Hdn.
    - intros k _ _. apply id_transforms.
    - destruct Hm' as [Hl Hv]. split; [exact Hl|]. intros i Hi.
      destruct (nth_error (map Elem vals) (Z.to_nat i)) as [y|] eqn:En; [|apply nth_error_None in En; lia].
      exists [y]. split; [|reflexivity]. constructor; [|constructor].
      rewrite <- En, Hv by lia. f_equal. lia.
    - unfold reduce_alg in E. rewrite E in Ex. injection Ex as <-. exact Hx.
  Qed.
End Tree.

Lemma value_grouped {A} (op : A -> A -> A) w u d init vals :
  value op (grouped Comb w u d (Elem init) (map Elem vals)) = grouped op w u d init vals.
Proof.
  rewrite (hom_grouped Comb op (value op)); [|reflexivity]. cbn [value]. f_equal.
  rewrite map_map. cbn [value]. apply map_id.
Qed.

Lemma transform_reduce_depth {T A} (g : list T -> A) (tr : list (list T) -> list A) (op : A -> A -> A)
    c pol w first last srcs2 (m : mem T) vals init d :
  target_ok c -> c_ce c = false -> policy_ok pol -> width_ok w -> range_ok first last ->
  size_matches pol w first last ->
  prologue_length c pol w first (last - first) d -> (first = last \/ d < last - first) ->
  (forall k, 0 < k -> transforms_at g tr (S (length srcs2)) k) ->
  transformed_are g m (first :: srcs2) (last - first) vals ->
  exists t, transform_reduce c op tr m pol w first last srcs2 init = Ok (value op t)
    /\ Permutation (elems t) (init :: vals)
    /\ (depth t <= length vals)%nat
    /\ (depth t <= depth_bound (Z.to_nat w) (Z.to_nat (p_unroll pol)) (length vals - Z.to_nat d))%nat.
Proof.
  intros Hc Hce Hp Hw Hr Hm Hd Hdn Htr Hv.
  exists (grouped Comb (Z.to_nat w) (Z.to_nat (p_unroll pol)) d (Elem init) (map Elem vals)).
  assert (Hlen : Z.of_nat (length vals) = last - first) by apply Hv.
  destruct (range_of_length c pol w first _ d Hc Hw Hd) as [Hd0 Hdw].
  assert (Hw1 : 1 <= w) by apply Hw.
  assert (Hperm := grouped_elems init c pol w first last vals d Hc Hce Hp Hw Hr Hm Hd Hdn Hlen).
  split; [|split; [exact Hperm|split]].
  - rewrite value_grouped. now apply (transform_reduce_order g).
  - pose proof (depth_elems (grouped Comb (Z.to_nat w) (Z.to_nat (p_unroll pol)) d (Elem init) (map Elem vals))) as D.
    rewrite (Permutation_length Hperm) in D. cbn [length] in D. lia.
  - apply grouped_depth; [lia|exact Hd0|lia|]. destruct Hdn as [Hdn|Hdn]; [left|right; lia].
    destruct vals; [reflexivity|cbn in Hlen; lia].
Qed.

Lemma range_transformed {T} (init : T) (m : mem T) first last l :
  range_is m first last l -> transformed_are (fun args => hd init args) m [first] (last - first) l.
Proof.
  intros [Hl Hv]. split; [exact Hl|]. intros i Hi.
  destruct (nth_error l (Z.to_nat i)) as [x|] eqn:E; [|apply nth_error_None in E; lia].
  exists [x]. split; [|reflexivity]. constructor; [|constructor].
  rewrite <- E, Hv by lia. f_equal. lia.
Qed.

Lemma reduce_alg_depth {T} (op : T -> T -> T) c pol w first last (m : mem T) l init d :
  target_ok c -> c_ce c = false -> policy_ok pol -> width_ok w -> range_ok first last ->
  size_matches pol w first last ->
  prologue_length c pol w first (last - first) d -> (first = last \/ d < last - first) ->
  range_is m first last l ->
  exists t, reduce_alg c op m pol w first last init = Ok (value op t)
    /\ Permutation (elems t) (init :: l)
    /\ (depth t <= length l)%nat
    /\ (depth t <= depth_bound (Z.to_nat w) (Z.to_nat (p_unroll pol)) (length l - Z.to_nat d))%nat.
Proof.
  intros Hc Hce Hp Hw Hr Hm Hd Hdn Hv. unfold reduce_alg.
  apply (transform_reduce_depth (fun args => hd init args)); try assumption.
  - intros k _. apply id_transforms.
  - now apply range_transformed.
Qed.

(** In constant evaluation: one after the other. *)
Lemma seq_sum_tree {A} (op : A -> A -> A) vals : forall t,
  exists t', value op t' = fold_left op vals (value op t) /\ elems t' = elems t ++ vals
             /\ (depth t' <= depth t + length vals)%nat.
Proof.
  induction vals as [|v vals IH]; intros t.
  - exists t. rewrite app_nil_r. cbn. repeat split; lia.
  - destruct (IH (Comb t (Elem v))) as (t' & H1 & H2 & H3). exists t'.
    cbn [fold_left]. split; [exact H1|]. split; [rewrite H2; cbn; now rewrite <- app_assoc|].
    cbn in *. lia.
Qed.

Lemma transform_reduce_depth_const {T A} (g : list T -> A) (tr : list (list T) -> list A) (op : A -> A -> A)
    c pol w first last srcs2 (m : mem T) vals init :
  c_ce c = true -> width_ok w -> range_ok first last -> size_matches pol w first last ->
  transforms_at g tr (S (length srcs2)) 1 ->
  transformed_are g m (first :: srcs2) (last - first) vals ->
  exists t, transform_reduce c op tr m pol w first last srcs2 init = Ok (value op t)
    /\ elems t = init :: vals /\ (depth t <= length vals)%nat.
Proof.
  intros Hce Hw Hr Hm Htr Hv. destruct (seq_sum_tree op vals (Elem init)) as (t & H1 & H2 & H3).
  exists t. rewrite H1. split; [|split; [exact H2|exact H3] ].
  now apply (transform_reduce_consteval g).
Qed.

(** ** Accuracy *)
Section Acc.
  Context {A : Type}.
  Variables (v : A -> Q) (finite : A -> Prop) (op : A -> A -> A) (eps limit : Q).
  Hypothesis eps_nonneg : (0 <= eps)%Q.
  Hypothesis op_adds : adds_up v finite op eps limit.
  #[local] Open Scope Q_scope.

  Definition mag (l : list A) : Q := qsum (map (fun y => Qabs (v y)) l).
  Definition pw (k : nat) : Q := (1 + eps) ^ Z.of_nat k.

  Lemma qsum_app a b : qsum (a ++ b) == qsum a + qsum b.
  Proof.
    induction a as [|x a IH]; [cbn [app]; unfold qsum at 2; cbn [fold_right]; ring|].
    change (qsum ((x :: a) ++ b)) with (x + qsum (a ++ b)). change (qsum (x :: a)) with (x + qsum a).
    rewrite IH. ring.
  Qed.

  Lemma qsum_perm a b : Permutation a b -> qsum a == qsum b.
  Proof.
    induction 1 as [|x a b H IH|x y a|a b c H1 IH1 H2 IH2]; cbn [qsum fold_right]; try reflexivity.
    - fold (qsum a) (qsum b). now rewrite IH.
    - ring.
    - now rewrite IH1.
  Qed.

  Lemma mag_nonneg l : 0 <= mag l.
  Proof.
    unfold mag. induction l as [|x l IH]; cbn [map qsum fold_right]; [apply Qle_refl|].
    fold (qsum (map (fun y => Qabs (v y)) l)). pose proof (Qabs_nonneg (v x)). lra.
  Qed.

  Lemma mag_app a b : mag (a ++ b) == mag a + mag b.
  Proof. unfold mag. rewrite map_app. apply qsum_app. Qed.

  Lemma pw_S k : pw (S k) == (1 + eps) * pw k.
  Proof.
    unfold pw. rewrite Nat2Z.inj_succ. unfold Z.succ. rewrite Qpower_plus by (intros H; lra).
    change ((1 + eps) ^ 1) with (1 + eps). ring.
  Qed.

  Lemma pw_ge1 k : 1 <= pw k.
  Proof.
    induction k as [|k IH]; [apply Qle_refl|]. rewrite pw_S.
    assert (0 <= eps * pw k) by (apply Qmult_le_0_compat; lra). lra.
  Qed.

  Lemma pw_mono j k : (j <= k)%nat -> pw j <= pw k.
  Proof.
    induction 1 as [|k H IH]; [apply Qle_refl|]. rewrite pw_S. pose proof (pw_ge1 k).
    assert (0 <= eps * pw k) by (apply Qmult_le_0_compat; lra). lra.
  Qed.

  Lemma tree_error (t : expr A) : forall k, (depth t <= k)%nat -> Forall finite (elems t) -> pw k * mag (elems t) <= limit ->
    finite (value op t) /\ Qabs (v (value op t) - qsum (map v (elems t))) <= (pw k - 1) * mag (elems t)
    /\ Qabs (v (value op t)) <= pw k * mag (elems t).
  Proof.
    induction t as [x|a IHa b IHb]; intros k Hk HF HL; cbn [value elems depth] in *.
    - inversion HF as [|? ? Hx _]; subst. split; [assumption|].
      pose proof (pw_ge1 k) as P. pose proof (mag_nonneg [x]) as M.
      assert (E : mag [x] == Qabs (v x)) by (unfold mag; cbn; ring).
      assert (E0 : v x - qsum (map v [x]) == 0) by (cbn; ring).
      assert (0 <= (pw k - 1) * mag [x]) by (apply Qmult_le_0_compat; lra).
      split; [rewrite E0; exact H|]. rewrite <- E. lra.
    - destruct k as [|k]; [lia|]. apply Forall_app in HF. destruct HF as [Fa Fb].
      pose proof (mag_app (elems a) (elems b)) as Em. rewrite pw_S, Em in HL.
      pose proof (mag_nonneg (elems a)) as Ma. pose proof (mag_nonneg (elems b)) as Mb. pose proof (pw_ge1 k) as P.
      set (sa := mag (elems a)) in *. set (sb := mag (elems b)) in *.
      assert (Pa : 0 <= pw k * sa) by (apply Qmult_le_0_compat; lra).
      assert (Pb : 0 <= pw k * sb) by (apply Qmult_le_0_compat; lra).
      assert (Pe : 0 <= eps * (pw k * sa + pw k * sb)) by (apply Qmult_le_0_compat; lra).
      destruct (IHa k ltac:(lia) Fa ltac:(fold sa; lra)) as (Na & Ea & Ba).
      destruct (IHb k ltac:(lia) Fb ltac:(fold sb; lra)) as (Nb & Eb & Bb).
      fold sa in Ea, Ba. fold sb in Eb, Bb.
      set (va := v (value op a)) in *. set (vb := v (value op b)) in *.
      assert (Hs : Qabs (va + vb) <= pw k * sa + pw k * sb).
      { eapply Qle_trans; [apply Qabs_triangle|]. lra. }
      destruct (op_adds _ _ Na Nb ltac:(fold va vb; lra)) as [Nc Ec]. fold va vb in Ec.
      set (r := v (op (value op a) (value op b))) in *.
      assert (Ec' : Qabs (r - (va + vb)) <= eps * (pw k * sa + pw k * sb)).
      { eapply Qle_trans; [exact Ec|]. rewrite !(Qmult_comm eps). now apply Qmult_le_compat_r. }
      split; [exact Nc|].
      assert (Eq : qsum (map v (elems a ++ elems b)) == qsum (map v (elems a)) + qsum (map v (elems b)))
        by (rewrite map_app; apply qsum_app).
      split.
      + rewrite Em, pw_S.
        setoid_replace (r - qsum (map v (elems a ++ elems b)))
          with ((r - (va + vb)) + ((va - qsum (map v (elems a))) + (vb - qsum (map v (elems b))))) by (rewrite Eq; ring).
        eapply Qle_trans; [apply Qabs_triangle|].
        pose proof (Qabs_triangle (va - qsum (map v (elems a))) (vb - qsum (map v (elems b)))). lra.
      + rewrite Em, pw_S. setoid_replace r with ((r - (va + vb)) + (va + vb)) by ring.
        eapply Qle_trans; [apply Qabs_triangle|]. lra.
  Qed.

  Lemma mag_perm a b : Permutation a b -> mag a == mag b.
  Proof. intros H. apply qsum_perm. now apply Permutation_map. Qed.

  Lemma value_error (t : expr A) k l : (depth t <= k)%nat -> Permutation (elems t) l -> Forall finite l ->
    (1 + eps) ^ Z.of_nat k * qsum (map (fun y => Qabs (v y)) l) <= limit ->
    finite (value op t) /\ sum_within v eps k l (value op t).
  Proof.
    intros Hk Hp HF HL. fold (pw k) (mag l) in HL. rewrite <- (mag_perm _ _ Hp) in HL.
    assert (HF' : Forall finite (elems t)) by (eapply Permutation_Forall; [symmetry; exact Hp|exact HF]).
    destruct (tree_error t k Hk HF' HL) as (H1 & H2 & _). split; [exact H1|].
    unfold sum_within. fold (pw k) (mag l). rewrite <- (mag_perm _ _ Hp), <- (qsum_perm _ _ (Permutation_map v Hp)).
    exact H2.
  Qed.
End Acc.

Lemma transform_reduce_accuracy {T A} (g : list T -> A) (tr : list (list T) -> list A) (op : A -> A -> A)
    (v : A -> Q) finite eps limit c pol w first last srcs2 (m : mem T) vals init d k :
  target_ok c -> c_ce c = false -> policy_ok pol -> width_ok w -> range_ok first last ->
  size_matches pol w first last ->
  prologue_length c pol w first (last - first) d -> (first = last \/ d < last - first) ->
  (forall k, 0 < k -> transforms_at g tr (S (length srcs2)) k) ->
  transformed_are g m (first :: srcs2) (last - first) vals ->
  k = Nat.min (length vals) (depth_bound (Z.to_nat w) (Z.to_nat (p_unroll pol)) (length vals - Z.to_nat d)) ->
  (0 <= eps)%Q -> adds_up v finite op eps limit -> Forall finite (init :: vals) ->
  ((1 + eps) ^ Z.of_nat k * qsum (map (fun y => Qabs (v y)) (init :: vals)) <= limit)%Q ->
  exists x, transform_reduce c op tr m pol w first last srcs2 init = Ok x
    /\ finite x /\ sum_within v eps k (init :: vals) x.
Proof.
  intros Hc Hce Hp Hw Hr Hm Hd Hdn Htr Hv -> He Hop HF HL.
  destruct (transform_reduce_depth g tr op c pol w first last srcs2 m vals init d) as (t & Ht & Pt & D1 & D2);
    try assumption.
  exists (value op t). split; [exact Ht|]. eapply value_error; try eassumption. lia.
Qed.

Lemma reduce_alg_accuracy {T} (op : T -> T -> T)
    (v : T -> Q) finite eps limit c pol w first last (m : mem T) l init d k :
  target_ok c -> c_ce c = false -> policy_ok pol -> width_ok w -> range_ok first last ->
  size_matches pol w first last ->
  prologue_length c pol w first (last - first) d -> (first = last \/ d < last - first) ->
  range_is m first last l ->
  k = Nat.min (length l) (depth_bound (Z.to_nat w) (Z.to_nat (p_unroll pol)) (length l - Z.to_nat d)) ->
  (0 <= eps)%Q -> adds_up v finite op eps limit -> Forall finite (init :: l) ->
  ((1 + eps) ^ Z.of_nat k * qsum (map (fun y => Qabs (v y)) (init :: l)) <= limit)%Q ->
  exists x, reduce_alg c op m pol w first last init = Ok x
    /\ finite x /\ sum_within v eps k (init :: l) x.
Proof.
  intros Hc Hce Hp Hw Hr Hm Hd Hdn Hv -> He Hop HF HL.
  destruct (reduce_alg_depth op c pol w first last m l init d) as (t & Ht & Pt & D1 & D2); try assumption.
  exists (value op t). split; [exact Ht|]. eapply value_error; try eassumption. lia.
Qed.

Lemma transform_reduce_accuracy_const {T A} (g : list T -> A) (tr : list (list T) -> list A) (op : A -> A -> A)
    (v : A -> Q) finite eps limit c pol w first last srcs2 (m : mem T) vals init :
  c_ce c = true -> width_ok w -> range_ok first last -> size_matches pol w first last ->
  transforms_at g tr (S (length srcs2)) 1 ->
  transformed_are g m (first :: srcs2) (last - first) vals ->
  (0 <= eps)%Q -> adds_up v finite op eps limit -> Forall finite (init :: vals) ->
  ((1 + eps) ^ (last - first) * qsum (map (fun y => Qabs (v y)) (init :: vals)) <= limit)%Q ->
  exists x, transform_reduce c op tr m pol w first last srcs2 init = Ok x
    /\ finite x /\ sum_within v eps (length vals) (init :: vals) x.
Proof.
  intros Hce Hw Hr Hm Htr Hv He Hop HF HL. assert (Hlen : Z.of_nat (length vals) = last - first) by apply Hv.
  destruct (transform_reduce_depth_const g tr op c pol w first last srcs2 m vals init) as (t & Ht & Et & D);
    try assumption.
  exists (value op t). split; [exact Ht|]. rewrite <- Hlen in HL.
  eapply value_error; try eassumption. now rewrite Et.
Qed.

(** ** The bound is reached *)
Section Exact.
  Context {A : Type}.
  Variable x0 : A.
  Notation E := (expr A).
  Notation dflt := (Elem x0).
  #[local] Open Scope nat_scope.

  Definition at_depth (k : nat) (v : list E) : Prop := Forall (fun t => depth t = k) v.

  Lemma at_firstn k n v : at_depth k v -> at_depth k (firstn n v).
  Proof. revert v. induction n as [|n IH]; intros v H; [constructor|]. destruct H; constructor; [assumption|now apply IH]. Qed.

  Lemma at_skipn k n v : at_depth k v -> at_depth k (skipn n v).
  Proof. revert v. induction n as [|n IH]; intros v H; [exact H|]. destruct H; [constructor|]. now apply IH. Qed.

  Lemma at_zip k a b : at_depth k a -> below k b -> at_depth (S k) (zip Comb a b).
  Proof.
    intros Ha. revert b. induction Ha as [|x a Hx Ha IH]; intros b Hb; [constructor|].
    destruct Hb as [|y b Hy Hb]; [constructor|]. constructor; [cbn; lia|]. now apply IH.
  Qed.

  Lemma at_below k v : at_depth k v -> below k v.
  Proof. apply Forall_impl. intros t. lia. Qed.

  Lemma across_at h : forall k v, at_depth k v -> length v = 2 ^ h -> depth (across_below Comb dflt h v) = k + h.
  Proof.
    induction h as [|h IH]; intros k v H Hl; cbn [across_below].
    { destruct H as [|x v Hx H]; [cbn in Hl; lia|]. destruct H; [cbn; lia|cbn in Hl; lia]. }
    assert (Ep : 2 ^ S h = 2 ^ h + 2 ^ h) by (cbn; lia). pose proof (pow2_pos h) as Hp.
    destruct (Nat.leb_spec (length v) 3) as [H3|H3].
    { assert (h = 0). { destruct h as [|h]; [reflexivity|]. assert (2 ^ S h = 2 ^ h + 2 ^ h) by (cbn; lia). pose proof (pow2_pos h). lia. }
      subst h. destruct H as [|x v Hx H]; [cbn in Hl; lia|]. destruct H as [|y v Hy H]; [cbn in Hl; lia|].
      destruct H; [cbn; lia|cbn in Hl; lia]. }
    replace (2 ^ S h <=? length v) with true by lia. rewrite skipn_all2 by lia.
    rewrite (IH (S k)); [lia| |].
    - apply at_zip; [now apply at_firstn|]. apply below_firstn, below_skipn, at_below, H.
    - unfold zip. rewrite map_length, combine_length, !firstn_length, skipn_length. lia.
  Qed.

  Lemma across_exact h k v : at_depth k v -> length v = 2 ^ h -> depth (across Comb dflt v) = k + h.
  Proof.
    intros H Hl. unfold across. rewrite Hl, Nat.log2_pow2 by lia. now apply across_at.
  Qed.

  Lemma halves_at a k v : at_depth a v -> length v = 2 ^ S k ->
    at_depth (S a) (halves Comb k v) /\ length (halves Comb k v) = 2 ^ k.
  Proof.
    intros H Hl. cbn [Nat.pow] in Hl. split.
    - apply at_zip; [now apply at_firstn|]. now apply below_skipn, at_below.
    - unfold halves, zip. rewrite map_length, combine_length, firstn_length, skipn_length. lia.
  Qed.

  Lemma tail_exact k : forall a total acc rest,
    at_depth a acc -> length acc = 2 ^ k -> length rest = 2 ^ S k - 1 -> below 0 rest -> depth total <= a ->
    depth (tail Comb dflt k total acc rest) = S (a + 2 * k + 1).
  Proof.
    induction k as [|k IH]; intros a total acc rest Ha Hl Hr Hb Ht; cbn [tail].
    - cbn [Nat.pow] in *. destruct rest as [|y [|? ?]]; cbn in Hr; try lia. cbn [length Nat.leb firstn skipn].
      assert (Hz : at_depth (S a) (zip Comb acc [y])).
      { apply at_zip; [exact Ha|]. eapply below_le; [|exact Hb]. lia. }
      assert (Lz : length (zip Comb acc [y]) = 2 ^ 0).
      { unfold zip. rewrite map_length, combine_length. cbn. lia. }
      pose proof (across_exact 0 _ _ Hz Lz). cbn [depth]. lia.
    - assert (Ep : 2 ^ S (S k) = 2 ^ S k + 2 ^ S k) by (cbn; lia).
      assert (Ep' : 2 ^ S k = 2 ^ k + 2 ^ k) by (cbn; lia). pose proof (pow2_pos k) as Hp.
      replace (2 ^ S k <=? length rest) with true by lia.
      assert (Lr : length (skipn (2 ^ S k) rest) = 2 ^ S k - 1) by (rewrite skipn_length; lia).
      destruct (skipn (2 ^ S k) rest) as [|y r] eqn:Er; [cbn [length] in Lr; lia|].
      assert (Hz : at_depth (S a) (zip Comb acc (firstn (2 ^ S k) rest))).
      { apply at_zip; [exact Ha|]. apply below_firstn. eapply below_le; [|exact Hb]. lia. }
      assert (Lz : length (zip Comb acc (firstn (2 ^ S k) rest)) = 2 ^ S k).
      { unfold zip. rewrite map_length, combine_length, firstn_length. lia. }
      destruct (halves_at _ _ _ Hz Lz) as [Hh Lh]. rewrite (IH (S (S a))); try assumption; [lia| |lia].
      rewrite <- Er. now apply below_skipn.
  Qed.

  Lemma fold_zip_at k cs n : forall c, at_depth k c -> length c = n -> Forall (below 0) cs -> Forall (fun c => length c = n) cs ->
    at_depth (k + length cs) (fold_left (zip Comb) cs c) /\ length (fold_left (zip Comb) cs c) = n.
  Proof.
    revert k. induction cs as [|d cs IH]; intros k c Hc Lc Hcs Lcs; [now rewrite Nat.add_0_r|].
    inversion Hcs as [|? ? Hd Hcs']; subst. inversion Lcs as [|? ? Ld Lcs']; subst.
    cbn [fold_left length]. rewrite Nat.add_succ_r, <- Nat.add_succ_l. apply IH; try assumption.
    - apply at_zip; [assumption|]. eapply below_le; [|eassumption]. lia.
    - unfold zip. rewrite map_length, combine_length. lia.
  Qed.

  Lemma stack_at w (l : list E) q : 1 <= q -> q * w <= length l -> at_depth 0 l ->
    at_depth (q - 1) (stack Comb (map (chunk w l) (seq 0 q))) /\ length (stack Comb (map (chunk w l) (seq 0 q))) = w.
  Proof.
    intros Hq Hl H. assert (Hc : forall s, Forall (below 0) (map (chunk w l) s)).
    { intros s. apply (chunks_depth w l s (fun i => i)). now apply at_below. }
    assert (Lc : forall i, i < q -> length (chunk w l i) = w).
    { intros i Hi. unfold chunk. rewrite firstn_length, skipn_length. nia. }
    destruct q as [|q]; [lia|]. cbn [seq map stack].
    replace (S q - 1) with (0 + length (map (chunk w l) (seq 1 q))) by (rewrite map_length, seq_length; lia).
    apply fold_zip_at.
    - now apply at_firstn, at_skipn.
    - apply Lc. lia.
    - apply Hc.
    - apply Forall_forall. intros c Hin. apply in_map_iff in Hin. destruct Hin as (i & <- & Hi).
      apply in_seq in Hi. apply Lc. lia.
  Qed.

  Lemma at_elems (l : list A) : at_depth 0 (map Elem l).
  Proof. induction l; constructor; [reflexivity|assumption]. Qed.

  Lemma bound_reached k u q (vals : list A) : u <= 1 -> 1 <= q -> length vals = q * 2 ^ k + (2 ^ k - 1) ->
    depth (grouped Comb (2 ^ k) u 0 (Elem x0) (map Elem vals)) = depth_bound (2 ^ k) u (length vals).
  Proof.
    intros Hu Hq Hl. pose proof (pow2_pos k) as Hp.
    assert (Eq : length (map Elem vals) / 2 ^ k = q).
    { rewrite map_length, Hl. symmetry. apply (Nat.div_unique _ _ _ (2 ^ k - 1)); lia. }
    assert (Eb : depth_bound (2 ^ k) u (length vals) = q + 2 * k).
    { unfold depth_bound, rounds. rewrite map_length in Eq. rewrite Eq, Nat.log2_up_pow2 by lia.
      replace (1 <? u) with false by lia. cbn [andb]. lia. }
    rewrite Eb. clear Eb.
    assert (Eg : grouped Comb (2 ^ k) u 0 (Elem x0) (map Elem vals)
                 = main Comb (Elem x0) (2 ^ k) u (Elem x0) (map Elem vals)).
    { unfold grouped, prologue_total. rewrite digits_none. destruct vals; [cbn [length] in Hl; nia|reflexivity]. }
    rewrite Eg. clear Eg. unfold main. rewrite Eq.
    destruct (stack_at (2 ^ k) (map Elem vals) q Hq ltac:(rewrite map_length; lia) (at_elems vals)) as [Hs Ls].
    assert (Ef : full_chunks Comb (2 ^ k) u (map Elem vals) = stack Comb (map (chunk (2 ^ k) (map Elem vals)) (seq 0 q))).
    { unfold full_chunks. rewrite Eq. replace (1 <? u) with false by lia. reflexivity. }
    rewrite Ef. clear Ef. set (acc := stack _ _) in *. clearbody acc.
    replace (2 ^ k <=? length (map Elem vals)) with true by (symmetry; apply Nat.leb_le; rewrite map_length; nia).
    assert (Lr : length (skipn (q * 2 ^ k) (map Elem vals)) = 2 ^ k - 1) by (rewrite skipn_length, map_length; lia).
    pose proof (below_skipn 0 (q * 2 ^ k) _ (below_elems vals)) as Hr.
    destruct (skipn (q * 2 ^ k) (map Elem vals)) as [|y r].
    - destruct k as [|k]; [|cbn [Nat.pow length] in Lr, Hp; pose proof (pow2_pos k); lia].
      pose proof (across_exact 0 _ _ Hs Ls). cbn [depth]. lia.
    - destruct k as [|k]; [cbn [Nat.pow length] in Lr; lia|].
      assert (Eh : Nat.log2 (2 ^ S k - 1) = k).
      { apply Nat.log2_unique'  with (c := 2 ^ k - 1); cbn [Nat.pow]; pose proof (pow2_pos k); lia. }
      rewrite Eh, Nat.eqb_refl. destruct (halves_at _ _ _ Hs Ls) as [Hh Lh].
      rewrite (tail_exact k (S (q - 1))); try assumption; [lia|cbn [depth]; lia].
  Qed.
End Exact.

Lemma reduce_bound_reached {A} c pol k q first last (m : mem (expr A)) (l : list A) x0 :
  target_ok c -> c_ce c = false -> plain pol -> p_unroll pol <= 1 -> width_ok (2 ^ Z.of_nat k) -> range_ok first last ->
  size_matches pol (2 ^ Z.of_nat k) first last ->
  (1 <= q)%nat -> length l = (q * 2 ^ k + (2 ^ k - 1))%nat -> range_is m first last (map Elem l) ->
  exists t, reduce_alg c Comb m pol (2 ^ Z.of_nat k) first last (Elem x0) = Ok t
            /\ depth t = depth_bound (2 ^ k) (Z.to_nat (p_unroll pol)) (length l).
Proof.
  intros Hc Hce Hp Hu Hw Hr Hm Hq Hl Hv. eexists. split.
  - unfold reduce_alg. apply (transform_reduce_order_plain (fun args => hd (Elem x0) args)); try eassumption.
    + intros j _. apply id_transforms.
    + apply range_transformed. eassumption.
  - replace (Z.to_nat (2 ^ Z.of_nat k)) with (2 ^ k)%nat.
    + apply (bound_reached x0 k (Z.to_nat (p_unroll pol)) q); [lia|assumption|assumption].
    + apply Nat2Z.inj. rewrite Z2Nat.id by lia. rewrite Nat2Z.inj_pow. reflexivity.
Qed.
