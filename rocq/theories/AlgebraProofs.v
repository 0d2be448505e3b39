(** Proofs for C77: the algorithms agree with one another. *)
From Verif Require Import Base BaseFacts ExecModel ExecSpec ExecThm ReduceModel TransformModel TransformSpec TransformThm
  TReduceModel TReduceSpec TReduceThm ReduceSpec CountModel CountProofs AlgebraSpec ExecExamples TransformExamples.
From Coq Require Import Permutation.
Ltac Zify.zify_post_hook ::= idtac.

Section Fe.
  Context {T St : Type}.
  Lemma fe_map (f : St -> list (list T) -> St * list (list T)) (g : T -> T) c pol w first last m st :
    visit_ok c pol w first last -> lanewise g f -> mapped m first last ->
    exists s, run_for_each f c pol w true first last m st = Ok s /\ forall a, s_mem s a = map_range g m first last a.
  Proof.
    intros (Hw & Hr & Hs & [[Hce H2]|(Hce & Hc & Hp & Ha)]) Hg Hm.
    - destruct (run_spec_map f g pol w first last m st _ Hg (proj1 Hr)
                  (for_each_consteval f c pol w true first last m st Hce Hw Hr Hs H2 (lanewise_keeps f g Hg) Hm))
        as (s & E & _ & A). exists s. auto.
    - now apply for_each_map.
  Qed.
End Fe.

Lemma tf_map {T} (op : list T -> T) opv c pol w first last dst srcs2 (m : mem T) :
  visit_ok c pol w dst (dst + (last - first)) -> lanewise_op op opv ->
  Forall (fun p => mapped m p (p + (last - first))) (dst :: first :: srcs2) ->
  no_clobber dst (last - first) (first :: srcs2) ->
  exists m', run_transform opv c pol w first last dst srcs2 m = Ok (m', dst + (last - first))
             /\ transformed op (first :: srcs2) dst (last - first) m m'.
Proof.
  intros (Hw & Hr & Hs & H) Hg Hm Hn.
  assert (Hr' : range_ok first last) by (destruct Hr; split; lia).
  assert (Hs' : size_matches pol w first last).
  { intros E. destruct (Hs E) as [n Hq]. exists n. lia. }
  destruct H as [[Hce H2]|(Hce & Hc & Hp & Ha)].
  - now apply transform_consteval.
  - now apply transform_runtime.
Qed.

(** ** Memory *)
Lemma map_range_ext {T} (g : T -> T) (m m' : mem T) p q : (forall a, m a = m' a) ->
  forall a, map_range g m p q a = map_range g m' p q a.
Proof. intros H a. unfold map_range. now rewrite H. Qed.

Lemma map_range_mapped {T} (g : T -> T) (m : mem T) p q p' q' : mapped m p' q' -> mapped (map_range g m p q) p' q'.
Proof.
  intros H a Ha. destruct (H a Ha) as [x E]. unfold map_range. rewrite E. destruct ((p <=? a) && (a <? q)); eexists; reflexivity.
Qed.

Lemma mapped_ext {T} (m m' : mem T) p q : (forall a, m a = m' a) -> mapped m p q -> mapped m' p q.
Proof. intros H Hm a Ha. rewrite <- H. now apply Hm. Qed.

Lemma transformed_in_place {T} (g : T -> T) op (m m' : mem T) first last : unary g op -> first <= last -> mapped m first last ->
  transformed op [first] first (last - first) m m' -> forall a, m' a = map_range g m first last a.
Proof.
  intros Hu Hle Hm [H1 H2] a. unfold map_range.
  destruct (Z.leb_spec first a), (Z.ltb_spec a last); cbn [andb]; try (apply H2; lia).
  destruct (Hm a ltac:(lia)) as [x E].
  specialize (H1 (a - first) [x] ltac:(lia)). replace (first + (a - first)) with a in H1 by lia.
  rewrite E. cbn. rewrite H1; [now rewrite Hu|]. constructor; [|constructor]. now replace (first + (a - first)) with a by lia.
Qed.

(** ** for_each and transform *)
Lemma for_each_transform_agree {T St} (f : St -> list (list T) -> St * list (list T)) (g : T -> T) op opv
  c pol w c' pol' w' first last m st :
  visit_ok c pol w first last -> visit_ok c' pol' w' first last -> lanewise g f -> lanewise_op op opv -> unary g op ->
  mapped m first last ->
  exists s m', run_for_each f c pol w true first last m st = Ok s
               /\ run_transform opv c' pol' w' first last first [] m = Ok (m', last)
               /\ forall a, s_mem s a = m' a.
Proof.
  intros Hv Hv' Hf Hop Hu Hm. destruct (fe_map f g c pol w first last m st Hv Hf Hm) as (s & E & A).
  assert (El : first + (last - first) = last) by lia.
  destruct (tf_map op opv c' pol' w' first last first [] m) as (m' & E' & A').
  - now rewrite El.
  - exact Hop.
  - constructor; [rewrite El; exact Hm|]. constructor; [rewrite El; exact Hm|constructor].
  - constructor; [lia|constructor].
  - rewrite El in E'. exists s, m'. split; [exact E|]. split; [exact E'|]. intros a. rewrite A. symmetry.
    apply (transformed_in_place g op); try assumption. destruct Hv as (_ & [Hle _] & _). exact Hle.
Qed.

Lemma for_each_fuse {T St1 St2 St3} (f1 : St1 -> list (list T) -> St1 * list (list T)) (f2 : St2 -> list (list T) -> St2 * list (list T))
  (f3 : St3 -> list (list T) -> St3 * list (list T)) (g1 g2 : T -> T) c1 pol1 w1 c2 pol2 w2 c3 pol3 w3 first last m st1 st2 st3 :
  visit_ok c1 pol1 w1 first last -> visit_ok c2 pol2 w2 first last -> visit_ok c3 pol3 w3 first last ->
  lanewise g1 f1 -> lanewise g2 f2 -> lanewise (fun x => g2 (g1 x)) f3 -> mapped m first last ->
  exists s1 s2 s3, run_for_each f1 c1 pol1 w1 true first last m st1 = Ok s1
                   /\ run_for_each f2 c2 pol2 w2 true first last (s_mem s1) st2 = Ok s2
                   /\ run_for_each f3 c3 pol3 w3 true first last m st3 = Ok s3
                   /\ forall a, s_mem s2 a = s_mem s3 a.
Proof.
  intros H1 H2 H3 F1 F2 F3 Hm. destruct (fe_map f1 g1 c1 pol1 w1 first last m st1 H1 F1 Hm) as (s1 & E1 & A1).
  destruct (fe_map f2 g2 c2 pol2 w2 first last (s_mem s1) st2 H2 F2) as (s2 & E2 & A2).
  { apply (mapped_ext (map_range g1 m first last)); [intros a; now rewrite A1|]. now apply map_range_mapped. }
  destruct (fe_map f3 _ c3 pol3 w3 first last m st3 H3 F3 Hm) as (s3 & E3 & A3).
  exists s1, s2, s3. split; [exact E1|]. split; [exact E2|]. split; [exact E3|]. intros a. rewrite A2, A3.
  rewrite (map_range_ext _ _ _ first last A1). unfold map_range.
  destruct ((first <=? a) && (a <? last)); [|reflexivity]. now destruct (m a).
Qed.

Lemma for_each_split {T St1 St2 St3} (f1 : St1 -> list (list T) -> St1 * list (list T)) (f2 : St2 -> list (list T) -> St2 * list (list T))
  (f3 : St3 -> list (list T) -> St3 * list (list T)) (g : T -> T) c1 pol1 w1 c2 pol2 w2 c3 pol3 w3 first mid last m st1 st2 st3 :
  visit_ok c1 pol1 w1 first mid -> visit_ok c2 pol2 w2 mid last -> visit_ok c3 pol3 w3 first last ->
  lanewise g f1 -> lanewise g f2 -> lanewise g f3 -> mapped m first last ->
  exists s1 s2 s3, run_for_each f1 c1 pol1 w1 true first mid m st1 = Ok s1
                   /\ run_for_each f2 c2 pol2 w2 true mid last (s_mem s1) st2 = Ok s2
                   /\ run_for_each f3 c3 pol3 w3 true first last m st3 = Ok s3
                   /\ forall a, s_mem s2 a = s_mem s3 a.
Proof.
  intros H1 H2 H3 F1 F2 F3 Hm.
  assert (L1 : first <= mid) by (destruct H1 as (_ & [? _] & _); assumption).
  assert (L2 : mid <= last) by (destruct H2 as (_ & [? _] & _); assumption).
  destruct (fe_map f1 g c1 pol1 w1 first mid m st1 H1 F1) as (s1 & E1 & A1); [intros a Ha; apply Hm; lia|].
  destruct (fe_map f2 g c2 pol2 w2 mid last (s_mem s1) st2 H2 F2) as (s2 & E2 & A2).
  { apply (mapped_ext (map_range g m first mid)); [intros a; now rewrite A1|]. apply map_range_mapped. intros a Ha. apply Hm. lia. }
  destruct (fe_map f3 _ c3 pol3 w3 first last m st3 H3 F3 Hm) as (s3 & E3 & A3).
  exists s1, s2, s3. split; [exact E1|]. split; [exact E2|]. split; [exact E3|]. intros a. rewrite A2, A3.
  rewrite (map_range_ext _ _ _ mid last A1). unfold map_range.
  destruct (Z.leb_spec mid a), (Z.ltb_spec a last), (Z.leb_spec first a), (Z.ltb_spec a mid); cbn [andb]; try lia; reflexivity.
Qed.

(** Two transforms, the second in place in the output of the first. *)
Lemma transform_fuse {T} (op op' : list T -> T) opv opv' opv3 (g : T -> T) c1 pol1 w1 c2 pol2 w2 c3 pol3 w3 first last dst srcs2 (m : mem T) :
  visit_ok c1 pol1 w1 dst (dst + (last - first)) -> visit_ok c2 pol2 w2 dst (dst + (last - first)) ->
  visit_ok c3 pol3 w3 dst (dst + (last - first)) ->
  lanewise_op op opv -> lanewise_op op' opv' -> unary g op' -> lanewise_op (fun args => g (op args)) opv3 ->
  Forall (fun p => mapped m p (p + (last - first))) (dst :: first :: srcs2) ->
  no_clobber dst (last - first) (first :: srcs2) ->
  exists m1 m2 m3, run_transform opv c1 pol1 w1 first last dst srcs2 m = Ok (m1, dst + (last - first))
    /\ run_transform opv' c2 pol2 w2 dst (dst + (last - first)) dst [] m1 = Ok (m2, dst + (last - first))
    /\ run_transform opv3 c3 pol3 w3 first last dst srcs2 m = Ok (m3, dst + (last - first))
    /\ forall a, m2 a = m3 a.
Proof.
  intros H1 H2 H3 O1 O2 Hu O3 Hm Hn.
  destruct (tf_map _ _ c1 pol1 w1 first last dst srcs2 m H1 O1 Hm Hn) as (m1 & E1 & A1).
  destruct (tf_map _ _ c3 pol3 w3 first last dst srcs2 m H3 O3 Hm Hn) as (m3 & E3 & A3).
  assert (Hle : 0 <= last - first) by (destruct H1 as (_ & [? _] & _); lia).
  assert (Hargs : forall i, 0 <= i < last - first -> exists args, Forall2 (fun p x => m (p + i) = Some x) (first :: srcs2) args).
  { intros i Hi. apply Forall_inv_tail in Hm. clear - Hm Hi. revert Hm. generalize (first :: srcs2) as l.
    intros l Hm. induction Hm as [|p l Hp _ (args & IH)]; [exists []; constructor|].
    destruct (Hp (p + i) ltac:(lia)) as [x E]. exists (x :: args). now constructor. }
  assert (Hm1 : mapped m1 dst (dst + (last - first))).
  { intros a Ha. destruct (Hargs (a - dst) ltac:(lia)) as (args & F). destruct A1 as [A1 _].
    specialize (A1 (a - dst) args ltac:(lia) F). replace (dst + (a - dst)) with a in A1 by lia. eexists. exact A1. }
  set (e := dst + (last - first)) in *. assert (Ee : e - dst = last - first) by (unfold e; lia).
  assert (Ed : dst + (e - dst) = e) by lia.
  destruct (tf_map op' opv' c2 pol2 w2 dst e dst [] m1) as (m2 & E2 & A2).
  - now rewrite Ed.
  - exact O2.
  - constructor; [rewrite Ed; exact Hm1|]. constructor; [rewrite Ed; exact Hm1|constructor].
  - constructor; [lia|constructor].
  - rewrite Ed in E2. exists m1, m2, m3. split; [exact E1|]. split; [exact E2|]. split; [exact E3|]. intros a.
    rewrite (transformed_in_place g op' m1 m2 dst e Hu ltac:(lia) Hm1 A2). unfold map_range.
    destruct A1 as [A1 B1], A3 as [A3 B3].
    destruct (Z.leb_spec dst a), (Z.ltb_spec a e); cbn [andb];
      try (rewrite (B1 a) by lia; rewrite (B3 a) by lia; reflexivity).
    destruct (Hargs (a - dst) ltac:(lia)) as (args & F).
    specialize (A1 (a - dst) args ltac:(lia) F). specialize (A3 (a - dst) args ltac:(lia) F).
    replace (dst + (a - dst)) with a in * by lia. rewrite A1, A3. reflexivity.
Qed.

(** ** Sums *)
Lemma tr_fold {T A} (g : list T -> A) tr op c pol w first last srcs2 (m : mem T) vals init :
  assoc_comm op -> reduce_ok c pol w first last ->
  (forall k, 0 < k -> transforms_at g tr (S (length srcs2)) k) ->
  transformed_are g m (first :: srcs2) (last - first) vals ->
  transform_reduce c op tr m pol w first last srcs2 init = Ok (seq_sum op init vals).
Proof.
  intros Ho (Hw & Hr & Hs & [Hce|(Hce & Hc & Hp & Hro)]) Ht Hv.
  - apply (transform_reduce_consteval g); try assumption. apply Ht. lia.
  - now apply (transform_reduce_fold g).
Qed.

Lemma ci_count {T} (p : T -> bool) pred c lib pol w first last (m : mem T) l : (forall l, pred l = map p l) ->
  visit_ok c pol w first last -> range_is m first last l ->
  count_if pred c lib pol w first last m
  = (if Z.of_nat (length (filter p l)) <=? int_max then Ok (Z.of_nat (length (filter p l))) else Stop SUB).
Proof.
  intros Hp (Hw & Hr & Hs & [[Hce H2]|(Hce & Hc & Hpo & Ha)]) Hl.
  - now apply count_if_consteval_exact.
  - now apply count_if_runtime_exact.
Qed.

Lemma transformed_exists {T A} (g : list T -> A) (m : mem T) srcs n : 0 <= n ->
  Forall (fun p => mapped m p (p + n)) srcs -> exists vals, transformed_are g m srcs n vals.
Proof.
  intros Hn Hm.
  assert (Hargs : forall i, 0 <= i < n -> exists args, Forall2 (fun p x => m (p + i) = Some x) srcs args).
  { intros i Hi. clear - Hm Hi. induction Hm as [|p l Hp _ (args & IH)]; [exists []; constructor|].
    destruct (Hp (p + i) ltac:(lia)) as [x E]. exists (x :: args). now constructor. }
  clear Hm. revert Hargs. pattern n. apply natlike_ind; [| |exact Hn].
  - intros _. exists []. split; [reflexivity|]. lia.
  - intros k Hk IH Ha. destruct IH as (vals & L & V); [intros i Hi; apply Ha; lia|].
    destruct (Ha k ltac:(lia)) as (args & F). exists (vals ++ [g args]). split; [rewrite app_length; cbn; lia|].
    intros i Hi. destruct (Z.eq_dec i k) as [->|Hne].
    + exists args. split; [exact F|]. rewrite nth_error_app2 by lia.
      replace (Z.to_nat k - length vals)%nat with 0%nat by lia. reflexivity.
    + destruct (V i ltac:(lia)) as (a' & F' & N). exists a'. split; [exact F'|]. rewrite nth_error_app1 by lia. exact N.
Qed.

Lemma args_unique {T} (m : mem T) i srcs a1 a2 :
  Forall2 (fun p x => m (p + i) = Some x) srcs a1 -> Forall2 (fun p x => m (p + i) = Some x) srcs a2 -> a1 = a2.
Proof.
  intros H1. revert a2. induction H1 as [|p x l l' E H IH]; intros a2 H2; inversion H2; subst; [reflexivity|].
  f_equal; [congruence|]. now apply IH.
Qed.

Lemma seq_sum_app {A} (op : A -> A -> A) x l l' : seq_sum op x (l ++ l') = seq_sum op (seq_sum op x l) l'.
Proof. apply fold_left_app. Qed.

(** A sum over a range, in two parts: the first result starts the second call. *)
Lemma transform_reduce_split {T A} (g : list T -> A) tr (op : A -> A -> A) c1 pol1 w1 c2 pol2 w2 c3 pol3 w3 first mid last srcs2 (m : mem T) init :
  assoc_comm op -> reduce_ok c1 pol1 w1 first mid -> reduce_ok c2 pol2 w2 mid last -> reduce_ok c3 pol3 w3 first last ->
  (forall k, 0 < k -> transforms_at g tr (S (length srcs2)) k) ->
  Forall (fun p => mapped m p (p + (last - first))) (first :: srcs2) ->
  exists x y, transform_reduce c1 op tr m pol1 w1 first mid srcs2 init = Ok x
    /\ transform_reduce c2 op tr m pol2 w2 mid last (map (fun p => p + (mid - first)) srcs2) x = Ok y
    /\ transform_reduce c3 op tr m pol3 w3 first last srcs2 init = Ok y.
Proof.
  intros Ho H1 H2 H3 Ht Hm.
  assert (L1 : first <= mid) by (destruct H1 as (_ & [? _] & _); assumption).
  assert (L2 : mid <= last) by (destruct H2 as (_ & [? _] & _); assumption).
  destruct (transformed_exists g m (first :: srcs2) (last - first) ltac:(lia) Hm) as (vals & L & V).
  set (n1 := Z.to_nat (mid - first)).
  assert (V1 : transformed_are g m (first :: srcs2) (mid - first) (firstn n1 vals)).
  { split; [rewrite firstn_length; unfold n1; lia|]. intros i Hi. destruct (V i ltac:(lia)) as (args & F & N).
    exists args. split; [exact F|]. rewrite nth_error_firstn'. destruct (Nat.ltb_spec (Z.to_nat i) n1) as [_|Hge]; [exact N|unfold n1 in Hge; lia]. }
  assert (V2 : transformed_are g m (mid :: map (fun p => p + (mid - first)) srcs2) (last - mid) (skipn n1 vals)).
  { split; [rewrite skipn_length; unfold n1; lia|]. intros i Hi. destruct (V (i + (mid - first)) ltac:(lia)) as (args & F & N).
    exists args. split.
    - inversion F as [|p x l' args' E F']; subst. constructor; [now replace (mid + i) with (first + (i + (mid - first))) by lia|].
      clear - F'. induction F' as [|p x l l' E _ IH]; [constructor|]. cbn [map]. constructor; [|exact IH].
      now replace (p + (mid - first) + i) with (p + (i + (mid - first))) by lia.
    - rewrite nth_error_skipn'. rewrite <- N. f_equal. unfold n1. lia. }
  exists (seq_sum op init (firstn n1 vals)), (seq_sum op init vals).
  split; [now apply (tr_fold g)|]. split; [|now apply (tr_fold g)].
  rewrite <- (firstn_skipn n1 vals) at 2. rewrite seq_sum_app. apply (tr_fold g); try assumption.
  intros k Hk. rewrite map_length. now apply Ht.
Qed.

(** transform into an array, then reduce that. *)
Lemma transform_then_reduce {T} (g : list T -> T) opv tr (op : T -> T -> T) c1 pol1 w1 c2 pol2 w2 c3 pol3 w3 first last dst srcs2 (m : mem T) init :
  assoc_comm op -> visit_ok c1 pol1 w1 dst (dst + (last - first)) -> reduce_ok c2 pol2 w2 dst (dst + (last - first)) ->
  reduce_ok c3 pol3 w3 first last ->
  lanewise_op g opv -> (forall k, 0 < k -> transforms_at g tr (S (length srcs2)) k) ->
  Forall (fun p => mapped m p (p + (last - first))) (dst :: first :: srcs2) ->
  no_clobber dst (last - first) (first :: srcs2) ->
  exists m' x, run_transform opv c1 pol1 w1 first last dst srcs2 m = Ok (m', dst + (last - first))
    /\ reduce_alg c2 op m' pol2 w2 dst (dst + (last - first)) init = Ok x
    /\ transform_reduce c3 op tr m pol3 w3 first last srcs2 init = Ok x.
Proof.
  intros Ho H1 H2 H3 Hop Ht Hm Hn.
  destruct (tf_map _ _ c1 pol1 w1 first last dst srcs2 m H1 Hop Hm Hn) as (m' & E1 & A1 & _).
  assert (Hle : 0 <= last - first) by (destruct H1 as (_ & [? _] & _); lia).
  destruct (transformed_exists g m (first :: srcs2) (last - first) Hle (Forall_inv_tail Hm)) as (vals & L & V).
  exists m', (seq_sum op init vals). split; [exact E1|]. split; [|apply (tr_fold g); try assumption; now split].
  unfold reduce_alg. apply (tr_fold (fun args => match args with x :: _ => x | [] => g [] end)); try assumption.
  - intros k Hk chunks Hl HF. destruct chunks as [|ch [|? ?]]; try discriminate Hl. cbn [hd]. inversion HF; subst.
    split; [reflexivity|]. intros i args F. inversion F; subst. match goal with H : Forall2 _ [] _ |- _ => inversion H; subst end. assumption.
  - split; [lia|]. intros i Hi. replace (dst + (last - first) - dst) with (last - first) in Hi by lia.
    destruct (V i Hi) as (args & F & N). exists [g args]. split; [|exact N].
    constructor; [|constructor]. now apply A1.
Qed.

Lemma seq_sum_perm {A} (op : A -> A -> A) : assoc_comm op -> forall l l', Permutation l l' -> forall x, seq_sum op x l = seq_sum op x l'.
Proof.
  intros [Ha Hc] l l' P. unfold seq_sum. induction P as [|y l l' _ IH|y z l|l1 l2 l3 _ IH1 _ IH2]; intros x; cbn [fold_left].
  - reflexivity.
  - apply IH.
  - f_equal. rewrite !Ha. f_equal. apply Hc.
  - now rewrite IH1.
Qed.

(** The order of the elements does not matter. *)
Lemma reduce_permuted {T} (op : T -> T -> T) c pol w first last (m : mem T) l c' pol' w' first' last' (m' : mem T) l' init :
  assoc_comm op -> reduce_ok c pol w first last -> reduce_ok c' pol' w' first' last' ->
  range_is m first last l -> range_is m' first' last' l' -> Permutation l l' ->
  exists x, reduce_alg c op m pol w first last init = Ok x /\ reduce_alg c' op m' pol' w' first' last' init = Ok x.
Proof.
  intros Ho H H' Hl Hl' P.
  assert (K : forall c pol w first last (m : mem T) l, reduce_ok c pol w first last -> range_is m first last l ->
              reduce_alg c op m pol w first last init = Ok (seq_sum op init l)).
  { clear - Ho. intros c pol w first last m l H [L E]. unfold reduce_alg.
    apply (tr_fold (fun args => match args with x :: _ => x | [] => init end)); try assumption.
    - intros k Hk chunks Hn HF. destruct chunks as [|ch [|? ?]]; try discriminate Hn. cbn [hd]. inversion HF; subst.
      split; [reflexivity|]. intros i args F. inversion F; subst. match goal with H : Forall2 _ [] _ |- _ => inversion H; subst end. assumption.
    - split; [exact L|]. intros i Hi. specialize (E (Z.to_nat i) ltac:(lia)). rewrite Z2Nat.id in E by lia.
      destruct (nth_error l (Z.to_nat i)) as [x|] eqn:Ex.
      + exists [x]. split; [now repeat constructor|reflexivity].
      + apply nth_error_None in Ex. lia. }
  exists (seq_sum op init l). split; [now apply K|]. rewrite (seq_sum_perm op Ho l l' P). now apply K.
Qed.

(** ** Counting *)
Lemma range_exists {T} (m : mem T) first last : first <= last -> mapped m first last -> exists l, range_is m first last l.
Proof.
  intros Hle Hm. destruct (load_ok m first (Z.to_nat (last - first))) as [l E].
  { intros a Ha. destruct (Hm a ltac:(lia)) as [x Ex]. congruence. }
  exists l. now apply load_range_is.
Qed.

Lemma hits_sum {T} (p : T -> bool) : forall l z, seq_sum Z.add z (map (fun x => hit p [x]) l) = z + Z.of_nat (length (filter p l)).
Proof.
  induction l as [|x l IH]; intros z; [cbn; lia|]. cbn [map filter]. unfold seq_sum in *. cbn [fold_left]. rewrite IH. cbn [hit].
  destruct (p x); cbn [length]; lia.
Qed.

Lemma count_if_is_sum {T} (p : T -> bool) pred tr c lib pol w c' pol' w' first last (m : mem T) :
  (forall l, pred l = map p l) -> visit_ok c pol w first last -> reduce_ok c' pol' w' first last ->
  (forall k, 0 < k -> transforms_at (hit p) tr 1 k) -> mapped m first last ->
  exists n, transform_reduce c' Z.add tr m pol' w' first last [] 0 = Ok n
            /\ (n <= int_max -> count_if pred c lib pol w first last m = Ok n)
            /\ (int_max < n -> count_if pred c lib pol w first last m = Stop SUB).
Proof.
  intros Hp Hv Hr Ht Hm. assert (Hle : first <= last) by (destruct Hv as (_ & [? _] & _); assumption).
  destruct (range_exists m first last Hle Hm) as (l & Hl).
  exists (Z.of_nat (length (filter p l))). rewrite (ci_count p pred c lib pol w first last m l Hp Hv Hl). split.
  - rewrite (tr_fold (hit p) tr Z.add c' pol' w' first last [] m (map (fun x => hit p [x]) l) 0); try assumption.
    + rewrite hits_sum. reflexivity.
    + split; intros; lia.
    + destruct Hl as [L E]. split; [now rewrite map_length|]. intros i Hi.
      specialize (E (Z.to_nat i) ltac:(lia)). rewrite Z2Nat.id in E by lia.
      destruct (nth_error l (Z.to_nat i)) as [x|] eqn:Ex.
      * exists [x]. split; [now repeat constructor|]. rewrite nth_error_map, Ex. reflexivity.
      * apply nth_error_None in Ex. lia.
  - split; intros Hn.
    + destruct (Z.leb_spec (Z.of_nat (length (filter p l))) int_max); [reflexivity|lia].
    + destruct (Z.leb_spec (Z.of_nat (length (filter p l))) int_max); [lia|reflexivity].
Qed.

Lemma filter_both {T} (p : T -> bool) l :
  Z.of_nat (length (filter p l)) + Z.of_nat (length (filter (fun x => negb (p x)) l)) = Z.of_nat (length l).
Proof. induction l as [|x l IH]; [reflexivity|]. cbn [filter length]. destruct (p x); cbn [negb length]; lia. Qed.

Lemma count_if_negated {T} (p : T -> bool) pred npred c lib pol w c' lib' pol' w' first last (m : mem T) :
  (forall l, pred l = map p l) -> (forall l, npred l = map (fun x => negb (p x)) l) ->
  visit_ok c pol w first last -> visit_ok c' pol' w' first last -> mapped m first last -> last - first <= int_max ->
  exists n n', count_if pred c lib pol w first last m = Ok n /\ count_if npred c' lib' pol' w' first last m = Ok n'
               /\ 0 <= n /\ 0 <= n' /\ n + n' = last - first.
Proof.
  intros Hp Hp' Hv Hv' Hm Hi. assert (Hle : first <= last) by (destruct Hv as (_ & [? _] & _); assumption).
  destruct (range_exists m first last Hle Hm) as (l & Hl).
  rewrite (ci_count p pred c lib pol w first last m l Hp Hv Hl), (ci_count _ npred c' lib' pol' w' first last m l Hp' Hv' Hl).
  assert (B := filter_both p l). destruct Hl as [L _].
  destruct (Z.leb_spec (Z.of_nat (length (filter p l))) int_max); [|lia].
  destruct (Z.leb_spec (Z.of_nat (length (filter (fun x => negb (p x)) l))) int_max); [|lia].
  eexists. eexists. split; [reflexivity|]. split; [reflexivity|]. lia.
Qed.

Lemma count_if_split {T} (p : T -> bool) pred c1 lib1 pol1 w1 c2 lib2 pol2 w2 c3 lib3 pol3 w3 first mid last (m : mem T) :
  (forall l, pred l = map p l) -> visit_ok c1 pol1 w1 first mid -> visit_ok c2 pol2 w2 mid last -> visit_ok c3 pol3 w3 first last ->
  mapped m first last -> last - first <= int_max ->
  exists n n', count_if pred c1 lib1 pol1 w1 first mid m = Ok n /\ count_if pred c2 lib2 pol2 w2 mid last m = Ok n'
               /\ count_if pred c3 lib3 pol3 w3 first last m = Ok (n + n').
Proof.
  intros Hp H1 H2 H3 Hm Hi.
  assert (L1 : first <= mid) by (destruct H1 as (_ & [? _] & _); assumption).
  assert (L2 : mid <= last) by (destruct H2 as (_ & [? _] & _); assumption).
  destruct (range_exists m first mid L1) as (l1 & R1); [intros a Ha; apply Hm; lia|].
  destruct (range_exists m mid last L2) as (l2 & R2); [intros a Ha; apply Hm; lia|].
  assert (R3 : range_is m first last (l1 ++ l2)).
  { destruct R1 as [A1 B1], R2 as [A2 B2]. split; [rewrite app_length; lia|]. intros i Hl. rewrite app_length in Hl.
    destruct (Nat.lt_ge_cases i (length l1)) as [Hlt|Hge].
    - rewrite nth_error_app1 by exact Hlt. now apply B1.
    - rewrite nth_error_app2 by exact Hge. rewrite B2 by lia. f_equal. lia. }
  rewrite (ci_count p pred c1 lib1 pol1 w1 _ _ m l1 Hp H1 R1), (ci_count p pred c2 lib2 pol2 w2 _ _ m l2 Hp H2 R2),
    (ci_count p pred c3 lib3 pol3 w3 _ _ m _ Hp H3 R3).
  rewrite filter_app, app_length.
  assert (B1 := filter_both p l1). assert (B2 := filter_both p l2). destruct R1 as [A1 _], R2 as [A2 _].
  destruct (Z.leb_spec (Z.of_nat (length (filter p l1))) int_max); [|lia].
  destruct (Z.leb_spec (Z.of_nat (length (filter p l2))) int_max); [|lia].
  destruct (Z.leb_spec (Z.of_nat (length (filter p l1) + length (filter p l2))) int_max); [|lia].
  eexists. eexists. split; [reflexivity|]. split; [reflexivity|]. f_equal. lia.
Qed.

(** ** An instance: eleven elements at byte address 4, in three ways. *)
Lemma alg_example_visit ce first last : range_ok first last -> visit_ok (ex_cfg 4 false ce) (pol_unroll 3) 4 first last.
Proof.
  intros Hr. split; [unfold width_ok; lia|]. split; [exact Hr|]. split; [discriminate|].
  destruct ce; [left|right]; (split; [reflexivity|]).
  - intros H. discriminate H.
  - split; [now apply ex_target|]. split; [repeat split; first [reflexivity|discriminate]|]. split; discriminate.
Qed.

Lemma alg_example_aligned : visit_ok (ex_cfg 4 false false) pol_aligned 4 0 11.
Proof.
  split; [unfold width_ok; lia|]. split; [split; lia|]. split; [discriminate|]. right. split; [reflexivity|].
  split; [now apply ex_target|]. split; [repeat split; first [reflexivity|discriminate]|]. split; [|discriminate].
  intros _ _ _. exists 3. split; [lia|]. exists 1. reflexivity.
Qed.

Lemma alg_example_reduce ce first last : range_ok first last -> reduce_ok (ex_cfg 4 false ce) (pol_unroll 3) 4 first last.
Proof.
  intros Hr. split; [unfold width_ok; lia|]. split; [exact Hr|]. split; [discriminate|].
  destruct ce; [now left|right]. split; [reflexivity|].
  split; [now apply ex_target|]. split; [repeat split; first [reflexivity|discriminate]|]. split; discriminate.
Qed.
