(** Proofs about the value types of the algorithms. *)
From Verif Require Import Base BaseFacts SimdizeModel SimdizeSpec SimdizeProofs SimdizeTypeModel SimdizeTypeSpec SimdizeTypeProofs SimdizeTypeExamples
  AcceptModel InstModel InstSpec InstProofs ElemModel ElemSpec.
From Coq Require Import ZifyBool ZifyNat.
Ltac Zify.zify_post_hook ::= idtac.

Lemma like_simd n t r : simd_like n t r -> (is_simd r = true <-> exists l, t = Leaf l).
Proof.
  intros H. destruct H as [l|ms rs N F]; cbn; split; intros H; try discriminate; try reflexivity.
  - now exists l.
  - destruct H as [l E]. discriminate.
Qed.

Lemma like_members n ms rs : Forall2 (simd_like n) ms rs ->
  (forallb is_simd rs = true <-> forall m, In m ms -> exists l, m = Leaf l).
Proof.
  induction 1 as [|m r ms rs H _ IH]; cbn [forallb].
  - split; [intros _ m []|reflexivity].
  - rewrite andb_true_iff, IH, (like_simd n m r H). split.
    + intros [A B] x [<-|I]; auto.
    + intros A. split; [apply A; now left|intros x I; apply A; now right].
Qed.

Lemma sized_cases t n : natives_ok t -> 0 < n ->
  (turns_into n t /\ exists r, simdize t n = Ok r /\ simd_like n t r)
  \/ (~ turns_into n t /\ (simdize t n = Ok Same \/ exists s, simdize t n = Stop s)).
Proof.
  intros N P. destruct (recursively_vectorizable t) eqn:V.
  - apply rec_vec_spec in V. destruct (simdize t n) as [r|s] eqn:E.
    + assert (D : defaults_ok t) by (apply (simdize_wellformed_iff t n V N); now exists r).
      destruct (allow_dec n t V) as [A|A].
      * left. split; [exact (conj V (conj D A))|]. exists r. split; [reflexivity|].
        destruct (simdize_width t n V N D P A) as (r' & E' & L & _). rewrite E in E'. injection E' as <-. exact L.
      * right. split; [intros (_ & _ & H); contradiction|]. left. rewrite <- E. exact (proj2 (simdize_same t n) V N D P A).
    + right. split; [|right; now exists s]. intros (_ & D & _). apply (simdize_wellformed_iff t n V N) in D as [r D]. unfold simdize in D, E. congruence.
  - assert (V' : ~ vectorizable_type t) by (intros H; apply rec_vec_spec in H; congruence).
    right. split; [intros (H & _); contradiction|]. left. exact (proj1 (simdize_same t n) V').
Qed.

Theorem loadable_iff t n : natives_ok t -> 0 < n -> (loadable t n = true <-> flat t /\ turns_into n t).
Proof.
  intros N P. unfold loadable. destruct (sized_cases t n N P) as [[A (r & E & L)]|[A [E|[s E] ] ] ]; rewrite E.
  - destruct L as [l|ms rs M F].
    + split; [intros _; split; [constructor|exact A]|reflexivity].
    + rewrite (like_members n ms rs F). split.
      * intros H. split; [now constructor|exact A].
      * intros [H _]. inversion H; assumption.
  - split; [discriminate|intros [_ H]; contradiction].
  - split; [discriminate|intros [_ H]; contradiction].
Qed.

Theorem storable_iff t n : natives_ok t -> 0 < n -> (storable t n = true <-> turns_into n t).
Proof.
  intros N P. unfold storable. destruct (sized_cases t n N P) as [[A (r & E & L)]|[A [E|[s E] ] ] ]; rewrite E.
  - destruct L; split; auto.
  - split; [discriminate|contradiction].
  - split; [discriminate|contradiction].
Qed.

Lemma asked_pos n t k : natives_ok t -> asked n t k -> 0 < k.
Proof. intros N [[_ H]|[H ->] ]; [now apply (widest_pos t)|assumption]. Qed.

Theorem width_iff t n k : natives_ok t -> 0 <= n -> (width_of t n = Some k <-> asked n t k /\ turns_into k t).
Proof.
  intros N P.
  assert (Q : forall m, 0 < m -> (width_of t m = Some k <-> k = m /\ turns_into k t)).
  { intros m M. unfold width_of. destruct (sized_cases t m N M) as [[A (r & E & L)]|[A [E|[s E] ] ] ]; rewrite E.
    - rewrite (simd_like_size m t r L). split; [intros H; injection H as <-; auto|intros [-> _]; reflexivity].
    - cbn. split; [discriminate|intros [-> H]; contradiction].
    - split; [discriminate|intros [-> H]; contradiction]. }
  destruct (Z.eq_dec n 0) as [->|Z].
  2:{ rewrite (Q n) by lia. unfold asked. split; intros [H1 H2]; (split; [|assumption]); [right; split; [lia|assumption]|].
      destruct H1 as [[H _]|[_ H] ]; [contradiction|assumption]. }
  destruct (recursively_vectorizable t) eqn:V.
  - apply rec_vec_spec in V. destruct (widest_ex t V) as [w W]. destruct (simdize t 0) as [r|s] eqn:E.
    + assert (D : defaults_ok t) by (apply (simdize_wellformed_iff t 0 V N); now exists r).
      assert (E' : width_of t 0 = width_of t w).
      { unfold width_of. now rewrite (proj1 (simdize_default t w V N D W)). }
      rewrite E', (Q w) by (now apply (widest_pos t)). unfold asked. split.
      * intros [-> H]. split; [left; auto|assumption].
      * intros [[[_ H]|[H _] ] T]; [|lia]. split; [exact (widest_unique t k w H W)|assumption].
    + unfold width_of. rewrite E. split; [discriminate|]. intros (_ & _ & D & _).
      apply (simdize_wellformed_iff t 0 V N) in D as [r D]. unfold simdize in D, E. congruence.
  - assert (V' : ~ vectorizable_type t) by (intros H; apply rec_vec_spec in H; congruence).
    unfold width_of. rewrite (proj1 (simdize_same t 0) V'). cbn. split; [discriminate|].
    intros (_ & H & _). contradiction.
Qed.

(** ** The concepts *)
Theorem concept_iff s : natives_ok (s_value s) ->
  (simd_execution s = Ok true
   <-> s_contiguous s = true /\ (vectorizable_type (s_value s) -> defaults_ok (s_value s)))
  /\ (simd_execution s = Ok false <-> s_contiguous s = false)
  /\ (simd_execution s = Stop SIllFormed
      <-> s_contiguous s = true /\ vectorizable_type (s_value s) /\ ~ defaults_ok (s_value s)).
Proof.
  intros N. unfold simd_execution. destruct (s_contiguous s).
  2:{ repeat split; try discriminate; intros [H _]; discriminate. }
  set (t := s_value s) in *. destruct (recursively_vectorizable t) eqn:V.
  - apply rec_vec_spec in V. destruct (simdize_wellformed_iff t 0 V N) as [W1 W2]. unfold simdize. destruct W2 as [[r E]|E]; rewrite E; cbn [bindR].
    + assert (D : defaults_ok t) by (apply W1; now exists r). split; [|split]; split; auto; try discriminate.
      intros (_ & _ & H). contradiction.
    + assert (D : ~ defaults_ok t) by (intros D; apply W1 in D as [r D]; congruence).
      split; [|split]; split; auto; try discriminate. intros [_ H]. exfalso. auto.
  - assert (V' : ~ vectorizable_type t) by (intros H; apply rec_vec_spec in H; congruence).
    rewrite (proj1 (simdize_same t 0) V'). cbn [bindR].
    split; [|split]; split; auto; try discriminate.
    + intros _. split; [reflexivity|intros H; contradiction].
    + intros (_ & H & _). contradiction.
Qed.

(** ** The algorithms *)
Lemma pow_nat k : Z.of_nat (Nat.pow 2 k) = 2 ^ Z.of_nat k.
Proof. rewrite Nat2Z.inj_pow. reflexivity. Qed.

Lemma fits q n : 0 < n -> prologue_fits q n -> policy_fits (configured q n).
Proof.
  intros P [U H]. repeat split; cbn.
  - lia.
  - exact U.
  - now apply H.
  - apply H in H0 as [_ H0]. pose proof (pow_nat k). lia.
Qed.

Lemma loads_iff osize t q n : natives_ok t -> 0 < n -> prologue_fits q n ->
  (for_each_compiles osize (configured q n) (fun _ k => loadable t (Z.of_nat k)) = true
   <-> flat t /\ turns_into n t
       /\ (1 < n -> forall j, 0 <= j -> 2 ^ j <= 32 \/ 2 ^ j < n -> turns_into (2 ^ j) t)).
Proof.
  intros N P F. rewrite (for_each_iff osize (configured q n) _ (fits q n P F)). cbn [configured c_size c_unroll].
  rewrite Z2Nat.id by lia. rewrite (loadable_iff t n N P). split.
  - intros ([A B] & _ & H). split; [exact A|split; [exact B|]]. intros L j J K.
    specialize (H ltac:(lia) (Z.to_nat j)). rewrite pow_nat, Z2Nat.id in H by lia.
    apply loadable_iff; [exact N|lia|]. apply H. pose proof (pow_nat (Z.to_nat j)) as E. rewrite Z2Nat.id in E by lia. lia.
  - intros (A & B & H). split; [now split|]. split; [intros _; now split|].
    intros L j K. rewrite pow_nat. apply loadable_iff; [exact N|lia|]. split; [exact A|].
    pose proof (pow_nat j). apply H; lia.
Qed.

Theorem for_each_over_iff osize t q : natives_ok t -> 0 <= q_size q ->
  (forall n, asked (q_size q) t n -> prologue_fits q n) ->
  (for_each_over osize t q = true
   <-> flat t /\ exists n, asked (q_size q) t n /\ turns_into n t
                 /\ (1 < n -> forall j, 0 <= j -> 2 ^ j <= 32 \/ 2 ^ j < n -> turns_into (2 ^ j) t)).
Proof.
  intros N P F. unfold for_each_over. destruct (width_of t (q_size q)) as [n|] eqn:W.
  - apply (width_iff t (q_size q) n N P) in W as [A T].
    rewrite (loads_iff osize t q n N (asked_pos _ t n N A) (F n A)). split.
    + intros (H1 & H2 & H3). eauto.
    + intros (H1 & m & A' & H2 & H3). split; [exact H1|].
      assert (m = n) as ->.
      { destruct A as [[Z A]|[Z A] ], A' as [[Z' A']|[Z' A'] ]; try lia. exact (widest_unique t m n A' A). }
      auto.
  - split; [discriminate|]. intros (_ & n & A & T & _).
    assert (E : width_of t (q_size q) = Some n) by now apply width_iff. congruence.
Qed.

Theorem count_if_over_iff osize t q : natives_ok t -> 0 <= q_size q ->
  (forall n, asked (q_size q) t n -> prologue_fits q n) ->
  count_if_over osize t q = for_each_over osize t q.
Proof.
  intros N P F. unfold count_if_over, for_each_over. destruct (width_of t (q_size q)) as [n|] eqn:W; [|reflexivity].
  apply (width_iff t (q_size q) n N P) in W as [A T]. pose proof (asked_pos _ t n N A) as Q.
  replace (count_if_compiles osize (configured q n) (fun _ => true)) with true; [apply andb_true_r|].
  symmetry. apply (count_if_iff osize (configured q n) _ (fits q n Q (F n A))). auto.
Qed.

Lemma unlimited_allow t n : vectorizable_type t -> unlimited t -> 0 < n -> all_allow n t.
Proof.
  intros [_ O] U P l I. destruct l as [native can|]; [|contradiction]. exists native, can. split; [reflexivity|].
  now apply (U native can).
Qed.

Lemma inside_leaves (u t : tree leaf_type) l : inside u t -> In l (leaves u) -> In l (leaves t).
Proof.
  induction 1 as [ms I|x ms I _ IH]; intros L; cbn [leaves]; apply in_flat_map; eauto.
Qed.

Lemma unlimited_turns t n : vectorizable_type t -> natives_ok t -> unlimited t -> 0 < n -> turns_into n t.
Proof.
  intros V N U P. split; [exact V|split; [|now apply unlimited_allow] ].
  intros u m I W l L. pose proof (inside_leaves u t l I L) as L'.
  destruct l as [native can|]; [|destruct V as [_ O]; contradiction].
  exists native, can. split; [reflexivity|]. apply (U native can m L').
  destruct W as [(l0 & Hl & Hn) _]. apply (N l0); [|exact Hn]. now apply (inside_leaves u t).
Qed.

Theorem for_each_unlimited_iff osize t q : natives_ok t -> unlimited t -> 0 <= q_size q ->
  (forall n, asked (q_size q) t n -> prologue_fits q n) ->
  (for_each_over osize t q = true <-> flat t /\ vectorizable_type t).
Proof.
  intros N U P F. rewrite (for_each_over_iff osize t q N P F). split.
  - intros (A & n & _ & B & _). split; [exact A|apply B].
  - intros [A V]. split; [exact A|]. destruct (widest_ex t V) as [w W].
    assert (H : exists n, asked (q_size q) t n).
    { destruct (Z.eq_dec (q_size q) 0) as [E|E]; [exists w; now left|exists (q_size q); right; lia]. }
    destruct H as [n H]. exists n. pose proof (asked_pos _ t n N H). split; [exact H|].
    split; [now apply unlimited_turns|]. intros _ j J _. apply unlimited_turns; auto. lia.
Qed.

(** ** transform *)
Lemma default_width_iff ts k : ts <> [] -> (forall t, In t ts -> natives_ok t) ->
  (default_width ts = Some k
   <-> (forall t, In t ts -> exists m, widest t m /\ turns_into m t) /\ asked_of_all 0 ts k).
Proof.
  intros NE N. unfold asked_of_all. revert k.
  assert (S : forall t m, natives_ok t -> (width_of t 0 = Some m <-> widest t m /\ turns_into m t)).
  { intros t m H. rewrite (width_iff t 0 m H ltac:(lia)). unfold asked. split.
    - intros [[[_ W]|[L _] ] T]; [auto|lia].
    - intros [W T]. split; [left; auto|assumption]. }
  induction ts as [|t ts IH]; [contradiction|]. intros k.
  assert (Nt : natives_ok t) by (apply N; now left).
  destruct ts as [|u ts].
  - cbn [default_width]. rewrite (S t k Nt). split.
    + intros [W T]. split; [intros x [<-|[] ]; eauto|]. left. split; [reflexivity|]. split; [exists t; split; [now left|exact W]|].
      intros x m [<-|[] ] W'. rewrite (widest_unique t m k W' W). lia.
    + intros [A [(_ & (x & [<-|[] ] & W) & _)|[L _] ] ]; [|lia]. destruct (A t ltac:(now left)) as (m & W' & T).
      now rewrite (widest_unique t k m W W') in *.
  - assert (IH' := IH ltac:(discriminate) ltac:(intros x I; apply N; now right)). clear IH.
    change (default_width (t :: u :: ts)) with
      (match width_of t 0, default_width (u :: ts) with Some a, Some b => Some (Z.max a b) | _, _ => None end).
    split.
    + destruct (width_of t 0) as [a|] eqn:Wa; [|discriminate].
      destruct (default_width (u :: ts)) as [b|]; [|discriminate]. intros E. injection E as <-.
      apply (S t a Nt) in Wa as [W T]. destruct (proj1 (IH' b) eq_refl) as [A B].
      destruct B as [(_ & (x & Ix & Wx) & M)|[L _] ]; [|lia]. split.
      * intros y [<-|I]; eauto.
      * left. split; [reflexivity|]. split.
        -- destruct (Z.max_spec a b) as [[_ ->]|[_ ->] ]; [exists x; split; [now right|exact Wx]|exists t; split; [now left|exact W] ].
        -- intros y m [<-|I] Wy; [rewrite (widest_unique t m a Wy W); lia|]. specialize (M y m I Wy). lia.
    + intros [A [(_ & (x & Ix & Wx) & M)|[L _] ] ]; [|lia].
      destruct (A t ltac:(now left)) as (a & W & T). rewrite (proj2 (S t a Nt) (conj W T)).
      assert (Q : exists b, (forall y, In y (u :: ts) -> exists m, widest y m /\ turns_into m y)
                /\ asked_of_all 0 (u :: ts) b).
      { clear - A. assert (A' : forall y, In y (u :: ts) -> exists m, widest y m /\ turns_into m y) by (intros y I; apply A; now right).
        clear A. revert u A'. induction ts as [|v ts IH]; intros u A'.
        - destruct (A' u ltac:(now left)) as (b & Wb & Tb). exists b. split; [exact A'|]. left. split; [reflexivity|].
          split; [exists u; split; [now left|exact Wb]|]. intros y m [<-|[] ] Wy. rewrite (widest_unique u m b Wy Wb). lia.
        - destruct (IH v ltac:(intros y I; apply A'; now right)) as (b & _ & B).
          destruct (A' u ltac:(now left)) as (a & Wa & Ta). exists (Z.max a b). split; [exact A'|].
          destruct B as [(_ & (x & Ix & Wx) & M)|[L _] ]; [|lia]. left. split; [reflexivity|]. split.
          + destruct (Z.max_spec a b) as [[_ ->]|[_ ->] ]; [exists x; split; [now right|exact Wx]|exists u; split; [now left|exact Wa] ].
          + intros y m [<-|I] Wy; [rewrite (widest_unique u m a Wy Wa); lia|]. specialize (M y m I Wy). lia. }
      destruct Q as (b & Q1 & Q2). rewrite (proj2 (IH' b) (conj Q1 Q2)). f_equal.
      destruct Q2 as [(_ & (y & Iy & Wy) & M')|[L _] ]; [|lia].
      pose proof (M t a ltac:(now left) W). pose proof (M y b ltac:(now right) Wy).
      destruct Ix as [<-|Ix]; [rewrite (widest_unique t k a Wx W) in *; lia|]. specialize (M' x k Ix Wx). lia.
Qed.

Lemma forallb_loads ts n : (forall t, In t ts -> natives_ok t) -> 0 < n ->
  (forallb (fun t => loadable t n) ts = true <-> forall t, In t ts -> flat t /\ turns_into n t).
Proof.
  intros N P. rewrite forallb_forall. split; intros H t I.
  - apply loadable_iff; auto.
  - apply loadable_iff; auto.
Qed.

Lemma asked_all_unique n ts k m : asked_of_all n ts k -> asked_of_all n ts m -> k = m.
Proof.
  intros [(E & (t & I & W) & M)|[L ->] ] [(E' & (t' & I' & W') & M')|[L' ->] ]; try lia.
  pose proof (M t' m I' W'). pose proof (M' t k I W). lia.
Qed.

Lemma asked_all_pos n ts k : (forall t, In t ts -> natives_ok t) -> asked_of_all n ts k -> 0 < k.
Proof. intros N [(_ & (t & I & W) & _)|[L ->] ]; [|assumption]. apply (widest_pos t); auto. Qed.

(** Everything that is moved with [n] lanes *)
Definition moves (ts : list (tree leaf_type)) (out : tree leaf_type) (n : Z) : Prop :=
  (forall t, In t ts -> turns_into n t) /\ turns_into n out.

Theorem transform_over_iff p ts out q : ts <> [] -> (forall t, In t ts -> natives_ok t) -> natives_ok out ->
  0 <= q_size q -> (forall n, asked_of_all (q_size q) ts n -> prologue_fits q n) ->
  (transform_over p ts out q = true
   <-> (forall t, In t ts -> flat t)
       /\ (q_size q = 0 -> forall t, In t ts -> exists m, widest t m /\ turns_into m t)
       /\ exists n, asked_of_all (q_size q) ts n
          /\ (forall k, k = n \/ k = 1 -> (forall t, In t ts -> turns_into k t) /\ turns_into k out)
          /\ (forall e j, q_prologue q = Some e -> 0 <= j < Z.of_nat e ->
                (forall t, In t ts -> turns_into (2 ^ j) t) /\ turns_into (2 ^ j) out)
          /\ (q_matching q = false -> forall j, 0 <= j -> 2 ^ j < n ->
                (forall t, In t ts -> turns_into (2 ^ j) t) /\ turns_into (2 ^ j) out)).
Proof.
  intros NE N No P F. unfold transform_over.
  assert (G : forall n, asked_of_all (q_size q) ts n ->
    (well_formed (transform_sites p Int
       (of_widths Int (fun k => forallb (fun t => loadable t (Z.of_nat k)) ts && storable out (Z.of_nat k)))
       (configured q n)) = true
     <-> (forall t, In t ts -> flat t)
          /\ (forall k, k = n \/ k = 1 -> moves ts out k)
          /\ (forall e j, q_prologue q = Some e -> 0 <= j < Z.of_nat e -> moves ts out (2 ^ j))
          /\ (q_matching q = false -> forall j, 0 <= j -> 2 ^ j < n -> moves ts out (2 ^ j)))).
  { intros n A. pose proof (asked_all_pos _ ts n N A) as Pn.
    rewrite (transform_widths_iff p Int _ (configured q n) (fits q n Pn (F n A))).
    cbn [configured c_size c_prologue c_matching]. rewrite Z2Nat.id by lia.
    assert (L : forall k, 0 < k -> forallb (fun t => loadable t k) ts && storable out k = true
                 <-> (forall t, In t ts -> flat t) /\ moves ts out k).
    { intros k K. rewrite andb_true_iff, (forallb_loads ts k N K), (storable_iff out k No K). unfold moves.
      split; [intros [H1 H2]; split; [|split; [|exact H2] ]; intros t I; apply (H1 t I)|intros (H1 & H2 & H3); split; auto]. }
    rewrite (L n Pn). change (Z.of_nat 1) with 1. rewrite (L 1 ltac:(lia)). split.
    - intros ((H0 & H1) & (_ & H2) & H3 & H4). split; [exact H0|]. split; [intros k [->| ->]; assumption|]. split.
      + intros e j E J. specialize (H3 e (Z.to_nat j) E ltac:(lia)). rewrite pow_nat, Z2Nat.id in H3 by lia.
        apply (L (2 ^ j)) in H3; [apply H3|lia].
      + intros M j J K. specialize (H4 M (Z.to_nat j)). rewrite pow_nat, Z2Nat.id in H4 by lia.
        apply (L (2 ^ j)); [lia|]. apply H4. pose proof (pow_nat (Z.to_nat j)) as E. rewrite Z2Nat.id in E by lia. lia.
    - intros (H0 & H1 & H2 & H3). split; [auto|]. split; [auto|]. split.
      + intros e j E J. rewrite pow_nat. apply L; [lia|]. split; [exact H0|]. apply (H2 e); [exact E|lia].
      + intros M j J. rewrite pow_nat. apply L; [lia|]. split; [exact H0|]. pose proof (pow_nat j). apply H3; [exact M|lia|lia]. }
  destruct (Z.ltb_spec 0 (q_size q)) as [Lq|Lq].
  - assert (A : asked_of_all (q_size q) ts (q_size q)) by (right; auto). rewrite (G _ A). split.
    + intros (H0 & H1 & H2 & H3). split; [exact H0|]. split; [lia|]. exists (q_size q). auto.
    + intros (H0 & _ & n & A' & H1 & H2 & H3). pose proof (asked_all_unique _ _ _ _ A A') as <-. auto.
  - assert (E : q_size q = 0) by lia. rewrite E in *. destruct (default_width ts) as [n|] eqn:D.
    + apply (default_width_iff ts n NE N) in D as [D A]. rewrite (G _ A). split.
      * intros (H0 & H1 & H2 & H3). split; [exact H0|]. split; [auto|]. exists n. auto.
      * intros (H0 & _ & m & A' & H1 & H2 & H3). pose proof (asked_all_unique _ _ _ _ A A') as <-. auto.
    + split; [discriminate|]. intros (_ & H & n & A & _).
      assert (default_width ts = Some n) by (apply default_width_iff; auto). congruence.
Qed.

(** ** transform_reduce *)
Lemma scalar_acc acc : natives_ok acc -> turns_into 1 acc ->
  (match simdize acc 1 with Ok r => is_simd r | Stop _ => false end = true <-> exists l, acc = Leaf l).
Proof.
  intros N T. destruct (sized_cases acc 1 N ltac:(lia)) as [[_ (r & E & L)]|[A _] ]; [|contradiction].
  rewrite E. exact (like_simd 1 acc r L).
Qed.

Theorem transform_reduce_over_iff p ts acc q : ts <> [] -> (forall t, In t ts -> natives_ok t) -> natives_ok acc ->
  0 <= q_size q -> (forall n, asked_of_all (q_size q) ts n -> prologue_fits q n) ->
  (transform_reduce_over p ts acc q = true
   <-> (forall t, In t ts -> flat t)
       /\ (q_size q = 0 -> forall t, In t ts -> exists m, widest t m /\ turns_into m t)
       /\ exists n, asked_of_all (q_size q) ts n
          /\ (forall k, k = n \/ k = 1 -> (forall t, In t ts -> turns_into k t) /\ turns_into k acc)
          /\ (forall j, 0 <= j -> 2 ^ j < n -> (forall t, In t ts -> turns_into (2 ^ j) t) /\ turns_into (2 ^ j) acc)
          /\ (1 < n -> exists l, acc = Leaf l)).
Proof.
  intros NE N No P F. unfold transform_reduce_over.
  assert (G : forall n, asked_of_all (q_size q) ts n ->
    (well_formed (transform_reduce_sites p Int
       (of_widths Int (fun k => forallb (fun t => loadable t (Z.of_nat k)) ts && storable acc (Z.of_nat k)))
       (reduce_of_widths Int (fun k => storable acc (Z.of_nat k))
          (match simdize acc 1 with Ok r => is_simd r | Stop _ => false end))
       (configured q n)) = true
     <-> (forall t, In t ts -> flat t)
          /\ (forall k, k = n \/ k = 1 -> moves ts acc k)
          /\ (forall j, 0 <= j -> 2 ^ j < n -> moves ts acc (2 ^ j))
          /\ (1 < n -> exists l, acc = Leaf l))).
  { intros n A. pose proof (asked_all_pos _ ts n N A) as Pn.
    rewrite (transform_reduce_widths_iff p Int _ _ _ (configured q n) (fits q n Pn (F n A))).
    cbn [configured c_size]. rewrite Z2Nat.id by lia.
    assert (L : forall k, 0 < k -> forallb (fun t => loadable t k) ts && storable acc k = true
                 <-> (forall t, In t ts -> flat t) /\ moves ts acc k).
    { intros k K. rewrite andb_true_iff, (forallb_loads ts k N K), (storable_iff acc k No K). unfold moves.
      split; [intros [H1 H2]; split; [|split; [|exact H2] ]; intros t I; apply (H1 t I)|intros (H1 & H2 & H3); split; auto]. }
    rewrite (L n Pn). change (Z.of_nat 1) with 1. rewrite (L 1 ltac:(lia)). split.
    - intros ((H0 & H1) & _ & (_ & H2) & _ & H3 & H4). split; [exact H0|].
      split; [intros k [->| ->]; assumption|]. split.
      + intros j J K. specialize (H3 (Z.to_nat j)). rewrite pow_nat, Z2Nat.id in H3 by lia.
        pose proof (pow_nat (Z.to_nat j)) as E. rewrite Z2Nat.id in E by lia.
        apply (L (2 ^ j)); [lia|]. apply H3. lia.
      + intros K. apply (scalar_acc acc No); [apply H2|]. apply H4. lia.
    - intros (H0 & H1 & H2 & H3).
      assert (S : forall k, 0 < k -> moves ts acc k -> storable acc k = true)
        by (intros k K [_ M]; now apply storable_iff).
      split; [auto|]. split; [auto|]. split; [auto|]. split; [apply S; [lia|auto]|]. split.
      + intros j J. rewrite pow_nat. pose proof (pow_nat j).
        assert (M : moves ts acc (2 ^ Z.of_nat j)) by (apply H2; lia).
        split; [apply L; [lia|auto]|apply S; [lia|exact M] ].
      + intros K. apply (scalar_acc acc No); [apply (H1 1); auto|]. apply H3. lia. }
  destruct (Z.ltb_spec 0 (q_size q)) as [Lq|Lq].
  - assert (A : asked_of_all (q_size q) ts (q_size q)) by (right; auto). rewrite (G _ A). split.
    + intros (H0 & H1 & H2 & H3). split; [exact H0|]. split; [lia|]. exists (q_size q). auto.
    + intros (H0 & _ & n & A' & H1 & H2 & H3). pose proof (asked_all_unique _ _ _ _ A A') as <-. auto.
  - assert (E : q_size q = 0) by lia. rewrite E in *. destruct (default_width ts) as [n|] eqn:D.
    + apply (default_width_iff ts n NE N) in D as [D A]. rewrite (G _ A). split.
      * intros (H0 & H1 & H2 & H3). split; [exact H0|]. split; [auto|]. exists n. auto.
      * intros (H0 & _ & m & A' & H1 & H2 & H3). pose proof (asked_all_unique _ _ _ _ A A') as <-. auto.
    + split; [discriminate|]. intros (_ & H & n & A & _).
      assert (default_width ts = Some n) by (apply default_width_iff; auto). congruence.
Qed.

(** ** The documented condition *)
Theorem documented_concept s : natives_ok (s_value s) -> documented s -> simd_execution s = Ok true.
Proof. intros N (C & n & _ & T). apply (concept_iff s N). split; [exact C|]. intros _. apply T. Qed.

Theorem concept_documented_iff s : natives_ok (s_value s) -> simd_execution s = Ok true ->
  (documented s <-> exists n, width_of (s_value s) 0 = Some n).
Proof.
  intros N H. apply (concept_iff s N) in H as [C _]. unfold documented. split.
  - intros (_ & n & W & T). exists n. apply width_iff; auto; [lia|]. split; [left; auto|exact T].
  - intros [n W]. split; [exact C|]. exists n. apply width_iff in W as [[[_ W]|[L _] ] T]; auto; lia.
Qed.

Lemma for_each_opaque osize q : for_each_over osize (Leaf Opaque) q = false.
Proof. reflexivity. Qed.

Definition ex_float : tree leaf_type := Leaf (Scalar 4 (fun n => (1 <=? n) && (n <=? 32))).
Definition ex_any (native : Z) : tree leaf_type := Leaf (Scalar native (fun n => 0 <? n)).

Lemma nested_not_loaded osize q : (forall n, asked (q_size q) (Struct [Struct [ex_any 4; ex_any 4]; ex_any 8]) n -> prologue_fits q n) ->
  0 <= q_size q -> for_each_over osize (Struct [Struct [ex_any 4; ex_any 4]; ex_any 8]) q = false.
Proof.
  intros F P. apply not_true_iff_false. intros H. apply for_each_over_iff in H as [H _]; auto.
  - inversion H as [|ms M]; subst. destruct (M (Struct [ex_any 4; ex_any 4]) ltac:(now left)) as [l E]. discriminate.
  - intros l n I [can E]. subst l. cbn in I. repeat destruct I as [I|I]; try contradiction; injection I as <- <-; lia.
Qed.

(** ** A sum of structs *)
Lemma struct_sum :
  exists t, natives_ok t /\ unlimited t /\ flat t /\ documented (mksource true t)
    /\ forall p q, 0 <= q_size q -> (forall n, asked_of_all (q_size q) [t] n -> prologue_fits q n) ->
         transform_over p [t] t q = true /\ (transform_reduce_over p [t] t q = true <-> q_size q = 1).
Proof.
  set (t := Struct [ex_any 4; ex_any 4]). exists t.
  assert (N : natives_ok t).
  { intros l n I [can E]. subst l. cbn in I. repeat destruct I as [I|I]; try contradiction; injection I as <- <-; lia. }
  assert (U : unlimited t).
  { intros native can n I L. cbn in I. repeat destruct I as [I|I]; try contradiction; injection I as <- <-; now apply Z.ltb_lt. }
  assert (V : vectorizable_type t) by now apply rec_vec_spec.
  assert (Fl : flat t) by (constructor; intros m [<-|[<-|[] ] ]; eexists; reflexivity).
  assert (W : widest t 4).
  { split; [eexists; split; [now left|eexists; reflexivity]|].
    intros l k I [can E]. subst l. cbn in I. repeat destruct I as [I|I]; try contradiction; injection I as <- <-; lia. }
  assert (T : forall n, 0 < n -> turns_into n t) by (intros n P; now apply unlimited_turns).
  split; [exact N|]. split; [exact U|]. split; [exact Fl|].
  split; [split; [reflexivity|]; exists 4; split; [exact W|apply T; lia]|].
  intros p q P F.
  assert (A : exists n, asked_of_all (q_size q) [t] n /\ 0 < n).
  { destruct (Z.eq_dec (q_size q) 0) as [E|E].
    - exists 4. split; [|lia]. left. split; [exact E|]. split; [exists t; split; [now left|exact W]|].
      intros u m [<-|[] ] Wu. rewrite (widest_unique t m 4 Wu W). lia.
    - exists (q_size q). split; [right|]; lia. }
  destruct A as (n & A & Pn).
  assert (H1 : forall u, In u [t] -> natives_ok u) by (intros u [<-|[] ]; exact N).
  assert (M : forall k, 0 < k -> (forall u, In u [t] -> turns_into k u) /\ turns_into k t).
  { intros k K. split; [intros u [<-|[] ]|]; now apply T. }
  split.
  - apply transform_over_iff; auto; [discriminate|]. split; [intros u [<-|[] ]; exact Fl|].
    split; [intros _ u [<-|[] ]; exists 4; split; [exact W|apply T; lia]|].
    exists n. split; [exact A|]. split; [intros k [->| ->]; apply M; lia|]. split; intros; apply M; lia.
  - rewrite transform_reduce_over_iff; auto; [|discriminate]. split.
    + intros (_ & _ & m & Am & _ & _ & B). destruct Am as [(E & (u & [<-|[] ] & Wu) & _)|[L E] ].
      * rewrite (widest_unique t m 4 Wu W) in B. destruct (B ltac:(lia)) as [l El]. discriminate El.
      * destruct (Z.eq_dec m 1) as [->|Z]; [lia|]. destruct (B ltac:(lia)) as [l El]. discriminate El.
    + intros E. split; [intros u [<-|[] ]; exact Fl|]. split; [lia|]. exists 1.
      split; [right; lia|]. split; [intros k K; apply M; lia|]. split; [intros j J K; apply M; lia|lia].
Qed.
