(** Proofs for C61. *)
From Verif Require Import Base LaneModel IntModel ShapeModel ValueModel AcceptModel AcceptSpec.

Lemma elt_eqb_eq : forall a b, elt_eqb a b = true <-> a = b.
Proof. intros a b. split; [destruct a, b; try discriminate; reflexivity|intros ->; apply Nat.eqb_refl]. Qed.

Lemma elt_eqb_refl : forall a, elt_eqb a a = true.
Proof. intros a. now apply elt_eqb_eq. Qed.

Lemma converts_refl : forall p x, converts p x x = true.
Proof. intros p [e n|e]; cbn; [|reflexivity]. now rewrite Nat.eqb_refl, elt_eqb_refl. Qed.

(** No conversion between simds with one element. *)
Lemma converts_one : forall p u t, converts p (Simd u 1) (Simd t 1) = true <-> u = t.
Proof.
  intros p u t. cbn. rewrite orb_false_r. apply elt_eqb_eq.
Qed.

Lemma wf_app : forall a b, well_formed (a ++ b) = true <-> well_formed a = true /\ well_formed b = true.
Proof. intros a b. unfold well_formed. rewrite forallb_app, andb_true_iff. reflexivity. Qed.

Lemma wf_in : forall s, well_formed s = true <-> (forall l n b, In (l, n, b) s -> b = true).
Proof.
  intros s. unfold well_formed. rewrite forallb_forall. split.
  - intros H l n b I. exact (H _ I).
  - intros H [[l n] b] I. exact (H l n b I).
Qed.

(** ** reduce *)

Lemma half_bounds : forall n, (3 < n)%nat ->
  (0 < 2 ^ Nat.log2 (n / 2) /\ 2 * 2 ^ Nat.log2 (n / 2) <= n)%nat.
Proof.
  intros n H.
  assert (D : (2 <= n / 2)%nat) by (apply Nat.div_le_lower_bound; lia).
  pose proof (Nat.log2_spec (n / 2) ltac:(lia)) as [L _].
  assert (E : (2 * (n / 2) <= n)%nat) by (apply Nat.mul_div_le; lia).
  split; [apply Nat.neq_0_lt_0, Nat.pow_nonzero; lia|lia].
Qed.

Lemma reduce_enough : forall p op t, lanewise op t (Some t) -> takes_elements op t ->
  forall fuel n, (0 < n <= fuel)%nat -> reduce_ok p op fuel n t = true.
Proof.
  intros p op t L (e & E) fuel. induction fuel as [|fuel IH]; intros n B; [lia|]. cbn [reduce_ok].
  destruct (Nat.ltb 3 n) eqn:C.
  - apply Nat.ltb_lt in C. destruct (half_bounds n C) as [P Q]. rewrite (L _). cbn [option_map].
    remember (2 ^ Nat.log2 (n / 2))%nat as h eqn:Eh. clear Eh.
    rewrite Nat.eqb_refl, (IH h) by lia. cbn [andb].
    destruct (Nat.eqb _ 0) eqn:Z; [reflexivity|]. apply Nat.eqb_neq in Z.
    rewrite (IH (n - 2 * h)%nat) by lia. cbn. now rewrite E.
  - now rewrite E.
Qed.

Lemma reduce_needs : forall p op t, lanewise op t (Some t) ->
  forall fuel n, reduce_ok p op fuel n t = true -> takes_elements op t.
Proof.
  intros p op t L fuel. induction fuel as [|fuel IH]; intros n H; [discriminate|]. cbn [reduce_ok] in H.
  destruct (Nat.ltb 3 n).
  - rewrite (L _) in H. cbn [option_map] in H. apply andb_true_iff in H as [H _].
    apply andb_true_iff in H as [_ H]. exact (IH _ H).
  - unfold initialises in H. destruct (op (Elem t) (Elem t)) as [ [|e]|] eqn:E; try discriminate.
    exists e. exact E.
Qed.

Lemma reduce_of_enough : forall p op t n, lanewise op t (Some t) -> takes_elements op t -> (0 < n)%nat ->
  reduce_of p op (Some (Simd t n)) = Some (Elem t).
Proof. intros p op t n L T N. cbn. now rewrite (reduce_enough p op t L T n n) by lia. Qed.

(** ** transform_reduce *)

Section enough.
  Variables (p : platform) (t : elt) (top : nat -> option vt) (op : vt -> vt -> option vt).
  Hypothesis R : returns_simd top t.
  Hypothesis L : lanewise op t (Some t).

  Lemma accumulate_same : forall n, accumulate t op n (Some (Simd t n)) = Some (Simd t n).
  Proof. intros n. exact (L n). Qed.

  Lemma accumulate_top : forall n, accumulate t op n (top n) = Some (Simd t n).
  Proof. intros n. rewrite (R n). apply accumulate_same. Qed.

  Lemma init_same : forall n, initialises p (Some (Simd t n)) (Simd t n) = true.
  Proof. intros n. apply converts_refl. Qed.

  Hypothesis T : takes_elements op t.

  Lemma finish_same : forall n, (0 < n)%nat -> finish p t op n = true.
  Proof.
    intros n N. unfold finish. rewrite (reduce_of_enough p op t n L T N), (accumulate_same 1). reflexivity.
  Qed.

  Lemma pow_pos : forall j, (0 < 2 ^ j)%nat.
  Proof. intros j. apply Nat.neq_0_lt_0, Nat.pow_nonzero. lia. Qed.

  Lemma epilogue2_ok : forall j, well_formed (reduce_epilogue2 p t top op j) = true.
  Proof.
    intros j. induction j as [|j IH]; cbn [reduce_epilogue2 well_formed forallb snd app].
    - rewrite accumulate_top, (accumulate_same 1), init_same. reflexivity.
    - rewrite accumulate_top, init_same, finish_same by apply pow_pos. rewrite accumulate_same, init_same.
      exact IH.
  Qed.

  Lemma epilogue1_ok : forall j, well_formed (reduce_epilogue1 p t top op j) = true.
  Proof.
    intros j. induction j as [|j IH]; cbn [reduce_epilogue1 well_formed forallb snd app].
    - rewrite (R _), (accumulate_same 1), init_same. reflexivity.
    - rewrite (R _), init_same, finish_same by apply pow_pos. rewrite accumulate_same, init_same. cbn.
      apply wf_app. split; [apply epilogue2_ok|exact IH].
  Qed.

  Lemma prologue_ok : forall k, well_formed (reduce_prologue p t top op k) = true.
  Proof.
    intros k. apply wf_in. intros l n b I. unfold reduce_prologue in I. apply in_flat_map in I as (j & _ & I).
    cbn [In] in I. rewrite (accumulate_same 1), init_same, (R _) in I.
    rewrite (reduce_of_enough p op t _ L T (pow_pos j)) in I.
    destruct I as [I|[I|[] ] ]; inversion I; [|reflexivity].
    cbn. unfold value_preserving_or_int. now rewrite elt_eqb_refl.
  Qed.
End enough.

Lemma finish_needs : forall p t op n, lanewise op t (Some t) -> finish p t op n = true -> takes_elements op t.
Proof.
  intros p t op n L H. unfold finish in H. apply andb_true_iff in H as [H _]. cbn in H.
  destruct (reduce_ok p op n n t) eqn:E; [|discriminate]. exact (reduce_needs p op t L n n E).
Qed.

Lemma half_log_bounds : forall size, (1 < size)%nat ->
  (2 ^ half_log size < size /\ size <= 2 * 2 ^ half_log size)%nat.
Proof.
  intros size H. unfold half_log. pose proof (Nat.log2_up_spec size H) as [A B].
  destruct (Nat.log2_up size) as [|j] eqn:E.
  - cbn in B. lia.
  - rewrite Nat.sub_succ, Nat.sub_0_r. cbn [Nat.pred] in A. split; [exact A|]. cbn [Nat.pow] in B. lia.
Qed.

Lemma transform_reduce_iff : forall p t top op c u r, valid c -> returns_simd top u -> lanewise op t r ->
  (well_formed (transform_reduce_sites p t top op c) = true
   <-> u = t /\ r = Some t /\ ((1 < c_size c)%nat -> takes_elements op t)).
Proof.
  intros p t top op c u r (S0 & U0 & P0) R L. unfold transform_reduce_sites. split.
  - intros H. apply wf_app in H as [H1 H]. apply wf_app in H as [_ H]. apply wf_app in H as [_ H].
    apply wf_app in H as [_ H].
    cbn [well_formed forallb snd] in H1. rewrite (R _) in H1. unfold accumulate in H1. rewrite (L _) in H1.
    apply andb_true_iff in H1 as [A B]. apply andb_true_iff in B as [B _].
    apply converts_one in A. destruct r as [r|]; [|discriminate]. apply converts_one in B. subst u r.
    split; [reflexivity|split; [reflexivity|] ]. intros N.
    destruct (Nat.eqb_spec (c_size c) 1) as [E|E]; [lia|]. apply wf_app in H as [H _].
    cbn [well_formed forallb snd] in H. apply andb_true_iff in H as [H _]. exact (finish_needs p t op _ L H).
  - intros (-> & -> & T). apply wf_app. split.
    { cbn [well_formed forallb snd]. rewrite (R _), (accumulate_same t op L 1), init_same. reflexivity. }
    apply wf_app. split.
    { destruct (c_prologue c) as [k|]; [|reflexivity]. destruct (P0 k eq_refl) as [N _].
      exact (prologue_ok p t top op R L (T N) k). }
    apply wf_app. split.
    { destruct (Nat.ltb 1 (c_unroll c)); [|reflexivity]. cbn [well_formed forallb snd].
      rewrite (accumulate_top t top op R L), (R _), (accumulate_same t op L), init_same. cbn.
      now rewrite elt_eqb_refl, Nat.eqb_refl. }
    apply wf_app. split.
    { cbn [well_formed forallb snd]. rewrite (accumulate_top t top op R L), (R _), init_same. reflexivity. }
    destruct (Nat.eqb_spec (c_size c) 1) as [E|E].
    { cbn [well_formed forallb snd]. rewrite (accumulate_same t op L 1). reflexivity. }
    assert (N : (1 < c_size c)%nat) by lia. specialize (T N).
    destruct (half_log_bounds _ N) as [B1 B2].
    apply wf_app. split; [|apply wf_app; split].
    + cbn [well_formed forallb snd]. rewrite (finish_same p t op L T) by lia. reflexivity.
    + destruct (Nat.eqb _ _); cbn [well_formed forallb snd].
      * now rewrite (accumulate_same t op L), init_same.
      * rewrite (reduce_of_enough p op t _ L T) by lia. now rewrite (accumulate_same t op L), init_same.
    + apply wf_app. split; [apply epilogue2_ok|apply epilogue1_ok]; assumption.
Qed.

(** ** The operators *)

Lemma vt_eqb_refl : forall x, vt_eqb x x = true.
Proof. intros [e n|e]; cbn; now rewrite ?elt_eqb_refl, ?Nat.eqb_refl. Qed.

Lemma operator_lanewise : forall p t, lanewise (simd_operator p) t (Some t).
Proof.
  intros p t n. unfold simd_operator. rewrite converts_refl, vt_eqb_refl. reflexivity.
Qed.

Lemma operator_elements : forall p t, takes_elements (simd_operator p) t.
Proof. intros p t. exists (p_sum p t t). reflexivity. Qed.

Lemma reduce_plus_iff : forall p v t c, valid c ->
  (well_formed (reduce_sites p v t (simd_operator p) c) = true <-> v = t).
Proof.
  intros p v t c V. unfold reduce_sites.
  rewrite (transform_reduce_iff p t _ (simd_operator p) c v (Some t) V (fun n => eq_refl) (operator_lanewise p t)).
  split; [tauto|]. intros E. split; [exact E|split; [reflexivity|] ]. intros _. apply operator_elements.
Qed.

(** One element: the operators take equal types only. *)
Lemma operator_one : forall p v w x, simd_operator p (Simd v 1) (Simd w 1) = Some x -> v = w /\ x = Simd v 1.
Proof.
  intros p v w x H. unfold simd_operator in H.
  destruct (converts p (Simd w 1) (Simd v 1)) eqn:A, (converts p (Simd v 1) (Simd w 1)) eqn:B.
  - apply converts_one in B. subst w. rewrite vt_eqb_refl in H. inversion H. auto.
  - apply converts_one in A. subst w. rewrite converts_refl in B. discriminate.
  - apply converts_one in B. subst w. rewrite converts_refl in A. discriminate.
  - discriminate.
Qed.

Lemma inner_product_iff : forall p v w t c, valid c ->
  (well_formed (inner_product_sites p v w t c) = true <-> v = t /\ w = t).
Proof.
  intros p v w t c V. unfold inner_product_sites. split.
  - intros H. pose proof H as H0. unfold transform_reduce_sites in H. apply wf_app in H as [H _].
    cbn [well_formed forallb snd] in H. apply andb_true_iff in H as [H _].
    destruct (simd_operator p (Simd v 1) (Simd w 1)) as [x|] eqn:E; [|discriminate].
    apply operator_one in E as [<- ->]. apply converts_one in H. auto.
  - intros [-> ->].
    apply (transform_reduce_iff p t _ (simd_operator p) c t (Some t) V); [|apply operator_lanewise|].
    + intros n. apply operator_lanewise.
    + split; [reflexivity|split; [reflexivity|] ]. intros _. apply operator_elements.
Qed.

(** ** transform *)

Lemma transform_all : forall p t op c, valid c ->
  (forall n, initialises p (op n) (Simd t n) = true) -> well_formed (transform_sites p t op c) = true.
Proof.
  intros p t op c V H. assert (B : forall n, binds p t op n = true) by exact H.
  unfold transform_sites. repeat (apply wf_app; split).
  - cbn [well_formed forallb snd]. now rewrite !B.
  - destruct (c_prologue c) as [k|]; [|reflexivity]. apply wf_in. intros l n b I.
    unfold transform_prologue in I. apply in_map_iff in I as (j & E & _). inversion E. apply B.
  - destruct (Nat.ltb _ _); cbn [well_formed forallb snd]; now rewrite ?B.
  - cbn [well_formed forallb snd]. now rewrite B.
  - destruct (_ && _); [|reflexivity]. generalize (half_log (c_size c)). intros j.
    induction j as [|j IH]; cbn [transform_epilogue well_formed forallb snd]; rewrite ?B; [reflexivity|exact IH].
Qed.

Lemma transform_one : forall p t op c, well_formed (transform_sites p t op c) = true ->
  initialises p (op 1%nat) (Simd t 1) = true.
Proof.
  intros p t op c H. unfold transform_sites in H. apply wf_app in H as [H _].
  cbn [well_formed forallb snd] in H. apply andb_true_iff in H as [_ H]. now apply andb_true_iff in H as [H _].
Qed.

Lemma transform_simd_iff : forall p t op c u, valid c -> returns_simd op u ->
  (well_formed (transform_sites p t op c) = true <-> u = t).
Proof.
  intros p t op c u V R. split.
  - intros H. apply transform_one in H. rewrite (R _) in H. now apply converts_one in H.
  - intros ->. apply transform_all; [exact V|]. intros n. rewrite (R n). apply converts_refl.
Qed.

Lemma transform_element_iff : forall p t op c u, valid c -> returns_element op u ->
  (well_formed (transform_sites p t op c) = true <-> converts p (Elem u) (Simd t 1) = true).
Proof.
  intros p t op c u V R. split.
  - intros H. apply transform_one in H. now rewrite (R _) in H.
  - intros H. apply transform_all; [exact V|]. intros n. rewrite (R n). exact H.
Qed.

(** ** Where the failures are *)

Section where_it_fails.
  Variables (p : platform) (u t : elt).
  Hypothesis up : forall n, n <> 1%nat -> converts p (Simd u n) (Simd t n) = true.
  Hypothesis down : forall n, converts p (Simd t n) (Simd u n) = false.

  Lemma acc_up : forall n, n <> 1%nat ->
    accumulate t (simd_operator p) n (Some (Simd u n)) = Some (Simd t n).
  Proof. intros n N. unfold accumulate, simd_operator. now rewrite (up n N), (down n). Qed.

  Lemma elem_up : converts p (Elem u) (Simd t 1) = true.
  Proof.
    pose proof (up 2 ltac:(discriminate)) as H. unfold converts in *. unfold value_preserving_or_int.
    destruct (elt_eqb u t) eqn:E; [reflexivity|]. cbn [Nat.eqb negb andb orb] in H.
    apply andb_true_iff in H as [H _]. rewrite H. now rewrite !orb_true_r.
  Qed.

  Let top := fun n : nat => Some (Simd u n).
  Let op := simd_operator p.

  Lemma pow_one : forall j, Nat.pow 2 (S j) <> 1%nat.
  Proof. intros j. cbn. pose proof (pow_pos j). lia. Qed.

  Lemma same_ok : forall n, initialises p (accumulate t op n (Some (Simd t n))) (Simd t n) = true.
  Proof. intros n. rewrite (accumulate_same t op (operator_lanewise p t)). apply converts_refl. Qed.

  Lemma fin_ok : forall n, (0 < n)%nat -> finish p t op n = true.
  Proof. intros n N. apply finish_same; [apply operator_lanewise|apply operator_elements|exact N]. Qed.

  Lemma sub_ok : subscriptable (accumulate t op 1 (Some (Simd t 1))) = true.
  Proof. now rewrite (accumulate_same t op (operator_lanewise p t)). Qed.

  Lemma fails_epilogue2 : forall j l n, In (l, n, false) (reduce_epilogue2 p t top op j) -> n = 1%nat.
  Proof.
    intros j. induction j as [|j IH]; intros l n I; cbn [reduce_epilogue2 app] in I.
    - destruct I as [I|[I|[] ] ]; [now inversion I|]. rewrite sub_ok in I. inversion I.
    - destruct I as [I|[I|[I|I] ] ].
      + unfold top, op in I. rewrite (acc_up _ (pow_one j)) in I. cbn [initialises] in I.
        rewrite converts_refl in I. inversion I.
      + rewrite (fin_ok _ (pow_pos (S j))) in I. inversion I.
      + rewrite same_ok in I. inversion I.
      + exact (IH l n I).
  Qed.

  Lemma fails_epilogue1 : forall j l n, In (l, n, false) (reduce_epilogue1 p t top op j) -> n = 1%nat.
  Proof.
    intros j. induction j as [|j IH]; intros l n I; cbn [reduce_epilogue1 app] in I.
    - destruct I as [I|[I|[] ] ]; [now inversion I|]. rewrite sub_ok in I. inversion I.
    - destruct I as [I|[I|[I|I] ] ].
      + unfold top in I. cbn [initialises] in I. rewrite (up _ (pow_one j)) in I. inversion I.
      + rewrite (fin_ok _ (pow_pos (S j))) in I. inversion I.
      + rewrite same_ok in I. inversion I.
      + apply in_app_iff in I as [I|I]; [exact (fails_epilogue2 j l n I)|exact (IH l n I)].
  Qed.

  Lemma fails_prologue : forall k l n, ~ In (l, n, false) (reduce_prologue p t top op k).
  Proof.
    intros k l n I. unfold reduce_prologue in I. apply in_flat_map in I as (j & _ & I).
    unfold top in I.
    rewrite (reduce_of_enough p op u _ (operator_lanewise p u) (operator_elements p u) (pow_pos j)) in I.
    rewrite same_ok in I. unfold initialises in I. rewrite elem_up in I.
    destruct I as [I|[I|[] ] ]; inversion I.
  Qed.

  Lemma fails : forall c l n, (0 < c_size c)%nat -> (c_unroll c <= 1)%nat ->
    In (l, n, false) (reduce_sites p u t op c) -> n = 1%nat.
  Proof.
    intros c l n S0 U I. unfold reduce_sites, transform_reduce_sites in I. fold top in I.
    replace (Nat.ltb 1 (c_unroll c)) with false in I by (symmetry; apply Nat.ltb_ge; exact U).
    apply in_app_iff in I as [I|I].
    { destruct I as [I|[I|[] ] ]; now inversion I. }
    apply in_app_iff in I as [I|I].
    { destruct (c_prologue c) as [k|]; [|destruct I]. exfalso. exact (fails_prologue k l n I). }
    cbn [app] in I. destruct (Nat.eqb_spec (c_size c) 1) as [E|E].
    { rewrite E in I. destruct I as [I|[I|[I|[] ] ] ]; now inversion I. }
    destruct I as [I|[I|I] ].
    - unfold top, initialises in I. rewrite (up _ E) in I. inversion I.
    - unfold top, op in I. rewrite (acc_up _ E) in I. unfold initialises in I. rewrite converts_refl in I.
      inversion I.
    - assert (N : (1 < c_size c)%nat) by lia. destruct (half_log_bounds _ N) as [B1 B2].
      destruct I as [I|I].
      { rewrite (fin_ok _ S0) in I. inversion I. }
      apply in_app_iff in I as [I|I].
      { destruct (Nat.eqb _ _).
        - destruct I as [I|[] ]. rewrite same_ok in I. inversion I.
        - destruct I as [I|[I|[] ] ].
          + rewrite (reduce_of_enough p op t _ (operator_lanewise p t) (operator_elements p t)) in I by lia.
            inversion I.
          + now inversion I. }
      apply in_app_iff in I as [I|I]; [exact (fails_epilogue2 _ l n I)|exact (fails_epilogue1 _ l n I)].
  Qed.
End where_it_fails.

(** ** Single values *)

Section values.
  Variables (p : platform) (t u : elt) (top : nat -> option vt) (op : vt -> vt -> option vt).
  Hypothesis R : returns_element top u.
  Hypothesis L : lanewise op t (Some t).
  Hypothesis T : takes_elements op t.
  Hypothesis A : forall n, op (Simd t n) (Elem u) = Some (Simd t n).
  Hypothesis C : converts p (Elem u) (Simd t 1) = true.

  Lemma value_acc : forall n, accumulate t op n (top n) = Some (Simd t n).
  Proof. intros n. rewrite (R n). exact (A n). Qed.

  Lemma value_init : forall n, initialises p (top n) (Simd t n) = true.
  Proof. intros n. rewrite (R n). exact C. Qed.

  Lemma value_epilogue2 : forall j, well_formed (reduce_epilogue2 p t top op j) = true.
  Proof.
    intros j. induction j as [|j IH]; cbn [reduce_epilogue2 well_formed forallb snd app].
    - rewrite value_acc, (accumulate_same t op L 1), init_same. reflexivity.
    - rewrite value_acc, init_same, (finish_same p t op L T) by apply pow_pos.
      rewrite (accumulate_same t op L), init_same. exact IH.
  Qed.

  Lemma value_epilogue1 : forall j, well_formed (reduce_epilogue1 p t top op j) = true.
  Proof.
    intros j. induction j as [|j IH]; cbn [reduce_epilogue1 well_formed forallb snd app].
    - rewrite value_init, (accumulate_same t op L 1). reflexivity.
    - rewrite value_init, (finish_same p t op L T) by apply pow_pos.
      rewrite (accumulate_same t op L), init_same. cbn.
      apply wf_app. split; [apply value_epilogue2|exact IH].
  Qed.

  Lemma value_enough : forall c, valid c -> (c_unroll c <= 1)%nat -> c_prologue c = None ->
    well_formed (transform_reduce_sites p t top op c) = true.
  Proof.
    intros c (S0 & U0 & P0) U P. unfold transform_reduce_sites. rewrite P.
    replace (Nat.ltb 1 (c_unroll c)) with false by (symmetry; apply Nat.ltb_ge; exact U).
    apply wf_app. split.
    { cbn [well_formed forallb snd]. now rewrite value_init, (accumulate_same t op L 1), init_same. }
    cbn [app well_formed forallb snd]. rewrite value_init, value_acc, init_same. cbn [andb].
    change (forallb snd ?l) with (well_formed l).
    destruct (Nat.eqb_spec (c_size c) 1) as [E|E].
    { cbn [well_formed forallb snd]. now rewrite (accumulate_same t op L 1). }
    assert (N : (1 < c_size c)%nat) by lia. destruct (half_log_bounds _ N) as [B1 B2].
    cbn [app well_formed forallb snd]. rewrite (finish_same p t op L T) by lia. cbn [andb].
    change (forallb snd ?l) with (well_formed l). apply wf_app. split.
    - destruct (Nat.eqb _ _); cbn [well_formed forallb snd].
      + now rewrite (accumulate_same t op L), init_same.
      + rewrite (reduce_of_enough p op t _ L T) by lia. now rewrite (accumulate_same t op L), init_same.
    - apply wf_app. split; [apply value_epilogue2|apply value_epilogue1].
  Qed.
End values.

Lemma value_iff : forall p t top op c u, valid c -> returns_element top u ->
  lanewise op t (Some t) -> takes_elements op t -> (forall n, op (Simd t n) (Elem u) = Some (Simd t n)) ->
  (well_formed (transform_reduce_sites p t top op c) = true
   <-> converts p (Elem u) (Simd t 1) = true /\ c_unroll c = 1%nat /\ c_prologue c = None).
Proof.
  intros p t top op c u V R L T A. split.
  - intros H. unfold transform_reduce_sites in H. apply wf_app in H as [H1 H]. apply wf_app in H as [H2 H].
    apply wf_app in H as [H3 _]. split; [|split].
    + cbn [well_formed forallb snd] in H1. rewrite (R _) in H1. now apply andb_true_iff in H1 as [H1 _].
    + destruct (Nat.ltb 1 (c_unroll c)) eqn:E; [|apply Nat.ltb_ge in E; destruct V as (_ & V & _); lia].
      cbn [well_formed forallb snd] in H3. rewrite (R _) in H3. cbn [vt_eqb] in H3.
      rewrite !andb_false_r in H3. discriminate.
    + destruct (c_prologue c) as [k|]; [|reflexivity]. unfold reduce_prologue in H2. cbn [seq flat_map] in H2.
      cbn [well_formed forallb snd app] in H2. rewrite (R _) in H2. discriminate.
  - intros (C & U & P). apply (value_enough p t u top op R L T A C c V); [lia|exact P].
Qed.

(** A reduce_op that returns a single value has no element 0. *)
Lemma epilogue2_subscripts : forall p t top op j, well_formed (reduce_epilogue2 p t top op j) = true ->
  subscriptable (accumulate t op 1 (Some (Simd t 1))) = true.
Proof.
  intros p t top op j. induction j as [|j IH]; intros H; cbn [reduce_epilogue2] in H;
    apply andb_true_iff in H as [_ H].
  - cbn [forallb snd] in H. now apply andb_true_iff in H as [H _].
  - apply wf_app in H as [_ H]. exact (IH H).
Qed.

Lemma reduce_value : forall p t top op c e,
  op (Simd t 1) (Simd t 1) = Some (Elem e) -> well_formed (transform_reduce_sites p t top op c) = false.
Proof.
  intros p t top op c e E. destruct (well_formed _) eqn:H; [|reflexivity]. exfalso.
  unfold transform_reduce_sites in H. apply wf_app in H as [_ H]. apply wf_app in H as [_ H].
  apply wf_app in H as [_ H]. apply wf_app in H as [_ H].
  assert (B : subscriptable (accumulate t op 1 (Some (Simd t 1))) = true).
  { destruct (Nat.eqb _ 1).
    - cbn [well_formed forallb snd] in H. now apply andb_true_iff in H as [H _].
    - apply wf_app in H as [_ H]. apply wf_app in H as [_ H]. apply wf_app in H as [H _].
      exact (epilogue2_subscripts _ _ _ _ _ H). }
  unfold accumulate in B. rewrite E in B. discriminate.
Qed.
