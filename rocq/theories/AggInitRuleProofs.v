(** The rules decide what the model computes. *)
From Verif Require Import Base StructModel StructProofs AggInitModel AggInitSpec AggInitProofs AggInitRules.

Lemma forallb_app_in (f : ty -> bool) a b : forallb f a && forallb f b = forallb f (a ++ b).
Proof. now rewrite forallb_app. Qed.

Lemma needs_init_iff t : from_empty t = false <-> needs_init t.
Proof.
  induction t using ty_rect'; cbn [from_empty].
  - split; [discriminate|]. intros H. inversion H.
  - split; [constructor|reflexivity].
  - split; [now constructor|]. intros H. now inversion H.
  - rewrite IHt. split; [now constructor|]. intros H. now inversion H.
  - rewrite forallb_app_in. assert (F := Forall_app (fun t => from_empty t = false <-> needs_init t) bs ms).
    destruct F as [_ F]. specialize (F (conj H H0)). rewrite Forall_forall in F. split.
    + intros E. destruct (forallb from_empty (bs ++ ms)) eqn:G; [discriminate|].
      assert (X : existsb (fun t => negb (from_empty t)) (bs ++ ms) = true).
      { clear -G. induction (bs ++ ms) as [|a l IH]; [discriminate|]. cbn in *.
        destruct (from_empty a); [cbn in *; auto|reflexivity]. }
      apply existsb_exists in X. destruct X as (e & I & N). apply (needs_agg i bs ms e I). apply F; [exact I|].
      now destruct (from_empty e).
    + intros N. inversion N as [| | |? ? ? e I Ne]; subst. apply F in Ne; [|exact I].
      destruct (forallb from_empty (bs ++ ms)) eqn:G; [|reflexivity]. rewrite forallb_forall in G.
      rewrite (G e I) in Ne. discriminate.
  - split; [discriminate|]. intros N. inversion N.
Qed.

Lemma not_needs t : from_empty t = true <-> ~ needs_init t.
Proof. rewrite <- needs_init_iff. destruct (from_empty t); split; congruence. Qed.

Lemma not_needs_all l : forallb from_empty l = true <-> (forall m, In m l -> ~ needs_init m).
Proof.
  rewrite forallb_forall. split; intros H m I; apply not_needs, (H m I).
Qed.

Lemma no_copy_iff t : copyable t = false <-> no_copy t.
Proof.
  induction t using ty_rect'; cbn [copyable].
  - split; [discriminate|]. intros H. inversion H.
  - destruct k; split; try discriminate; try (intros H; now inversion H). constructor.
  - split; [now constructor|]. intros H. now inversion H.
  - rewrite IHt. split; [now constructor|]. intros H. now inversion H.
  - rewrite forallb_app_in. assert (F := Forall_app (fun t => copyable t = false <-> no_copy t) bs ms).
    destruct F as [_ F]. specialize (F (conj H H0)). rewrite Forall_forall in F. split.
    + intros E. destruct (forallb copyable (bs ++ ms)) eqn:G; [discriminate|].
      assert (X : existsb (fun t => negb (copyable t)) (bs ++ ms) = true).
      { clear -G. induction (bs ++ ms) as [|a l IH]; [discriminate|]. cbn in *.
        destruct (copyable a); [cbn in *; auto|reflexivity]. }
      apply existsb_exists in X. destruct X as (e & I & N). apply (no_copy_agg i bs ms e I). apply F; [exact I|].
      now destruct (copyable e).
    + intros N. inversion N as [| | |? ? ? e I Ne|]; subst. apply F in Ne; [|exact I].
      destruct (forallb copyable (bs ++ ms)) eqn:G; [|reflexivity]. rewrite forallb_forall in G.
      rewrite (G e I) in Ne. discriminate.
  - rewrite IHt. split; [now constructor|]. intros H. now inversion H.
Qed.

Lemma foreign_in T i bs ms x : foreign T (Agg i bs ms) -> In x (bs ++ ms) -> foreign T x.
Proof.
  intros Hf I j Hj. apply Hf. cbn. right. apply in_app_or in I. apply in_or_app.
  destruct I; [left|right]; apply in_flat_map; eauto.
Qed.

(** What a member does with a bare x: take it, or fail. *)
Definition takes_x (T t : ty) : bool := match consume T t [Bare] with Some [] => true | _ => false end.

Lemma agg_elements T (bs ms : list ty) cs :
  match in_order (consume T) bs cs with Some rest => in_order (consume T) ms rest | None => None end
  = in_order (consume T) (bs ++ ms) cs.
Proof. symmetry. apply in_order_app. Qed.

Lemma bare_next T t : consume T t [Bare] = if takes_x T t then Some [] else None.
Proof.
  unfold takes_x. induction t using ty_rect'; cbn [consume].
  - reflexivity.
  - destruct (anything_converts T (Ref k c)); reflexivity.
  - destruct (anything_converts T (Class c)); reflexivity.
  - cbn [anything_converts]. destruct n as [|n]; [reflexivity|]. cbn [n_times]. fold (n_times (consume T t)).
    rewrite IHt. destruct (consume T t [Bare]) as [ [|]|]; try reflexivity.
    rewrite n_times_in_order, in_order_empty. destruct (forallb _ _); reflexivity.
  - destruct (anything_converts T (Agg i bs ms)); [reflexivity|]. fold (in_order (consume T)).
    assert (F := Forall_app (fun t => consume T t [Bare]
             = (if match consume T t [Bare] with Some [] => true | _ => false end then Some [] else None)) bs ms).
    destruct F as [_ F]. specialize (F (conj H H0)).
    assert (D : match bs, ms with [], [] => @None (list clause) | _, _ => in_order (consume T) (bs ++ ms) [Bare] end
                = if match (match bs, ms with [], [] => @None (list clause) | _, _ => in_order (consume T) (bs ++ ms) [Bare] end)
                     with Some [] => true | _ => false end then Some [] else None).
    { destruct (bs ++ ms) as [|e es] eqn:E.
      - apply app_eq_nil in E. destruct E as [-> ->]. reflexivity.
      - assert (G : in_order (consume T) (e :: es) [Bare]
                    = if match in_order (consume T) (e :: es) [Bare] with Some [] => true | _ => false end
                      then Some [] else None).
        { inversion F as [|? ? Fe Fes]; subst. cbn [in_order]. fold (in_order (consume T)). rewrite Fe.
          destruct (consume T e [Bare]) as [ [|]|]; try reflexivity. rewrite in_order_empty.
          destruct (forallb _ _); reflexivity. }
        destruct bs; [destruct ms; [reflexivity|exact G]|exact G]. }
    rewrite <- agg_elements in D. destruct bs as [|b bs]; [destruct ms as [|m ms]|]; exact D.
  - destruct (anything_converts T (Dflt t)); [reflexivity|exact IHt].
Qed.

Lemma first_then_rest T e es :
  match in_order (consume T) (e :: es) [Bare] with Some [] => true | _ => false end
  = takes_x T e && forallb from_empty es.
Proof.
  cbn [in_order]. fold (in_order (consume T)). rewrite bare_next. destruct (takes_x T e); [|reflexivity].
  rewrite in_order_empty. destruct (forallb from_empty es); reflexivity.
Qed.

Lemma repeat_rest e n : forallb from_empty (repeat e n) = true <-> n = 0%nat \/ ~ needs_init e.
Proof.
  rewrite not_needs_all. split.
  - intros H. destruct n as [|n]; [now left|]. right. apply H. now left.
  - intros [->|H] m I; [destruct I|]. apply repeat_spec in I. now subst.
Qed.

Lemma array_takes T n e :
  match n_times (consume T e) (S n) [Bare] with Some [] => true | _ => false end = true
  <-> takes_x T e = true /\ (n = 0%nat \/ ~ needs_init e).
Proof.
  rewrite n_times_in_order. cbn [repeat]. rewrite first_then_rest, Bool.andb_true_iff, repeat_rest. tauto.
Qed.

Lemma takes_x_iff T t : foreign T t -> (takes_x T t = true <-> from_x t).
Proof.
  induction t using ty_rect'; intros Hf.
  - split; [constructor|reflexivity].
  - unfold takes_x. cbn [consume]. destruct k; cbn [anything_converts].
    + destruct c as [c|]; [rewrite foreign_base; [|intros I; apply (Hf (cid c)); [now left|exact I] ]|];
        (split; [constructor; discriminate|reflexivity]).
    + destruct c as [c|]; [rewrite foreign_base; [|intros I; apply (Hf (cid c)); [now left|exact I] ]|];
        (split; [constructor; discriminate|reflexivity]).
    + split; [discriminate|]. intros X. inversion X. congruence.
  - unfold takes_x. cbn [consume anything_converts]. rewrite foreign_base.
    2:{ intros I. apply (Hf (cid c)); [now left|exact I]. }
    cbn [negb andb]. destruct (ccopy c) eqn:E.
    + split; [now constructor|reflexivity].
    + split; [discriminate|]. intros X. inversion X. congruence.
  - unfold takes_x. cbn [consume anything_converts]. destruct n as [|n].
    + split; [discriminate|]. intros X. inversion X.
    + rewrite array_takes, (IHt Hf). split; [intros [X N]; now constructor|]. intros X. inversion X. tauto.
  - unfold takes_x. cbn [consume anything_converts]. rewrite foreign_base.
    2:{ intros I. apply (Hf i); [now left|exact I]. }
    cbn [negb andb]. destruct (copyable (Agg i bs ms)) eqn:E.
    + split; [|reflexivity]. intros _. apply x_copy. rewrite <- no_copy_iff. congruence.
    + assert (NC : no_copy (Agg i bs ms)) by now apply no_copy_iff. fold (in_order (consume T)).
      assert (F := Forall_app (fun t => foreign T t -> takes_x T t = true <-> from_x t) bs ms).
      destruct F as [_ F]. specialize (F (conj H H0)).
      assert (Hi := foreign_in T i bs ms). specialize (fun x => Hi x Hf).
      assert (D : match (match bs, ms with [], [] => @None (list clause) | _, _ => in_order (consume T) (bs ++ ms) [Bare] end)
                  with Some [] => true | _ => false end = true <-> from_x (Agg i bs ms)).
      { destruct (bs ++ ms) as [|e es] eqn:Eq.
        - assert (Eq' := Eq). apply app_eq_nil in Eq'. destruct Eq' as [-> ->]. split; [discriminate|].
          intros X. inversion X; subst; [contradiction|discriminate].
        - assert (G : match in_order (consume T) (e :: es) [Bare] with Some [] => true | _ => false end = true
                      <-> from_x (Agg i bs ms)).
          { rewrite first_then_rest, Bool.andb_true_iff, not_needs_all. inversion F as [|? ? Fe Fes]; subst.
            rewrite (Fe (Hi e (or_introl eq_refl))). split.
            - intros [X N]. now apply (x_elided i bs ms e es).
            - intros X. inversion X as [| | | |? ? ? N|? ? ? e' es' Q Xe Xs|]; subst; [contradiction|].
              rewrite Eq in Q. injection Q as -> ->. tauto. }
          destruct bs as [|b bs]; [destruct ms as [|m ms]; [discriminate|exact G]|exact G]. }
      rewrite <- agg_elements in D. destruct bs as [|b bs]; [destruct ms as [|m ms]|]; exact D.
  - specialize (IHt Hf). unfold takes_x in *. cbn [consume anything_converts].
    destruct (anything_converts T t) eqn:E.
    + split; [|reflexivity]. intros _. constructor. apply IHt. destruct t; cbn [consume]; rewrite E; reflexivity.
    + rewrite IHt. split; [now constructor|]. intros X. now inversion X.
Qed.

Lemma takes_agg_iff T i bs ms : (forall x, In x (bs ++ ms) -> foreign T x) ->
  (takes T (Agg i bs ms) = true <-> from_braced_x (Agg i bs ms)).
Proof.
  intros Hf. unfold takes. cbn [consume]. fold (in_order (consume T)).
  assert (D : match in_order (consume T) (bs ++ ms) [Bare] with Some [] => true | _ => false end = true
              <-> from_braced_x (Agg i bs ms)).
  { destruct (bs ++ ms) as [|e es] eqn:Eq.
    - cbn. split; [discriminate|]. intros X. inversion X as [| | | | |? ? ? e' es' Q|]; subst.
      rewrite Eq in Q. discriminate.
    - rewrite first_then_rest, Bool.andb_true_iff, not_needs_all, (takes_x_iff T e (Hf e (or_introl eq_refl))). split.
      + intros [X N]. now apply (braced_agg i bs ms e es).
      + intros X. inversion X as [| | | | |? ? ? e' es' Q Xe Xs|]; subst.
        rewrite Eq in Q. injection Q as -> ->. tauto. }
  rewrite <- agg_elements in D. rewrite <- D.
  destruct (in_order (consume T) bs [Bare]) as [r|]; [|reflexivity].
  destruct (in_order (consume T) ms r) as [ [|]|]; reflexivity.
Qed.

Lemma takes_iff T t : foreign T t -> (takes T t = true <-> from_braced_x t).
Proof.
  induction t using ty_rect'; intros Hf.
  - split; [constructor|reflexivity].
  - unfold takes. cbn [consume]. destruct k.
    + split; [discriminate|]. intros X. inversion X; congruence.
    + destruct c as [c|]; [|split; [now constructor|reflexivity] ].
      destruct (ctakes c) eqn:E; (split; [try discriminate; now constructor|]); [reflexivity|].
      intros X. inversion X. congruence.
    + destruct c as [c|]; [|split; [now constructor|reflexivity] ].
      destruct (ctakes c) eqn:E; (split; [try discriminate; now constructor|]); [reflexivity|].
      intros X. inversion X. congruence.
  - unfold takes. cbn [consume]. destruct (ctakes c) eqn:E.
    + split; [now constructor|reflexivity].
    + split; [discriminate|]. intros X. inversion X. congruence.
  - unfold takes. cbn [consume]. destruct n as [|n].
    + cbn. split; [discriminate|]. intros X. inversion X.
    + assert (A := array_takes T n t). rewrite (takes_x_iff T t Hf) in A.
      destruct (n_times (consume T t) (S n) [Bare]) as [ [|]|].
      * split; [|reflexivity]. intros _. destruct A as [A _]. destruct (A eq_refl). now constructor.
      * split; [discriminate|]. intros X. inversion X. apply A. tauto.
      * split; [discriminate|]. intros X. inversion X. apply A. tauto.
  - apply takes_agg_iff. intros x. now apply (foreign_in T i bs ms).
  - unfold takes in *. cbn [consume]. rewrite (IHt Hf). split; [now constructor|]. intros X. now inversion X.
Qed.

Lemma members_rules i bs ms sizeof fuel : (length bs <= 3)%nat -> Forall empty_base bs ->
  Forall (foreign (Agg i bs ms)) ms ->
  0 < sizeof -> sizeof * 8 < two64 - 1 -> sizeof * 8 < Z.of_nat fuel -> Z.of_nat (length ms) <= sizeof * 8 ->
  bindings (Agg i bs ms) = Some (length ms) /\
  (reflect_size None (Agg i bs ms) fuel sizeof = Ok (Z.of_nat (length ms)) <-> Forall from_braced_x ms).
Proof.
  intros H1 H2 H3 H4 H5 H6 H7. destruct (members_iff i bs ms sizeof fuel) as [B I]; try assumption.
  split; [exact B|]. rewrite I. rewrite !Forall_forall. rewrite Forall_forall in H3.
  split; intros F m Im; apply (takes_iff _ m (H3 m Im)), (F m Im).
Qed.

Lemma leading_spec T ms : (leading T ms <= length ms)%nat
  /\ Forall (fun m => takes T m = true) (firstn (leading T ms) ms)
  /\ forall m, nth_error ms (leading T ms) = Some m -> takes T m = false.
Proof.
  induction ms as [|m ms (L & F & N)]; cbn [leading].
  - split; [lia|]. split; [constructor|discriminate].
  - destruct (takes T m) eqn:E; cbn [length firstn nth_error].
    + split; [lia|]. split; [now constructor|exact N].
    + split; [lia|]. split; [constructor|]. intros m' Q. now injection Q as <-.
Qed.

Lemma found_rules i bs ms sizeof fuel : (length bs <= 3)%nat -> Forall empty_base bs ->
  Forall (foreign (Agg i bs ms)) ms ->
  0 < sizeof -> sizeof * 8 < two64 - 1 -> sizeof * 8 < Z.of_nat fuel -> Z.of_nat (length ms) <= sizeof * 8 ->
  exists k n, reflect_size None (Agg i bs ms) fuel sizeof = Ok k
    /\ (n <= length ms)%nat /\ Forall from_braced_x (firstn n ms)
    /\ (forall m, nth_error ms n = Some m -> ~ from_braced_x m)
    /\ ((forall m, In m (skipn n ms) -> ~ needs_init m) -> k = Z.of_nat n)
    /\ (Exists needs_init (skipn n ms) -> k = 0).
Proof.
  intros H1 H2 H3 H4 H5 H6 H7. eexists. exists (leading (Agg i bs ms) ms).
  split; [now apply size_bases|]. set (T := Agg i bs ms) in *. destruct (leading_spec T ms) as (L & F & N).
  rewrite Forall_forall in H3. split; [exact L|]. split.
  { rewrite Forall_forall in *. intros m Im. apply (takes_iff T m); [|now apply F]. apply H3.
    rewrite <- (firstn_skipn (leading T ms) ms). apply in_or_app. now left. }
  split.
  { intros m E X. apply (takes_iff T m) in X; [rewrite (N m E) in X; discriminate|].
    apply H3. now apply nth_error_In in E. }
  unfold found. split.
  - intros Q. apply not_needs_all in Q. now rewrite Q.
  - intros Q. apply Exists_exists in Q. destruct Q as (m & Im & Nm).
    destruct (forallb from_empty (skipn (leading T ms) ms)) eqn:G; [|reflexivity].
    destruct (proj1 (not_needs_all _) G m Im Nm).
Qed.

Lemma derived_rules i j ms sizeof fuel : let T := Agg i [Agg j [] ms] [] in
  ms <> [] -> Forall (foreign T) ms ->
  0 < sizeof -> sizeof * 8 < two64 - 1 -> sizeof * 8 < Z.of_nat fuel ->
  (from_braced_x (Agg j [] ms) -> reflect_size None T fuel sizeof = Ok 1)
  /\ (~ from_braced_x (Agg j [] ms) -> reflect_size None T fuel sizeof = Ok 0).
Proof.
  intros T H1 H2 H3 H4 H5. assert (D := derived_plain i j ms sizeof fuel H1 H2 H3 H4 H5). fold T in D.
  assert (A := takes_agg_iff T j [] ms (proj1 (Forall_forall _ _) H2)). rewrite D. split; intros X.
  - apply A in X. now rewrite X.
  - destruct (takes T (Agg j [] ms)); [destruct X; now apply A|reflexivity].
Qed.

Lemma derived_empty_rules i j es ms sizeof fuel : let T := Agg i [Agg j es ms] [] in
  ms <> [] -> (1 <= length es <= 3)%nat -> Forall empty_base es -> Forall (foreign T) ms ->
  0 < sizeof -> sizeof * 8 < two64 - 1 -> sizeof * 8 < Z.of_nat fuel -> Z.of_nat (length ms) <= sizeof * 8 ->
  bindings T = Some (length ms) /\
  (reflect_size None T fuel sizeof = Ok (Z.of_nat (length ms)) <-> Forall from_braced_x ms).
Proof.
  intros T H1 H2 H3 H4 H5 H6 H7 H8. destruct (derived_empty_bases_iff i j es ms sizeof fuel) as [B I]; try assumption.
  split; [exact B|]. fold T in I. rewrite I. rewrite !Forall_forall. rewrite Forall_forall in H4.
  split; intros F m Im; apply (takes_iff _ m (H4 m Im)), (F m Im).
Qed.

Lemma array_rules n e sizeof fuel :
  0 < sizeof -> sizeof * 8 < two64 - 1 -> sizeof * 8 < Z.of_nat fuel -> Z.of_nat n <= sizeof * 8 ->
  bindings (Array n e) = Some n /\
  (reflect_size None (Array n e) fuel sizeof = Ok (Z.of_nat n) <-> n = 0%nat \/ from_braced_x e).
Proof.
  intros H1 H2 H3 H4. destruct (array_iff n e sizeof fuel) as [B I]; try assumption. split; [exact B|].
  rewrite I, (takes_iff (Array n e) e); [reflexivity|]. intros j _ [].
Qed.

Lemma derived_iff_rules i j ms sizeof fuel : let T := Agg i [Agg j [] ms] [] in
  ms <> [] -> Forall (foreign T) ms ->
  0 < sizeof -> sizeof * 8 < two64 - 1 -> sizeof * 8 < Z.of_nat fuel ->
  bindings T = Some (length ms) /\
  (reflect_size None T fuel sizeof = Ok (Z.of_nat (length ms))
   <-> length ms = 1%nat /\ from_braced_x (Agg j [] ms)).
Proof.
  intros T H1 H2 H3 H4 H5. destruct (derived_plain_iff i j ms sizeof fuel H1 H2 H3 H4 H5) as [B I]. fold T in I.
  split; [exact B|]. rewrite I, (takes_agg_iff T j [] ms (proj1 (Forall_forall _ _) H2)). reflexivity.
Qed.

Lemma rules T t : foreign T t ->
  (consume T t [Braced] = Some [] <-> from_braced_x t)
  /\ (consume T t [Bare] = Some [] <-> from_x t)
  /\ (consume T t [] = Some [] <-> ~ needs_init t).
Proof.
  intros Hf. split; [|split].
  - rewrite <- (takes_iff T t Hf). unfold takes. destruct (consume T t [Braced]) as [ [|]|]; split; congruence.
  - rewrite <- (takes_x_iff T t Hf). unfold takes_x. destruct (consume T t [Bare]) as [ [|]|]; split; congruence.
  - rewrite <- not_needs. replace (consume T t []) with (if from_empty t then Some (@nil clause) else None)
      by (destruct t; reflexivity). destruct (from_empty t); split; congruence.
Qed.
