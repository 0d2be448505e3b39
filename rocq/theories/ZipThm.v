(** Proofs about vir::transform of a zip_view. *)
From Verif Require Import Base BaseFacts ExecModel ExecSpec TransformModel TransformSpec TransformThm
  ZipModel ZipSpec ExactSpec.

Lemma zip_size_shortest rs' : forall r, shortest (r :: rs') (zip_size r rs').
Proof.
  induction rs' as [|r' rs' IH]; intros r; cbn [zip_size].
  - split; [exists r; split; [now left|reflexivity]|]. intros x [<-|[] ]. lia.
  - destruct (IH r') as [ (y & Hy & Ey) Hle].
    split.
    + destruct (Z.min_spec (z_size r) (zip_size r' rs')) as [ [_ E]|[_ E] ]; rewrite E.
      * exists r. split; [now left|reflexivity].
      * exists y. split; [now right|exact Ey].
    + intros x [<-|Hx]; [lia|]. specialize (Hle x Hx). lia.
Qed.

Lemma shortest_unique rs n1 n2 : shortest rs n1 -> shortest rs n2 -> n1 = n2.
Proof.
  intros [ (r1 & H1 & E1) L1] [ (r2 & H2 & E2) L2].
  pose proof (L1 r2 H2). pose proof (L2 r1 H1). lia.
Qed.

Lemma pack_components {X} (l : list X) : components (pack l) = l.
Proof. destruct l as [|x [|y [|z l] ] ]; reflexivity. Qed.

Lemma pack_well {X} (l : list X) : well_packed (pack l).
Proof. destruct l as [|x [|y [|z l] ] ]; cbn; try discriminate; exact I. Qed.

Lemma pack_of {X} (b : zarg X) : well_packed b -> pack (components b) = b.
Proof.
  destruct b as [x y|l]; cbn; [reflexivity|].
  destruct l as [|x [|y [|z l] ] ]; cbn; intros H; try reflexivity. now exfalso.
Qed.

Lemma pack_lanewise {T} (op : zarg T -> T) (opv : zarg (list T) -> list T) :
  lanewise_zip op opv -> lanewise_op (fun l => op (pack l)) (fun vs => opv (pack vs)).
Proof.
  intros H k chunks Hne HF.
  destruct (H k (pack chunks)) as [Hl Hv].
  - now rewrite pack_components.
  - apply pack_well.
  - now rewrite pack_components.
  - split; [exact Hl|]. intros i args Ha. apply Hv; [apply pack_well|].
    now rewrite !pack_components.
Qed.

Lemma transformed_zip {T} (op : zarg T -> T) rs dst n (m m' : mem T) :
  transformed (fun l => op (pack l)) (map z_begin rs) dst n m m' -> zip_transformed op rs dst n m m'.
Proof.
  intros [H1 H2]. split; [|exact H2].
  intros i b Hi Hb HF. rewrite <- (pack_of b Hb) at 1. apply H1; [exact Hi|].
  clear -HF. revert HF. generalize (components b) as l. induction rs as [|r rs IH]; intros l HF; inversion HF; subst; cbn; constructor; auto.
Qed.

Lemma deref_begin_ok {T} (m : mem T) rs :
  Forall (fun r => m (z_begin r) <> None) rs -> deref_begin m rs = Ok tt.
Proof.
  induction 1 as [|r rs Hr _ IH]; [reflexivity|]. cbn.
  destruct (m (z_begin r)); [exact IH|contradiction].
Qed.

Lemma deref_begin_ub {T} (m : mem T) rs :
  ~ Forall (fun r => m (z_begin r) <> None) rs -> deref_begin m rs = Stop SUB.
Proof.
  induction rs as [|r rs IH]; intros H; [now exfalso; apply H|]. cbn.
  destruct (m (z_begin r)) eqn:E; [|reflexivity]. apply IH. intros HF. apply H.
  constructor; [congruence|exact HF].
Qed.

(** The mapped prefix of every range: as many elements as the view has. *)
Lemma mapped_prefix {T} (m : mem T) rs n : 
  (forall r, In r rs -> n <= z_size r) ->
  Forall (fun r => mapped m (z_begin r) (z_begin r + z_size r)) rs ->
  Forall (fun p => mapped m p (p + n)) (map z_begin rs).
Proof.
  intros Hle HF. rewrite Forall_forall in *. intros p Hp. apply in_map_iff in Hp.
  destruct Hp as (r & <- & Hr). specialize (HF r Hr). specialize (Hle r Hr).
  intros a Ha. apply HF. lia.
Qed.

Section Thm.
  Context {T : Type}.
  Variables (op : zarg T -> T) (opv : zarg (list T) -> list T).
  Hypothesis Hop : lanewise_zip op opv.

  Lemma zip_nonempty c pol w rs dst (m : mem T) n :
    width_ok w -> policy_ok pol -> shortest rs n -> 0 < n < 2 ^ 64 -> size_matches pol w 0 n ->
    (c_ce c = true \/ (c_ce c = false /\ target_ok c /\ reaches_alignment c pol w dst (dst + n))) ->
    Forall (fun r => mapped m (z_begin r) (z_begin r + z_size r)) rs ->
    mapped m dst (dst + n) -> no_clobber dst n (map z_begin rs) ->
    exists m', zip_transform opv c pol w rs dst m = Ok (m', dst + n)
               /\ zip_transformed op rs dst n m m'.
  Proof.
    intros Hw Hp Hs Hn Hm Hc Hmap Hdst Hcl.
    destruct rs as [|r rs']; [destruct Hs as [ (r & [] & _) _]|].
    pose proof (shortest_unique _ _ _ Hs (zip_size_shortest rs' r)) as En.
    assert (Hd : deref_begin m (r :: rs') = Ok tt).
    { apply deref_begin_ok. destruct Hs as [_ Hle]. rewrite Forall_forall in *. intros x Hx.
      specialize (Hle x Hx). destruct (Hmap x Hx (z_begin x)) as [v Hv]; [lia|]. congruence. }
    unfold zip_transform. rewrite Hd. cbn [bindR]. rewrite <- En.
    pose proof (mapped_prefix m (r :: rs') n (proj2 Hs) Hmap) as HF.
    assert (Hr : range_ok (z_begin r) (z_begin r + n)) by (unfold range_ok; lia).
    assert (E : z_begin r + n - z_begin r = n) by lia.
    assert (Hm' : size_matches pol w (z_begin r) (z_begin r + n)).
    { intros H. destruct (Hm H) as [k Hk]. exists k. lia. }
    assert (HF' : Forall (fun p => mapped m p (p + (z_begin r + n - z_begin r)))
                         (dst :: z_begin r :: map z_begin rs')).
    { rewrite E. constructor; [exact Hdst|exact HF]. }
    assert (Hcl' : no_clobber dst (z_begin r + n - z_begin r) (z_begin r :: map z_begin rs'))
      by (rewrite E; exact Hcl).
    assert (G : exists m', run_transform (fun vs => opv (pack vs)) c pol w (z_begin r) (z_begin r + n) dst
                             (map z_begin rs') m = Ok (m', dst + (z_begin r + n - z_begin r))
                /\ transformed (fun l => op (pack l)) (z_begin r :: map z_begin rs') dst
                     (z_begin r + n - z_begin r) m m').
    { destruct Hc as [Hc|(Hc & Ht & Ha)].
      - now apply transform_consteval; try apply pack_lanewise.
      - apply transform_runtime; try assumption; [|now apply pack_lanewise]. now rewrite E. }
    rewrite E in G. destruct G as (m' & G1 & G2). exists m'. split; [exact G1|].
    now apply (transformed_zip op (r :: rs')).
  Qed.

  Lemma zip_empty c pol w rs dst (m : mem T) : shortest rs 0 ->
    (zip_transform opv c pol w rs dst m = Ok (m, dst) <-> Forall (fun r => m (z_begin r) <> None) rs)
    /\ (zip_transform opv c pol w rs dst m = Stop SUB <-> Exists (fun r => m (z_begin r) = None) rs).
  Proof.
    intros Hs. destruct rs as [|r rs']; [destruct Hs as [ (r & [] & _) _]|].
    pose proof (shortest_unique _ _ _ Hs (zip_size_shortest rs' r)) as En.
    unfold zip_transform. rewrite <- En.
    assert (D : {Forall (fun r => m (z_begin r) <> None) (r :: rs')}
                + {Exists (fun r => m (z_begin r) = None) (r :: rs')}).
    { generalize (r :: rs') as l. induction l as [|x l IH]; [left; constructor|].
      destruct (m (z_begin x)) eqn:E; [|right; left; exact E].
      destruct IH as [IH|IH]; [left; constructor; [congruence|exact IH]|right; right; exact IH]. }
    destruct D as [D|D].
    - rewrite (deref_begin_ok m _ D). cbn [bindR]. unfold run_transform, transform.
      rewrite Z.add_0_r, Z.eqb_refl. cbn [bindR run_steps fst snd retT].
      split; [tauto|]. split; [discriminate|]. intros H. exfalso.
      apply Exists_exists in H. destruct H as (x & Hx & E). rewrite Forall_forall in D.
      exact (D x Hx E).
    - assert (N : ~ Forall (fun r => m (z_begin r) <> None) (r :: rs')).
      { intros H. apply Exists_exists in D. destruct D as (x & Hx & E). rewrite Forall_forall in H.
        exact (H x Hx E). }
      rewrite (deref_begin_ub m _ N). cbn [bindR]. split; [split; [discriminate|tauto]|tauto].
  Qed.
End Thm.
