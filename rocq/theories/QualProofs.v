(** Proofs about the types of the reflection functions (C57). *)
From Verif Require Import Base QualModel QualSpec.

Lemma bound_denotes : forall B c v (m : member B), denotes c v m (bound c v m).
Proof.
  intros B c v [[r [dc dv b]] mu]. unfold denotes, bound; cbn.
  destruct r; cbn; (split; [intros H; try reflexivity; now destruct H | intros H; try discriminate]).
  destruct dc, dv, c, v, mu; cbn; intuition congruence.
Qed.

Lemma denotes_bound : forall B c v (m : member B) q, denotes c v m q -> q = bound c v m.
Proof.
  intros B c v [[r [dc dv b]] mu] [qc qv qb]. unfold denotes, bound; cbn.
  destruct r; cbn; intros [H1 H2]; try (apply H1; discriminate).
  destruct (H2 eq_refl) as (-> & Hc & Hv).
  f_equal; [destruct qc, dc, c, mu | destruct qv, dv, v]; cbn; intuition congruence.
Qed.

Lemma get_many_length : forall B N a (ms : list (member B)) m, (length ms <= 50)%nat -> length ms <> 1%nat ->
  nth_error ms N = Some m -> struct_get_type N a ms = Some (bound (a_const a) (a_volatile a) m).
Proof.
  intros B N a ms m Hl H1 Hm. unfold struct_get_type. rewrite Hm.
  apply Nat.eqb_neq in H1. rewrite H1. apply Nat.leb_le in Hl. now rewrite Hl.
Qed.

Lemma get_one_length : forall B N a (ms : list (member B)) m, length ms = 1%nat ->
  nth_error ms N = Some m -> struct_get_type N a ms = get_one a m.
Proof.
  intros B N a ms m H1 Hm. unfold struct_get_type. rewrite Hm.
  apply Nat.eqb_eq in H1. now rewrite H1.
Qed.

Lemma struct_get_iff : forall B N a (ms : list (member B)) m, (length ms <= 50)%nat -> nth_error ms N = Some m ->
  ((exists q, struct_get_type N a ms = Some q /\ denotes (a_const a) (a_volatile a) m q) <->
   length ms <> 1%nat \/ (a_lvalue a = true /\ a_const a = false)
   \/ ((a_lvalue a = true \/ a_volatile a = false)
       /\ exists q, denotes (a_const a) (a_volatile a) m q /\ q_const q = true)).
Proof.
  intros B N a ms m Hl Hm. split.
  - intros (q & Hq & Hd). destruct (Nat.eq_dec (length ms) 1) as [H1|H1]; [right|now left].
    rewrite (get_one_length B N a ms m H1 Hm) in Hq. apply denotes_bound in Hd as ->.
    destruct a as [lv c v]. unfold get_one, const_ref_binds, ref_binds in Hq. cbn in *.
    destruct lv, c, v; cbn in *; try discriminate; try (left; split; reflexivity); right;
      (split; [tauto|]); eexists; (split; [apply bound_denotes|]); injection Hq as Hq; rewrite <- Hq; reflexivity.
  - intros H. destruct (Nat.eq_dec (length ms) 1) as [H1|H1].
    + rewrite (get_one_length B N a ms m H1 Hm).
      exists (bound (a_const a) (a_volatile a) m). split; [|apply bound_denotes].
      destruct H as [H|[[Hlv Hc]|[Hr (q & Hd & Hq)]]]; [contradiction| |].
      * destruct a as [lv c v]. cbn in *. subst. unfold get_one, const_ref_binds, ref_binds. reflexivity.
      * apply denotes_bound in Hd as ->.
        destruct a as [lv c v]. unfold get_one, const_ref_binds, ref_binds. cbn in *.
        assert (HH : mkq true (q_volatile (bound true v m)) (q_base (bound true v m)) = bound c v m).
        { destruct m as [[r [dc dv b]] mu]. unfold bound in *. cbn in *. destruct r; cbn in *; rewrite Hq; reflexivity. }
        destruct lv, c, v; cbn in *; try (rewrite HH; reflexivity); try reflexivity.
        all: destruct Hr; discriminate.
    + exists (bound (a_const a) (a_volatile a) m). split; [now apply get_many_length | apply bound_denotes].
Qed.

Lemma struct_get_ok : forall B N a (ms : list (member B)) m, (length ms <= 50)%nat -> nth_error ms N = Some m ->
  length ms <> 1%nat \/ (a_lvalue a = true /\ (a_const a = false \/ plain m)) ->
  exists q, struct_get_type N a ms = Some q /\ denotes (a_const a) (a_volatile a) m q.
Proof.
  intros B N a ms m Hl Hm H. apply struct_get_iff; [assumption..|].
  destruct H as [H|[Hlv H]]; [now left|right].
  destruct (a_const a) eqn:Hc; [right|left; now split].
  destruct H as [H|[Hr Hmu]]; [discriminate|]. split; [now left|].
  exists (bound true (a_volatile a) m). split; [apply bound_denotes|].
  unfold bound. rewrite Hr, Hmu. cbn. apply orb_true_r.
Qed.

Lemma struct_get_safe : forall B N a (ms : list (member B)) q, struct_get_type N a ms = Some q ->
  exists m expected, nth_error ms N = Some m /\ denotes (a_const a) (a_volatile a) m expected /\ same_but_const q expected.
Proof.
  intros B N a ms q Hq. destruct (nth_error ms N) as [m|] eqn:Hm.
  - exists m, (bound (a_const a) (a_volatile a) m). split; [reflexivity|]. split; [apply bound_denotes|].
    unfold struct_get_type in Hq. rewrite Hm in Hq.
    destruct (length ms =? 1)%nat.
    + destruct a as [lv c v]. unfold get_one, const_ref_binds, ref_binds in Hq. unfold same_but_const.
      destruct m as [[r [dc dv b]] mu]. unfold bound in *. cbn in *.
      destruct lv, c, v, r; cbn in *; try discriminate; injection Hq as <-; cbn; intuition.
    + destruct (length ms <=? 50)%nat; [|discriminate]. injection Hq as <-. unfold same_but_const; tauto.
  - unfold struct_get_type in Hq. rewrite Hm in Hq. discriminate.
Qed.

Lemma struct_get_exists : forall B N a (ms : list (member B)) m, (length ms <= 50)%nat -> nth_error ms N = Some m ->
  (struct_get_type N a ms = None <-> length ms = 1%nat /\ a_lvalue a = false /\ a_volatile a = true).
Proof.
  intros B N a ms m Hl Hm. destruct (Nat.eq_dec (length ms) 1) as [H1|H1].
  - rewrite (get_one_length B N a ms m H1 Hm). unfold get_one, const_ref_binds, ref_binds.
    destruct a as [lv c v]. cbn. destruct lv, c, v; cbn; intuition congruence.
  - rewrite (get_many_length B N a ms m Hl H1 Hm). intuition congruence.
Qed.

Lemma to_tuple_ref_denotes : forall B a (ms : list (member B)), (length ms <= 50)%nat ->
  exists qs, to_tuple_ref_type a ms = Some qs /\ Forall2 (denotes (a_const a) (a_volatile a)) ms qs.
Proof.
  intros B a ms Hl. unfold to_tuple_ref_type. apply Nat.leb_le in Hl. rewrite Hl.
  eexists; split; [reflexivity|]. clear Hl. induction ms; cbn; constructor; auto using bound_denotes.
Qed.

Lemma bound_plain : forall B (m : member B), bound false false m = t_obj (m_type m).
Proof. intros B [[r [dc dv b]] mu]. unfold bound. cbn. destruct r; cbn; rewrite ?orb_false_r; reflexivity. Qed.

Lemma to_tuple_copies : forall B a (ms : list (member B)), (length ms <= 50)%nat -> a_volatile a = false ->
  to_tuple_type a ms = Some (map (fun m => t_obj (m_type m)) ms).
Proof.
  intros B a ms Hl Hv. unfold to_tuple_type, const_ref_binds, to_tuple_ref_type. rewrite Hv, orb_true_r.
  apply Nat.leb_le in Hl. rewrite Hl. f_equal. cbn. apply map_ext. intros m. apply bound_plain.
Qed.

Lemma to_tuple_volatile : forall B a (ms : list (member B)), (length ms <= 50)%nat -> a_volatile a = true ->
  (a_lvalue a = false -> to_tuple_type a ms = None)
  /\ (a_lvalue a = true -> exists qs, to_tuple_type a ms = Some qs /\ Forall2 (denotes false true) ms qs).
Proof.
  intros B a ms Hl Hv. unfold to_tuple_type, const_ref_binds. rewrite Hv. split; intros ->; [reflexivity|].
  cbn. exact (to_tuple_ref_denotes B (mkarg false false true) ms Hl).
Qed.

Lemma element_unqualified : forall B C N (T : type C) (ms : list (member B)) m, (length ms <= 50)%nat ->
  q_const (t_obj T) = false -> q_volatile (t_obj T) = false -> nth_error ms N = Some m ->
  struct_element_type N T ms = Some (t_obj (m_type m)).
Proof.
  intros B C N T ms m Hl Hc Hv Hm. unfold struct_element_type, declval_ref. rewrite Hc, Hv.
  destruct (Nat.eq_dec (length ms) 1) as [H1|H1].
  - rewrite (get_one_length B N _ ms m H1 Hm). unfold get_one, const_ref_binds, ref_binds. cbn. now rewrite bound_plain.
  - rewrite (get_many_length B N _ ms m Hl H1 Hm). cbn. now rewrite bound_plain.
Qed.

Lemma element_declared : forall B C N (T : type C) (ms : list (member B)) m, (length ms <= 50)%nat ->
  q_const (t_obj T) = false -> q_volatile (t_obj T) = false -> nth_error ms N = Some m ->
  (option_map (mkt NoRef) (struct_element_type N T ms) = Some (m_type m) <-> t_ref (m_type m) = NoRef).
Proof.
  intros B C N T ms m Hl Hc Hv Hm. rewrite (element_unqualified B C N T ms m Hl Hc Hv Hm).
  destruct (m_type m) as [r q]. cbn. split; intros H; [now injection H as <- | now rewrite H].
Qed.

Lemma element_qualified : forall B C N (T : type C) (ms : list (member B)) m, (length ms <= 50)%nat ->
  nth_error ms N = Some m -> length ms <> 1%nat \/ q_const (t_obj T) = false \/ plain m ->
  exists q, struct_element_type N T ms = Some q /\ denotes (q_const (t_obj T)) (q_volatile (t_obj T)) m q.
Proof.
  intros B C N T ms m Hl Hm H. apply (struct_get_ok B N (declval_ref T) ms m Hl Hm). cbn. tauto.
Qed.

Lemma copy_cvref_ok : forall C D (From : type C) (To : qtype D),
  t_ref (copy_cvref From To) = t_ref From
  /\ q_base (t_obj (copy_cvref From To)) = q_base To
  /\ (q_const (t_obj (copy_cvref From To)) = true <-> q_const (t_obj From) = true \/ q_const To = true)
  /\ (q_volatile (t_obj (copy_cvref From To)) = true <-> q_volatile (t_obj From) = true \/ q_volatile To = true).
Proof.
  intros C D [r [fc fv fb]] [tc tv tb]. unfold copy_cvref. cbn.
  destruct r, fc, fv, tc, tv; cbn; intuition congruence.
Qed.

Lemma as_tuple_ok : forall B C (T : type C) (ms : list (member B)), (length ms <= 50)%nat ->
  q_volatile (t_obj T) = false ->
  as_tuple_type T ms = Some (mkt (t_ref T) (mkq (q_const (t_obj T)) false (map (fun m => t_obj (m_type m)) ms))).
Proof.
  intros B C T ms Hl Hv. unfold as_tuple_type. rewrite to_tuple_copies; [|assumption|exact Hv].
  cbn. unfold copy_cvref. rewrite Hv. cbn. destruct (t_ref T), (q_const (t_obj T)); reflexivity.
Qed.

Lemma as_tuple_volatile : forall B C (T : type C) (ms : list (member B)), q_volatile (t_obj T) = true ->
  t_ref T <> LRef -> as_tuple_type T ms = None.
Proof.
  intros B C [r [c v b]] ms. cbn. intros ->. unfold as_tuple_type, to_tuple_type, const_ref_binds, declval.
  cbn. destruct r; cbn; congruence.
Qed.
