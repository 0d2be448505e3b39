(** fake_modify and fake_read (C83). *)
From Coq Require Import String.
From Verif Require Import Base BenchModel BenchSpec.
#[local] Open Scope string_scope.
#[local] Open Scope list_scope.
#[local] Open Scope Z_scope.

Lemma part_iff x o : part_of x o <-> In x (scalars_of o).
Proof.
  split.
  - intros []; cbn; auto. apply in_concat. exists (p_scalars p). split; [|assumption]. now apply in_map.
  - destruct o as [p|n [l|p|p]]; cbn; intros H; try (constructor; exact H).
    apply in_concat in H as (q & Hq & H). apply in_map_iff in Hq as (p & <- & Hp). econstructor; eauto.
Qed.

Definition good (out : bool) (alts : list string -> Prop) (xs : list Z) (l : list stmt) : Prop :=
  concat (map s_scalars l) = xs /\ Forall (fun s => s_out s = out /\ alts (s_alt s)) l.

Definition alternatives (t : target) (a : list string) : Prop := a = reg_or_memory t \/ a = general.

Lemma good_app out alts xs ys l r : good out alts xs l -> good out alts ys r -> good out alts (xs ++ ys) (l ++ r).
Proof.
  intros [<- H1] [<- H2]. split; [now rewrite map_app, concat_app|]. apply Forall_app. auto.
Qed.

Lemma asm_good t out alt xs l : alternatives t alt -> asm out false alt xs = Ok l -> good out (alternatives t) xs l.
Proof.
  intros Ha. unfold asm. rewrite andb_false_r. intros [= <-]. split; [cbn; apply app_nil_r|]. constructor; [split; [reflexivity|exact Ha]|constructor].
Qed.

Lemma asm_ok out const alt xs : (exists l, asm out const alt xs = Ok l) <-> out && const = false.
Proof. unfold asm. destruct (out && const); split; try discriminate; eauto. intros (l & H). discriminate. Qed.

Lemma asm_same out const alt xs l : asm out const alt xs = Ok l -> asm out false alt xs = Ok l.
Proof. unfold asm. destruct (out && const) eqn:E; [discriminate|]. now rewrite andb_false_r. Qed.

Lemma plain_good t out const p l : one_plain t out const p = Ok l -> good out (alternatives t) (p_scalars p) l.
Proof.
  unfold one_plain. intros H.
  destruct (p_float p); [|destruct (16 <=? p_size p)]; apply asm_same in H; eapply asm_good; try exact H;
    unfold alternatives; auto.
Qed.

Lemma plain_ok t out const p : (exists l, one_plain t out const p = Ok l) <-> out && const = false.
Proof. unfold one_plain. destruct (p_float p); [|destruct (16 <=? p_size p)]; apply asm_ok. Qed.

Lemma in_order_good {A} out alts (f : A -> res (list stmt)) (g : A -> list Z) l :
  (forall x s, In x l -> f x = Ok s -> good out alts (g x) s) ->
  forall r, in_order f l = Ok r -> good out alts (concat (map g l)) r.
Proof.
  induction l as [|x l IH]; intros H r; cbn [in_order map concat].
  - intros [= <-]. split; [reflexivity|constructor].
  - destruct (f x) as [s|] eqn:E; [|discriminate]. cbn [bindR]. destruct (in_order f l) as [r'|] eqn:E2; [|discriminate].
    cbn [bindR]. intros [= <-]. apply good_app; [apply H; auto using in_eq|]. apply IH; [|reflexivity].
    intros y sy Hy. apply H. now right.
Qed.

Lemma in_order_ok {A} (f : A -> res (list stmt)) l : (exists r, in_order f l = Ok r) <-> forall x, In x l -> exists s, f x = Ok s.
Proof.
  induction l as [|x l IH]; cbn [in_order].
  - split; [intros _ x []|eauto].
  - split.
    + intros (r & H). destruct (f x) as [s|] eqn:E; [|discriminate]. cbn [bindR] in H.
      destruct (in_order f l) as [r'|] eqn:E2; [|discriminate]. intros y [<-|Hy]; [eauto|].
      apply IH; [eauto|exact Hy].
    + intros H. destruct (H x (or_introl eq_refl)) as (s & ->). destruct (proj2 IH) as (r & ->).
      * intros y Hy. apply H. now right.
      * cbn. eauto.
Qed.

Lemma one_good t out a l : one t out a = Ok l -> good out (alternatives t) (scalars_of (a_obj a)) l.
Proof.
  unfold one. destruct (a_obj a) as [p|n d]; [apply plain_good|].
  assert (Es : all_scalars d = scalars_of (Simd n d)) by now destruct d.
  destruct (out && a_const a); [rewrite <- Es; apply plain_good|]. destruct (t_lib t).
  - destruct d as [q|p|p]; cbn [scalars_of]; try apply plain_good.
    apply in_order_good. intros p s _. apply plain_good.
  - rewrite <- Es. destruct (n <? 16); intros H; apply asm_same in H; eapply asm_good; try exact H; unfold alternatives; auto.
Qed.

(** What a list of statements does. *)
Lemma run_cons s x l : run s (x :: l) = run (step s x) l.
Proof. reflexivity. Qed.
Lemma run_values l : forall s, values (run s l) = values s.
Proof. induction l as [|x l IH]; intros s; [reflexivity|]. rewrite run_cons, IH. reflexivity. Qed.
Lemma run_needed l : forall s, needed (run s l) = needed s ++ concat (map s_scalars l).
Proof.
  induction l as [|x l IH]; intros s; cbn [map concat]; [now rewrite app_nil_r|]. rewrite run_cons, IH. cbn [step needed].
  now rewrite app_assoc.
Qed.
Lemma existsb_In x l : existsb (Z.eqb x) l = true <-> In x l.
Proof.
  rewrite existsb_exists. split; [intros (y & H & E); apply Z.eqb_eq in E; now subst|].
  intros H. exists x. split; [exact H|apply Z.eqb_refl].
Qed.
Lemma run_known_in l : Forall (fun s => s_out s = true) l -> forall s x, known s x = None \/ In x (concat (map s_scalars l)) ->
  known (run s l) x = None.
Proof.
  induction 1 as [|st l H _ IH]; intros s x; [intros [E|[]]; exact E|].
  intros Hx. rewrite run_cons. apply IH. cbn [step known]. cbn [map concat] in Hx. rewrite H. destruct (existsb (Z.eqb x) (s_scalars st)) eqn:E; cbn; [now left|].
  destruct Hx as [Hx|Hx]; [now left|]. apply in_app_iff in Hx as [Hx|Hx]; [|now right].
  apply existsb_In in Hx. congruence.
Qed.
Lemma run_known_out l : forall s x, (forall st, In st l -> s_out st = true -> ~ In x (s_scalars st)) ->
  known (run s l) x = known s x.
Proof.
  induction l as [|st l IH]; intros s x H; [reflexivity|]. rewrite run_cons, IH by (intros; apply H; auto using in_cons).
  cbn [step known]. destruct (s_out st) eqn:E; [|reflexivity]. cbn. destruct (existsb _ _) eqn:Ex; [|reflexivity].
  apply existsb_In in Ex. now destruct (H st (in_eq _ _) E).
Qed.

Definition args_scalars (l : list argument) : list Z := concat (map (fun a => scalars_of (a_obj a)) l).

Lemma some_part x l : part_of_some x l <-> In x (args_scalars l).
Proof.
  unfold part_of_some, args_scalars. rewrite in_concat. split.
  - intros (a & Ha & H). exists (scalars_of (a_obj a)). split; [now apply (in_map (fun a => scalars_of (a_obj a)))|].
    now apply part_iff.
  - intros (q & Hq & H). apply in_map_iff in Hq as (a & <- & Ha). exists a. split; [exact Ha|]. now apply part_iff.
Qed.

Lemma both_good t out l r : in_order (one t out) l = Ok r -> good out (alternatives t) (args_scalars l) r.
Proof. apply in_order_good. intros a s _. apply one_good. Qed.

Theorem modify_hides t l r s : fake_modify t l = Ok r ->
  values (run s r) = values s
  /\ (forall x, part_of_some x l -> known (run s r) x = None)
  /\ (forall x, ~ part_of_some x l -> known (run s r) x = known s x)
  /\ (forall x, In x (needed (run s r)) <-> In x (needed s) \/ part_of_some x l).
Proof.
  intros H. destruct (both_good _ _ _ _ H) as [E F]. split; [apply run_values|]. repeat split.
  - intros x Hx. apply run_known_in; [|right; rewrite E; now apply some_part].
    eapply Forall_impl; [|exact F]. intros st [G _]. exact G.
  - intros x Hx. apply run_known_out. intros st Hst _ Hin. apply Hx, some_part. rewrite <- E.
    apply in_concat. exists (s_scalars st). split; [now apply in_map|exact Hin].
  - rewrite run_needed, in_app_iff, E, some_part. auto.
  - rewrite run_needed, in_app_iff, E, some_part. auto.
Qed.

Theorem read_needs t l r s : fake_read t l = Ok r ->
  values (run s r) = values s /\ (forall x, known (run s r) x = known s x)
  /\ (forall x, In x (needed (run s r)) <-> In x (needed s) \/ part_of_some x l).
Proof.
  intros H. destruct (both_good _ _ _ _ H) as [E F]. split; [apply run_values|]. split.
  - intros x. apply run_known_out. intros st Hst Ho. rewrite Forall_forall in F. destruct (F st Hst). congruence.
  - intros x. rewrite run_needed, in_app_iff, E, some_part. tauto.
Qed.

Theorem modify_sound t l r s : fake_modify t l = Ok r \/ fake_read t l = Ok r -> sound s -> sound (run s r).
Proof.
  intros H S x v. rewrite run_values. intros K. apply S. revert K.
  assert (G : forall l0 s0, known (run s0 l0) x = Some v -> known s0 x = Some v).
  { clear. induction l0 as [|st l0 IH]; intros s0; [auto|]. rewrite run_cons. intros K. apply IH in K. cbn [step known] in K.
    destruct (s_out st && _); [discriminate|exact K]. }
  apply G.
Qed.

(** Every scalar is an operand once, in the order of the arguments. *)
Theorem operands_in_order t out l r : in_order (one t out) l = Ok r ->
  concat (map s_scalars r) = concat (map (fun a => scalars_of (a_obj a)) l)
  /\ Forall (fun s => s_out s = out) r.
Proof.
  intros H. destruct (both_good _ _ _ _ H) as [E F]. split; [exact E|]. eapply Forall_impl; [|exact F]. now intros st [G _].
Qed.

Theorem in_argument_order t l r : fake_modify t l = Ok r \/ fake_read t l = Ok r ->
  concat (map s_scalars r) = concat (map (fun a => scalars_of (a_obj a)) l).
Proof. intros [H|H]; apply (operands_in_order _ _ _ _ H). Qed.

Lemma once l : NoDup l -> forall x, In x l -> count_occ Z.eq_dec l x = 1%nat.
Proof. intros H x. now apply NoDup_count_occ'. Qed.

Theorem each_once t l r x : fake_modify t l = Ok r \/ fake_read t l = Ok r ->
  NoDup (concat (map (fun a => scalars_of (a_obj a)) l)) -> part_of_some x l ->
  count_occ Z.eq_dec (concat (map s_scalars r)) x = 1%nat.
Proof.
  intros H N Hx. apply some_part in Hx.
  assert (E : concat (map s_scalars r) = args_scalars l) by (destruct H as [H|H]; apply (operands_in_order _ _ _ _ H)).
  rewrite E. now apply once.
Qed.

(** When they compile. *)
Lemma one_ok t out a : (exists l, one t out a = Ok l) <-> out && a_const a = false.
Proof.
  unfold one. destruct (a_obj a) as [p|n d]; [apply plain_ok|].
  destruct (out && a_const a) eqn:E; [rewrite plain_ok, E; reflexivity|].
  split; [reflexivity|]. intros _. destruct (t_lib t).
  - destruct d as [q|p|p]; [|now apply plain_ok..]. apply in_order_ok. intros p _. now apply plain_ok.
  - destruct (n <? 16); now apply asm_ok.
Qed.

Theorem modify_compiles t l : (exists r, fake_modify t l = Ok r) <-> forall a, In a l -> a_const a = false.
Proof.
  unfold fake_modify. rewrite in_order_ok. split; intros H a Ha; specialize (H a Ha); now apply one_ok in H || apply one_ok.
Qed.
Theorem read_compiles t l : exists r, fake_read t l = Ok r.
Proof. unfold fake_read. apply in_order_ok. intros a _. apply one_ok. reflexivity. Qed.

(** The constraints: an operand may always stay in memory. *)
Theorem always_satisfiable t l r st : fake_modify t l = Ok r \/ fake_read t l = Ok r -> In st r ->
  In "g" (s_alt st) /\ (In "v" (s_alt st) -> t_x86 t = true) /\ (In "v" (s_alt st) <-> In "x" (s_alt st)).
Proof.
  intros H Hst. assert (G : alternatives t (s_alt st)).
  { destruct H as [H|H]; apply both_good in H as [_ F]; rewrite Forall_forall in F; now destruct (F st Hst). }
  destruct G as [-> | ->]; unfold reg_or_memory, general; destruct (t_x86 t); cbn; repeat split; auto; intuition discriminate.
Qed.

(** A vector register is offered for a floating-point object and for an object of 16 bytes or more. *)
Lemma asm_vector out alt xs r : asm out false alt xs = Ok r -> forall st, In st r -> s_alt st = alt.
Proof. unfold asm. rewrite andb_false_r. intros [= <-] st [<-|[]]. reflexivity. Qed.
Lemma v_iff t : In "v" (reg_or_memory t) <-> t_x86 t = true.
Proof. unfold reg_or_memory. destruct (t_x86 t); cbn; intuition discriminate. Qed.
Lemma v_general : ~ In "v" general.
Proof. unfold general. cbn. intuition discriminate. Qed.

Theorem vector_register t out const p r st : one t out (mkarg const (Plain p)) = Ok r -> In st r ->
  (In "v" (s_alt st) <-> t_x86 t = true /\ (p_float p = true \/ 16 <= p_size p)).
Proof.
  cbn. unfold one_plain. intros H Hst.
  destruct (p_float p) eqn:Ef; [|destruct (Z.leb_spec 16 (p_size p))]; apply asm_same in H;
    rewrite (asm_vector _ _ _ _ H st Hst).
  - rewrite v_iff. tauto.
  - rewrite v_iff. intuition.
  - split; [intros G; now apply v_general in G|]. intros [_ [G|G]]; [discriminate|lia].
Qed.

(** With libstdc++ that holds for every part of a simd. *)

Lemma in_order_from {A} (f : A -> res (list stmt)) l : forall r st, in_order f l = Ok r -> In st r ->
  exists x s, In x l /\ f x = Ok s /\ In st s.
Proof.
  induction l as [|x l IH]; intros r st; cbn [in_order]; [intros [= <-] []|].
  destruct (f x) as [s|] eqn:E; [|discriminate]. cbn [bindR]. destruct (in_order f l) as [r'|] eqn:E2; [|discriminate].
  cbn [bindR]. intros [= <-] H. apply in_app_iff in H as [H|H]; [exists x, s; auto using in_eq|].
  destruct (IH r' st eq_refl H) as (y & s' & Hy & Hs). exists y, s'. split; [now right|exact Hs].
Qed.

Theorem vector_register_lib t out const n d r st : t_lib t = true ->
  one t out (mkarg const (Simd n d)) = Ok r -> In st r ->
  exists p, In p (parts d) /\ s_scalars st = p_scalars p
    /\ (In "v" (s_alt st) <-> t_x86 t = true /\ (p_float p = true \/ 16 <= p_size p)).
Proof.
  intros El H Hst.
  assert (G : exists p s, In p (parts d) /\ one_plain t out const p = Ok s /\ In st s).
  { cbn in H. rewrite El in H. destruct (out && const) eqn:Ec.
    { assert (N : exists l, one_plain t out const (mkplain false n (all_scalars d)) = Ok l) by eauto.
      apply plain_ok in N. congruence. }
    destruct d as [l|p|p]; [now apply (in_order_from _ _ _ _ H)| |];
      exists p, r; repeat split; cbn; auto. }
  destruct G as (p & s & Hp & Es & Hs). exists p. split; [exact Hp|]. split.
  - unfold one_plain in Es. destruct (p_float p); [|destruct (16 <=? p_size p)]; unfold asm in Es;
      (destruct (out && const); [discriminate|]); injection Es as <-; destruct Hs as [<-|[]]; reflexivity.
  - apply (vector_register t out const p s st Es Hs).
Qed.

Theorem vector_register_simd t out const n d r st : t_lib t = false ->
  one t out (mkarg const (Simd n d)) = Ok r -> In st r ->
  (In "v" (s_alt st) <-> t_x86 t = true /\ 16 <= n).
Proof.
  intros El. cbn. rewrite El. destruct (out && const) eqn:Ec.
  { intros H. assert (N : exists l, one_plain t out const (mkplain false n (all_scalars d)) = Ok l) by eauto.
    apply plain_ok in N. congruence. }
  intros H Hst.
  destruct (Z.ltb_spec n 16); apply asm_same in H; rewrite (asm_vector _ _ _ _ H st Hst).
  - split; [intros G; now apply v_general in G|lia].
  - rewrite v_iff. intuition.
Qed.

(** Finding: one float may be in a vector register, a simd of one float may not (with vir/simd.h). *)
Theorem one_lane_refuted : exists t p r r', t_x86 t = true /\ p_float p = true
  /\ one t true (mkarg false (Plain p)) = Ok r /\ one t true (mkarg false (Simd (p_size p) (DOther p))) = Ok r'
  /\ (exists st, In st r /\ In "v" (s_alt st)) /\ (forall st, In st r' -> ~ In "v" (s_alt st)).
Proof.
  exists (mktarget false true), (mkplain true 4 [0]). do 2 eexists. repeat split; try reflexivity.
  - eexists. split; [now left|]. now left.
  - intros st [<-|[]]. exact v_general.
Qed.
