(** The order of evaluation in reduce(simd, op) (C82). *)
From Verif Require Import Base ExecModel TransformModel ReduceModel TReduceModel RCallsModel ROrderSpec.
From Coq Require Import Permutation.

Section Order.
  Context {T A St : Type}.
  Variables (rop : St -> list A -> list A -> St * list A) (sop : St -> A -> A -> St * A)
            (tr : St -> list (list T) -> St * list A) (c : cfg) (m : mem T).
  Hypotheses (Hr : stateless2 rop) (Hs : stateless2 sop) (Ht : stateless1 tr).
  Variables (E1 E2 : eval_order).
  Notation ld := (ld_with c tr m).

  (** The same value, after the same calls in another order. *)
  Definition ord {X} (t1 t2 : M (St := St) X) : Prop := forall s1 s2 es s1' x, t1 s1 = (es, s1', Ok x) ->
    exists es2 s2', t2 s2 = (es2, s2', Ok x) /\ Permutation es es2.

  Lemma o_ret {X} (x : X) : ord (retM x) (retM x).
  Proof. intros s1 s2 es s1' y [= <- <- <-]. do 2 eexists. split; [reflexivity|constructor]. Qed.
  Lemma o_stop {X} e (t : M X) : ord (stopM e) t.
  Proof. intros s1 s2 es s1' y [=]. Qed.

  Lemma bind_ok {X Y} (t : M (St := St) X) (f : X -> M Y) s es s' y : bindM t f s = (es, s', Ok y) ->
    exists ea sa x eb, t s = (ea, sa, Ok x) /\ f x sa = (eb, s', Ok y) /\ es = ea ++ eb.
  Proof.
    unfold bindM. destruct (t s) as [[ea sa] [x|]]; [|discriminate]. destruct (f x sa) as [[eb sb] r] eqn:E.
    intros [= <- <- ->]. exists ea, sa, x, eb. now rewrite E.
  Qed.
  Lemma bind_run {X Y} (t : M (St := St) X) (f : X -> M Y) s ea sa x eb s' y :
    t s = (ea, sa, Ok x) -> f x sa = (eb, s', Ok y) -> bindM t f s = (ea ++ eb, s', Ok y).
  Proof. intros H1 H2. unfold bindM. now rewrite H1, H2. Qed.

  Lemma o_bind {X Y} (t1 t2 : M X) (f1 f2 : X -> M Y) : ord t1 t2 -> (forall x, ord (f1 x) (f2 x)) ->
    ord (bindM t1 f1) (bindM t2 f2).
  Proof.
    intros H1 H2 s1 s2 es s1' y E. apply bind_ok in E. destruct E as (ea & sa & x & eb & Ea & Eb & ->).
    destruct (H1 s1 s2 _ _ _ Ea) as (ea2 & sa2 & Ea2 & Pa). destruct (H2 x sa sa2 _ _ _ Eb) as (eb2 & sb2 & Eb2 & Pb).
    exists (ea2 ++ eb2), sb2. split; [eapply bind_run; eassumption|now apply Permutation_app].
  Qed.

  (** The operands the other way round. *)
  Lemma o_swap {X Y Z'} (ta1 ta2 : M X) (tb1 tb2 : M Y) (f1 f2 : X -> Y -> M Z') : ord ta1 ta2 -> ord tb1 tb2 ->
    (forall x y, ord (f1 x y) (f2 x y)) ->
    ord (bindM ta1 (fun x => bindM tb1 (fun y => f1 x y))) (bindM tb2 (fun y => bindM ta2 (fun x => f2 x y))).
  Proof.
    intros Ha Hb Hf s1 s2 es s1' z E. apply bind_ok in E. destruct E as (ea & sa & x & ebf & Ea & E & ->).
    apply bind_ok in E. destruct E as (eb & sb & y & ef & Eb & Ef & ->).
    destruct (Hb sa s2 _ _ _ Eb) as (eb2 & sb2 & Eb2 & Pb). destruct (Ha s1 sb2 _ _ _ Ea) as (ea2 & sa2 & Ea2 & Pa).
    destruct (Hf x y sb sa2 _ _ _ Ef) as (ef2 & sf2 & Ef2 & Pf).
    exists (eb2 ++ (ea2 ++ ef2)), sf2. split.
    - eapply bind_run; [exact Eb2|]. eapply bind_run; [exact Ea2|exact Ef2].
    - rewrite !app_assoc. apply Permutation_app; [|exact Pf].
      etransitivity; [apply Permutation_app_comm|]. now apply Permutation_app.
  Qed.

  Lemma o_transform al ps k : ord (call_transform ld al ps k) (call_transform ld al ps k).
  Proof.
    intros s1 s2 es s1' x. unfold call_transform, ld_with. destruct ps as [|p ps]; [discriminate|].
    destruct (bindR _ _) as [v|]; [|discriminate].
    pose proof (Ht s1 s2 v) as H. destruct (tr s1 v) as [sa ra], (tr s2 v) as [sb rb]. cbn in H. subst rb.
    intros [= <- <- <-]. do 2 eexists. split; reflexivity.
  Qed.
  Lemma o_reduce a b : ord (call_reduce rop a b) (call_reduce rop a b).
  Proof.
    intros s1 s2 es s1' x. unfold call_reduce. destruct (_ =? _)%nat; [|discriminate].
    pose proof (Hr s1 s2 a b) as H. destruct (rop s1 a b) as [sa ra], (rop s2 a b) as [sb rb]. cbn in H. subst rb.
    intros [= <- <- E]. rewrite E. do 2 eexists. split; reflexivity.
  Qed.
  Lemma o_scalar x y : ord (call_scalar sop x y) (call_scalar sop x y).
  Proof.
    intros s1 s2 es s1' z. unfold call_scalar.
    pose proof (Hs s1 s2 x y) as H. destruct (sop s1 x y) as [sa ra], (sop s2 x y) as [sb rb]. cbn in H. subst rb.
    intros [= <- <- <-]. do 2 eexists. split; reflexivity.
  Qed.

  Ltac go :=
    repeat (cbv zeta; lazymatch goal with
    | |- ord (bindM _ _) _ => apply o_bind; [|intros]
    | |- ord (retM _) _ => apply o_ret
    | |- ord (stopM _) _ => apply o_stop
    | |- ord (call_transform _ _ _ _) _ => apply o_transform
    | |- ord (call_reduce _ _ _) _ => apply o_reduce
    | |- ord (call_scalar _ _ _) _ => apply o_scalar
    | |- ord (if ?b then _ else _) _ => destruct b
    | |- ord (match ?x with _ => _ end) _ => destruct x
    end; auto).

  Lemma o_fold v : forall x, ord (fold_scalar sop x v) (fold_scalar sop x v).
  Proof. induction v as [|y v IH]; intros x; cbn [fold_scalar]; go. Qed.
  Hint Resolve o_fold : core.
  Lemma o_hred_fuel fuel : forall v, ord (hred_fuel (EO := E1) rop sop fuel v) (hred_fuel (EO := E2) rop sop fuel v).
  Proof.
    induction fuel as [|fuel IH]; intros v; cbn [hred_fuel]; [go|]. cbv zeta. destruct (3 <? _); [|go].
    destruct (bit_floor _) as [n2z|]; [|go]. destruct (0 <? _); [|go].
    assert (HL : forall l r, ord (bindM (call_reduce rop l r) (fun z => hred_fuel (EO := E1) rop sop fuel z))
                                 (bindM (call_reduce rop l r) (fun z => hred_fuel (EO := E2) rop sop fuel z))).
    { intros l r. go. }
    destruct (@left_first E1 _), (@left_first E2 _).
    - apply o_bind; [apply HL|]. intros x. go.
    - apply (o_swap _ _ _ _ (fun x y => call_scalar sop x y) (fun x y => call_scalar sop x y)); [apply HL|apply IH|].
      intros. apply o_scalar.
    - apply (o_swap _ _ _ _ (fun y x => call_scalar sop x y) (fun y x => call_scalar sop x y)); [apply IH|apply HL|].
      intros. apply o_scalar.
    - apply o_bind; [apply IH|]. intros y. apply o_bind; [apply HL|]. intros x. apply o_scalar.
  Qed.
  Lemma o_hred v : ord (hred (EO := E1) rop sop v) (hred (EO := E2) rop sop v).
  Proof. apply o_hred_fuel. Qed.
  Hint Resolve o_hred : core.
  Lemma o_lane0 (v : list A) : ord (lane0 v) (lane0 v).
  Proof. unfold lane0. go. Qed.
  Hint Resolve o_lane0 : core.
  Lemma o_last_reduce a b : ord (last_reduce rop a b) (last_reduce rop a b).
  Proof. unfold last_reduce. go. Qed.
  Lemma o_onto a b : ord (onto (EO := E1) rop sop a b) (onto (EO := E2) rop sop a b).
  Proof. unfold onto. go. Qed.
  Lemma o_split_at a b (v : list A) : ord (split_at a b v) (split_at a b v).
  Proof. unfold split_at. go. Qed.
  Hint Resolve o_last_reduce o_onto o_split_at : core.

  Lemma o_prologue fuel : forall size maxe acc1 ps tp, ord (c_prologue (EO := E1) rop sop ld fuel size maxe acc1 ps tp) (c_prologue (EO := E2) rop sop ld fuel size maxe acc1 ps tp).
  Proof. induction fuel as [|fuel IH]; intros; cbn [c_prologue]; go. Qed.
  Lemma o_epilogue_acc fuel : forall sz acc1 acc ps lo al, ord (c_epilogue_acc (EO := E1) rop sop ld fuel sz acc1 acc ps lo al) (c_epilogue_acc (EO := E2) rop sop ld fuel sz acc1 acc ps lo al).
  Proof. induction fuel as [|fuel IH]; intros; cbn [c_epilogue_acc]; go. Qed.
  Hint Resolve o_epilogue_acc : core.
  Lemma o_epilogue fuel : forall sz acc1 ps lo al, ord (c_epilogue (EO := E1) rop sop ld fuel sz acc1 ps lo al) (c_epilogue (EO := E2) rop sop ld fuel sz acc1 ps lo al).
  Proof. induction fuel as [|fuel IH]; intros; cbn [c_epilogue]; go. Qed.
  Lemma o_ld_n al w n : forall ps, ord (c_ld_n ld al ps w n) (c_ld_n ld al ps w n).
  Proof. induction n as [|n IH]; intros; cbn [c_ld_n]; go. Qed.
  Lemma o_each al w accs : forall ps, ord (c_each rop ld al ps w accs) (c_each rop ld al ps w accs).
  Proof. induction accs as [|acc accs IH]; intros; cbn [c_each]; go. Qed.
  Hint Resolve o_ld_n o_each : core.
  Lemma o_unrolled fuel w n al ul : forall first1 ps accs, ord (c_unrolled rop ld fuel w n al ul first1 ps accs) (c_unrolled rop ld fuel w n al ul first1 ps accs).
  Proof. induction fuel as [|fuel IH]; intros; cbn [c_unrolled]; go. Qed.
  Lemma o_tree_one n j ii accs : ord (c_tree_one rop n j ii accs) (c_tree_one rop n j ii accs).
  Proof. unfold c_tree_one. go. Qed.
  Hint Resolve o_tree_one : core.
  Lemma o_tree_inner n j iis : forall accs, ord (c_tree_inner rop n j iis accs) (c_tree_inner rop n j iis accs).
  Proof. induction iis as [|ii iis IH]; intros; cbn [c_tree_inner]; go. Qed.
  Hint Resolve o_tree_inner : core.
  Lemma o_tree_outer n os : forall accs, ord (c_tree_outer rop n os accs) (c_tree_outer rop n os accs).
  Proof. induction os as [|o os IH]; intros; cbn [c_tree_outer]; go. Qed.
  Hint Resolve o_tree_outer : core.
  Lemma o_tree n accs : ord (c_tree rop n accs) (c_tree rop n accs).
  Proof. unfold c_tree. go. Qed.
  Hint Resolve o_unrolled o_tree : core.
  Lemma o_first pol w al first1 last1 ps : ord (c_first rop ld pol w al first1 last1 ps) (c_first rop ld pol w al first1 last1 ps).
  Proof. unfold c_first. go. Qed.
  Lemma o_loop fuel matching w al last1 : forall first1 ps acc, ord (c_loop rop ld fuel matching w al last1 first1 ps acc) (c_loop rop ld fuel matching w al last1 first1 ps acc).
  Proof. induction fuel as [|fuel IH]; intros; cbn [c_loop]; go. Qed.
  Hint Resolve o_first o_loop o_epilogue : core.
  Lemma o_body pol w al acc1 first1 last1 distance ps : ord (c_body (EO := E1) rop sop ld pol w al acc1 first1 last1 distance ps) (c_body (EO := E2) rop sop ld pol w al acc1 first1 last1 distance ps).
  Proof. unfold c_body. go. Qed.
  Lemma o_const fuel last1 : forall first1 ps acc1, ord (c_const rop ld fuel last1 first1 ps acc1) (c_const rop ld fuel last1 first1 ps acc1).
  Proof. induction fuel as [|fuel IH]; intros; cbn [c_const]; go. Qed.
  Hint Resolve o_body o_const o_prologue : core.

  Theorem order_calls pol w first last srcs2 init : ord (c_transform_reduce (EO := E1) rop sop ld c pol w first last srcs2 init) (c_transform_reduce (EO := E2) rop sop ld c pol w first last srcs2 init).
  Proof. unfold c_transform_reduce. go. Qed.
End Order.

Theorem calls_order {T A St} (rop : St -> list A -> list A -> St * list A) (sop : St -> A -> A -> St * A)
  (tr : St -> list (list T) -> St * list A) (E1 E2 : eval_order) c pol w first last srcs2 (m : mem T) init s s2 es s' x :
  stateless2 rop -> stateless2 sop -> stateless1 tr ->
  transform_reduce_calls (EO := E1) c rop sop tr m pol w first last srcs2 init s = (es, s', Ok x) ->
  exists es2 s2', transform_reduce_calls (EO := E2) c rop sop tr m pol w first last srcs2 init s2 = (es2, s2', Ok x)
    /\ Permutation es es2.
Proof. intros H1 H2 H3 E. exact (order_calls rop sop tr c m H1 H2 H3 E1 E2 pol w first last srcs2 init s s2 es s' x E). Qed.
