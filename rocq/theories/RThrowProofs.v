(** transform_reduce with operations that may throw (C84). *)
From Verif Require Import Base ExecModel TransformModel ReduceModel TReduceModel RCallsModel RThrowModel RThrowSpec.

Section Follows.
  Context {A St : Type} {EO : eval_order}.
  Variables (rop : St -> list A -> list A -> St * option (list A)) (sop : St -> A -> A -> St * option A)
            (ld : St -> bool -> list Z -> Z -> St * outcome (list A)).
  Variables (rop' : St -> list A -> list A -> St * list A) (sop' : St -> A -> A -> St * A)
            (ld' : St -> bool -> list Z -> Z -> St * res (list A)).
  Hypothesis Hrop : reduce_completes rop' rop.
  Hypothesis Hsop : scalar_completes sop' sop.
  Hypothesis Hld : forall s al ps k s' r, ld s al ps k = (s', Ends r) -> ld' s al ps k = (s', r).

  Definition cause (e : event) (s' : St) : Prop :=
    match e with
    | Reduce k => exists s a b, length a = k /\ length b = k /\ rop s a b = (s', None)
    | Scalar => exists s x y, sop s x y = (s', None)
    | Transform ps k => exists s al, ld s al ps k = (s', Throws)
    end.

  Definition follows {X} (t : T (St := St) X) (m : M (St := St) X) : Prop := forall s,
    match t s with
    | (es, s', Ends r) => m s = (es, s', r)
    | (es, s', Throws) => (exists es0 e, es = es0 ++ [e] /\ cause e s') /\ exists es2 s2 r, m s = (es ++ es2, s2, r)
    end.

  Lemma f_ret {X} (x : X) : follows (retT x) (retM x).
  Proof. intros s. reflexivity. Qed.
  Lemma f_stop {X} e : follows (X := X) (stopT e) (stopM e).
  Proof. intros s. reflexivity. Qed.

  Lemma f_bind {X Y} (t : T X) m (f : X -> T Y) g :
    follows t m -> (forall x, follows (f x) (g x)) -> follows (bindT t f) (bindM m g).
  Proof.
    intros H1 H2 s. unfold bindT, bindM. specialize (H1 s). destruct (t s) as [[es s1] [[x|e]|]].
    - rewrite H1. specialize (H2 x s1). destruct (f x s1) as [[es2 s2] [r|]].
      + now rewrite H2.
      + destruct H2 as [(es0 & e & -> & C) (es3 & s3 & r & ->)]. split.
        * exists (es ++ es0), e. split; [apply app_assoc|exact C].
        * exists es3, s3, r. now rewrite app_assoc.
    - now rewrite H1.
    - destruct H1 as [C (es2 & s2 & [x|e] & ->)]; (split; [exact C|]).
      + destruct (g x s2) as [[es3 s3] r3]. exists (es2 ++ es3), s3, r3. now rewrite app_assoc.
      + now exists es2, s2, (Stop e).
  Qed.

  Lemma f_transform al ps k : follows (x_transform ld al ps k) (call_transform ld' al ps k).
  Proof.
    intros s. unfold x_transform, call_transform. destruct (ld s al ps k) as [s' [r|]] eqn:E.
    - now rewrite (Hld _ _ _ _ _ _ E).
    - split; [exists [], (Transform ps k); split; [reflexivity|]; cbn; eauto|].
      destruct (ld' s al ps k) as [s2 r]. now exists [], s2, r.
  Qed.

  Lemma f_reduce a b : follows (x_reduce rop a b) (call_reduce rop' a b).
  Proof.
    intros s. unfold x_reduce, call_reduce. destruct (Nat.eqb_spec (length a) (length b)) as [L|]; [|reflexivity].
    destruct (rop s a b) as [s' [z|]] eqn:E.
    - now rewrite (Hrop _ _ _ _ _ E).
    - split; [exists [], (Reduce (length a)); split; [reflexivity|]; cbn; exists s, a, b; auto|].
      destruct (rop' s a b) as [s2 z]. eexists [], s2, _. reflexivity.
  Qed.

  Lemma f_scalar x y : follows (x_scalar sop x y) (call_scalar sop' x y).
  Proof.
    intros s. unfold x_scalar, call_scalar. destruct (sop s x y) as [s' [z|]] eqn:E.
    - now rewrite (Hsop _ _ _ _ _ E).
    - split; [exists [], Scalar; split; [reflexivity|]; cbn; eauto|].
      destruct (sop' s x y) as [s2 z]. eexists [], s2, _. reflexivity.
  Qed.

  (** The control flow is the same. *)
  Ltac go :=
    repeat (cbv zeta; lazymatch goal with
    | |- follows (bindT _ _) (bindM _ _) => apply f_bind; [|intros]
    | |- follows (retT _) (retM _) => apply f_ret
    | |- follows (stopT _) (stopM _) => apply f_stop
    | |- follows (x_transform _ _ _ _) _ => apply f_transform
    | |- follows (x_reduce _ _ _) _ => apply f_reduce
    | |- follows (x_scalar _ _ _) _ => apply f_scalar
    | |- follows (if ?b then _ else _) (if ?b then _ else _) => destruct b
    | |- follows (match ?x with _ => _ end) (match ?x with _ => _ end) => destruct x
    end; auto).

  Lemma f_fold v : forall x, follows (x_fold_scalar sop x v) (fold_scalar sop' x v).
  Proof. induction v as [|y v IH]; intros x; cbn [x_fold_scalar fold_scalar]; go. Qed.
  Hint Resolve f_fold : core.

  Lemma f_hred_fuel fuel : forall v, follows (x_hred_fuel rop sop fuel v) (hred_fuel rop' sop' fuel v).
  Proof. induction fuel as [|fuel IH]; intros v; cbn [x_hred_fuel hred_fuel]; go. Qed.
  Lemma f_hred v : follows (x_hred rop sop v) (hred rop' sop' v).
  Proof. apply f_hred_fuel. Qed.
  Hint Resolve f_hred : core.

  Lemma f_lane0 (v : list A) : follows (x_lane0 v) (lane0 v).
  Proof. unfold x_lane0, lane0. go. Qed.
  Hint Resolve f_lane0 : core.
  Lemma f_last_reduce a b : follows (x_last_reduce rop a b) (last_reduce rop' a b).
  Proof. unfold x_last_reduce, last_reduce. go. Qed.
  Lemma f_onto a b : follows (x_onto rop sop a b) (onto rop' sop' a b).
  Proof. unfold x_onto, onto. go. Qed.
  Lemma f_split_at a b (v : list A) : follows (x_split_at a b v) (split_at a b v).
  Proof. unfold x_split_at, split_at. go. Qed.
  Hint Resolve f_last_reduce f_onto f_split_at : core.

  Lemma f_prologue fuel : forall size maxe acc1 ps tp,
    follows (x_prologue rop sop ld fuel size maxe acc1 ps tp) (c_prologue rop' sop' ld' fuel size maxe acc1 ps tp).
  Proof. induction fuel as [|fuel IH]; intros; cbn [x_prologue c_prologue]; go. Qed.

  Lemma f_epilogue_acc fuel : forall sz acc1 acc ps lo al,
    follows (x_epilogue_acc rop sop ld fuel sz acc1 acc ps lo al) (c_epilogue_acc rop' sop' ld' fuel sz acc1 acc ps lo al).
  Proof. induction fuel as [|fuel IH]; intros; cbn [x_epilogue_acc c_epilogue_acc]; go. Qed.
  Hint Resolve f_epilogue_acc : core.

  Lemma f_epilogue fuel : forall sz acc1 ps lo al,
    follows (x_epilogue rop sop ld fuel sz acc1 ps lo al) (c_epilogue rop' sop' ld' fuel sz acc1 ps lo al).
  Proof. induction fuel as [|fuel IH]; intros; cbn [x_epilogue c_epilogue]; go. Qed.

  Lemma f_ld_n al w n : forall ps, follows (x_ld_n ld al ps w n) (c_ld_n ld' al ps w n).
  Proof. induction n as [|n IH]; intros; cbn [x_ld_n c_ld_n]; go. Qed.

  Lemma f_each al w accs : forall ps, follows (x_each rop ld al ps w accs) (c_each rop' ld' al ps w accs).
  Proof. induction accs as [|acc accs IH]; intros; cbn [x_each c_each]; go. Qed.
  Hint Resolve f_ld_n f_each : core.

  Lemma f_unrolled fuel w n al ul : forall first1 ps accs,
    follows (x_unrolled rop ld fuel w n al ul first1 ps accs) (c_unrolled rop' ld' fuel w n al ul first1 ps accs).
  Proof. induction fuel as [|fuel IH]; intros; cbn [x_unrolled c_unrolled]; go. Qed.

  Lemma f_tree_one n j ii accs : follows (x_tree_one rop n j ii accs) (c_tree_one rop' n j ii accs).
  Proof. unfold x_tree_one, c_tree_one. go. Qed.
  Hint Resolve f_tree_one : core.
  Lemma f_tree_inner n j iis : forall accs, follows (x_tree_inner rop n j iis accs) (c_tree_inner rop' n j iis accs).
  Proof. induction iis as [|ii iis IH]; intros; cbn [x_tree_inner c_tree_inner]; go. Qed.
  Hint Resolve f_tree_inner : core.
  Lemma f_tree_outer n os : forall accs, follows (x_tree_outer rop n os accs) (c_tree_outer rop' n os accs).
  Proof. induction os as [|o os IH]; intros; cbn [x_tree_outer c_tree_outer]; go. Qed.
  Hint Resolve f_tree_outer : core.
  Lemma f_tree n accs : follows (x_tree rop n accs) (c_tree rop' n accs).
  Proof. unfold x_tree, c_tree. go. Qed.
  Hint Resolve f_unrolled f_tree : core.

  Lemma f_first pol w al first1 last1 ps : follows (x_first rop ld pol w al first1 last1 ps) (c_first rop' ld' pol w al first1 last1 ps).
  Proof. unfold x_first, c_first. go. Qed.

  Lemma f_loop fuel matching w al last1 : forall first1 ps acc,
    follows (x_loop rop ld fuel matching w al last1 first1 ps acc) (c_loop rop' ld' fuel matching w al last1 first1 ps acc).
  Proof. induction fuel as [|fuel IH]; intros; cbn [x_loop c_loop]; go. Qed.
  Hint Resolve f_first f_loop f_epilogue : core.

  Lemma f_body pol w al acc1 first1 last1 distance ps :
    follows (x_body rop sop ld pol w al acc1 first1 last1 distance ps) (c_body rop' sop' ld' pol w al acc1 first1 last1 distance ps).
  Proof. unfold x_body, c_body. go. Qed.

  Lemma f_const fuel last1 : forall first1 ps acc1,
    follows (x_const rop ld fuel last1 first1 ps acc1) (c_const rop' ld' fuel last1 first1 ps acc1).
  Proof. induction fuel as [|fuel IH]; intros; cbn [x_const c_const]; go. Qed.
  Hint Resolve f_body f_const f_prologue : core.

  Theorem f_transform_reduce c pol w first1 last1 first2 init :
    follows (x_transform_reduce rop sop ld c pol w first1 last1 first2 init)
            (c_transform_reduce rop' sop' ld' c pol w first1 last1 first2 init).
  Proof. unfold x_transform_reduce, c_transform_reduce. go. Qed.
End Follows.
