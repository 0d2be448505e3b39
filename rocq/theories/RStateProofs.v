(** The state the operations share (C82, C84). *)
From Verif Require Import Base ExecModel TransformModel ReduceModel TReduceModel RCallsModel RThrowModel RThrowSpec RThrowProofs
  RThrowThm RStateSpec.

Section Threads.
  Context {T0 A St : Type} {EO : eval_order}.
  Variables (rop : St -> list A -> list A -> St * option (list A)) (sop : St -> A -> A -> St * option A)
            (tr : St -> list (list T0) -> St * option (list A)) (c : cfg) (m : mem T0).
  Notation ld := (ld_throwing c tr m).
  Notation calls_from := (calls_from rop sop tr m).
  Notation call_step := (call_step rop sop tr m).

  Lemma calls_app es1 : forall s s1 es2 s2, calls_from s es1 s1 -> calls_from s1 es2 s2 -> calls_from s (es1 ++ es2) s2.
  Proof.
    induction es1 as [|e es1 IH]; intros s s1 es2 s2 H1 H2; inversion H1; subst; [exact H2|].
    cbn [app]. econstructor; [eassumption|]. eapply IH; eassumption.
  Qed.

  Definition threads {X} (t : T (St := St) X) : Prop := forall s,
    match t s with
    | (es, s', Ends (Ok _)) => calls_from s es s'
    | (_, _, Ends (Stop _)) => True
    | (es, s', Throws) => exists es0 e s0, es = es0 ++ [e] /\ calls_from s es0 s0 /\ call_step true e s0 s'
    end.

  Lemma t_ret {X} (x : X) : threads (retT x).
  Proof. intros s. constructor. Qed.
  Lemma t_stop {X} e : threads (X := X) (stopT e).
  Proof. intros s. exact I. Qed.

  Lemma t_bind {X Y} (t : T X) (f : X -> T Y) : threads t -> (forall x, threads (f x)) -> threads (bindT t f).
  Proof.
    intros H1 H2 s. unfold bindT. specialize (H1 s). destruct (t s) as [[es s1] [[x|e]|]]; [|exact I|exact H1].
    specialize (H2 x s1). destruct (f x s1) as [[es2 s2] [[y|e]|]]; [|exact I|].
    - now apply calls_app with s1.
    - destruct H2 as (es0 & e & s0 & -> & C & D). exists (es ++ es0), e, s0. split; [apply app_assoc|].
      split; [now apply calls_app with s1|exact D].
  Qed.

  Lemma t_transform al ps k : threads (x_transform ld al ps k).
  Proof.
    intros s. unfold x_transform, ld_throwing. destruct ps as [|p ps]; [exact I|].
    destruct (load_chunk c m al p k) as [v|] eqn:E1; [|exact I]. cbn [bindR].
    destruct (mapR _ ps) as [vs|] eqn:E2; [|exact I]. cbn [bindR].
    assert (L : Forall2 (fun p v => load m p (Z.to_nat k) = Some v) (p :: ps) (v :: vs)).
    { constructor; [now apply (load_chunk_load c m al)|]. now apply (chunks_loaded c). }
    destruct (tr s (v :: vs)) as [s1 [z|]] eqn:E3.
    - econstructor; [|constructor]. cbn. exists (v :: vs), (Some z). repeat split; auto; discriminate.
    - exists [], (Transform (p :: ps) k), s. split; [reflexivity|]. split; [constructor|]. cbn.
      exists (v :: vs), None. split; [exact L|]. split; [exact E3|]. tauto.
  Qed.

  Lemma t_reduce a b : threads (x_reduce rop a b).
  Proof.
    intros s. unfold x_reduce. destruct (Nat.eqb_spec (length a) (length b)) as [L|]; [|exact I].
    destruct (rop s a b) as [s' [z|]] eqn:E.
    - destruct (_ =? _)%nat; [|exact I]. econstructor; [|constructor]. cbn. exists a, b, (Some z).
      repeat split; auto; discriminate.
    - exists [], (Reduce (length a)), s. split; [reflexivity|]. split; [constructor|]. cbn. exists a, b, None.
      repeat split; auto.
  Qed.

  Lemma t_scalar x y : threads (x_scalar sop x y).
  Proof.
    intros s. unfold x_scalar. destruct (sop s x y) as [s' [z|]] eqn:E.
    - econstructor; [|constructor]. cbn. exists x, y, (Some z). repeat split; auto; discriminate.
    - exists [], Scalar, s. split; [reflexivity|]. split; [constructor|]. cbn. exists x, y, None. repeat split; auto.
  Qed.

  Ltac go :=
    repeat (cbv zeta; lazymatch goal with
    | |- threads (bindT _ _) => apply t_bind; [|intros]
    | |- threads (retT _) => apply t_ret
    | |- threads (stopT _) => apply t_stop
    | |- threads (x_transform _ _ _ _) => apply t_transform
    | |- threads (x_reduce _ _ _) => apply t_reduce
    | |- threads (x_scalar _ _ _) => apply t_scalar
    | |- threads (if ?b then _ else _) => destruct b
    | |- threads (match ?x with _ => _ end) => destruct x
    end; auto).

  Lemma t_fold v : forall x, threads (x_fold_scalar sop x v).
  Proof. induction v as [|y v IH]; intros x; cbn [x_fold_scalar]; go. Qed.
  Hint Resolve t_fold : core.
  Lemma t_hred_fuel fuel : forall v, threads (x_hred_fuel rop sop fuel v).
  Proof. induction fuel as [|fuel IH]; intros v; cbn [x_hred_fuel]; go. Qed.
  Lemma t_hred v : threads (x_hred rop sop v).
  Proof. apply t_hred_fuel. Qed.
  Hint Resolve t_hred : core.
  Lemma t_lane0 (v : list A) : threads (x_lane0 v).
  Proof. unfold x_lane0. go. Qed.
  Hint Resolve t_lane0 : core.
  Lemma t_last_reduce a b : threads (x_last_reduce rop a b).
  Proof. unfold x_last_reduce. go. Qed.
  Lemma t_onto a b : threads (x_onto rop sop a b).
  Proof. unfold x_onto. go. Qed.
  Lemma t_split_at a b (v : list A) : threads (x_split_at a b v).
  Proof. unfold x_split_at. go. Qed.
  Hint Resolve t_last_reduce t_onto t_split_at : core.

  Lemma t_prologue fuel : forall size maxe acc1 ps tp, threads (x_prologue rop sop ld fuel size maxe acc1 ps tp).
  Proof. induction fuel as [|fuel IH]; intros; cbn [x_prologue]; go. Qed.
  Lemma t_epilogue_acc fuel : forall sz acc1 acc ps lo al, threads (x_epilogue_acc rop sop ld fuel sz acc1 acc ps lo al).
  Proof. induction fuel as [|fuel IH]; intros; cbn [x_epilogue_acc]; go. Qed.
  Hint Resolve t_epilogue_acc : core.
  Lemma t_epilogue fuel : forall sz acc1 ps lo al, threads (x_epilogue rop sop ld fuel sz acc1 ps lo al).
  Proof. induction fuel as [|fuel IH]; intros; cbn [x_epilogue]; go. Qed.
  Lemma t_ld_n al w n : forall ps, threads (x_ld_n ld al ps w n).
  Proof. induction n as [|n IH]; intros; cbn [x_ld_n]; go. Qed.
  Lemma t_each al w accs : forall ps, threads (x_each rop ld al ps w accs).
  Proof. induction accs as [|acc accs IH]; intros; cbn [x_each]; go. Qed.
  Hint Resolve t_ld_n t_each : core.
  Lemma t_unrolled fuel w n al ul : forall first1 ps accs, threads (x_unrolled rop ld fuel w n al ul first1 ps accs).
  Proof. induction fuel as [|fuel IH]; intros; cbn [x_unrolled]; go. Qed.
  Lemma t_tree_one n j ii accs : threads (x_tree_one rop n j ii accs).
  Proof. unfold x_tree_one. go. Qed.
  Hint Resolve t_tree_one : core.
  Lemma t_tree_inner n j iis : forall accs, threads (x_tree_inner rop n j iis accs).
  Proof. induction iis as [|ii iis IH]; intros; cbn [x_tree_inner]; go. Qed.
  Hint Resolve t_tree_inner : core.
  Lemma t_tree_outer n os : forall accs, threads (x_tree_outer rop n os accs).
  Proof. induction os as [|o os IH]; intros; cbn [x_tree_outer]; go. Qed.
  Hint Resolve t_tree_outer : core.
  Lemma t_tree n accs : threads (x_tree rop n accs).
  Proof. unfold x_tree. go. Qed.
  Hint Resolve t_unrolled t_tree : core.
  Lemma t_first pol w al first1 last1 ps : threads (x_first rop ld pol w al first1 last1 ps).
  Proof. unfold x_first. go. Qed.
  Lemma t_loop fuel matching w al last1 : forall first1 ps acc, threads (x_loop rop ld fuel matching w al last1 first1 ps acc).
  Proof. induction fuel as [|fuel IH]; intros; cbn [x_loop]; go. Qed.
  Hint Resolve t_first t_loop t_epilogue : core.
  Lemma t_body pol w al acc1 first1 last1 distance ps : threads (x_body rop sop ld pol w al acc1 first1 last1 distance ps).
  Proof. unfold x_body. go. Qed.
  Lemma t_const fuel last1 : forall first1 ps acc1, threads (x_const rop ld fuel last1 first1 ps acc1).
  Proof. induction fuel as [|fuel IH]; intros; cbn [x_const]; go. Qed.
  Hint Resolve t_body t_const t_prologue : core.

  Theorem throwing_state pol w first last srcs2 init : threads (x_transform_reduce rop sop ld c pol w first last srcs2 init).
  Proof. unfold x_transform_reduce. go. Qed.
End Threads.

Theorem throwing_state' {T A St} {EO : eval_order} (rop : St -> list A -> list A -> St * option (list A)) (sop : St -> A -> A -> St * option A)
  (tr : St -> list (list T) -> St * option (list A)) c pol w first last srcs2 (m : mem T) init s :
  match transform_reduce_throwing c rop sop tr m pol w first last srcs2 init s with
  | (es, s', Ends (Ok _)) => calls_from rop sop tr m s es s'
  | (_, _, Ends (Stop _)) => True
  | (es, s', Throws) =>
      exists es0 e s0, es = es0 ++ [e] /\ calls_from rop sop tr m s es0 s0 /\ call_step rop sop tr m true e s0 s'
  end.
Proof. exact (throwing_state rop sop tr c m pol w first last srcs2 init s). Qed.

Theorem calls_state {T A St} {EO : eval_order} (rop : St -> list A -> list A -> St * list A) (sop : St -> A -> A -> St * A)
  (tr : St -> list (list T) -> St * list A) c pol w first last srcs2 (m : mem T) init s es s' x :
  transform_reduce_calls c rop sop tr m pol w first last srcs2 init s = (es, s', Ok x) ->
  calls_from (fun s a b => (fst (rop s a b), Some (snd (rop s a b)))) (fun s x y => (fst (sop s x y), Some (snd (sop s x y))))
             (fun s ch => (fst (tr s ch), Some (snd (tr s ch)))) m s es s'.
Proof.
  intros E. match goal with |- RStateSpec.calls_from ?r ?o ?t _ _ _ _ =>
    pose proof (throwing_state' r o t c pol w first last srcs2 m init s) as P end.
  rewrite throwing_never, E in P. exact P.
Qed.
