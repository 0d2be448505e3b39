(** Function objects with state of their own (C85). *)
From Verif Require Import Base ExecModel ExecSpec TransformModel TransformSpec ScheduleSpec ThrowModel CallsModel CallsSpec
  CallsThm ReduceModel TReduceModel RCallsModel RThrowModel OwnStateModel OwnStateSpec.
From Coq Require Import Permutation.

Section Transform.
  Context {T S W : Type}.
  Variables (op : S * W -> list (list T) -> (S * W) * option (list T)) (w0 : W) (order : step -> list nat).
  Notation cp := (on_copy op).
  Notation fz := (frozen op w0).

  Lemma on_copy_frozen s ch : cp (s, w0) ch = ((fst (fz s ch), w0), snd (fz s ch)).
  Proof. unfold on_copy, frozen. now destruct (op (s, w0) ch). Qed.

  Definition mapE {X Y Z'} (f : X -> Y) (e : ended X Z') : ended Y Z' :=
    match e with Returned x => Returned (f x) | Threw x ch => Threw (f x) ch end.
  Definition mapRes {X Y} (f : X -> Y) (r : res X) : res Y := match r with Ok x => Ok (f x) | Stop e => Stop e end.

  Lemma invoke_copies m srcs k js : forall s tr,
    invoke_in cp m srcs k js (s, w0) tr
    = mapRes (mapE (fun q => (fst (fst q), w0, snd (fst q), snd q))) (invoke_in fz m srcs k js s tr).
  Proof.
    induction js as [|j js IH]; intros s tr; cbn [invoke_in]; [reflexivity|].
    destruct (mapR _ _) as [chunks|]; [|reflexivity]. cbn [bindR]. rewrite on_copy_frozen.
    destruct (fz s chunks) as [s' [r|]]; [|reflexivity]. cbn [fst snd]. rewrite IH.
    now destruct (invoke_in fz m srcs k js s' _) as [[[[? ?] ?]|[[? ?] ?] ?]|].
  Qed.

  Lemma step_copies c s x : run_step_in cp order c (beside w0 s) x = mapRes (beside_end w0) (run_step_in fz order c s x).
  Proof.
    unfold run_step_in. cbn [beside s_mem s_st s_trace]. rewrite invoke_copies.
    destruct (invoke_in fz _ _ _ _ _ _) as [[[[s' t'] rs]|[[s' t'] rs] ch]|]; cbn; [|reflexivity|reflexivity].
    destruct (pack rs (t_n x)) as [outs|]; [|reflexivity]. cbn [bindR].
    now destruct (store_chunks _ _ _ _ _ _).
  Qed.

  Lemma steps_copies c l : forall s,
    run_steps_in cp order c (beside w0 s) l = mapRes (beside_end w0) (run_steps_in fz order c s l).
  Proof.
    induction l as [|x l IH]; intros s; cbn [run_steps_in]; [reflexivity|]. rewrite step_copies.
    destruct (run_step_in fz order c s x) as [[s'|s' ch]|]; cbn; [apply IH|reflexivity|reflexivity].
  Qed.

  Theorem transform_copies c pol w first last dst srcs2 m s :
    transform_object Ranges op order c pol w first last dst srcs2 m (s, w0)
    = match run_transform_in fz order c pol w first last dst srcs2 m s with
      | Ok (e, r) => Ok (beside_end w0 e, r)
      | Stop e => Stop e
      end.
  Proof.
    unfold transform_object, run_transform_in. destruct (transform c pol w first last dst srcs2) as [steps r].
    change (mkst m (s, w0) []) with (beside w0 (mkst m s [])). rewrite steps_copies.
    destruct (run_steps_in _ _ _ _ _) as [[s'|s' ch]|]; cbn; [|reflexivity|reflexivity]. now destruct r.
  Qed.
End Transform.

Lemma frozen_keeps {T S W} (op : S * W -> list (list T) -> (S * W) * option (list T)) w0 :
  keeps_count op -> keeps_count (frozen op w0).
Proof. intros K s k chunks r H1 H2 H3. exact (K (s, w0) k chunks r H1 H2 H3). Qed.

Theorem ranges_calls {T S W} (op : S * W -> list (list T) -> (S * W) * option (list T)) order
        c pol w first last dst srcs2 (m : mem T) s w0 d :
  target_ok c -> c_ce c = false -> policy_ok pol -> width_ok w -> range_ok first last ->
  size_matches pol w first last -> reaches_alignment c pol w dst (dst + (last - first)) ->
  prologue_length c pol w dst (last - first) d ->
  keeps_count op -> any_order order ->
  Forall (fun p => mapped m p (p + (last - first))) (dst :: first :: srcs2) ->
  no_clobber dst (last - first) (first :: srcs2) ->
  exists e, transform_object Ranges op order c pol w first last dst srcs2 m (s, w0)
      = Ok (beside_end w0 e, returned_iterator (dst + (last - first)) e)
    /\ account (frozen op w0) m (first :: srcs2) dst s (places 0 (schedule w (p_unroll pol) d (last - first))) e.
Proof.
  intros H1 H2 H3 H4 H5 H6 H7 H8 K O H9 H10.
  destruct (transform_calls (frozen op w0) order c pol w first last dst srcs2 m s d H1 H2 H3 H4 H5 H6 H7 H8
              (frozen_keeps op w0 K) O H9 H10) as (e & E & A).
  exists e. split; [|exact A]. now rewrite transform_copies, E.
Qed.

Theorem ranges_order_unobservable {T W} (op : unit * W -> list (list T) -> (unit * W) * option (list T)) order order'
        c pol w first last dst srcs2 (m : mem T) w0 :
  target_ok c -> c_ce c = false -> policy_ok pol -> width_ok w -> range_ok first last ->
  size_matches pol w first last -> reaches_alignment c pol w dst (dst + (last - first)) ->
  keeps_count op -> any_order order -> any_order order' ->
  Forall (fun p => mapped m p (p + (last - first))) (dst :: first :: srcs2) ->
  no_clobber dst (last - first) (first :: srcs2) ->
  exists e e' r, transform_object Ranges op order c pol w first last dst srcs2 m (tt, w0) = Ok (e, r)
    /\ transform_object Ranges op order' c pol w first last dst srcs2 m (tt, w0) = Ok (e', r) /\ same_end e e'.
Proof.
  intros H1 H2 H3 H4 H5 H6 H7 K O O' H9 H10.
  assert (SL : stateless (frozen op w0)) by (intros [] [] ch; reflexivity).
  destruct (transform_order_unobservable (frozen op w0) order order' c pol w first last dst srcs2 m tt H1 H2 H3 H4 H5 H6 H7
              (frozen_keeps op w0 K) SL O O' H9 H10) as (e & e' & r & E & E' & Q).
  exists (beside_end w0 e), (beside_end w0 e'), r. rewrite !transform_copies, E, E'. repeat split.
  destruct e, e'; exact Q.
Qed.

Section Reduce.
  Context {T0 A S W : Type} {EO : eval_order}.
  Variables (rop : S -> list A -> list A -> S * option (list A)) (sop : S -> A -> A -> S * option A)
            (tr : S * W -> list (list T0) -> (S * W) * option (list A)) (w0 : W) (c : cfg) (m : mem T0).
  Notation rop2 := (beside1 (W := W) rop).
  Notation sop2 := (beside1 (W := W) sop).
  Notation ld2 := (ld_throwing c (on_copy tr) m).
  Notation ld1 := (ld_throwing c (frozen tr w0) m).

  (** The run with the object beside is the run without, and leaves the object as it was. *)
  Definition keeps {X} (t2 : T (St := S * W) X) (t1 : T (St := S) X) : Prop :=
    forall s, t2 (s, w0) = (let '(es, s', r) := t1 s in (es, (s', w0), r)).

  Lemma k_ret {X} (x : X) : keeps (retT x) (retT x).
  Proof. intros s. reflexivity. Qed.
  Lemma k_stop {X} e : keeps (X := X) (stopT e) (stopT e).
  Proof. intros s. reflexivity. Qed.
  Lemma k_bind {X Y} (t2 : T X) (t1 : T X) (f2 : X -> T Y) (f1 : X -> T Y) :
    keeps t2 t1 -> (forall x, keeps (f2 x) (f1 x)) -> keeps (bindT t2 f2) (bindT t1 f1).
  Proof.
    intros H1 H2 s. unfold bindT. rewrite H1. destruct (t1 s) as [[es s1] [[x|e]|]]; [|reflexivity|reflexivity].
    rewrite H2. now destruct (f1 x s1) as [[es2 s2] r].
  Qed.
  Lemma k_transform al ps k : keeps (x_transform ld2 al ps k) (x_transform ld1 al ps k).
  Proof.
    intros s. unfold x_transform, ld_throwing. destruct ps as [|p ps]; [reflexivity|].
    destruct (bindR _ _) as [v|]; [|reflexivity]. unfold on_copy, frozen. now destruct (tr (s, w0) v).
  Qed.
  Lemma k_reduce a b : keeps (x_reduce rop2 a b) (x_reduce rop a b).
  Proof.
    intros s. unfold x_reduce, beside1. destruct (_ =? _)%nat; [|reflexivity]. cbn [fst snd]. now destruct (rop s a b).
  Qed.
  Lemma k_scalar x y : keeps (x_scalar sop2 x y) (x_scalar sop x y).
  Proof. intros s. unfold x_scalar, beside1. cbn [fst snd]. now destruct (sop s x y). Qed.

  Ltac go :=
    repeat (cbv zeta; lazymatch goal with
    | |- keeps (bindT _ _) _ => apply k_bind; [|intros]
    | |- keeps (retT _) _ => apply k_ret
    | |- keeps (stopT _) _ => apply k_stop
    | |- keeps (x_transform _ _ _ _) _ => apply k_transform
    | |- keeps (x_reduce _ _ _) _ => apply k_reduce
    | |- keeps (x_scalar _ _ _) _ => apply k_scalar
    | |- keeps (if ?b then _ else _) _ => destruct b
    | |- keeps (match ?x with _ => _ end) _ => destruct x
    end; auto).

  Lemma k_fold v : forall x, keeps (x_fold_scalar sop2 x v) (x_fold_scalar sop x v).
  Proof. induction v as [|y v IH]; intros x; cbn [x_fold_scalar]; go. Qed.
  Hint Resolve k_fold : core.
  Lemma k_hred_fuel fuel : forall v, keeps (x_hred_fuel rop2 sop2 fuel v) (x_hred_fuel rop sop fuel v).
  Proof. induction fuel as [|fuel IH]; intros v; cbn [x_hred_fuel]; go. Qed.
  Lemma k_hred v : keeps (x_hred rop2 sop2 v) (x_hred rop sop v).
  Proof. apply k_hred_fuel. Qed.
  Hint Resolve k_hred : core.
  Lemma k_lane0 (v : list A) : keeps (x_lane0 v) (x_lane0 v).
  Proof. unfold x_lane0. go. Qed.
  Hint Resolve k_lane0 : core.
  Lemma k_last_reduce a b : keeps (x_last_reduce rop2 a b) (x_last_reduce rop a b).
  Proof. unfold x_last_reduce. go. Qed.
  Lemma k_onto a b : keeps (x_onto rop2 sop2 a b) (x_onto rop sop a b).
  Proof. unfold x_onto. go. Qed.
  Lemma k_split_at a b (v : list A) : keeps (x_split_at a b v) (x_split_at a b v).
  Proof. unfold x_split_at. go. Qed.
  Hint Resolve k_last_reduce k_onto k_split_at : core.

  Lemma k_prologue fuel : forall size maxe acc1 ps tp, keeps (x_prologue rop2 sop2 ld2 fuel size maxe acc1 ps tp) (x_prologue rop sop ld1 fuel size maxe acc1 ps tp).
  Proof. induction fuel as [|fuel IH]; intros; cbn [x_prologue]; go. Qed.
  Lemma k_epilogue_acc fuel : forall sz acc1 acc ps lo al, keeps (x_epilogue_acc rop2 sop2 ld2 fuel sz acc1 acc ps lo al) (x_epilogue_acc rop sop ld1 fuel sz acc1 acc ps lo al).
  Proof. induction fuel as [|fuel IH]; intros; cbn [x_epilogue_acc]; go. Qed.
  Hint Resolve k_epilogue_acc : core.
  Lemma k_epilogue fuel : forall sz acc1 ps lo al, keeps (x_epilogue rop2 sop2 ld2 fuel sz acc1 ps lo al) (x_epilogue rop sop ld1 fuel sz acc1 ps lo al).
  Proof. induction fuel as [|fuel IH]; intros; cbn [x_epilogue]; go. Qed.
  Lemma k_ld_n al w n : forall ps, keeps (x_ld_n ld2 al ps w n) (x_ld_n ld1 al ps w n).
  Proof. induction n as [|n IH]; intros; cbn [x_ld_n]; go. Qed.
  Lemma k_each al w accs : forall ps, keeps (x_each rop2 ld2 al ps w accs) (x_each rop ld1 al ps w accs).
  Proof. induction accs as [|acc accs IH]; intros; cbn [x_each]; go. Qed.
  Hint Resolve k_ld_n k_each : core.
  Lemma k_unrolled fuel w n al ul : forall first1 ps accs, keeps (x_unrolled rop2 ld2 fuel w n al ul first1 ps accs) (x_unrolled rop ld1 fuel w n al ul first1 ps accs).
  Proof. induction fuel as [|fuel IH]; intros; cbn [x_unrolled]; go. Qed.
  Lemma k_tree_one n j ii accs : keeps (x_tree_one rop2 n j ii accs) (x_tree_one rop n j ii accs).
  Proof. unfold x_tree_one. go. Qed.
  Hint Resolve k_tree_one : core.
  Lemma k_tree_inner n j iis : forall accs, keeps (x_tree_inner rop2 n j iis accs) (x_tree_inner rop n j iis accs).
  Proof. induction iis as [|ii iis IH]; intros; cbn [x_tree_inner]; go. Qed.
  Hint Resolve k_tree_inner : core.
  Lemma k_tree_outer n os : forall accs, keeps (x_tree_outer rop2 n os accs) (x_tree_outer rop n os accs).
  Proof. induction os as [|o os IH]; intros; cbn [x_tree_outer]; go. Qed.
  Hint Resolve k_tree_outer : core.
  Lemma k_tree n accs : keeps (x_tree rop2 n accs) (x_tree rop n accs).
  Proof. unfold x_tree. go. Qed.
  Hint Resolve k_unrolled k_tree : core.
  Lemma k_first pol w al first1 last1 ps : keeps (x_first rop2 ld2 pol w al first1 last1 ps) (x_first rop ld1 pol w al first1 last1 ps).
  Proof. unfold x_first. go. Qed.
  Lemma k_loop fuel matching w al last1 : forall first1 ps acc, keeps (x_loop rop2 ld2 fuel matching w al last1 first1 ps acc) (x_loop rop ld1 fuel matching w al last1 first1 ps acc).
  Proof. induction fuel as [|fuel IH]; intros; cbn [x_loop]; go. Qed.
  Hint Resolve k_first k_loop k_epilogue : core.
  Lemma k_body pol w al acc1 first1 last1 distance ps : keeps (x_body rop2 sop2 ld2 pol w al acc1 first1 last1 distance ps) (x_body rop sop ld1 pol w al acc1 first1 last1 distance ps).
  Proof. unfold x_body. go. Qed.
  Lemma k_const fuel last1 : forall first1 ps acc1, keeps (x_const rop2 ld2 fuel last1 first1 ps acc1) (x_const rop ld1 fuel last1 first1 ps acc1).
  Proof. induction fuel as [|fuel IH]; intros; cbn [x_const]; go. Qed.
  Hint Resolve k_body k_const k_prologue : core.

  Theorem reduce_copies pol w first last srcs2 init : keeps (x_transform_reduce rop2 sop2 ld2 c pol w first last srcs2 init) (x_transform_reduce rop sop ld1 c pol w first last srcs2 init).
  Proof. unfold x_transform_reduce. go. Qed.
End Reduce.

Theorem transform_reduce_copies {T A S W} {EO : eval_order} (rop : S -> list A -> list A -> S * option (list A)) (sop : S -> A -> A -> S * option A)
  (tr : S * W -> list (list T) -> (S * W) * option (list A)) c pol w first last srcs2 (m : mem T) init s w0 :
  transform_reduce_object c rop sop tr m pol w first last srcs2 init (s, w0)
  = (let '(es, s', r) := transform_reduce_throwing c rop sop (frozen tr w0) m pol w first last srcs2 init s in
     (es, (s', w0), r)).
Proof. exact (reduce_copies rop sop tr w0 c m pol w first last srcs2 init s). Qed.
