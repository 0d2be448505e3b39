(** Proofs for C76. *)
From Verif Require Import Base BaseFacts ExecModel ExecSpec ExecThm ReduceModel TransformModel TransformSpec TransformThm
  TReduceModel TReduceSpec TReduceThm ReduceSpec CountModel CountProofs TraitModel OwnSpec.
Ltac Zify.zify_post_hook ::= idtac.

Lemma own_malign c : own_simd c -> 0 < c_sz c /\ forall k, 0 < k -> 0 < c_malign c k <= c_sz c.
Proof.
  intros (al & e & He & Ha & H). split; [lia|]. intros k Hk. specialize (H k Hk). cbn [memory_alignment] in H. rewrite He in H.
  injection H as <-. exact Ha.
Qed.

Lemma own_target c : own_simd c -> target_ok c.
Proof. intros H. destruct (own_malign c H) as [H1 H2]. split; [exact H1|]. right. exact H2. Qed.

Lemma own_impossible c w : own_simd c -> prologue_is_possible c w = false.
Proof.
  intros H. destruct (own_malign c H) as [_ H2]. unfold prologue_is_possible. destruct (Z.ltb_spec 1 w) as [Hw|]; [|reflexivity].
  specialize (H2 w ltac:(lia)). destruct (Z.ltb_spec (c_sz c) (c_malign c w)); [lia|]. apply andb_false_r.
Qed.

Lemma own_unaligned c pol w : own_simd c -> use_aligned_loadstore c pol w = false.
Proof. intros H. unfold use_aligned_loadstore. rewrite (own_impossible c w H). apply andb_false_r. Qed.

Lemma own_no_prologue c pol w n p : own_simd c -> prologue_args c pol w n p = None.
Proof.
  intros H. unfold prologue_args, maybe_prologue. rewrite (own_unaligned c pol w H), (own_impossible c w H), andb_false_r.
  reflexivity.
Qed.

(** The control flow of for_each. *)
Lemma epilogue_same c c' fuel : same_elsewhere c c' -> forall vs left last al,
  for_each_epilogue fuel c vs left last al = for_each_epilogue fuel c' vs left last al.
Proof.
  intros (_ & Ho & Hc). induction fuel as [|fuel IH]; intros; [reflexivity|]. cbn [for_each_epilogue]. rewrite Ho, Hc.
  repeat (match goal with |- context [if ?b then _ else _] => destruct b; try reflexivity end); rewrite IH; reflexivity.
Qed.

Lemma for_each_same c c' pol pol' w first last : own_simd c -> own_simd c' -> same_elsewhere c c' -> same_otherwise pol pol' ->
  for_each c pol w first last = for_each c' pol' w first last.
Proof.
  intros H H' S (E1 & E2 & E3). unfold for_each, for_each_rt, for_each_body.
  rewrite !own_no_prologue, !own_unaligned, E1, E2, !(epilogue_same c c' 64 S) by assumption.
  destruct S as (_ & _ & ->). reflexivity.
Qed.

Definition unaligned (x : list call) : Prop := Forall (fun k => k_al k = false) x.

Lemma bind_unaligned {A B} (x : W A) (f : A -> W B) : unaligned (fst x) -> (forall a, unaligned (fst (f a))) ->
  unaligned (fst (bindW x f)).
Proof.
  intros H1 H2. destruct x as [l [a|s]]; cbn; [|exact H1]. specialize (H2 a). destruct (f a) as [l' r]. cbn in *.
  apply Forall_app. auto.
Qed.

Lemma tell_unaligned p k n : unaligned (fst (tellW (mkcall p k n false))).
Proof. constructor; [reflexivity|constructor]. Qed.
Lemma ret_unaligned {A} (a : A) : unaligned (fst (retW a)). Proof. constructor. Qed.
Lemma stop_unaligned A s : unaligned (fst (@stopW A s)). Proof. constructor. Qed.

#[local] Hint Resolve bind_unaligned tell_unaligned ret_unaligned stop_unaligned : core.

Lemma jumptable_unaligned fuel : forall t b n p, unaligned (fst (jumptable fuel t b false n p)).
Proof.
  induction fuel as [|fuel IH]; intros; [apply stop_unaligned|]. cbn [jumptable]. destruct (n =? 0); [apply ret_unaligned|].
  destruct (lookup t n); [|apply stop_unaligned]. destruct (b <=? n); [apply stop_unaligned|]. apply bind_unaligned; auto.
Qed.

Lemma entry_unaligned t b n p : unaligned (fst (jumptable_entry t b false n p)).
Proof. unfold jumptable_entry. destruct (n =? 0); [apply stop_unaligned|]. apply jumptable_unaligned. Qed.

Lemma epilogue_unaligned c fuel : forall vs left last, unaligned (fst (for_each_epilogue fuel c vs left last false)).
Proof.
  induction fuel as [|fuel IH]; intros; [apply stop_unaligned|]. cbn [for_each_epilogue].
  destruct (negb (1 <? vs)); [apply stop_unaligned|]. destruct (vs =? 2); [apply tell_unaligned|].
  destruct (_ && _); [apply entry_unaligned|]. destruct (_ && _); [apply entry_unaligned|]. apply bind_unaligned.
  - destruct (negb _); auto.
  - intros _. destruct (_ && _); auto.
Qed.

Lemma main_unaligned fuel : forall w n limit first, unaligned (fst (main_loop fuel w n false limit first)).
Proof.
  induction fuel as [|fuel IH]; intros; [apply stop_unaligned|]. cbn [main_loop]. destruct (first <=? limit); [|apply ret_unaligned].
  apply bind_unaligned; auto.
Qed.

Lemma match_unaligned fuel : forall w last first, unaligned (fst (match_loop fuel w false last first)).
Proof.
  induction fuel as [|fuel IH]; intros; [apply stop_unaligned|]. cbn [match_loop]. destruct (first =? last); [apply ret_unaligned|].
  apply bind_unaligned; auto.
Qed.

Lemma const_unaligned fuel : forall w last first, unaligned (fst (const_loop fuel w last first)).
Proof.
  induction fuel as [|fuel IH]; intros; [apply stop_unaligned|]. cbn [const_loop]. destruct (_ <? last); [|apply ret_unaligned].
  apply bind_unaligned; auto.
Qed.

Lemma for_each_unaligned c pol w first last : own_simd c -> unaligned (fst (for_each c pol w first last)).
Proof.
  intros H. unfold for_each. destruct (first =? last); [apply ret_unaligned|]. destruct (_ && _); [apply stop_unaligned|].
  destruct (c_ce c).
  - apply bind_unaligned; [apply const_unaligned|]. intros _. destruct (1 <? w); [apply epilogue_unaligned|apply ret_unaligned].
  - unfold for_each_rt, for_each_body. rewrite own_no_prologue, own_unaligned by assumption. apply bind_unaligned.
    + destruct (1 <? p_unroll pol); [apply main_unaligned|apply ret_unaligned].
    + intros a. apply bind_unaligned; [destruct (p_match pol); [apply match_unaligned|apply main_unaligned]|].
      intros _. destruct (_ && _); [apply epilogue_unaligned|apply ret_unaligned].
Qed.

(** Running unaligned calls. *)
Section Run.
  Context {T St : Type}.
  Variable f : St -> list (list T) -> St * list (list T).

  Lemma load_same c c' (m : mem T) n : forall p k, load_chunks c m false p k n = load_chunks c' m false p k n.
  Proof. induction n as [|n IH]; intros; [reflexivity|]. cbn [load_chunks]. unfold load_chunk. cbn [andb]. rewrite (IH (p + k)). reflexivity. Qed.

  Lemma store_same c c' vs : forall (m : mem T) p k, store_chunks c m false p k vs = store_chunks c' m false p k vs.
  Proof.
    induction vs as [|v vs IH]; intros; [reflexivity|]. cbn [store_chunks]. unfold store_chunk. cbn [andb].
    destruct (of_option (store m p v)); cbn [bindR]; [apply IH|reflexivity].
  Qed.

  Lemma run_same c c' wb l : unaligned l -> forall s, run_calls f c wb l s = run_calls f c' wb l s.
  Proof.
    induction 1 as [|k l Hk _ IH]; intros s; [reflexivity|]. cbn [run_calls]. assert (E : load_and_invoke f c wb s k = load_and_invoke f c' wb s k).
    { unfold load_and_invoke. rewrite Hk, (load_same c c'). destruct (load_chunks _ _ _ _ _ _) as [ch|]; cbn [bindR]; [|reflexivity].
      destruct (f (s_st s) ch). rewrite (store_same c c'). reflexivity. }
    rewrite E. destruct (load_and_invoke f c' wb s k); cbn [bindR]; [apply IH|reflexivity].
  Qed.

  Theorem run_for_each_same c c' pol pol' w wb first last m st :
    own_simd c -> own_simd c' -> same_elsewhere c c' -> same_otherwise pol pol' ->
    run_for_each f c pol w wb first last m st = run_for_each f c' pol' w wb first last m st.
  Proof.
    intros H H' S P. unfold run_for_each. rewrite (for_each_same c c' pol pol' w first last H H' S P).
    assert (U := for_each_unaligned c' pol' w first last H'). destruct (for_each c' pol' w first last) as [l r].
    rewrite (run_same c c' wb l U). reflexivity.
  Qed.
End Run.

Theorem count_if_same {T} (pred : list T -> list bool) c c' lib pol pol' w first last m :
  own_simd c -> own_simd c' -> same_elsewhere c c' -> same_otherwise pol pol' ->
  count_if pred c lib pol w first last m = count_if pred c' lib pol' w first last m.
Proof.
  intros H H' S P. unfold count_if. rewrite (run_for_each_same _ c c' pol pol' w false first last m _ H H' S P).
  destruct S as (_ & _ & ->). reflexivity.
Qed.

(** transform *)
Definition unaligned_steps (x : list step) : Prop := Forall (fun k => t_al k = false) x.

Lemma bindT_unaligned {A B} (x : WT A) (f : A -> WT B) : unaligned_steps (fst x) -> (forall a, unaligned_steps (fst (f a))) ->
  unaligned_steps (fst (bindT x f)).
Proof.
  intros H1 H2. destruct x as [l [a|s]]; cbn; [|exact H1]. specialize (H2 a). destruct (f a) as [l' r]. cbn in *.
  apply Forall_app. auto.
Qed.

Lemma tellT_unaligned srcs d k n : unaligned_steps (fst (tellT (mkstep srcs d k n false))).
Proof. constructor; [reflexivity|constructor]. Qed.
Lemma retT_unaligned {A} (a : A) : unaligned_steps (fst (retT a)). Proof. constructor. Qed.
Lemma stopT_unaligned A s : unaligned_steps (fst (@stopT A s)). Proof. constructor. Qed.

Lemma t_epilogue_unaligned fuel : forall vs left last d ps, unaligned_steps (fst (transform_epilogue fuel vs left last d ps false)).
Proof.
  induction fuel as [|fuel IH]; intros; [apply stopT_unaligned|]. cbn [transform_epilogue].
  destruct (negb (1 <? vs)); [apply stopT_unaligned|]. destruct (vs =? 2); [apply tellT_unaligned|]. apply bindT_unaligned.
  - destruct (negb _); [apply tellT_unaligned|apply retT_unaligned].
  - intros _. destruct (_ && _); [apply IH|apply retT_unaligned].
Qed.

Lemma loop_unaligned fuel : forall cond w n p, unaligned_steps (fst (transform_loop fuel cond w n false p)).
Proof.
  induction fuel as [|fuel IH]; intros; [apply stopT_unaligned|]. cbn [transform_loop]. destruct (cond _); [|apply retT_unaligned].
  destruct p as [[a d] s]. apply bindT_unaligned; [apply tellT_unaligned|]. intros _. apply IH.
Qed.

Lemma transform_unaligned c pol w first last dst srcs : own_simd c -> unaligned_steps (fst (transform c pol w first last dst srcs)).
Proof.
  intros H. unfold transform. destruct (first =? last); [apply retT_unaligned|]. destruct (_ && _); [apply stopT_unaligned|].
  destruct (c_ce c).
  - unfold transform_ce. apply bindT_unaligned; [apply loop_unaligned|]. intros p. apply bindT_unaligned; [apply loop_unaligned|].
    intros [[? ?] ?]. apply retT_unaligned.
  - unfold transform_rt, transform_body. rewrite own_no_prologue, own_unaligned by assumption. apply bindT_unaligned.
    + destruct (1 <? p_unroll pol); [apply loop_unaligned|apply retT_unaligned].
    + intros p. apply bindT_unaligned; [destruct (p_match pol); apply loop_unaligned|]. intros [[? d] s].
      destruct (_ && _); [|apply retT_unaligned]. destruct (_ =? 0); [apply retT_unaligned|].
      apply bindT_unaligned; [apply t_epilogue_unaligned|]. intros _. apply retT_unaligned.
Qed.

Lemma transform_flow_same c c' pol pol' w first last dst srcs :
  own_simd c -> own_simd c' -> same_elsewhere c c' -> same_otherwise pol pol' ->
  transform c pol w first last dst srcs = transform c' pol' w first last dst srcs.
Proof.
  intros H H' (_ & _ & Hc) (E1 & E2 & E3). unfold transform, transform_rt, transform_body.
  rewrite !own_no_prologue, !own_unaligned, E1, E2, Hc by assumption. reflexivity.
Qed.

Theorem run_transform_same {T} (op : list (list T) -> list T) c c' pol pol' w first last dst srcs (m : mem T) :
  own_simd c -> own_simd c' -> same_elsewhere c c' -> same_otherwise pol pol' ->
  run_transform op c pol w first last dst srcs m = run_transform op c' pol' w first last dst srcs m.
Proof.
  intros H H' S P. unfold run_transform. rewrite (transform_flow_same c c' pol pol' w first last dst srcs H H' S P).
  assert (U := transform_unaligned c' pol' w first last dst srcs H'). destruct (transform c' pol' w first last dst srcs) as [l r].
  cbn [fst] in U. assert (E : run_steps op c m l = run_steps op c' m l); [|rewrite E; reflexivity].
  revert m. induction U as [|k l Hk _ IH]; intros m; [reflexivity|]. cbn [run_steps].
  assert (E : run_step op c m k = run_step op c' m k).
  { unfold run_step. destruct (invoke_all _ _ _ _ _); cbn [bindR]; [|reflexivity]. rewrite Hk. apply store_same. }
  rewrite E. destruct (run_step op c' m k); cbn [bindR]; [apply IH|reflexivity].
Qed.

(** transform_reduce: only the loads without alignment matter. *)
Section Reduce.
  Context {A : Type}.
  Variable op : A -> A -> A.
  Variables ld1 ld2 : bool -> list Z -> Z -> res (list A).
  Hypothesis same : forall ps k, ld1 false ps k = ld2 false ps k.

  Lemma tr_epilogue_acc_same fuel : forall s a acc ps left,
    tr_epilogue_acc op ld1 fuel s a acc ps left false = tr_epilogue_acc op ld2 fuel s a acc ps left false.
  Proof.
    induction fuel as [|fuel IH]; intros; [reflexivity|]. cbn [tr_epilogue_acc]. rewrite same.
    destruct (negb (has_single_bit s)); [reflexivity|]. destruct (negb (Z.land left s =? 0)).
    - destruct (ld2 false ps s) as [v|]; cbn [bindR]; [|reflexivity]. destruct (vop op acc v); cbn [bindR]; [|reflexivity].
      destruct (s =? 1); [reflexivity|]. destruct (Z.land left (s - 1) =? 0); [reflexivity|].
      destruct (split2 _ _ _); cbn [bindR]; [|reflexivity]. destruct (vop op _ _); cbn [bindR]; [apply IH|reflexivity].
    - destruct (Z.land left (s - 1) =? 0); [reflexivity|]. destruct (1 <? s); [|reflexivity].
      destruct (split2 _ _ _); cbn [bindR]; [|reflexivity]. destruct (vop op _ _); cbn [bindR]; [apply IH|reflexivity].
  Qed.

  Lemma tr_epilogue_same fuel : forall s a ps left,
    tr_epilogue op ld1 fuel s a ps left false = tr_epilogue op ld2 fuel s a ps left false.
  Proof.
    induction fuel as [|fuel IH]; intros; [reflexivity|]. cbn [tr_epilogue]. rewrite same.
    destruct (negb (has_single_bit s)); [reflexivity|]. destruct (negb (Z.land left s =? 0)).
    - destruct (ld2 false ps s); cbn [bindR]; [|reflexivity].
      destruct (s =? 1); [reflexivity|]. destruct (Z.land left (s - 1) =? 0); [reflexivity|].
      destruct (split2 _ _ _); cbn [bindR]; [|reflexivity].
      destruct (vop op _ _); cbn [bindR]; [apply tr_epilogue_acc_same|reflexivity].
    - destruct (Z.land left (s - 1) =? 0); [reflexivity|]. destruct (1 <? s); [apply IH|reflexivity].
  Qed.

  Lemma ld_n_same n : forall ps w, ld_n ld1 false ps w n = ld_n ld2 false ps w n.
  Proof. induction n as [|n IH]; intros; [reflexivity|]. cbn [ld_n]. rewrite same, IH. reflexivity. Qed.

  Lemma tr_unrolled_same fuel : forall w n u f ps accs,
    tr_unrolled op ld1 fuel w n false u f ps accs = tr_unrolled op ld2 fuel w n false u f ps accs.
  Proof.
    induction fuel as [|fuel IH]; intros; [reflexivity|]. cbn [tr_unrolled]. rewrite ld_n_same.
    destruct (ld_n ld2 false ps w n) as [vs|]; cbn [bindR]; [|reflexivity]. destruct (vop_n op accs vs); cbn [bindR]; [|reflexivity].
    destruct (_ <=? u); [apply IH|reflexivity].
  Qed.

  Lemma tr_first_same pol pol' w f l ps : same_otherwise pol pol' ->
    tr_first op ld1 pol w false f l ps = tr_first op ld2 pol' w false f l ps.
  Proof.
    intros (_ & E & _). unfold tr_first. rewrite E, same, ld_n_same. destruct (1 <? p_unroll pol'); [|reflexivity].
    destruct (_ <=? _); [|reflexivity]. destruct (ld_n _ _ _ _ _); cbn [bindR]; [|reflexivity].
    rewrite tr_unrolled_same. reflexivity.
  Qed.

  Lemma tr_loop_same fuel : forall mt w l f ps acc,
    tr_loop op ld1 fuel mt w false l f ps acc = tr_loop op ld2 fuel mt w false l f ps acc.
  Proof.
    induction fuel as [|fuel IH]; intros; [reflexivity|]. cbn [tr_loop]. rewrite same.
    destruct (if mt then negb (f =? l) else f <=? l - w); [|reflexivity]. destruct (ld2 false ps w) as [v|]; cbn [bindR]; [|reflexivity].
    destruct (vop op acc v); cbn [bindR]; [apply IH|reflexivity].
  Qed.

  Lemma tr_body_same pol pol' w a f l d ps : same_otherwise pol pol' ->
    tr_body op ld1 pol w false a f l d ps = tr_body op ld2 pol' w false a f l d ps.
  Proof.
    intros P. unfold tr_body. rewrite (tr_first_same pol pol' w f l ps P), tr_epilogue_same. destruct P as (E & _ & _). rewrite E.
    destruct (p_match pol' || (f <=? l - w)); [|reflexivity].
    destruct (tr_first op ld2 pol' w false f l ps) as [[[acc0 f'] ps1]|]; cbn [bindR]; [|reflexivity].
    rewrite tr_loop_same. destruct (tr_loop _ _ _ _ _ _ _ _ _ _) as [[acc ps2]|]; cbn [bindR]; [|reflexivity].
    destruct (w =? 1); [reflexivity|]. destruct (_ || _); [reflexivity|]. destruct (split2 _ _ _); cbn [bindR]; [|reflexivity].
    destruct (_ =? _).
    - destruct (vop op _ _); cbn [bindR]; [apply tr_epilogue_acc_same|reflexivity].
    - destruct (hreduce op _); cbn [bindR]; [apply tr_epilogue_acc_same|reflexivity].
  Qed.

  Lemma tr_const_same fuel : forall l f ps a, tr_const op ld1 fuel l f ps a = tr_const op ld2 fuel l f ps a.
  Proof.
    induction fuel as [|fuel IH]; intros; [reflexivity|]. cbn [tr_const]. rewrite same. destruct (f <? l); [|reflexivity].
    destruct (ld2 false ps 1); cbn [bindR]; [|reflexivity]. destruct (hreduce op _); cbn [bindR]; [apply IH|reflexivity].
  Qed.
End Reduce.

Theorem transform_reduce_same {T A} (op : A -> A -> A) (tr : list (list T) -> list A) c c' (m : mem T) pol pol' w first last srcs init :
  own_simd c -> own_simd c' -> same_elsewhere c c' -> same_otherwise pol pol' ->
  transform_reduce c op tr m pol w first last srcs init = transform_reduce c' op tr m pol' w first last srcs init.
Proof.
  intros H H' (_ & _ & Hc) P. unfold transform_reduce, transform_reduce_on.
  assert (L : forall ps k, ld c tr m false ps k = ld c' tr m false ps k) by reflexivity.
  rewrite !own_no_prologue, !own_unaligned, Hc, (tr_body_same op _ _ L pol pol'), (tr_const_same op _ _ L) by assumption.
  destruct P as (-> & _ & _). reflexivity.
Qed.

(** So everything proved for policies without alignment holds for all. *)
Definition forget (pol : policy) : policy := mkpol false false (p_match pol) (p_unroll pol) (p_size pol).

Lemma forget_same pol : same_otherwise pol (forget pol). Proof. repeat split. Qed.
Lemma same_self c : same_elsewhere c c. Proof. repeat split. Qed.
Lemma forget_plain pol : plain (forget pol). Proof. split; reflexivity. Qed.
Lemma forget_ok pol : policy_ok (forget pol). Proof. repeat split; discriminate. Qed.
Lemma forget_reaches c pol w a b : reaches_alignment c (forget pol) w a b. Proof. split; discriminate. Qed.

Theorem own_for_each {T St} (f : St -> list (list T) -> St * list (list T)) c pol w wb first last m st :
  own_simd c -> c_ce c = false -> width_ok w -> range_ok first last -> size_matches pol w first last -> keeps_lanes f ->
  mapped m first last ->
  exists s, run_for_each f c pol w wb first last m st = Ok s
            /\ range_is m first last (seen (s_trace s)) /\ s_st s = state_after f st (s_trace s)
            /\ forall a, ~ (first <= a < last) -> s_mem s a = m a.
Proof.
  intros H Hc Hw Hr Hm Hk Hmap.
  rewrite (run_for_each_same f c c pol (forget pol) w wb first last m st H H (same_self c) (forget_same pol)).
  exact (for_each_visits_plain T St f c (forget pol) w wb first last m st (own_target c H) Hc (forget_ok pol) (forget_plain pol)
           Hw Hr Hm Hk Hmap).
Qed.

Theorem own_transform {T} (op : list T -> T) (opv : list (list T) -> list T) c pol w first last dst srcs2 (m : mem T) :
  own_simd c -> c_ce c = false -> width_ok w -> range_ok first last -> size_matches pol w first last ->
  lanewise_op op opv ->
  Forall (fun p => mapped m p (p + (last - first))) (dst :: first :: srcs2) ->
  no_clobber dst (last - first) (first :: srcs2) ->
  exists m', run_transform opv c pol w first last dst srcs2 m = Ok (m', dst + (last - first))
             /\ transformed op (first :: srcs2) dst (last - first) m m'.
Proof.
  intros H Hc Hw Hr Hm Hl Hmap Hn.
  rewrite (run_transform_same opv c c pol (forget pol) w first last dst srcs2 m H H (same_self c) (forget_same pol)).
  exact (transform_runtime op opv c (forget pol) w first last dst srcs2 m (own_target c H) Hc (forget_ok pol)
           Hw Hr Hm (forget_reaches c pol w _ _) Hl Hmap Hn).
Qed.

Theorem own_transform_reduce {T A} (g : list T -> A) (tr : list (list T) -> list A) (op : A -> A -> A)
  c pol w first last srcs2 (m : mem T) vals init :
  own_simd c -> c_ce c = false -> width_ok w -> range_ok first last -> size_matches pol w first last ->
  (forall k, 0 < k -> transforms_at g tr (S (length srcs2)) k) ->
  transformed_are g m (first :: srcs2) (last - first) vals ->
  exists x, transform_reduce c op tr m pol w first last srcs2 init = Ok x /\ gsum op (init :: vals) x.
Proof.
  intros H Hc Hw Hr Hm Ht Hv.
  rewrite (transform_reduce_same op tr c c m pol (forget pol) w first last srcs2 init H H (same_self c) (forget_same pol)).
  exact (transform_reduce_plain g tr op c (forget pol) w first last srcs2 m vals init (own_target c H) Hc (forget_plain pol)
           Hw Hr Hm Ht Hv).
Qed.

Theorem own_count_if {T} (p : T -> bool) (pred : list T -> list bool) c lib pol w first last (m : mem T) l :
  (forall x, pred x = map p x) ->
  own_simd c -> c_ce c = false -> width_ok w -> range_ok first last -> size_matches pol w first last ->
  range_is m first last l ->
  count_if pred c lib pol w first last m
  = (if Z.of_nat (length (filter p l)) <=? int_max then Ok (Z.of_nat (length (filter p l))) else Stop SUB).
Proof.
  intros Hp H Hc Hw Hr Hm Hl.
  rewrite (count_if_same pred c c lib pol (forget pol) w first last m H H (same_self c) (forget_same pol)).
  exact (count_if_runtime_exact p pred Hp c lib (forget pol) w first last m l (own_target c H) Hc (forget_ok pol)
           Hw Hr Hm (forget_reaches c pol w _ _) Hl).
Qed.

(** A concrete machine. *)
Lemma own_example : own_simd (mkcfg 4 12 (fun _ => 4) false false).
Proof. exists (fun _ => 4), (Arith 3). split; [reflexivity|]. split; [cbn; lia|]. intros k _. reflexivity. Qed.
