From Verif Require Import Base StructModel StructProofs AggInitModel AggInitSpec.

Section ty_ind.
  Variable P : ty -> Prop.
  Hypothesis Hs : P Scalar.
  Hypothesis Hr : forall k c, P (Ref k c).
  Hypothesis Hc : forall c, P (Class c).
  Hypothesis Ha : forall n t, P t -> P (Array n t).
  Hypothesis Hg : forall i bs ms, Forall P bs -> Forall P ms -> P (Agg i bs ms).
  Hypothesis Hd : forall t, P t -> P (Dflt t).
  Fixpoint ty_rect' (t : ty) : P t :=
    let all := fix all (l : list ty) : Forall P l :=
      match l with [] => Forall_nil _ | x :: l' => Forall_cons _ (ty_rect' x) (all l') end in
    match t with
    | Scalar => Hs
    | Ref k c => Hr k c
    | Class c => Hc c
    | Array n e => Ha n e (ty_rect' e)
    | Agg i bs ms => Hg i bs ms (all bs) (all ms)
    | Dflt e => Hd e (ty_rect' e)
    end.
End ty_ind.

Lemma is_base_of_in u T : is_base_of u T = true <-> In u (class_ids T).
Proof.
  unfold is_base_of. rewrite existsb_exists. split.
  - intros (x & Hin & Heq). apply Nat.eqb_eq in Heq. now subst.
  - intros H. exists u. split; [exact H|apply Nat.eqb_refl].
Qed.

Lemma foreign_base T u : (In u (class_ids T) -> False) -> is_base_of u T = false.
Proof. intros H. destruct (is_base_of u T) eqn:E; [|reflexivity]. apply is_base_of_in in E. destruct (H E). Qed.

Lemma foreign_cvt T t : foreign T t -> any_base_converts T t = false.
Proof.
  induction t using ty_rect'; intros Hf; cbn; try reflexivity.
  - destruct k; [reflexivity| |]; (destruct c as [c|]; [|reflexivity]); rewrite foreign_base; auto;
      intros Hin; apply (Hf (cid c)); [left; reflexivity|exact Hin|left; reflexivity|exact Hin].
  - rewrite foreign_base; auto. intros Hin. apply (Hf (cid c)); [left; reflexivity|exact Hin].
  - rewrite foreign_base; auto. intros Hin. apply (Hf i); [left; reflexivity|exact Hin].
  - apply IHt. exact Hf.
Qed.

(** any_empty_base_of is refused by types that have nothing to do with the bases. *)
Lemma foreign_any T t r : foreign T t -> consume T t (AnyBase :: r) = None.
Proof.
  revert r. induction t using ty_rect'; intros r Hf; pose proof (foreign_cvt _ _ Hf) as Hc;
    cbn [consume]; rewrite Hc; try reflexivity.
  - destruct n as [|n]; [reflexivity|]. cbn. rewrite IHt; [reflexivity|exact Hf].
  - assert (HB : forall l cs, l <> [] -> Forall (fun t => forall r, foreign T t -> consume T t (AnyBase :: r) = None) l ->
        (forall x, In x l -> foreign T x) -> in_order (consume T) l (AnyBase :: cs) = None).
    { intros l cs Hl HF Hfor. destruct l as [|x l]; [congruence|]. inversion HF; subst. cbn.
      rewrite H3; [reflexivity|]. apply Hfor. now left. }
    assert (Hfb : forall x, In x bs -> foreign T x).
    { intros x Hin j Hj. apply Hf. cbn. right. apply in_or_app. left. apply in_flat_map. eauto. }
    assert (Hfm : forall x, In x ms -> foreign T x).
    { intros x Hin j Hj. apply Hf. cbn. right. apply in_or_app. right. apply in_flat_map. eauto. }
    destruct bs as [|b bs].
    + destruct ms as [|m ms]; [reflexivity|]. cbn [in_order]. fold (in_order (consume T)).
      apply (HB (m :: ms)); [congruence|exact H0|exact Hfm].
    + fold (in_order (consume T)). rewrite (HB (b :: bs)); [reflexivity|congruence|exact H|exact Hfb].
  - apply IHt. exact Hf.
Qed.

(** A clause with braces is consumed, or refused, whatever follows. *)
Lemma braced_next T t r : consume T t (Braced :: r) = if takes T t then Some r else None.
Proof.
  unfold takes. revert r. induction t using ty_rect'; intros r; cbn [consume].
  - reflexivity.
  - destruct k; try reflexivity; destruct c as [c|]; try reflexivity; destruct (ctakes c); reflexivity.
  - destruct (ctakes c); reflexivity.
  - destruct (n_times _ _ _) as [[|]|]; reflexivity.
  - destruct (in_order _ bs _) as [x|]; [|reflexivity].
    destruct (in_order _ ms _) as [[|]|]; reflexivity.
  - apply IHt.
Qed.

Lemma in_order_app f a b cs :
  in_order f (a ++ b) cs = match in_order f a cs with Some r => in_order f b r | None => None end.
Proof. revert cs. induction a as [|x a IH]; intros cs; cbn; [reflexivity|]. destruct (f x cs); [apply IH|reflexivity]. Qed.

Lemma in_order_empty T ms : in_order (consume T) ms [] = if forallb from_empty ms then Some [] else None.
Proof.
  induction ms as [|m ms IH]; cbn [in_order forallb]; [reflexivity|].
  replace (consume T m []) with (if from_empty m then Some (@nil clause) else None) by (destruct m; reflexivity).
  destruct (from_empty m); [exact IH|reflexivity].
Qed.

Lemma in_order_braced T ms n :
  match in_order (consume T) ms (repeat Braced n) with Some [] => true | _ => false end
  = (n <=? leading T ms)%nat && forallb from_empty (skipn n ms).
Proof.
  revert n. induction ms as [|m ms IH]; intros [|n].
  - reflexivity.
  - reflexivity.
  - rewrite in_order_empty. cbn [skipn]. destruct (forallb _ _); reflexivity.
  - cbn [repeat in_order]. fold (in_order (consume T)). rewrite braced_next. cbn [leading].
    destruct (takes T m); [|reflexivity]. rewrite IH. reflexivity.
Qed.

Lemma leading_le T ms : (leading T ms <= length ms)%nat.
Proof. induction ms as [|m ms IH]; cbn; [lia|]. destruct (takes T m); lia. Qed.

Lemma leading_all T ms : leading T ms = length ms <-> Forall (fun m => takes T m = true) ms.
Proof.
  induction ms as [|m ms IH]; cbn; [split; [constructor|reflexivity]|].
  destruct (takes T m) eqn:E; split; intros H.
  - constructor; [exact E|]. apply IH. lia.
  - inversion H; subst. f_equal. now apply IH.
  - discriminate.
  - inversion H; subst. congruence.
Qed.

Lemma skipn_mono (f : ty -> bool) a b ms : (a <= b)%nat -> forallb f (skipn a ms) = true -> forallb f (skipn b ms) = true.
Proof.
  intros Hle. assert (Hb : b = (a + (b - a))%nat) by lia. rewrite Hb. clear Hle Hb.
  generalize (b - a)%nat. intros d. revert a ms. induction a as [|a IH]; intros ms H; cbn in *.
  - rewrite forallb_forall in *. intros x Hin. apply H.
    rewrite <- (firstn_skipn d ms). apply in_or_app. now right.
  - destruct ms as [|m ms]; [destruct d; reflexivity|]. now apply IH.
Qed.

(** The interval of accepted numbers. *)
Definition accepts (T : ty) (ms : list ty) (n : nat) : bool :=
  (n <=? leading T ms)%nat && forallb from_empty (skipn n ms).

(** The search, given that the accepted numbers are those of the member list. *)
Lemma search T ms sizeof fuel : is_aggregate T = true ->
  0 < sizeof -> sizeof * 8 < two64 - 1 -> sizeof * 8 < Z.of_nat fuel -> Z.of_nat (length ms) <= sizeof * 8 ->
  (forall n, aggregate_with_n_members T n = accepts T ms n) ->
  reflect_size None T fuel sizeof = Ok (Z.of_nat (found T ms)).
Proof.
  intros Hagg H1 H2 H3 H4 Hacc. unfold reflect_size. rewrite Hagg.
  set (valid := fun k => _).
  pose proof (leading_le T ms) as Hle.
  assert (Hval : forall k, valid k = true <-> 0 <= k /\ accepts T ms (Z.to_nat k) = true).
  { intros k. unfold valid. rewrite andb_true_iff, Hacc. rewrite Z.leb_le. reflexivity. }
  unfold found. destruct (forallb from_empty (skipn (leading T ms) ms)) eqn:E.
  - (* least accepted number *)
    assert (Hex : exists a, (a <= leading T ms)%nat /\ forall n, accepts T ms n = true <-> (a <= n <= leading T ms)%nat).
    { clear - E. unfold accepts.
      assert (G : forall j, (j <= leading T ms)%nat -> exists a, (a <= leading T ms)%nat /\
                 forallb from_empty (skipn a ms) = true /\
                 (forall n, (leading T ms - j <= n)%nat -> (n <= leading T ms)%nat ->
                    (forallb from_empty (skipn n ms) = true <-> (a <= n)%nat))).
      { induction j as [|j IH]; intros Hj.
        - exists (leading T ms). split; [lia|]. split; [exact E|]. intros n Hn Hn'. assert (n = leading T ms) by lia. subst n.
          split; [lia|intros _; exact E].
        - destruct IH as (a & Ha & Ha1 & Ha2); [lia|].
          destruct (forallb from_empty (skipn (leading T ms - S j) ms)) eqn:E2.
          + exists (leading T ms - S j)%nat. split; [lia|]. split; [exact E2|]. intros n Hn Hn'. split; [lia|].
            intros _. eapply skipn_mono; [|exact E2]. lia.
          + exists a. split; [lia|]. split; [exact Ha1|]. intros n Hn Hn'.
            destruct (Nat.eq_dec n (leading T ms - S j)) as [->|Hne].
            * rewrite E2. split; [discriminate|]. intros Hlt. exfalso.
              rewrite (skipn_mono _ a _ ms Hlt Ha1) in E2. discriminate.
            * apply Ha2; lia. }
      destruct (G (leading T ms)) as (a & Ha & _ & Ha2); [lia|]. exists a. split; [exact Ha|].
      intros n. rewrite andb_true_iff, Nat.leb_le. split.
      - intros [Hn Hf]. split; [|exact Hn]. apply Ha2; [lia|exact Hn|exact Hf].
      - intros [Hn1 Hn2]. split; [exact Hn2|]. apply Ha2; [lia|exact Hn2|exact Hn1]. }
    destruct Hex as (a & Ha & Haa).
    destruct (struct_size_interval valid sizeof fuel (Z.of_nat a) (Z.of_nat (leading T ms))) as [ps Hps];
      [exact H1|exact H2|exact H3|lia|lia| |].
    + intros k. rewrite Hval, Haa. lia.
    + rewrite Hps. reflexivity.
  - (* nothing is accepted *)
    assert (Hno : forall k, valid k = false).
    { intros k. destruct (valid k) eqn:Ek; [|reflexivity]. apply Hval in Ek. destruct Ek as [_ Ek].
      unfold accepts in Ek. apply andb_true_iff in Ek. destruct Ek as [Ek1 Ek2]. apply Nat.leb_le in Ek1.
      rewrite (skipn_mono _ _ _ _ Ek1 Ek2) in E. discriminate. }
    destruct (struct_size_v_best valid sizeof fuel H1 H2 H3) as (r & ps & Hr & Hb & _ & _).
    { intros x y z _ _ _ Hx. rewrite Hno in Hx. discriminate. }
    rewrite Hr. cbn. f_equal. destruct Hb as [(_ & Hb & _)|[-> _] ]; [|reflexivity].
    rewrite Hno in Hb. discriminate.
Qed.

(** ** Empty bases *)

Lemma any_base_next T b r : is_empty b = true -> incl (class_ids b) (class_ids T) ->
  consume T b (AnyBase :: r) = Some r.
Proof.
  intros He Hin. destruct b; try discriminate; cbn [consume any_base_converts].
  - cbn in He. rewrite He. rewrite (proj2 (is_base_of_in _ _)); [reflexivity|]. apply Hin. now left.
  - rewrite He. rewrite (proj2 (is_base_of_in _ _)); [reflexivity|]. apply Hin. now left.
Qed.

Lemma empty_refuses T t r : is_empty t = true -> incl (class_ids t) (class_ids T) ->
  consume T t (Bare :: r) = None.
Proof.
  revert r. induction t using ty_rect'; intros r He Hin; try discriminate; cbn [consume anything_converts].
  - rewrite (proj2 (is_base_of_in _ _)); [reflexivity|]. apply Hin. now left.
  - rewrite (proj2 (is_base_of_in _ _)) by (apply Hin; now left). cbn [negb andb].
    cbn in He. destruct ms; [|discriminate].
    destruct bs as [|b bs]; [reflexivity|]. cbn in He. apply andb_true_iff in He. destruct He as [He _].
    inversion H; subst. cbn [in_order]. rewrite H3; [reflexivity|exact He|].
    intros x Hx. apply Hin. cbn. right. apply in_or_app. now left.
Qed.

Lemma empty_base_refuses T b : empty_base b -> incl (class_ids b) (class_ids T) -> takes T b = false.
Proof.
  intros [He Hb] Hin. destruct b; try discriminate; unfold takes; cbn [consume].
  - rewrite Hb. reflexivity.
  - cbn in He. destruct ms; [|discriminate]. destruct bs as [|b bs]; [reflexivity|].
    cbn in He. apply andb_true_iff in He. destruct He as [He _].
    cbn [in_order]. rewrite empty_refuses; [reflexivity|exact He|].
    intros x Hx. apply Hin. cbn. right. apply in_or_app. now left.
Qed.

Definition run (T : ty) (bs ms : list ty) (cs : list clause) : bool :=
  match in_order (consume T) bs cs with
  | Some rest => match in_order (consume T) ms rest with Some [] => true | _ => false end
  | None => false
  end.

Lemma run_bases T bs ms k n :
  Forall empty_base bs -> (forall b, In b bs -> incl (class_ids b) (class_ids T)) -> Forall (foreign T) ms ->
  run T bs ms (repeat AnyBase k ++ repeat Braced n)
  = if (k <? length bs)%nat then (n =? 0)%nat && forallb from_empty (skipn k bs) && forallb from_empty ms
    else (k =? length bs)%nat && accepts T ms n.
Proof.
  intros Hb Hin Hm. revert k. induction Hb as [|b bs Hb1 Hb2 IH]; intros k.
  - unfold run. cbn [in_order length]. destruct k as [|k].
    + cbn [repeat app Nat.ltb Nat.leb Nat.eqb andb]. apply in_order_braced.
    + cbn [repeat app Nat.ltb Nat.leb Nat.eqb andb]. destruct ms as [|m ms]; [reflexivity|].
      inversion Hm; subst. cbn [in_order]. rewrite foreign_any by assumption. reflexivity.
  - destruct k as [|k].
    + cbn [repeat app]. unfold run. cbn [in_order]. destruct n as [|n].
      * cbn [repeat]. fold (in_order (consume T) bs).
        pose proof (in_order_empty T (b :: bs)) as E. cbn [in_order] in E. fold (in_order (consume T)) in *.
        rewrite E. cbn [length skipn Nat.eqb andb].
        replace (0 <? S (length bs))%nat with true by (symmetry; now apply Nat.ltb_lt; lia).
        destruct (forallb from_empty (b :: bs)); [|reflexivity]. rewrite in_order_empty. cbn [andb].
        destruct (forallb from_empty ms); reflexivity.
      * cbn [repeat]. rewrite braced_next, empty_base_refuses; [|exact Hb1|apply Hin; now left].
        cbn. reflexivity.
    + cbn [repeat app]. unfold run. cbn [in_order]. rewrite any_base_next; [|apply Hb1|apply Hin; now left].
      fold (in_order (consume T)). fold (run T bs ms (repeat AnyBase k ++ repeat Braced n)).
      rewrite IH by (intros; apply Hin; now right). cbn [length skipn].
      change (S k <? S (length bs))%nat with (k <? length bs)%nat. reflexivity.
Qed.

Lemma base_ids i bs ms b : In b bs -> incl (class_ids b) (class_ids (Agg i bs ms)).
Proof. intros Hb x Hx. cbn. right. apply in_flat_map. eauto. Qed.

Lemma accepts_zero T ms : accepts T ms 0 = forallb from_empty ms.
Proof. reflexivity. Qed.

Lemma alternatives T bs ms n :
  (length bs <= 3)%nat ->
  Forall empty_base bs -> (forall b, In b bs -> incl (class_ids b) (class_ids T)) -> Forall (foreign T) ms ->
  run T bs ms (repeat Braced n)
  || run T bs ms (AnyBase :: repeat Braced n)
  || run T bs ms (AnyBase :: AnyBase :: repeat Braced n)
  || run T bs ms (AnyBase :: AnyBase :: AnyBase :: repeat Braced n) = accepts T ms n.
Proof.
  intros Hlen Hb Hin Hm.
  pose proof (fun k => run_bases T bs ms k n Hb Hin Hm) as R.
  pose proof (R 0%nat) as R0. pose proof (R 1%nat) as R1. pose proof (R 2%nat) as R2. pose proof (R 3%nat) as R3.
  cbn [repeat app] in R0, R1, R2, R3. rewrite R0, R1, R2, R3. clear R R0 R1 R2 R3.
  assert (Hz : forall x, (n =? 0)%nat && x && forallb from_empty ms = true -> accepts T ms n = true).
  { intros x Hx. apply andb_true_iff in Hx. destruct Hx as [Hx H3]. apply andb_true_iff in Hx. destruct Hx as [Hx _].
    apply Nat.eqb_eq in Hx. subst n. exact H3. }
  destruct bs as [|b1 [|b2 [|b3 [|b4 bs] ] ] ]; cbn [length Nat.ltb Nat.leb Nat.eqb andb orb] in *; try lia;
    rewrite ?orb_false_r.
  - reflexivity.
  - set (x := (_ && _ && _)) at 1. destruct x eqn:E; [|reflexivity]. cbn. symmetry. eapply Hz. exact E.
  - set (x := (_ && _ && _)) at 1. destruct x eqn:E; [cbn; symmetry; eapply Hz; exact E|].
    set (y := (_ && _ && _)) at 1. destruct y eqn:E2; [cbn; symmetry; eapply Hz; exact E2|]. reflexivity.
  - set (x := (_ && _ && _)) at 1. destruct x eqn:E; [cbn; symmetry; eapply Hz; exact E|].
    set (y := (_ && _ && _)) at 1. destruct y eqn:E2; [cbn; symmetry; eapply Hz; exact E2|].
    set (z := (_ && _ && _)) at 1. destruct z eqn:E3; [cbn; symmetry; eapply Hz; exact E3|]. reflexivity.
Qed.

Lemma size_bases i bs ms sizeof fuel : (length bs <= 3)%nat -> Forall empty_base bs ->
  Forall (foreign (Agg i bs ms)) ms ->
  0 < sizeof -> sizeof * 8 < two64 - 1 -> sizeof * 8 < Z.of_nat fuel -> Z.of_nat (length ms) <= sizeof * 8 ->
  reflect_size None (Agg i bs ms) fuel sizeof = Ok (Z.of_nat (found (Agg i bs ms) ms)).
Proof.
  intros. apply search; auto. intros n.
  apply (alternatives (Agg i bs ms) bs ms n); auto. intros b Hb. apply base_ids. exact Hb.
Qed.

Lemma found_all T ms : found T ms = length ms <-> Forall (fun m => takes T m = true) ms.
Proof.
  unfold found. destruct (forallb _ _) eqn:E.
  - apply leading_all.
  - split.
    + destruct ms; [constructor|discriminate].
    + intros H. apply leading_all in H. rewrite H, skipn_all in E. discriminate.
Qed.

Lemma scalars_from_empty n : forallb from_empty (repeat Scalar n) = true.
Proof. induction n; [reflexivity|]. exact IHn. Qed.

Lemma usual_takes T t : usual t -> takes T t = true.
Proof.
  induction 1; try reflexivity.
  - unfold takes. cbn. rewrite H. reflexivity.
  - assert (E : n_times (consume T Scalar) (S n) [Bare] = Some []) by (induction n; [reflexivity|exact IHn]).
    change (match (match n_times (consume T Scalar) (S n) [Bare] with Some [] => Some (@nil clause) | _ => None end) with
            Some [] => true | _ => false end = true). rewrite E. reflexivity.
  - unfold takes. cbn [consume in_order repeat anything_converts]. fold (in_order (consume T)).
    rewrite in_order_empty, scalars_from_empty. reflexivity.
  - unfold takes in *. exact IHusual.
Qed.

Lemma empty_no_data t : is_empty t = true -> data_classes t = [].
Proof.
  induction t using ty_rect'; intros He; try discriminate; cbn in *.
  - rewrite He. reflexivity.
  - destruct ms; [|discriminate]. rewrite app_nil_r.
    induction H; [reflexivity|]. cbn in *. apply andb_true_iff in He. destruct He as [He1 He2].
    rewrite H, IHForall by assumption. reflexivity.
Qed.

Lemma empty_bases_no_data bs : Forall empty_base bs -> flat_map data_classes bs = [].
Proof. induction 1; [reflexivity|]. cbn. rewrite IHForall, empty_no_data by apply H. reflexivity. Qed.

Lemma bindings_members i bs ms : Forall empty_base bs -> bindings (Agg i bs ms) = Some (length ms).
Proof.
  intros H. unfold bindings. cbn [data_classes]. rewrite empty_bases_no_data by exact H.
  destruct ms; reflexivity.
Qed.

Lemma members_iff i bs ms sizeof fuel : (length bs <= 3)%nat -> Forall empty_base bs ->
  Forall (foreign (Agg i bs ms)) ms ->
  0 < sizeof -> sizeof * 8 < two64 - 1 -> sizeof * 8 < Z.of_nat fuel -> Z.of_nat (length ms) <= sizeof * 8 ->
  bindings (Agg i bs ms) = Some (length ms) /\
  (reflect_size None (Agg i bs ms) fuel sizeof = Ok (Z.of_nat (length ms))
   <-> Forall (fun m => takes (Agg i bs ms) m = true) ms).
Proof.
  intros. split; [now apply bindings_members|]. rewrite size_bases by assumption. rewrite <- found_all.
  split; [intros E; injection E; lia|intros ->; reflexivity].
Qed.

Lemma members_usual i bs ms sizeof fuel : (length bs <= 3)%nat -> Forall empty_base bs ->
  Forall usual ms -> Forall (foreign (Agg i bs ms)) ms ->
  0 < sizeof -> sizeof * 8 < two64 - 1 -> sizeof * 8 < Z.of_nat fuel -> Z.of_nat (length ms) <= sizeof * 8 ->
  exists n, bindings (Agg i bs ms) = Some n /\ reflect_size None (Agg i bs ms) fuel sizeof = Ok (Z.of_nat n).
Proof.
  intros. exists (length ms). destruct (members_iff i bs ms sizeof fuel) as [Hb Hi]; auto. split; [exact Hb|].
  apply Hi. eapply Forall_impl; [|exact H1]. intros. now apply usual_takes.
Qed.

Lemma never_takes T : (forall c, takes T (Ref ToMutable c) = false) /\ (forall i, takes T (Agg i [] []) = false).
Proof. split; reflexivity. Qed.

(** ** Arrays *)

Lemma n_times_in_order T e n cs : n_times (consume T e) n cs = in_order (consume T) (repeat e n) cs.
Proof. revert cs. induction n as [|n IH]; intros cs; cbn; [reflexivity|]. destruct (consume T e cs); [apply IH|reflexivity]. Qed.

Lemma leading_repeat T e n : leading T (repeat e n) = if takes T e then n else 0%nat.
Proof. induction n as [|n IH]; cbn; [now destruct (takes T e)|]. destruct (takes T e); [now rewrite IH|reflexivity]. Qed.

Lemma array_size n e sizeof fuel :
  0 < sizeof -> sizeof * 8 < two64 - 1 -> sizeof * 8 < Z.of_nat fuel -> Z.of_nat n <= sizeof * 8 ->
  reflect_size None (Array n e) fuel sizeof = Ok (if takes (Array n e) e then Z.of_nat n else 0).
Proof.
  intros. rewrite (search (Array n e) (repeat e n)); auto.
  - unfold found. rewrite leading_repeat. destruct (takes (Array n e) e).
    + rewrite skipn_all2 by (rewrite repeat_length; lia). reflexivity.
    + destruct (forallb _ _); reflexivity.
  - rewrite repeat_length. lia.
  - intros k.
    assert (E : forall cs, brace_init (Array n e) cs = run (Array n e) [] (repeat e n) cs).
    { intros cs. unfold brace_init, run. rewrite n_times_in_order. reflexivity. }
    unfold aggregate_with_n_members. rewrite !E.
    apply alternatives; [cbn; lia|constructor|intros b []|].
    apply Forall_forall. intros x _ i _ [].
Qed.

(** ** All members in one base *)

Lemma size_zero T sizeof fuel : is_aggregate T = true ->
  0 < sizeof -> sizeof * 8 < two64 - 1 -> sizeof * 8 < Z.of_nat fuel ->
  (forall n, aggregate_with_n_members T n = true -> n = 0%nat) ->
  reflect_size None T fuel sizeof = Ok 0.
Proof.
  intros Ha H1 H2 H3 H. unfold reflect_size. rewrite Ha. set (valid := fun k => _).
  assert (Hv : forall k, valid k = true -> k = 0).
  { intros k Hk. unfold valid in Hk. apply andb_true_iff in Hk. destruct Hk as [Hk1 Hk2]. apply H in Hk2. lia. }
  destruct (struct_size_v_best valid sizeof fuel H1 H2 H3) as (r & ps & Hr & Hb & _ & _).
  { intros x y z _ Hxyz _ Hx Hz. apply Hv in Hx as Hx'. apply Hv in Hz. replace y with x by lia. exact Hx. }
  rewrite Hr. cbn. f_equal. destruct Hb as [(_ & Hb & _)|[-> _] ]; [|reflexivity]. now apply Hv.
Qed.

Lemma many_bases i bs ms sizeof fuel : (3 < length bs)%nat -> Forall empty_base bs ->
  Forall (foreign (Agg i bs ms)) ms ->
  0 < sizeof -> sizeof * 8 < two64 - 1 -> sizeof * 8 < Z.of_nat fuel ->
  bindings (Agg i bs ms) = Some (length ms) /\ reflect_size None (Agg i bs ms) fuel sizeof = Ok 0.
Proof.
  intros Hlen Hb Hm H1 H2 H3. split; [now apply bindings_members|]. apply size_zero; auto.
  intros n Hn. set (T := Agg i bs ms) in *.
  assert (Hin : forall b, In b bs -> incl (class_ids b) (class_ids T)) by (intros b Hin; apply base_ids; exact Hin).
  pose proof (fun k => run_bases T bs ms k n Hb Hin Hm) as R.
  pose proof (R 0%nat) as R0. pose proof (R 1%nat) as R1. pose proof (R 2%nat) as R2. pose proof (R 3%nat) as R3.
  cbn [repeat app] in R0, R1, R2, R3.
  change (run T bs ms (repeat Braced n) || run T bs ms (AnyBase :: repeat Braced n)
          || run T bs ms (AnyBase :: AnyBase :: repeat Braced n)
          || run T bs ms (AnyBase :: AnyBase :: AnyBase :: repeat Braced n) = true) in Hn.
  rewrite R0, R1, R2, R3 in Hn.
  rewrite !(proj2 (Nat.ltb_lt _ _)) in Hn by lia.
  destruct n; [reflexivity|]. discriminate.
Qed.

Lemma derived_run i j es ms k n : let T := Agg i [Agg j es ms] [] in ms <> [] ->
  brace_init T (AnyBase :: repeat AnyBase k ++ repeat Braced n)
  = run T es ms (AnyBase :: repeat AnyBase k ++ repeat Braced n).
Proof.
  intros T Hms. unfold brace_init, T. cbn [in_order]. fold T.
  cbn [consume any_base_converts]. replace (is_empty (Agg j es ms)) with false by (destruct ms; [congruence|reflexivity]).
  rewrite andb_false_r. destruct ms as [|m ms]; [congruence|].
  unfold run. destruct es as [|e es].
  - destruct (in_order (consume T) [] _) as [r|]; [|reflexivity].
    destruct (in_order (consume T) (m :: ms) r) as [ [|]|]; reflexivity.
  - destruct (in_order (consume T) (e :: es) _) as [r|]; [|reflexivity].
    destruct (in_order (consume T) (m :: ms) r) as [ [|]|]; reflexivity.
Qed.

Lemma derived_empty_bases i j es ms sizeof fuel : let T := Agg i [Agg j es ms] [] in
  ms <> [] -> (1 <= length es <= 3)%nat -> Forall empty_base es -> Forall (foreign T) ms ->
  0 < sizeof -> sizeof * 8 < two64 - 1 -> sizeof * 8 < Z.of_nat fuel -> Z.of_nat (length ms) <= sizeof * 8 ->
  reflect_size None T fuel sizeof = Ok (Z.of_nat (found T ms)).
Proof.
  intros T Hms Hlen Hb Hm H1 H2 H3 H4. apply search; auto. intros n.
  assert (Hin : forall b, In b es -> incl (class_ids b) (class_ids T)).
  { intros b Hb1 x Hx. cbn. right. right. apply in_or_app. left. apply in_flat_map. eauto. }
  rewrite <- (alternatives T es ms n) by (auto; lia).
  unfold aggregate_with_n_members.
  pose proof (derived_run i j es ms 0 n Hms) as D1. pose proof (derived_run i j es ms 1 n Hms) as D2.
  pose proof (derived_run i j es ms 2 n Hms) as D3. cbn [repeat app] in D1, D2, D3. cbv zeta in D1, D2, D3. fold T in D1, D2, D3.
  rewrite D1, D2, D3. do 3 f_equal. clear D1 D2 D3.
  pose proof (run_bases T es ms 0 n Hb Hin Hm) as R. cbn [repeat app] in R. rewrite R.
  rewrite (proj2 (Nat.ltb_lt _ _)) by lia. cbn [skipn].
  unfold brace_init, T. cbn [in_order]. fold T. destruct n as [|n].
  - cbn [repeat consume from_empty Nat.eqb andb].
    destruct (forallb from_empty es && forallb from_empty ms); reflexivity.
  - cbn [repeat]. rewrite braced_next. unfold takes. cbn [consume].
    destruct es as [|e es]; [cbn in Hlen; lia|]. cbn [in_order].
    inversion Hb; subst. rewrite empty_refuses; [reflexivity|apply H5|apply Hin; now left].
Qed.

Lemma derived_bindings i j es ms : ms <> [] -> Forall empty_base es ->
  bindings (Agg i [Agg j es ms] []) = Some (length ms).
Proof.
  intros Hms Hes. unfold bindings. cbn. rewrite empty_bases_no_data by exact Hes. destruct ms; [congruence|reflexivity].
Qed.

Lemma derived_plain i j ms sizeof fuel : let T := Agg i [Agg j [] ms] [] in
  ms <> [] -> Forall (foreign T) ms ->
  0 < sizeof -> sizeof * 8 < two64 - 1 -> sizeof * 8 < Z.of_nat fuel ->
  reflect_size None T fuel sizeof = Ok (if takes T (Agg j [] ms) then 1 else 0).
Proof.
  intros T Hms Hm H1 H2 H3.
  assert (HA : forall n, aggregate_with_n_members T n
                = match n with O => forallb from_empty ms | 1%nat => takes T (Agg j [] ms) | _ => false end).
  { intros n. unfold aggregate_with_n_members.
    pose proof (derived_run i j [] ms 0 n Hms) as D1. pose proof (derived_run i j [] ms 1 n Hms) as D2.
    pose proof (derived_run i j [] ms 2 n Hms) as D3. cbn [repeat app] in D1, D2, D3. cbv zeta in D1, D2, D3. fold T in D1, D2, D3.
    rewrite D1, D2, D3.
    assert (HN : forall cs, run T [] ms (AnyBase :: cs) = false).
    { intros cs. unfold run. cbn [in_order]. destruct ms as [|m ms']; [congruence|]. inversion Hm; subst.
      cbn [in_order]. rewrite foreign_any by assumption. reflexivity. }
    rewrite !HN, !orb_false_r. unfold brace_init, T. cbn [in_order]. fold T. destruct n as [|[|n] ].
    - cbn [repeat consume from_empty forallb andb]. destruct (forallb from_empty ms); reflexivity.
    - cbn [repeat]. rewrite braced_next. destruct (takes T _); reflexivity.
    - cbn [repeat]. rewrite braced_next. destruct (takes T _); reflexivity. }
  destruct (takes T (Agg j [] ms)) eqn:E.
  - unfold reflect_size. cbn [is_aggregate T].
    set (valid := fun k => _).
    destruct (struct_size_interval valid sizeof fuel (if forallb from_empty ms then 0 else 1) 1) as [ps Hps];
      [exact H1|exact H2|exact H3|destruct (forallb _ _); lia|lia| |].
    + intros k. unfold valid. rewrite andb_true_iff, HA, Z.leb_le.
      destruct (Z.to_nat k) as [|[|n] ] eqn:Ek.
      * destruct (forallb from_empty ms); split; intros; try lia; try discriminate; split; try lia; auto.
      * destruct (forallb from_empty ms); split; intros; try lia; split; try lia; auto.
      * split; [intros [_ Hf]; discriminate|]. destruct (forallb from_empty ms); lia.
    + rewrite Hps. reflexivity.
  - apply size_zero; auto. intros n Hn. rewrite HA in Hn. destruct n as [|[|n] ]; [reflexivity|congruence|discriminate].
Qed.

Lemma derived_plain_iff i j ms sizeof fuel : let T := Agg i [Agg j [] ms] [] in
  ms <> [] -> Forall (foreign T) ms ->
  0 < sizeof -> sizeof * 8 < two64 - 1 -> sizeof * 8 < Z.of_nat fuel ->
  bindings T = Some (length ms) /\
  (reflect_size None T fuel sizeof = Ok (Z.of_nat (length ms)) <-> length ms = 1%nat /\ takes T (Agg j [] ms) = true).
Proof.
  intros T Hms Hm H1 H2 H3. split; [apply derived_bindings; [exact Hms|constructor]|].
  pose proof (derived_plain i j ms sizeof fuel Hms Hm H1 H2 H3) as D. cbv zeta in D. fold T in D. rewrite D.
  destruct (takes T (Agg j [] ms)).
  - split; [intros E; injection E; intros; split; [lia|reflexivity]|]. intros [-> _]. reflexivity.
  - split; [|intros [_ F]; discriminate]. intros E. injection E as E. destruct ms; [congruence|cbn in E; lia].
Qed.

Lemma derived_empty_bases_iff i j es ms sizeof fuel : let T := Agg i [Agg j es ms] [] in
  ms <> [] -> (1 <= length es <= 3)%nat -> Forall empty_base es -> Forall (foreign T) ms ->
  0 < sizeof -> sizeof * 8 < two64 - 1 -> sizeof * 8 < Z.of_nat fuel -> Z.of_nat (length ms) <= sizeof * 8 ->
  bindings T = Some (length ms) /\
  (reflect_size None T fuel sizeof = Ok (Z.of_nat (length ms)) <-> Forall (fun m => takes T m = true) ms).
Proof.
  intros T Hms Hlen Hb Hm H1 H2 H3 H4. split; [now apply derived_bindings|].
  pose proof (derived_empty_bases i j es ms sizeof fuel Hms Hlen Hb Hm H1 H2 H3 H4) as D. cbv zeta in D. fold T in D. rewrite D.
  rewrite <- found_all. split; [intros E; injection E; lia|intros ->; reflexivity].
Qed.

Lemma array_iff n e sizeof fuel :
  0 < sizeof -> sizeof * 8 < two64 - 1 -> sizeof * 8 < Z.of_nat fuel -> Z.of_nat n <= sizeof * 8 ->
  bindings (Array n e) = Some n /\
  (reflect_size None (Array n e) fuel sizeof = Ok (Z.of_nat n) <-> n = 0%nat \/ takes (Array n e) e = true).
Proof.
  intros. split; [reflexivity|]. rewrite array_size by assumption. destruct (takes (Array n e) e).
  - split; [now right|reflexivity].
  - split; [intros E; injection E as E; left; lia|]. intros [-> | F]; [reflexivity|discriminate].
Qed.

Lemma member_refuted i bs ms m sizeof fuel : (length bs <= 3)%nat -> Forall empty_base bs ->
  Forall (foreign (Agg i bs ms)) ms ->
  0 < sizeof -> sizeof * 8 < two64 - 1 -> sizeof * 8 < Z.of_nat fuel -> Z.of_nat (length ms) <= sizeof * 8 ->
  In m ms -> (exists c, m = Ref ToMutable c) \/ (exists j, m = Agg j [] []) ->
  bindings (Agg i bs ms) = Some (length ms)
  /\ reflect_size None (Agg i bs ms) fuel sizeof <> Ok (Z.of_nat (length ms)).
Proof.
  intros Hl Hb Hf H1 H2 H3 H4 Hin Hm. destruct (members_iff i bs ms sizeof fuel) as [Hbi Hi]; auto.
  split; [exact Hbi|]. intros E. apply Hi in E. rewrite Forall_forall in E. specialize (E m Hin).
  destruct (never_takes (Agg i bs ms)) as [N1 N2].
  destruct Hm as [ [c ->] | [j ->] ]; [rewrite N1 in E|rewrite N2 in E]; discriminate.
Qed.

(** struct E { E() = default; E(int); }; struct T : E { int a; }; *)
Lemma converting_base :
  exists T n sizeof fuel, bindings T = Some n /\ reflect_size None T fuel sizeof = Ok (Z.of_nat n + 1).
Proof.
  exists (Agg 1 [Class (mkcls 2 true true true true)] [Scalar]), 1%nat, 4, 40%nat. split; vm_compute; reflexivity.
Qed.

(** struct E {}; struct F : E { int v; }; struct M { F f; int i; }; struct T : E { M m; }; *)
Lemma base_in_member :
  exists T n sizeof fuel, bindings T = Some n /\ reflect_size None T fuel sizeof = Ok (Z.of_nat n + 1)
    /\ match T with Agg _ bs ms => Forall empty_base bs /\ Forall (fun m => takes T m = true) ms | _ => False end.
Proof.
  exists (Agg 1 [Agg 2 [] [] ] [Agg 3 [] [Agg 4 [Agg 2 [] [] ] [Scalar]; Scalar] ]), 1%nat, 8, 80%nat.
  split; [vm_compute; reflexivity|]. split; [vm_compute; reflexivity|].
  split; (constructor; [|constructor]); [split; [reflexivity|exact I]|vm_compute; reflexivity].
Qed.

Lemma tuple_like T fuel sizeof : (forall n, reflect_size (Some n) T fuel sizeof = Ok n)
  /\ (is_aggregate T = false -> reflect_size None T fuel sizeof = Stop SIllFormed).
Proof. split; [reflexivity|]. intros H. unfold reflect_size. rewrite H. reflexivity. Qed.
