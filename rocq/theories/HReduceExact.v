(** hmin and hmax of a where-expression for every floating-point content, NaN included (C21). *)
From Verif Require Import Base LaneModel IntModel ReduceModel ShapeModel HReduceModel HReduceProofs.

Lemma fold_min_nan : forall l e, e <> FNaN ->
  let r := fold_left (std_min flt) l e in
  (r = e \/ In r l) /\ r <> FNaN /\ flt e r = false /\ forall a, In a l -> flt a r = false.
Proof.
  induction l as [|x l IH]; intros e He; cbn [fold_left]; cbv zeta.
  - split; [now left|]. split; [assumption|]. split; [|intros a []]. destruct e; cbn; try congruence; lia.
  - set (e' := std_min flt e x). assert (He' : e' <> FNaN /\ (e' = e \/ e' = x) /\ flt e e' = false /\ flt x e' = false).
    { unfold e', std_min. destruct (flt x e) eqn:E.
      - split; [intros ->; discriminate|]. split; [now right|].
        split; destruct x, e; cbn in *; try congruence; lia.
      - split; [assumption|]. split; [now left|]. split; [|assumption]. destruct e; cbn; try congruence; lia. }
    destruct He' as (He' & Hor & L1 & L2). destruct (IH e' He') as (Hin & Hn & Hle & Hall).
    set (r := fold_left (std_min flt) l e') in *.
    assert (Tr : forall a, flt a e' = false -> flt a r = false).
    { intros a Ha. destruct a, e', r; cbn in *; try congruence; lia. }
    split; [destruct Hin as [->|Hin]; [destruct Hor as [->| ->]; [now left|right; now left]|right; now right] |].
    split; [assumption|]. split; [now apply Tr|]. intros a [<-|Ha]; [now apply Tr|auto].
Qed.

Definition fneg (a : fval) : fval :=
  match a with FNaN => FNaN | FNegInf => FPosInf | FPosInf => FNegInf | FFin q => FFin (- q) end.

Lemma fneg_fneg a : fneg (fneg a) = a.
Proof. destruct a; cbn; try reflexivity. f_equal. lia. Qed.

Lemma flt_fneg a b : flt (fneg a) (fneg b) = flt b a.
Proof. destruct a, b; cbn; try reflexivity. lia. Qed.

Lemma std_max_fneg a b : std_max flt a b = fneg (std_min flt (fneg a) (fneg b)).
Proof. unfold std_max, std_min. rewrite flt_fneg. destruct (flt a b); now rewrite fneg_fneg. Qed.

Lemma fold_max_nan l e : e <> FNaN ->
  let r := fold_left (std_max flt) l e in
  (r = e \/ In r l) /\ r <> FNaN /\ flt r e = false /\ forall a, In a l -> flt r a = false.
Proof.
  intros He r. assert (E : forall l e, fold_left (std_max flt) l e = fneg (fold_left (std_min flt) (map fneg l) (fneg e))).
  { clear. induction l as [|x l IH]; intros e; cbn [fold_left map]; [now rewrite fneg_fneg|].
    rewrite IH, std_max_fneg, fneg_fneg. reflexivity. }
  destruct (fold_min_nan (map fneg l) (fneg e)) as (Hin & Hn & Hle & Hall); [destruct e; cbn; congruence|].
  subst r. rewrite E. set (s := fold_left (std_min flt) (map fneg l) (fneg e)) in *.
  split; [destruct Hin as [->|Hin]; [left; apply fneg_fneg|right; apply in_map_iff in Hin; destruct Hin as (y & <- & Hy);
    now rewrite fneg_fneg]|].
  split; [destruct s; cbn; congruence|].
  split; [now rewrite <- (fneg_fneg e), flt_fneg|].
  intros a Ha. rewrite <- (fneg_fneg a), flt_fneg. apply Hall. now apply in_map.
Qed.

(** The result is never NaN; it is the minimum of the selected lanes iff some selected lane is neither NaN
    nor +inf, and max() otherwise. *)
Theorem hmin_where_float_iff q k v : length k = length v -> 0 <= q -> (forall a, In a v -> in_format q a) ->
  exists r, hmin_where flt true (float_limits q) k v = Ok r /\ r <> FNaN
    /\ (is_min flt (selected_lanes k v) r <-> exists a, In a (selected_lanes k v) /\ a <> FNaN /\ a <> FPosInf)
    /\ (~ is_min flt (selected_lanes k v) r -> r = FFin q).
Proof.
  intros Hl Hq Hv. unfold hmin_where. rewrite masked_reduce_fold by assumption. rewrite foldR_pure.
  set (l := selected_lanes k v). cbn [l_max float_limits].
  destruct (fold_min_nan l (FFin q) ltac:(discriminate)) as (Hin & Hn & Hle & Hall).
  set (r := fold_left (std_min flt) l (FFin q)) in *.
  assert (Hf : forall a, In a l -> in_format q a) by (intros a Ha; apply Hv; eapply selected_in; exact Ha).
  assert (I : is_min flt l r <-> exists a, In a l /\ a <> FNaN /\ a <> FPosInf).
  { split.
    - intros [Hr _]. exists r. split; [assumption|]. split; [assumption|]. intros E. rewrite E in Hle. discriminate.
    - intros (a & Ha & Ha1 & Ha2). split; [|assumption]. destruct Hin as [E|]; [|assumption].
      replace r with a; [assumption|]. pose proof (Hall a Ha) as L. pose proof (Hf a Ha) as F. rewrite E in *.
      destruct a; cbn in *; try congruence. f_equal. lia. }
  exists r. split; [reflexivity|]. split; [assumption|]. split; [exact I|].
  intros N. destruct Hin as [|Hin]; [assumption|]. exfalso. apply N. now split.
Qed.

Theorem hmax_where_float_iff q k v : length k = length v -> 0 <= q -> (forall a, In a v -> in_format q a) ->
  exists r, hmax_where flt true (float_limits q) k v = Ok r /\ r <> FNaN
    /\ (is_max flt (selected_lanes k v) r <-> exists a, In a (selected_lanes k v) /\ a <> FNaN /\ a <> FNegInf)
    /\ (~ is_max flt (selected_lanes k v) r -> r = FFin (- q)).
Proof.
  intros Hl Hq Hv. unfold hmax_where. rewrite masked_reduce_fold by assumption. rewrite foldR_pure.
  set (l := selected_lanes k v). cbn [l_lowest float_limits].
  destruct (fold_max_nan l (FFin (- q)) ltac:(discriminate)) as (Hin & Hn & Hle & Hall).
  set (r := fold_left (std_max flt) l (FFin (- q))) in *.
  assert (Hf : forall a, In a l -> in_format q a) by (intros a Ha; apply Hv; eapply selected_in; exact Ha).
  assert (I : is_max flt l r <-> exists a, In a l /\ a <> FNaN /\ a <> FNegInf).
  { split.
    - intros [Hr _]. exists r. split; [assumption|]. split; [assumption|]. intros E. rewrite E in Hle. discriminate.
    - intros (a & Ha & Ha1 & Ha2). split; [|assumption]. destruct Hin as [E|]; [|assumption].
      replace r with a; [assumption|]. pose proof (Hall a Ha) as L. pose proof (Hf a Ha) as F. rewrite E in *.
      destruct a; cbn in *; try congruence. f_equal. lia. }
  exists r. split; [reflexivity|]. split; [assumption|]. split; [exact I|].
  intros N. destruct Hin as [|Hin]; [assumption|]. exfalso. apply N. now split.
Qed.
