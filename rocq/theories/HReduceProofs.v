(** Proofs about horizontal reductions (C20, C21). *)
From Verif Require Import Base BaseFacts LaneModel LaneProofs MaskModel MaskProofs IntModel IntProofs WhereProofs
  ReduceModel ReduceSpec ReduceProofs ShapeModel ShapeProofs HReduceModel.
From Coq Require Import ZifyBool ZifyNat Permutation.
Ltac Zify.zify_post_hook ::= idtac.

(** Specification: the selected lanes in order, and a left fold. *)
Definition selected_lanes {T} (k : list bool) (v : list T) : list T := map snd (filter fst (combine k v)).
Fixpoint foldR {T} (op : T -> T -> res T) (l : list T) (r : T) : res T :=
  match l with [] => Ok r | x :: l' => bindR (op r x) (foldR op l') end.

Lemma masked_loop {T} (op : T -> T -> res T) : forall k v dk dv r, length dk = length dv -> length k = length v ->
  loop (length dv) (length v) (fun i r =>
     bindR (subscript (dk ++ k) (Z.of_nat i)) (fun b : bool =>
       if b then bindR (subscript (dv ++ v) (Z.of_nat i)) (fun x => op r x) else Ok r)) r
  = foldR op (selected_lanes k v) r.
Proof.
  induction k as [|b k IH]; intros v dk dv r Hd Hl.
  - destruct v; [reflexivity|discriminate].
  - destruct v as [|x v]; [discriminate|]. cbn [length loop].
    rewrite (subscript_some _ (length dv) b) by (rewrite <- Hd, nth_error_app2, Nat.sub_diag by lia; reflexivity).
    rewrite (subscript_some _ (length dv) x) by (rewrite nth_error_app2, Nat.sub_diag by lia; reflexivity).
    assert (R : forall r', loop (S (length dv)) (length v) (fun i r =>
       bindR (subscript (dk ++ b :: k) (Z.of_nat i)) (fun b : bool =>
         if b then bindR (subscript (dv ++ x :: v) (Z.of_nat i)) (fun x => op r x) else Ok r)) r'
       = foldR op (selected_lanes k v) r').
    { intros r'. specialize (IH v (dk ++ [b]) (dv ++ [x]) r').
      rewrite <- !app_assoc, !app_length in IH. cbn [app length] in IH. rewrite !Nat.add_1_r in IH. apply IH; cbn in *; lia. }
    cbn [bindR]. unfold selected_lanes. cbn [combine filter fst]. destruct b; cbn [map snd foldR bindR].
    + destruct (op r x) as [r'|]; cbn [bindR]; [apply R|reflexivity].
    + apply R.
Qed.

Lemma none_selected {T} k (v : list T) : ~ In true k -> selected_lanes k v = [].
Proof.
  revert v. induction k as [|b k IH]; intros v H; [reflexivity|]. destruct v as [|x v]; [reflexivity|].
  unfold selected_lanes. cbn [combine filter fst]. destruct b; [exfalso; apply H; now left|].
  apply IH. intros C. apply H. now right.
Qed.

Theorem masked_reduce_fold {T} (op : T -> T -> res T) k v e : length k = length v ->
  masked_reduce op k v e = foldR op (selected_lanes k v) e.
Proof.
  intros Hl. unfold masked_reduce. rewrite any_of_correct. cbn [bindR].
  destruct (existsb (fun b => b) k) eqn:E.
  - exact (masked_loop op k v [] [] e eq_refl Hl).
  - rewrite none_selected; [reflexivity|]. intros C.
    assert (existsb (fun b : bool => b) k = true) by (apply existsb_exists; exists true; auto). congruence.
Qed.

Theorem masked_reduce_none {T} (op : T -> T -> res T) k v e : length k = length v -> ~ In true k ->
  masked_reduce op k v e = Ok e.
Proof. intros Hl H. rewrite masked_reduce_fold by assumption. now rewrite none_selected. Qed.

(** What is selected. *)
Theorem selected_lanes_spec {T} (k : list bool) (v : list T) a : In a (selected_lanes k v) <->
  exists i, nth_error k i = Some true /\ nth_error v i = Some a.
Proof.
  revert v. induction k as [|b k IH]; intros v.
  - split; [intros []|intros (i & H & _); now destruct i].
  - destruct v as [|x v].
    + split; [intros []|intros (i & _ & H); now destruct i].
    + unfold selected_lanes. cbn [combine filter fst]. specialize (IH v). fold (selected_lanes k v).
      destruct b; cbn [map snd In]; fold (selected_lanes k v).
      * rewrite IH. split.
        -- intros [<-|(i & Hi)]; [exists 0%nat; auto|exists (S i); auto].
        -- intros ([|i] & H1 & H2); [left; now injection H2|right; exists i; auto].
      * rewrite IH. split; [intros (i & Hi); exists (S i); auto|].
        intros ([|i] & H1 & H2); [discriminate|exists i; auto].
Qed.

(** ** Default identity elements *)

Lemma in_range t a : type_ok t -> in_type t a = true <->
  (if sgn t then - 2 ^ (bits t - 1) <= a < 2 ^ (bits t - 1) else 0 <= a < 2 ^ bits t).
Proof. intros _. unfold in_type. destruct (sgn t); lia. Qed.

Lemma promote_in l t a : lang_ok l -> 2 <= bits t -> in_type t a = true ->
  in_type (promote l t) a = true /\ 2 <= bits (promote l t).
Proof.
  intros Hl Ht Ha. unfold promote. destruct (Z.ltb_spec (bits t) (l_int l)) as [H|H]; [|auto].
  split; [|cbn [bits]; unfold lang_ok in Hl; lia].
  apply in_range in Ha; [|unfold type_ok; lia]. unfold in_type. cbn [sgn bits].
  assert (2 ^ bits t <= 2 ^ (l_int l - 1)) by (apply Z.pow_le_mono_r; lia).
  assert (2 ^ (bits t - 1) <= 2 ^ (l_int l - 1)) by (apply Z.pow_le_mono_r; lia).
  destruct (sgn t); lia.
Qed.

Lemma computed_id p a : in_type p a = true -> computed p a = Ok a.
Proof.
  intros H. unfold computed. rewrite H. unfold in_type in H. destruct (sgn p); [reflexivity|]. f_equal. apply Z.mod_small. lia.
Qed.

Lemma small_in t a : 2 <= bits t -> 0 <= a <= 1 -> in_type t a = true.
Proof.
  intros Ht Ha. unfold in_type. assert (2 ^ 1 <= 2 ^ (bits t - 1)) by (apply Z.pow_le_mono_r; lia).
  assert (2 ^ 1 <= 2 ^ bits t) by (apply Z.pow_le_mono_r; lia). change (2 ^ 1) with 2 in *. destruct (sgn t); lia.
Qed.

Lemma convert_minus1 t : 0 < bits t -> convert t (-1) = if sgn t then -1 else 2 ^ bits t - 1.
Proof.
  intros Ht. destruct (sgn t) eqn:E.
  - apply convert_id; [exact Ht|]. unfold in_type. rewrite E. assert (0 < 2 ^ (bits t - 1)) by (apply Z.pow_pos_nonneg; lia). lia.
  - unfold convert. rewrite E. symmetry. apply Z.mod_unique_pos with (-1); [|lia].
    assert (0 < 2 ^ bits t) by (apply Z.pow_pos_nonneg; lia). lia.
Qed.

Lemma and_identity l t : lang_ok l -> 2 <= bits t ->
  default_identity l t And = Some (if sgn t then -1 else 2 ^ bits t - 1).
Proof.
  intros Hl Ht. unfold default_identity, expr_compl. change (Z.lnot 0) with (-1). f_equal.
  rewrite convert_minus1 by (unfold promote; destruct (Z.ltb_spec (bits t) (l_int l)); cbn [bits]; unfold lang_ok in Hl; lia).
  unfold promote. destruct (Z.ltb_spec (bits t) (l_int l)) as [H|H].
  - cbn [sgn]. apply convert_minus1. lia.
  - destruct (sgn t) eqn:E.
    + rewrite convert_minus1 by lia. now rewrite E.
    + apply convert_id; [unfold type_ok; lia|]. unfold in_type. rewrite E.
      assert (0 < 2 ^ bits t) by (apply Z.pow_pos_nonneg; lia). lia.
Qed.

Theorem default_neutral l t o e a : lang_ok l -> 2 <= bits t -> default_identity l t o = Some e ->
  in_type t a = true -> assign_bin l t o e a = Ok a.
Proof.
  intros Hl Ht He Ha. assert (Hok : type_ok t) by (unfold type_ok; lia).
  destruct (promote_in l t a Hl Ht Ha) as [Hp _].
  assert (C0 : convert t 0 = 0) by (apply convert_id; [exact Hok|apply small_in; lia]).
  assert (C1 : convert t 1 = 1) by (apply convert_id; [exact Hok|apply small_in; lia]).
  unfold assign_bin, expr_bin. destruct o; try discriminate He.
  - injection He as <-. rewrite C0. cbn [eval_bin]. rewrite Z.add_0_l, computed_id by assumption. cbn [bindR].
    now rewrite convert_id.
  - injection He as <-. rewrite C1. cbn [eval_bin]. rewrite Z.mul_1_l, computed_id by assumption. cbn [bindR].
    now rewrite convert_id.
  - rewrite and_identity in He by assumption. injection He as <-. cbn [eval_bin bindR].
    destruct (sgn t) eqn:E.
    + rewrite Z.land_m1_l. now rewrite convert_id.
    + rewrite Z.land_comm. change (2 ^ bits t - 1) with (Z.pred (2 ^ bits t)). rewrite <- Z.ones_equiv, Z.land_ones by lia.
      apply in_range in Ha; [|assumption]. rewrite E in Ha. rewrite Z.mod_small by lia.
      rewrite convert_id; [reflexivity|assumption|]. apply in_range; [assumption|]. now rewrite E.
  - injection He as <-. rewrite C0. cbn [eval_bin bindR]. rewrite Z.lor_0_l. now rewrite convert_id.
  - injection He as <-. rewrite C0. cbn [eval_bin bindR]. rewrite Z.lxor_0_l. now rewrite convert_id.
Qed.

Theorem masked_reduce_default_fold l t o k v : lang_ok l -> 2 <= bits t ->
  In o [Add; Mul; And; Or; Xor] -> length k = length v -> all_in t v ->
  masked_reduce_default l t o k v =
  match selected_lanes k v with
  | [] => Ok (match o with Mul => 1 | And => if sgn t then -1 else 2 ^ bits t - 1 | _ => 0 end)
  | x :: xs => foldR (assign_bin l t o) xs x
  end.
Proof.
  intros Hl Ht Ho Hk Hv. unfold masked_reduce_default.
  assert (C0 : convert t 0 = 0) by (apply convert_id; [unfold type_ok; lia|apply small_in; lia]).
  assert (C1 : convert t 1 = 1) by (apply convert_id; [unfold type_ok; lia|apply small_in; lia]).
  assert (He : default_identity l t o
               = Some (match o with Mul => 1 | And => if sgn t then -1 else 2 ^ bits t - 1 | _ => 0 end)).
  { cbn [In] in Ho. destruct Ho as [<-|[<-|[<-|[<-|[<-|[]]]]]]; try (cbn [default_identity]; congruence).
    now apply and_identity. }
  rewrite He, masked_reduce_fold by assumption. destruct (selected_lanes k v) as [|x xs] eqn:E; [reflexivity|].
  cbn [foldR]. rewrite (default_neutral l t o _ x Hl Ht He); [reflexivity|].
  apply Hv. assert (Hin : In x (selected_lanes k v)) by (rewrite E; now left).
  apply selected_lanes_spec in Hin. destruct Hin as (i & _ & Hi). eapply nth_error_In; eassumption.
Qed.

(** ** Minimum and maximum *)

(** [r] is a member and a lower bound. *)
Definition is_min {T} (lt : T -> T -> bool) (l : list T) (r : T) : Prop := In r l /\ forall a, In a l -> lt a r = false.
Definition is_max {T} (lt : T -> T -> bool) (l : list T) (r : T) : Prop := In r l /\ forall a, In a l -> lt r a = false.

(** The laws of a total order on the values with [P] (for floating point: those that are not NaN). *)
Definition order_on {T} (lt : T -> T -> bool) (P : T -> Prop) : Prop :=
  (forall a b, P a -> P b -> lt a b = true -> lt b a = false)
  /\ (forall a b c, P a -> P b -> P c -> lt b a = false -> lt c b = false -> lt c a = false)
  /\ (forall a b, P a -> P b -> lt a b = false -> lt b a = false -> a = b).

Lemma order_flip {T} (lt : T -> T -> bool) P : order_on lt P -> order_on (fun a b => lt b a) P.
Proof.
  intros (H1 & H2 & H3). split; [intros; now apply H1|]. split.
  - intros a b c Ha Hb Hc Hab Hbc. exact (H2 c b a Hc Hb Ha Hbc Hab).
  - intros a b Ha Hb Hab Hba. exact (H3 a b Ha Hb Hba Hab).
Qed.

Lemma order_irrefl {T} (lt : T -> T -> bool) P a : order_on lt P -> P a -> lt a a = false.
Proof. intros (H1 & _) Ha. destruct (lt a a) eqn:E; [|reflexivity]. rewrite <- E. now apply H1. Qed.

Lemma std_min_lower {T} (lt : T -> T -> bool) P a b : order_on lt P -> P a -> P b ->
  lt a (std_min lt a b) = false /\ lt b (std_min lt a b) = false /\ (std_min lt a b = a \/ std_min lt a b = b).
Proof.
  intros Ho Ha Hb. unfold std_min. destruct (lt b a) eqn:E.
  - split; [now apply (proj1 Ho)|]. split; [now apply (order_irrefl lt P)|now right].
  - split; [now apply (order_irrefl lt P)|]. auto.
Qed.

Lemma gncsum_min {T} (lt : T -> T -> bool) P l x : order_on lt P -> (forall a, In a l -> P a) ->
  gncsum (std_min lt) l x -> is_min lt l x.
Proof.
  intros Ho HP H. induction H as [x|l1 l2 a b H1 IH1 H2 IH2].
  - split; [now left|]. intros a [<-|[]]. apply (order_irrefl lt P); [assumption|]. apply HP. now left.
  - destruct IH1 as [Ia La]; [intros; apply HP, in_or_app; auto|].
    destruct IH2 as [Ib Lb]; [intros; apply HP, in_or_app; auto|].
    assert (Pa : P a) by (apply HP, in_or_app; auto). assert (Pb : P b) by (apply HP, in_or_app; auto).
    destruct (std_min_lower lt P a b Ho Pa Pb) as (Ma & Mb & Mor).
    assert (Pm : P (std_min lt a b)) by (destruct Mor as [->| ->]; assumption).
    split; [apply in_or_app; destruct Mor as [->| ->]; auto|].
    intros c Hc. assert (Pc : P c) by (apply HP; exact Hc). apply in_app_or in Hc. destruct Hc as [Hc|Hc].
    + exact (proj1 (proj2 Ho) _ _ _ Pm Pa Pc Ma (La c Hc)).
    + exact (proj1 (proj2 Ho) _ _ _ Pm Pb Pc Mb (Lb c Hc)).
Qed.

Theorem hmin_is_min {T} (lt : T -> T -> bool) P v : order_on lt P -> (forall a, In a v -> P a) ->
  v <> [] -> Z.of_nat (length v) < two64 -> exists r, hmin lt v = Some r /\ is_min lt v r.
Proof.
  intros Ho HP Hv Hl. destruct (reduce_gsum (std_min lt) v Hv Hl) as (r & E & l' & Hp & G). exists r.
  split; [exact E|]. destruct (gncsum_min lt P l' r Ho) as [Hin Hle].
  - intros a Ha. apply HP. now apply (Permutation_in a (Permutation_sym Hp)).
  - exact G.
  - split; [now apply (Permutation_in r (Permutation_sym Hp))|]. intros a Ha. apply Hle. now apply (Permutation_in a Hp).
Qed.

Theorem hmax_is_max {T} (lt : T -> T -> bool) P v : order_on lt P -> (forall a, In a v -> P a) ->
  v <> [] -> Z.of_nat (length v) < two64 -> exists r, hmax lt v = Some r /\ is_max lt v r.
Proof. intros Ho. exact (hmin_is_min (fun a b => lt b a) P v (order_flip lt P Ho)). Qed.

Lemma fold_gncsum {T} (op : T -> T -> T) l : forall c e, gncsum op c e -> gncsum op (c ++ l) (fold_left op l e).
Proof.
  induction l as [|x l IH]; intros c e H; [now rewrite app_nil_r|]. cbn [fold_left].
  replace (c ++ x :: l) with ((c ++ [x]) ++ l) by (rewrite <- app_assoc; reflexivity). apply IH.
  apply gn_op; [assumption|constructor].
Qed.

Lemma foldR_pure {T} (op : T -> T -> T) l : forall e, foldR (fun a b => Ok (op a b)) l e = Ok (fold_left op l e).
Proof. induction l as [|x l IH]; intros e; [reflexivity|]. cbn [foldR bindR fold_left]. apply IH. Qed.

(** The general case: correct if the start value is not below all selected lanes. *)
Lemma masked_min {T} (lt : T -> T -> bool) P k v e : order_on lt P -> (forall a, In a v -> P a) -> P e ->
  length k = length v -> (exists a, In a (selected_lanes k v) /\ lt e a = false) ->
  exists r, masked_reduce (fun a b => Ok (std_min lt a b)) k v e = Ok r /\ is_min lt (selected_lanes k v) r.
Proof.
  intros Ho HP He Hl (a0 & Ha0 & Hle). rewrite masked_reduce_fold by assumption. rewrite foldR_pure.
  eexists. split; [reflexivity|].
  assert (HPs : forall a, In a (selected_lanes k v) -> P a).
  { intros a Ha. apply selected_lanes_spec in Ha. destruct Ha as (i & _ & Hi). eapply HP, nth_error_In. exact Hi. }
  pose proof (fold_gncsum (std_min lt) (selected_lanes k v) [e] e (gn_one _ e)) as G.
  apply (gncsum_min lt P) in G; [|assumption|].
  2: { intros a Ha. apply in_app_or in Ha. destruct Ha as [[<-|[]]|Ha]; auto. }
  destruct G as [Hin Hlow]. set (r := fold_left _ _ _) in *. split.
  - cbn [app In] in Hin. destruct Hin as [Hr|Hin]; [|assumption].
    replace r with a0; [assumption|]. rewrite <- Hr.
    assert (lt a0 r = false) by (apply Hlow; cbn [app In]; now right). rewrite <- Hr in H.
    apply (proj2 (proj2 Ho)); auto.
  - intros a Ha. apply Hlow. apply in_or_app. now right.
Qed.

(** Integers. *)
Lemma int_order : order_on Z.ltb (fun _ => True).
Proof. repeat split; intros; lia. Qed.

Lemma int_max t a : in_type t a = true -> (l_max (int_limits t) <? a) = false /\ (a <? l_lowest (int_limits t)) = false.
Proof. unfold in_type, int_limits. cbn [l_max l_lowest]. destruct (sgn t); lia. Qed.

Lemma selected_in {T} k (v : list T) a : In a (selected_lanes k v) -> In a v.
Proof. intros H. apply selected_lanes_spec in H. destruct H as (i & _ & Hi). eapply nth_error_In. exact Hi. Qed.

Lemma nonempty_in {T} (l : list T) : l <> [] -> exists a, In a l.
Proof. destruct l as [|a l]; [congruence|]. exists a. now left. Qed.

Theorem hmin_where_int t k v : length k = length v -> all_in t v -> In true k ->
  exists r, hmin_where Z.ltb true (int_limits t) k v = Ok r /\ is_min Z.ltb (selected_lanes k v) r.
Proof.
  intros Hl Hv Ht. apply (masked_min Z.ltb (fun _ => True)); [apply int_order|auto|auto|assumption|].
  apply In_nth_error in Ht. destruct Ht as [i Hi]. destruct (nth_lt v i) as [a Ha].
  { rewrite <- Hl. apply nth_error_Some. congruence. }
  exists a. split; [apply selected_lanes_spec; eauto|]. apply int_max, Hv. eapply nth_error_In. exact Ha.
Qed.

Theorem hmax_where_int t k v : length k = length v -> all_in t v -> In true k ->
  exists r, hmax_where Z.ltb true (int_limits t) k v = Ok r /\ is_max Z.ltb (selected_lanes k v) r.
Proof.
  intros Hl Hv Ht. apply (masked_min (fun a b => Z.ltb b a) (fun _ => True)); [apply (order_flip Z.ltb), int_order|auto|auto|assumption|].
  apply In_nth_error in Ht. destruct Ht as [i Hi]. destruct (nth_lt v i) as [a Ha].
  { rewrite <- Hl. apply nth_error_Some. congruence. }
  exists a. split; [apply selected_lanes_spec; eauto|]. apply int_max with (t := t), Hv. eapply nth_error_In. exact Ha.
Qed.

(** Floating point. *)
Lemma float_order : order_on flt (fun a => a <> FNaN).
Proof.
  split; [|split].
  - intros [| |x|] [| |y|]; cbn; intros; try congruence. lia.
  - intros [| |x|] [| |y|] [| |z|]; cbn; intros; try congruence. lia.
  - intros [| |x|] [| |y|]; cbn; intros; try congruence. f_equal. lia.
Qed.

Theorem hmin_where_float_partial q k v : length k = length v -> 0 <= q ->
  (forall a, In a v -> a <> FNaN /\ in_format q a) -> (exists a, In a (selected_lanes k v) /\ a <> FPosInf) ->
  exists r, hmin_where flt true (float_limits q) k v = Ok r /\ is_min flt (selected_lanes k v) r.
Proof.
  intros Hl Hq Hv (a & Ha & Hinf). apply (masked_min flt (fun a => a <> FNaN)); [apply float_order|apply Hv|discriminate|assumption|].
  exists a. split; [assumption|]. destruct (Hv a (selected_in _ _ _ Ha)) as [Hn Hf].
  destruct a as [| |x|]; try reflexivity; try congruence. cbn in *. lia.
Qed.

Theorem hmax_where_float_partial q k v : length k = length v -> 0 <= q ->
  (forall a, In a v -> a <> FNaN /\ in_format q a) -> (exists a, In a (selected_lanes k v) /\ a <> FNegInf) ->
  exists r, hmax_where flt true (float_limits q) k v = Ok r /\ is_max flt (selected_lanes k v) r.
Proof.
  intros Hl Hq Hv (a & Ha & Hinf).
  apply (masked_min (fun a b => flt b a) (fun a => a <> FNaN)); [apply (order_flip flt), float_order|apply Hv|discriminate|assumption|].
  exists a. split; [assumption|]. destruct (Hv a (selected_in _ _ _ Ha)) as [Hn Hf].
  destruct a as [| |x|]; try reflexivity; try congruence. cbn in *. lia.
Qed.

(** With infinity() as the start value it would hold in full for floating point ... *)
Theorem hmin_where_infinity q k v : length k = length v -> (forall a, In a v -> a <> FNaN) -> In true k ->
  exists r, hmin_where flt false (float_limits q) k v = Ok r /\ is_min flt (selected_lanes k v) r.
Proof.
  intros Hl Hv Ht. apply (masked_min flt (fun a => a <> FNaN)); [apply float_order|assumption|discriminate|assumption|].
  apply In_nth_error in Ht. destruct Ht as [i Hi]. destruct (nth_lt v i) as [a Ha].
  { rewrite <- Hl. apply nth_error_Some. congruence. }
  exists a. split; [apply selected_lanes_spec; eauto|]. now destruct a.
Qed.

Theorem hmax_where_infinity q k v : length k = length v -> (forall a, In a v -> a <> FNaN) -> In true k ->
  exists r, hmax_where flt false (float_limits q) k v = Ok r /\ is_max flt (selected_lanes k v) r.
Proof.
  intros Hl Hv Ht. apply (masked_min (fun a b => flt b a) (fun a => a <> FNaN)); [apply (order_flip flt), float_order|assumption|discriminate|assumption|].
  apply In_nth_error in Ht. destruct Ht as [i Hi]. destruct (nth_lt v i) as [a Ha].
  { rewrite <- Hl. apply nth_error_Some. congruence. }
  exists a. split; [apply selected_lanes_spec; eauto|]. now destruct a.
Qed.

(** ... and fail for integers. *)
Theorem hmin_where_int_infinity_refuted : exists t k v r, all_in t v /\ In true k /\ length k = length v
  /\ hmin_where Z.ltb false (int_limits t) k v = Ok r /\ ~ In r (selected_lanes k v).
Proof.
  exists u16, [true; false], [5; 6], 0. split; [intros a [<-|[<-|[]]]; reflexivity|]. split; [now left|]. split; [reflexivity|].
  split; [reflexivity|]. cbn. intros [H|[]]. discriminate.
Qed.

Theorem hmin_where_float_refuted q : 0 <= q -> exists k v r, length k = length v /\ In true k
  /\ (forall a, In a v -> a <> FNaN /\ in_format q a)
  /\ hmin_where flt true (float_limits q) k v = Ok r /\ ~ In r (selected_lanes k v).
Proof.
  intros Hq. exists [true; false], [FPosInf; FFin 0], (FFin q). split; [reflexivity|]. split; [now left|].
  split; [intros a [<-|[<-|[]]]; cbn; (split; [discriminate|lia])|]. split; [reflexivity|]. cbn. intros [H|[]]. discriminate.
Qed.

Theorem hmax_where_float_refuted q : 0 <= q -> exists k v r, length k = length v /\ In true k
  /\ (forall a, In a v -> a <> FNaN /\ in_format q a)
  /\ hmax_where flt true (float_limits q) k v = Ok r /\ ~ In r (selected_lanes k v).
Proof.
  intros Hq. exists [true; false], [FNegInf; FFin 0], (FFin (- q)). split; [reflexivity|]. split; [now left|].
  split; [intros a [<-|[<-|[]]]; cbn; (split; [discriminate|lia])|]. split; [reflexivity|]. cbn. intros [H|[]]. discriminate.
Qed.

Theorem reduce_fold {T} (op : T -> T -> T) x l : assoc_comm op -> Z.of_nat (length (x :: l)) < two64 ->
  reduce op (x :: l) = Some (fold_left op l x).
Proof.
  intros Hac Hl. destruct (reduce_gsum op (x :: l) ltac:(discriminate) Hl) as (r & -> & Hg). f_equal.
  now apply gsum_fold.
Qed.
