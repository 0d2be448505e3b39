(** count_if over structs counts (C55). *)
From Verif Require Import Base BaseFacts ExecModel ExecProofs ExecForEach ExecRun ExecSpec ExecThm ExecExact
  ReduceModel ReduceSpec ReduceProofs CountModel CountProofs SimdizeModel SimdizeSpec
  StructRunModel StructRunSpec StructRunProofs StructRunThm StructCountModel.
From Coq Require Import Permutation ZifyBool ZifyNat.
Ltac Zify.zify_post_hook ::= idtac.

(** ** Calls: one object, or full width *)
Definition call_plain (w : Z) (q : call) : Prop := k_n q = 1%nat \/ ((1 < k_n q)%nat /\ k_k q = w).
Definition emits (w : Z) {A} (x : W A) : Prop := Forall (call_plain w) (fst x).

Lemma emits_ret w {A} (a : A) : emits w (retW a).
Proof. constructor. Qed.
Lemma emits_stop w {A} s : emits w (@stopW A s).
Proof. constructor. Qed.
Lemma emits_tell w q : call_plain w q -> emits w (tellW q).
Proof. intros H. constructor; [exact H|constructor]. Qed.
Lemma emits_bind w {A B} (x : W A) (f : A -> W B) : emits w x -> (forall a, emits w (f a)) -> emits w (bindW x f).
Proof.
  destruct x as [l [a|s]]; intros Hx Hf; cbn [bindW]; [|exact Hx].
  pose proof (Hf a) as H. destruct (f a) as [l' r]. apply Forall_app. split; [exact Hx|exact H].
Qed.

Ltac emit := repeat first
  [ apply emits_ret | apply emits_stop | apply emits_tell; now left
  | apply emits_bind; [|intro] | match goal with |- emits _ (if ?b then _ else _) => destruct b end ].

Lemma jumptable_emits w t bound al fuel : forall n ptr, emits w (jumptable fuel t bound al n ptr).
Proof.
  induction fuel as [|fuel IH]; intros n ptr; cbn [jumptable]; [emit|].
  destruct (n =? 0); [emit|]. destruct (lookup t n); emit. apply IH.
Qed.
Lemma entry_emits w t bound al n ptr : emits w (jumptable_entry t bound al n ptr).
Proof. unfold jumptable_entry. emit. apply jumptable_emits. Qed.
Lemma prologue_emits w c fuel : forall vs maxe ptr tp, emits w (for_each_prologue fuel c vs maxe ptr tp).
Proof. induction fuel as [|fuel IH]; intros; cbn [for_each_prologue]; emit; first [apply entry_emits|apply IH]. Qed.
Lemma epilogue_emits w c fuel : forall vs lo last al, emits w (for_each_epilogue fuel c vs lo last al).
Proof. induction fuel as [|fuel IH]; intros; cbn [for_each_epilogue]; emit; first [apply entry_emits|apply IH]. Qed.
Lemma main_emits w n al limit fuel : n <> 0%nat -> forall first, emits w (main_loop fuel w n al limit first).
Proof.
  intros Hn. induction fuel as [|fuel IH]; intros; cbn [main_loop]; [emit|]. destruct (first <=? limit); [|emit].
  apply emits_bind; [|intro; apply IH]. apply emits_tell. unfold call_plain. cbn. lia.
Qed.
Lemma match_emits w al last fuel : forall first, emits w (match_loop fuel w al last first).
Proof. induction fuel as [|fuel IH]; intros; cbn [match_loop]; emit. apply IH. Qed.
Lemma const_emits w last fuel : forall first, emits w (const_loop fuel w last first).
Proof. induction fuel as [|fuel IH]; intros; cbn [const_loop]; emit. apply IH. Qed.

Lemma for_each_emits c pol w first last : emits w (for_each c pol w first last).
Proof.
  assert (HB : forall a b d, emits w (for_each_body c pol w a b d)).
  { intros a b d. unfold for_each_body. apply emits_bind; [|intro; apply emits_bind; [|intro] ].
    - destruct (Z.ltb_spec 1 (p_unroll pol)); [apply main_emits; lia|emit].
    - destruct (p_match pol); [apply match_emits|apply main_emits; discriminate].
    - emit. apply epilogue_emits. }
  unfold for_each. destruct (first =? last); [emit|]. destruct (p_match pol && _); [emit|]. destruct (c_ce c).
  - emit; [apply const_emits|apply epilogue_emits].
  - unfold for_each_rt. destruct (prologue_args c pol w (last - first) first) as [ [maxe tp] |]; [|apply HB].
    apply emits_bind; [apply prologue_emits|intro; apply HB].
Qed.

(** ** The arguments of each call *)
Section Groups.
  Context {W St : Type} (zero : W) (f : St -> list (list (list W)) -> St * list (list (list W))).

  Lemma load_objs_length kd m k n u : forall pos os, load_objs zero kd m pos k n u = Ok os -> length os = u.
  Proof.
    induction u as [|u IH]; intros pos os E; cbn [load_objs] in E; [now injection E as <-|].
    destruct (obj_load zero kd m pos k n) as [o|]; [|discriminate]. cbn [bindR] in E.
    destruct (load_objs zero kd m (pos + n) k n u) as [r|] eqn:Er; [|discriminate]. injection E as <-. cbn. f_equal. eapply IH, Er.
  Qed.

  Lemma struct_run_groups kd k wb l : forall s s', struct_run zero f kd k wb l s = Ok s' ->
    exists tr, ss_trace s' = ss_trace s ++ tr /\ Forall2 (fun q ch => length ch = k_n q) l tr.
  Proof.
    induction l as [|q l IH]; intros s s' E; cbn [struct_run] in E.
    - injection E as <-. exists []. rewrite app_nil_r. split; [reflexivity|constructor].
    - unfold struct_invoke in E.
      destruct (load_objs zero kd (ss_mem s) (k_pos q) k (k_k q) (k_n q)) as [os|] eqn:Eo; [|discriminate]. cbn [bindR] in E.
      destruct (f (ss_st s) os) as [st' out].
      destruct (if wb then _ else _) as [m'|]; [|discriminate]. cbn [bindR] in E.
      destruct (IH _ _ E) as (tr & Et & Ft). cbn [ss_trace] in Et. exists (os :: tr).
      split; [now rewrite Et, <- app_assoc|]. constructor; [eapply load_objs_length, Eo|exact Ft].
  Qed.

  (** The lanes, grouped by call. *)
  Lemma regroup k l (tr : list (list (list (list W)))) : Forall2 (fun q ch => length ch = k_n q) l tr ->
    forall xss, Forall2 (lanes_are k) (concat tr) xss ->
    map (@length _) xss = flat_map (fun c => repeat (Z.to_nat (k_k c)) (k_n c)) l ->
    exists xtr, concat xtr = xss /\ Forall2 (Forall2 (lanes_are k)) tr xtr
      /\ Forall2 (fun q ch => length ch = k_n q /\ Forall (fun xs => length xs = Z.to_nat (k_k q)) ch) l xtr.
  Proof.
    induction 1 as [|q ch l tr Hq H IH]; intros xss HF HL.
    - inversion HF; subst. exists []. repeat split; constructor.
    - cbn [concat] in HF. apply Forall2_app_inv_l in HF as (x1 & x2 & H1 & H2 & ->).
      cbn [flat_map] in HL. rewrite map_app in HL.
      assert (L1 : length x1 = k_n q) by (rewrite <- Hq; symmetry; clear - H1; induction H1; cbn; congruence).
      assert (E1 : map (@length _) x1 = repeat (Z.to_nat (k_k q)) (k_n q)
                   /\ map (@length _) x2 = flat_map (fun c => repeat (Z.to_nat (k_k c)) (k_n c)) l).
      { apply app_eq_len; [exact HL|]. now rewrite map_length, repeat_length. }
      destruct E1 as [E1 E2]. destruct (IH _ H2 E2) as (xtr & <- & F1 & F2).
      exists (x1 :: xtr). split; [reflexivity|]. split; [now constructor|]. constructor; [|exact F2].
      split; [exact L1|]. apply Forall_forall. intros xs Hin. apply (in_map (@length _)) in Hin. rewrite E1 in Hin. now apply repeat_spec in Hin.
  Qed.
End Groups.

(** ** Structs in memory *)
Section Mem.
  Context {W : Type}.

  Lemma load_cell (m : mem W) n : forall a x i, load m a n = Some x -> (i < n)%nat -> m (a + Z.of_nat i) <> None.
  Proof.
    induction n as [|n IH]; intros a x i E Hi; [lia|]. cbn [load] in E.
    destruct (m a) as [v|] eqn:Ea; [|discriminate]. destruct (load m (a + 1) n) as [r|] eqn:Er; [|discriminate].
    destruct i as [|i]; [rewrite Z.add_0_r, Ea; discriminate|].
    replace (a + Z.of_nat (S i)) with (a + 1 + Z.of_nat i) by lia. eapply IH; [exact Er|lia].
  Qed.

  Lemma structs_are_mapped (m : mem W) k first last xs : 1 <= k -> structs_are m k first last xs ->
    structs_mapped m k first last.
  Proof.
    intros Hk [L H] a Ha. set (i := (a - k * first) / k).
    pose proof (Z.div_mod (a - k * first) k ltac:(lia)) as D. pose proof (Z.mod_pos_bound (a - k * first) k ltac:(lia)) as M.
    fold i in D. assert (Hi : 0 <= i < last - first) by nia.
    destruct (nth_error xs (Z.to_nat i)) as [x|] eqn:E; [|apply nth_error_None in E; lia].
    specialize (H _ _ E). rewrite Z2Nat.id in H by lia.
    replace a with (k * (first + i) + Z.of_nat (Z.to_nat ((a - k * first) mod k))) by lia.
    eapply load_cell; [exact H|lia].
  Qed.

  Lemma structs_unique (m : mem W) k first last xs ys : structs_are m k first last xs -> structs_are m k first last ys -> xs = ys.
  Proof.
    intros [L1 H1] [L2 H2]. apply nth_error_ext. intros i.
    destruct (nth_error xs i) as [x|] eqn:E1; destruct (nth_error ys i) as [y|] eqn:E2.
    - specialize (H1 _ _ E1). specialize (H2 _ _ E2). congruence.
    - apply nth_error_None in E2. assert (nth_error xs i <> None) as N by congruence. apply nth_error_Some in N. lia.
    - apply nth_error_None in E1. assert (nth_error ys i <> None) as N by congruence. apply nth_error_Some in N. lia.
    - reflexivity.
  Qed.
  Lemma obj_size_lanes k o (xs : list (list W)) : 1 <= k -> lanes_are k o xs -> obj_size o = Z.of_nat (length xs).
  Proof.
    intros Hk [ [L F] _]. destruct o as [|v o]; [cbn in L; lia|]. cbn [obj_size]. rewrite (F v (or_introl eq_refl)). reflexivity.
  Qed.
End Mem.

(** ** Counting objects is counting their lanes *)
Section Count.
  Context {W : Type} (zero : W) (p : list W -> bool) (pred : list (list W) -> list bool).

  Definition lane_pred (k : Z) : Prop := forall o xs, lanes_are k o xs -> pred o = map p xs.

  Lemma step_lanes k ce lib w st objs xs : 1 <= k -> lane_pred k -> Forall2 (lanes_are k) objs xs ->
    struct_count_step pred ce lib w st objs = count_step (map p) ce lib w st xs.
  Proof.
    intros Hk Hp HF. unfold struct_count_step, count_step. destruct (ce && lib).
    - f_equal. f_equal. inversion HF as [|o x os xs' Ho Hos E1 E2]; [reflexivity|]. subst. rewrite (Hp _ _ Ho). f_equal.
      clear - Hp Hos. induction Hos as [|o x os xs Ho _ IH]; [reflexivity|]. cbn [map]. now rewrite (Hp _ _ Ho), IH.
    - assert (EV : forall v, fold_left (fun v x => where_inc (pred x) v) objs v
                            = fold_left (fun v x => where_inc (map p x) v) xs v).
      { clear - Hp HF. induction HF as [|o x os xs Ho _ IH]; intros v; [reflexivity|]. cbn [fold_left]. now rewrite (Hp _ _ Ho), IH. }
      destruct HF as [|o x os xs' Ho Hos]; [reflexivity|].
      destruct Hos as [|o2 x2 os xs'' Ho2 Hos]; [|now rewrite EV].
      now rewrite (obj_size_lanes k _ _ Hk Ho), (Hp _ _ Ho).
  Qed.

  Lemma states_lanes k ce lib w tr xtr : 1 <= k -> lane_pred k -> Forall2 (Forall2 (lanes_are k)) tr xtr ->
    forall st, state_after (struct_count_fun pred ce lib w) st tr = state_after (count_fun (map p) ce lib w) st xtr.
  Proof.
    intros Hk Hp. induction 1 as [|ch xs tr xtr Hc _ IH]; intros st; [reflexivity|].
    cbn [state_after struct_count_fun count_fun fst]. now rewrite (step_lanes k ce lib w st ch xs Hk Hp Hc), IH.
  Qed.

  Lemma count_keeps_objects ce lib w : keeps_objects (struct_count_fun pred ce lib w).
  Proof. intros st ch. cbn. induction ch; constructor; auto. Qed.

  Lemma hits_perm (l l' : list (list W)) : Permutation l l' -> hits p l = hits p l'.
  Proof.
    intros H. unfold hits. f_equal. induction H as [|x l l' _ IH|x y l|l1 l2 l3 _ IH1 _ IH2]; cbn [filter]; [reflexivity| | |congruence].
    - destruct (p x); cbn; congruence.
    - destruct (p x), (p y); reflexivity.
  Qed.

  (** The counters after any run over calls [l] that tile [first, last). *)
  Lemma count_calls kd k ce lib w l first last m xs st0 t0 n : 1 <= k -> lane_pred k -> 1 <= w < two64 ->
    Forall (call_plain w) l -> tiles first last l -> structs_are m k first last xs -> cinv w n st0 ->
    exists tr st, struct_run zero (struct_count_fun pred ce lib w) kd k false l (mkss m st0 t0) = Ok (mkss m st (t0 ++ tr))
                  /\ cinv w (n + hits p xs) st.
  Proof.
    intros Hk Hp Hw HP HT Hx Hi.
    assert (Hm : structs_mapped m k first last) by (eapply structs_are_mapped; eassumption).
    destruct (struct_run_ok zero _ kd k false (count_keeps_objects ce lib w) Hk first last l HT m st0 t0 Hm)
      as (m' & tr & zss & xss & Er & Hz & Hpr & Hl & Hsz & Hm' & _ & _).
    rewrite (Hm' eq_refl) in Er. eexists tr, _. split; [exact Er|].
    destruct (struct_run_groups zero _ _ _ _ _ _ _ Er) as (tr' & Et & Hg). cbn [ss_trace] in Et.
    apply app_inv_head in Et. subst tr'.
    destruct (regroup k l tr Hg xss Hl) as (xtr & Ex & F1 & F2); [now rewrite (presented_lengths _ _ _ _ Hpr)|].
    rewrite (states_lanes k ce lib w tr xtr Hk Hp F1).
    assert (Eh : hits p xs = hits p (seen xtr)).
    { unfold seen. rewrite Ex. rewrite (structs_unique m k first last xs (concat zss) Hx Hz).
      apply hits_perm. apply Permutation_sym, (presented_perm kd k). exact Hpr. }
    rewrite Eh in *. apply count_trace; [reflexivity| |exact Hi].
    clear - HP F2 Hw. induction F2 as [|q ch l xtr [Lq Hq] _ IH]; [constructor|].
    inversion HP as [|? ? Hq' HP']; subst. constructor; [|now apply IH].
    destruct Hq' as [E|[E1 E2] ].
    - rewrite E in Lq. destruct ch as [|x [|? ?] ]; try discriminate. split; [discriminate|]. left. now eexists.
    - split; [intros ->; cbn in Lq; lia|]. right. eapply Forall_impl; [|exact Hq]. cbn. intros. lia.
  Qed.

  Theorem struct_count_ok kd k c lib pol w first last m xs : 1 <= k ->
    (forall o xs, lanes_are k o xs -> pred o = map p xs) -> runs_on c pol w first last ->
    structs_are m k first last xs ->
    struct_count_if zero pred kd k c lib pol w first last m
    = (if Z.of_nat (length (filter p xs)) <=? int_max then Ok (Z.of_nat (length (filter p xs))) else Stop SUB).
  Proof.
    intros Hk Hp (Hc & Hpol & Hw & Hr & Hs & Hce) Hx. unfold width_ok in Hw.
    destruct (struct_for_each_calls c pol w first last Hc Hpol Hw Hr Hs Hce) as (l & E & HT & _ & _).
    pose proof (for_each_emits c pol w first last) as HE. unfold emits in HE. rewrite E in HE. cbn [fst] in HE.
    destruct (count_calls kd k (c_ce c) lib w l first last m xs (mkcnt (Ok 0) (repeat (Ok 0) (Z.to_nat w))) [] 0
                Hk Hp ltac:(unfold two64; lia) HE HT Hx (initial_cinv w ltac:(lia))) as (tr & st & Er & Hi).
    unfold struct_count_if, struct_for_each. rewrite E, Er. cbn [bindR ss_st].
    apply (final_sum w); [unfold two64; lia|exact Hi].
  Qed.

  (** Constant evaluation, two lanes, an even number of structs: the last one counts twice. *)
  Theorem struct_count_two kd k c lib pol first last m xs x : 1 <= k ->
    (forall o xs, lanes_are k o xs -> pred o = map p xs) -> c_ce c = true -> range_ok first last ->
    first < last -> (last - first) mod 2 = 0 -> structs_are m k first last (xs ++ [x]) ->
    struct_count_if zero pred kd k c lib pol 2 first last m
    = (if Z.of_nat (length (filter p (xs ++ [x; x]))) <=? int_max
       then Ok (Z.of_nat (length (filter p (xs ++ [x; x])))) else Stop SUB).
  Proof.
    intros Hk Hp Hce Hr Hlt He Hx.
    destruct (for_each_two_calls c pol first last Hce Hr Hlt He) as (l & E & Hu).
    assert (HT : tiles first last l) by (eapply uniform_tiles; [| |exact Hu]; lia).
    pose proof (for_each_emits c pol 2 first last) as HE. unfold emits in HE. rewrite E in HE. cbn [fst] in HE.
    apply Forall_app in HE as [HE1 HE2].
    assert (Eh : hits p (xs ++ [x; x]) = 0 + hits p (xs ++ [x]) + hits p [x]).
    { rewrite Z.add_0_l, <- (hits_app p (map p) (fun _ => eq_refl)). now rewrite <- app_assoc. }
    change (struct_count_if zero pred kd k c lib pol 2 first last m = fits (hits p (xs ++ [x; x]))). rewrite Eh.
    destruct (count_calls kd k (c_ce c) lib 2 l first last m (xs ++ [x]) (mkcnt (Ok 0) (repeat (Ok 0) (Z.to_nat 2))) [] 0
                Hk Hp ltac:(unfold two64; lia) HE1 HT Hx (initial_cinv 2 ltac:(lia))) as (tr & st & Er & Hi).
    assert (Hx1 : structs_are m k (last - 1) last [x]).
    { destruct Hx as [L H1]. rewrite app_length in L. cbn in L. split; [cbn; lia|]. intros [|[|i] ] y Ey; try discriminate.
      cbn in Ey. injection Ey as <-. replace (last - 1 + Z.of_nat 0) with (first + Z.of_nat (length xs)) by lia.
      apply H1. rewrite nth_error_app2, Nat.sub_diag by lia. reflexivity. }
    destruct (count_calls kd k (c_ce c) lib 2 [mkcall (last - 1) 1 1 false] (last - 1) last m [x] st ([] ++ tr) (0 + hits p (xs ++ [x]))
                Hk Hp ltac:(unfold two64; lia) HE2) as (tr2 & st2 & Er2 & Hi2); [|exact Hx1|exact Hi|].
    { replace last with (last - 1 + 1 * Z.of_nat 1) at 2 by lia. constructor; [lia|lia|].
      replace (last - 1 + 1 * Z.of_nat 1) with last by lia. constructor. }
    assert (Eapp : forall a b s, struct_run zero (struct_count_fun pred (c_ce c) lib 2) kd k false (a ++ b) s
              = bindR (struct_run zero (struct_count_fun pred (c_ce c) lib 2) kd k false a s)
                      (struct_run zero (struct_count_fun pred (c_ce c) lib 2) kd k false b)).
    { induction a as [|q a IH]; intros b s; [reflexivity|]. cbn [app struct_run].
      destruct (struct_invoke zero _ kd k false s q); [|reflexivity]. cbn [bindR]. apply IH. }
    unfold struct_count_if, struct_for_each. rewrite E, Eapp, Er. cbn [bindR]. rewrite Er2. cbn [bindR ss_st].
    apply (final_sum 2); [unfold two64; lia|exact Hi2].
  Qed.
End Count.
