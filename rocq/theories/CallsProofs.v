(** Proofs for C73: the calls transform makes. *)
From Verif Require Import Base BaseFacts ExecModel ExecProofs ExecForEach ExecRun ExecSpec ExecThm TransformModel
  TransformSpec TransformProofs TransformThm ScheduleSpec ScheduleProofs ScheduleThm ScheduleMore ThrowModel CallsModel
  CallsSpec.
From Coq Require Import Permutation ZifyBool ZifyNat.
Ltac Zify.zify_post_hook ::= idtac.

Lemma range_is_load {T} (m : mem T) p k ch : load m p (Z.to_nat k) = Some ch -> 0 <= k -> range_is m p (p + k) ch.
Proof. intros H Hk. apply load_range_is; [lia|]. now replace (p + k - p) with k by lia. Qed.

Lemma place_group_repeat i k n : 0 < k ->
  place_group i (repeat (Z.to_nat k) n) = map (fun j => (i + k * Z.of_nat j, k)) (seq 0 n).
Proof.
  intros Hk. revert i. induction n as [|n IH]; intros i; [reflexivity|]. cbn [repeat place_group seq map].
  rewrite Z2Nat.id by lia. f_equal; [f_equal; lia|]. rewrite IH, <- seq_shift, map_map. apply map_ext. intros j. f_equal. lia.
Qed.

Lemma Forall2_len {A B} (R : A -> B -> Prop) l l' : Forall2 R l l' -> length l = length l'.
Proof. induction 1; cbn; congruence. Qed.

Lemma list_sum_repeat k n : list_sum (repeat k n) = (k * n)%nat.
Proof.
  induction n as [|n IH]; [cbn; lia|]. change (list_sum (repeat k (S n))) with (k + list_sum (repeat k n))%nat. rewrite IH. lia.
Qed.

Lemma tiles_places F a b l : tiles a b l ->
  places (a - F) (lanes_of l)
  = map (fun x => map (fun j => (k_pos x - F + k_k x * Z.of_nat j, k_k x)) (seq 0 (k_n x))) l.
Proof.
  induction 1 as [a|a b k n al l Hk Hn Ht IH]; [reflexivity|]. cbn [lanes_of map places k_pos k_k k_n].
  rewrite place_group_repeat by lia. f_equal. rewrite list_sum_repeat.
  replace (a - F + Z.of_nat (Z.to_nat k * n)) with (a + k * Z.of_nat n - F) by nia. exact IH.
Qed.

Section Run.
  Context {T St : Type}.
  Variable op : St -> list (list T) -> St * option (list T).

  Lemma answers_app st qs st1 qs' st' : answers op st qs st1 -> answers op st1 qs' st' -> answers op st (qs ++ qs') st'.
  Proof. induction 1; intros H'; [exact H'|]. cbn. econstructor; [eassumption|auto]. Qed.

  Lemma invoke_in_ok (m : mem T) srcs i k n : keeps_count op -> srcs <> [] -> 0 < k ->
    Forall (fun p => forall j, 0 <= j < k * Z.of_nat n -> m (p + i + j) <> None) srcs ->
    forall js st tr, (forall j, In j js -> (j < n)%nat) ->
    exists e, invoke_in op m (adv i srcs) k js st tr = Ok e /\
      match e with
      | Returned (st', tr', rs) => exists qs, answers op st qs st'
          /\ map fst qs = map (fun j => (i + k * Z.of_nat j, k)) js
          /\ faithful m srcs qs /\ tr' = tr ++ map (fun q => fst (snd q)) qs
          /\ map fst rs = js /\ map snd rs = map (fun q => snd (snd q)) qs
      | Threw (st', tr', _) ch => exists js1 j js2 qs st0, js = js1 ++ j :: js2 /\ answers op st qs st0
          /\ map fst qs = map (fun j => (i + k * Z.of_nat j, k)) js1
          /\ faithful m srcs qs /\ tr' = tr ++ map (fun q => fst (snd q)) qs
          /\ given m srcs (i + k * Z.of_nat j) k ch /\ op st0 ch = (st', None)
      end.
  Proof.
    intros Hop Hne Hk Hdef. induction js as [|j js IH]; intros st tr Hjs.
    - eexists. split; [reflexivity|]. exists []. repeat split; try constructor. cbn. now rewrite app_nil_r.
    - cbn [invoke_in]. assert (Hj : (j < n)%nat) by (apply Hjs; now left).
      destruct (load_all m (adv (k * Z.of_nat j) (adv i srcs)) (Z.to_nat k)) as (chunks & E & H2).
      { unfold adv. rewrite map_map. apply Forall_map. eapply Forall_impl; [|exact Hdef]. cbn. intros p Hp x Hx.
        replace (p + i + k * Z.of_nat j + x) with (p + i + (k * Z.of_nat j + x)) by lia. apply Hp. nia. }
      rewrite E. cbn [bindR].
      assert (Hg : given m srcs (i + k * Z.of_nat j) k chunks).
      { unfold given, adv in *. rewrite map_map in H2. clear - H2 Hk. revert chunks H2.
        induction srcs as [|p s IHs]; intros chunks H2; inversion H2; subst; constructor; [|now apply IHs].
        apply range_is_load; [|lia]. now replace (p + (i + k * Z.of_nat j)) with (p + i + k * Z.of_nat j) by lia. }
      destruct (op st chunks) as [st1 [r|] ] eqn:Eo.
      2:{ eexists. split; [reflexivity|]. exists [], j, js, [], st. repeat split; try constructor; auto.
          cbn. now rewrite app_nil_r. }
      assert (Hr : Z.of_nat (length r) = k).
      { assert (length r = Z.to_nat k); [|lia]. eapply (Hop st); [| |rewrite Eo; reflexivity].
        - intros ->. inversion H2 as [E0|]. destruct srcs; [contradiction|discriminate].
        - clear - H2. induction H2; constructor; [|assumption]. now apply load_length in H. }
      destruct (IH st1 (tr ++ [chunks]) ltac:(intros; apply Hjs; now right)) as (e & Ee & He).
      rewrite Ee. cbn [bindR]. destruct e as [ [ [st' tr'] rs] | [ [st' tr'] rs] ch].
      + eexists. split; [reflexivity|]. destruct He as (qs & A1 & A2 & A3 & A4 & A5 & A6).
        exists (((i + k * Z.of_nat j, k), (chunks, r)) :: qs). repeat split.
        * econstructor; eassumption.
        * cbn. now rewrite A2.
        * constructor; [now split|exact A3].
        * rewrite A4, <- app_assoc. reflexivity.
        * cbn. now rewrite A5.
        * cbn. now rewrite A6.
      + eexists. split; [reflexivity|]. destruct He as (js1 & j' & js2 & qs & st0 & -> & A1 & A2 & A3 & A4 & A5 & A6).
        exists (j :: js1), j', js2, (((i + k * Z.of_nat j, k), (chunks, r)) :: qs), st0. repeat split; auto.
        * econstructor; eassumption.
        * cbn. now rewrite A2.
        * constructor; [now split|exact A3].
        * rewrite A4, <- app_assoc. reflexivity.
  Qed.

  Lemma lookup_in (rs : list (nat * list T)) j r : NoDup (map fst rs) -> In (j, r) rs -> lookup j rs = Some r.
  Proof.
    unfold lookup. induction rs as [|[j' r'] rs IH]; intros Hnd Hin; [destruct Hin|]. cbn [find fst].
    inversion Hnd as [|? ? Hni Hnd']; subst. destruct Hin as [E|Hin].
    - injection E as -> ->. now rewrite Nat.eqb_refl.
    - destruct (Nat.eqb_spec j' j) as [->|_]; [|now apply IH]. destruct Hni. apply in_map_iff. now exists (j, r).
  Qed.

  Lemma pack_ok (rs : list (nat * list T)) n k : Permutation (map fst rs) (seq 0 n) ->
    Forall (fun r => length r = k) (map snd rs) ->
    exists outs, pack rs n = Ok outs /\ map (@length T) outs = repeat k n
      /\ forall j r, In (j, r) rs -> nth_error outs j = Some r.
  Proof.
    intros Hp Hk. assert (Hnd : NoDup (map fst rs)) by (eapply Permutation_NoDup; [symmetry; exact Hp|apply seq_NoDup]).
    assert (K : forall l, (forall j, In j l -> In j (map fst rs)) ->
              exists outs, mapR (fun j => of_option (lookup j rs)) l = Ok outs
                /\ Forall2 (fun j r => In (j, r) rs) l outs).
    { induction l as [|j l IH]; intros Hl; [exists []; split; constructor|].
      destruct IH as (outs & E & F); [intros; apply Hl; now right|].
      destruct (proj1 (in_map_iff _ _ _) (Hl j ltac:(now left))) as ([j' r] & Ej & Hin). cbn in Ej. subst j'.
      exists (r :: outs). cbn [mapR]. rewrite (lookup_in rs j r Hnd Hin). cbn [of_option bindR]. rewrite E. split; [reflexivity|].
      now constructor. }
    destruct (K (seq 0 n)) as (outs & E & F).
    { intros j Hj. eapply Permutation_in; [symmetry; exact Hp|exact Hj]. }
    exists outs. split; [exact E|]. split.
    - assert (L : length outs = n) by (rewrite <- (Forall2_len _ _ _ F); apply seq_length).
      apply nth_error_ext. intros i. destruct (Nat.ltb_spec i n) as [Hi|Hi].
      + destruct (nth_error outs i) as [r|] eqn:Er; [|apply nth_error_None in Er; lia].
        rewrite (map_nth_error _ _ _ Er), nth_error_repeat by exact Hi. f_equal.
        assert (Hin : exists j, In (j, r) rs).
        { clear - F Er. revert i Er. induction F as [|j r' l outs Hj F IH]; intros [|i] Er; try discriminate.
          - cbn in Er. injection Er as ->. now exists j.
          - now apply (IH i). }
        destruct Hin as [j Hin]. rewrite Forall_forall in Hk. apply Hk. apply in_map_iff. now exists (j, r).
      + transitivity (@None nat); [|symmetry]; apply nth_error_None; [rewrite map_length|rewrite repeat_length]; lia.
    - intros j r Hin. assert (Hj : (j < n)%nat).
      { assert (In j (seq 0 n)) by (eapply Permutation_in; [exact Hp|]; apply in_map_iff; now exists (j, r)).
        apply in_seq in H. lia. }
      assert (F' : forall l outs, Forall2 (fun j r => In (j, r) rs) l outs -> forall i x, nth_error l i = Some x ->
                exists r, nth_error outs i = Some r /\ In (x, r) rs).
      { clear. induction 1 as [|y r l outs Hy F IH]; intros [|i] x Ex; try discriminate.
        - injection Ex as <-. now exists r.
        - now apply IH. }
      destruct (F' _ _ F j j) as (r' & E' & Hin').
      { rewrite (nth_error_nth' _ 0%nat) by (rewrite seq_length; lia). now rewrite seq_nth. }
      rewrite E'. f_equal. assert (lookup j rs = Some r') by now apply lookup_in.
      assert (lookup j rs = Some r) by now apply lookup_in. congruence.
  Qed.

  Lemma concat_at (outs : list (list T)) k n j r x : map (@length T) outs = repeat k n -> nth_error outs j = Some r ->
    (x < k)%nat -> nth_error (concat outs) (k * j + x) = nth_error r x.
  Proof.
    revert n j. induction outs as [|o outs IH]; intros n [|j] Hl Hj Hx; try discriminate; (destruct n as [|n]; [discriminate|]);
      cbn in Hl; injection Hl as Ho Hl; cbn [concat].
    - cbn in Hj. injection Hj as ->. rewrite nth_error_app1 by lia. f_equal. lia.
    - cbn in Hj. rewrite nth_error_app2 by lia. rewrite <- (IH n j Hl Hj Hx). f_equal. rewrite Ho. lia.
  Qed.

  Lemma range_is_ext (m m1 : mem T) p q ch : (forall x, p <= x < q -> m x = m1 x) -> range_is m p q ch -> range_is m1 p q ch.
  Proof. intros H [L E]. split; [exact L|]. intros i Hi. rewrite E by exact Hi. apply H. lia. Qed.

  Lemma given_ext (m m1 : mem T) srcs i k ch : Forall (fun p => forall x, i <= x < i + k -> m (p + x) = m1 (p + x)) srcs ->
    given m srcs i k ch -> given m1 srcs i k ch.
  Proof.
    intros H G. unfold given in *. induction G as [|p c srcs chs R G IH]; [constructor|]. inversion H; subst.
    constructor; [|now apply IH]. eapply range_is_ext; [|exact R]. intros x Hx. replace x with (p + (x - p)) by lia.
    match goal with H : forall x, _ -> m (p + x) = _ |- _ => apply H end. lia.
  Qed.

  Lemma places_bound F a b l g i k : tiles a b l -> In g (places (a - F) (lanes_of l)) -> In (i, k) g ->
    a - F <= i /\ i + k <= b - F /\ 0 < k.
  Proof.
    intros H. rewrite (tiles_places F a b l H). induction H as [a|a b k' n al l Hk Hn Ht IH]; [intros []|].
    pose proof (tiles_le _ _ _ Ht). cbn [map k_pos k_k k_n]. intros [<-|Hg] Hi.
    - apply in_map_iff in Hi. destruct Hi as (j & E & Hj). injection E as <- <-. apply in_seq in Hj. nia.
    - specialize (IH Hg Hi). nia.
  Qed.

  Lemma steps_bound F a b l css : tiles a b l ->
    Forall2 (fun (g : list (Z * Z)) (qs : list (answer T)) => Permutation (map fst qs) g) (places (a - F) (lanes_of l)) css ->
    forall q, In q (concat css) -> a - F <= fst (fst q) /\ fst (fst q) + snd (fst q) <= b - F /\ 0 < snd (fst q).
  Proof.
    intros Ht F2 q Hq. apply in_concat in Hq. destruct Hq as (qs & Hqs & Hq).
    assert (Hg : exists g, In g (places (a - F) (lanes_of l)) /\ Permutation (map fst qs) g).
    { clear - F2 Hqs. induction F2; [destruct Hqs|]. destruct Hqs as [<-|Hqs]; [exists x; split; [now left|assumption]|].
      destruct (IHF2 Hqs) as (g & ? & ?). exists g. split; [now right|assumption]. }
    destruct Hg as (g & Hg & Hp). eapply places_bound; [exact Ht|exact Hg|]. rewrite <- surjective_pairing.
    eapply Permutation_in; [exact Hp|]. now apply in_map.
  Qed.

  Definition step_result (order : step -> list nat) c F D S2 a l (s : state T St) : Prop :=
    exists e, run_steps_in op order c s (map (ev F D S2) l) = Ok e /\
      match e with
      | Returned s' => exists css,
          Forall2 (fun g qs => Permutation (map fst qs) g) (places (a - F) (lanes_of l)) css
          /\ faithful (s_mem s) (F :: S2) (concat css) /\ answers op (s_st s) (concat css) (s_st s')
          /\ s_trace s' = s_trace s ++ map (fun q => fst (snd q)) (concat css)
          /\ written (s_mem s) (s_mem s') D (concat css)
      | Threw s' ch => exists before group after css part i k rest st0,
          places (a - F) (lanes_of l) = before ++ group :: after
          /\ Forall2 (fun g qs => Permutation (map fst qs) g) before css
          /\ Permutation (map fst part ++ (i, k) :: rest) group
          /\ faithful (s_mem s) (F :: S2) (concat css ++ part) /\ answers op (s_st s) (concat css ++ part) st0
          /\ given (s_mem s) (F :: S2) i k ch /\ op st0 ch = (s_st s', None)
          /\ s_trace s' = s_trace s ++ map (fun q => fst (snd q)) (concat css ++ part)
          /\ written (s_mem s) (s_mem s') D (concat css)
      end.

  Lemma run_steps_in_ok order c F D S2 : keeps_count op -> any_order order -> forall a b l, tiles a b l ->
    Forall (call_aligned (shift_cfg F D c)) l -> F <= a ->
    forall s, (forall i, a <= i < b -> s_mem s (D + (i - F)) <> None) ->
    Forall (fun p => forall i, a <= i < b -> s_mem s (p + (i - F)) <> None) (F :: S2) ->
    Forall (fun p => D <= p \/ p + (b - F) <= D) (F :: S2) ->
    step_result order c F D S2 a l s.
  Proof.
    intros Hop Hor a b l H. induction H as [a|a b k n al l Hk Hn Ht IH]; intros HA HF s Hd Hs Hnc.
    - eexists. split; [reflexivity|]. exists []. cbn. repeat split; try constructor. now rewrite app_nil_r.
    - inversion HA as [|? ? HA1 HA2]; subst. pose proof (tiles_le _ _ _ Ht) as Hle.
      set (a' := a + k * Z.of_nat n) in *. assert (Haa : a < a') by (unfold a'; nia).
      assert (Hpl : places (a - F) (lanes_of (mkcall a k n al :: l))
                    = map (fun j => (a - F + k * Z.of_nat j, k)) (seq 0 n) :: places (a' - F) (lanes_of l)).
      { rewrite (tiles_places F a b) by (now constructor). rewrite (tiles_places F a' b) by exact Ht. reflexivity. }
      unfold step_result. cbn [map run_steps_in]. unfold run_step_in.
      set (x := ev F D S2 (mkcall a k n al)).
      assert (Hox := Hor x). cbn [x ev t_n k_n] in Hox.
      assert (Esrc : t_srcs x = adv (a - F) (F :: S2)).
      { unfold x, ev. cbn [t_srcs k_pos adv map]. f_equal. lia. }
      destruct (invoke_in_ok (s_mem s) (F :: S2) (a - F) k n Hop ltac:(discriminate) Hk) with (js := order x) (st := s_st s) (tr := s_trace s)
        as (e & Er & He).
      { eapply Forall_impl; [|exact Hs]. cbn. intros p Hp j Hj. replace (p + (a - F) + j) with (p + (a + j - F)) by lia.
        apply Hp. unfold a' in *. lia. }
      { intros j Hj. assert (In j (seq 0 n)) by (eapply Permutation_in; eassumption). apply in_seq in H. lia. }
      rewrite Esrc. change (t_k x) with k. rewrite Er. cbn [bindR].
      destruct e as [ [ [st' tr'] rs] | [ [st' tr'] rs] ch].
      2:{ destruct He as (js1 & j & js2 & qs & st0 & Ej & A1 & A2 & A3 & A4 & A5 & A6). eexists. split; [reflexivity|].
          rewrite Hpl. exists [], (map (fun j => (a - F + k * Z.of_nat j, k)) (seq 0 n)), (places (a' - F) (lanes_of l)), [],
            qs, (a - F + k * Z.of_nat j), k, (map (fun j => (a - F + k * Z.of_nat j, k)) js2), st0.
          cbn [concat app s_mem s_st s_trace]. split; [reflexivity|]. split; [constructor|].
          split; [rewrite A2, <- (Permutation_map (fun j => (a - F + k * Z.of_nat j, k)) Hox), Ej, map_app; reflexivity|].
          do 5 (split; [assumption|]). split; [constructor|]. intros; reflexivity. }
      destruct He as (qs & A1 & A2 & A3 & A4 & A5 & A6).
      destruct (pack_ok rs n (Z.to_nat k)) as (outs & Ep & Hsh & Hnth).
      { rewrite A5. exact Hox. }
      { rewrite A6. apply Forall_map. rewrite Forall_forall. intros q Hq. unfold faithful in A3. rewrite Forall_forall in A3.
        destruct (A3 q Hq) as [_ L]. assert (Hin : In (fst q) (map fst qs)) by (now apply in_map). rewrite A2 in Hin.
        apply in_map_iff in Hin. destruct Hin as (j & E & _). rewrite <- E in L. cbn in L. lia. }
      change (t_n x) with n. rewrite Ep. cbn [bindR].
      destruct (store_chunks_ok (fun (s : unit) (y : list (list T)) => (s, y)) c al k outs (s_mem s) n (D + (a - F)) Hk Hsh)
        as (m1 & Em & Hld & Ho & Hdn).
      { intros Eal i Hi. specialize (HA1 Eal i Hi). cbn [k_pos k_k] in HA1. rewrite shift_aligned in HA1.
        replace (D + (a - F) + k * i) with (D + (a + k * i - F)) by lia. exact HA1. }
      { intros y Hy. replace y with (D + (y - D + F - F)) by lia. apply Hd. unfold a' in *; lia. }
      change (t_al x) with al. change (t_dst x) with (D + (a - F)). rewrite Em. cbn [bindR].
      assert (Hkeep : forall p i, (D <= p \/ p + (b - F) <= D) -> a' <= i < b -> m1 (p + (i - F)) = s_mem s (p + (i - F))).
      { intros p i Hp Hi. apply Ho. fold a'. unfold a' in *. lia. }
      assert (Hq1 : forall q, In q qs -> exists j, (j < n)%nat /\ fst q = (a - F + k * Z.of_nat j, k) /\ nth_error outs j = Some (snd (snd q))).
      { intros q Hq. apply In_nth_error in Hq. destruct Hq as [z Hz].
        assert (E1 := f_equal (fun l => nth_error l z) A2). cbn beta in E1. rewrite (map_nth_error _ _ _ Hz), nth_error_map in E1.
        destruct (nth_error (order x) z) as [j|] eqn:Ej; [|discriminate]. cbn in E1. injection E1 as E1.
        exists j. split; [|split; [exact E1|] ].
        - assert (In j (seq 0 n)) by (eapply Permutation_in; [exact Hox|]; now apply nth_error_In in Ej). apply in_seq in H. lia.
        - apply Hnth. assert (E2 := f_equal (fun l => nth_error l z) A5). assert (E3 := f_equal (fun l => nth_error l z) A6).
          cbn beta in E2, E3. rewrite nth_error_map, Ej in E2. rewrite nth_error_map, (map_nth_error _ _ _ Hz) in E3.
          destruct (nth_error rs z) as [ [j' r]|] eqn:Erz; [|discriminate]. cbn in E2, E3. injection E2 as ->. injection E3 as ->.
          now apply nth_error_In in Erz. }
      assert (Hw1 : written (s_mem s) m1 D qs).
      { split.
        - rewrite Forall_forall. intros q Hq. destruct (Hq1 q Hq) as (j & Hj & Ef & En). rewrite Ef. cbn [fst snd].
          pose proof Hsh as Hl. assert (Lr : length (snd (snd q)) = Z.to_nat k).
          { assert (E1 := f_equal (fun l => nth_error l j) Hsh). cbn beta in E1. rewrite (map_nth_error _ _ _ En), nth_error_repeat in E1 by exact Hj.
            congruence. }
          split; [lia|]. intros i Hi. rewrite <- (concat_at outs (Z.to_nat k) n j _ i Hsh En) by lia.
          symmetry. replace (D + (a - F + k * Z.of_nat j) + Z.of_nat i) with (D + (a - F) + Z.of_nat (Z.to_nat k * j + i)) by nia.
          rewrite (load_nth _ _ _ _ Hld) by nia. f_equal. lia.
        - intros y Hy. apply Ho. fold a'. intros Hin. set (z := (y - (D + (a - F))) / k).
          assert (Hz : k * z <= y - (D + (a - F)) < k * z + k).
          { unfold z. pose proof (Z.div_mod (y - (D + (a - F))) k ltac:(lia)). pose proof (Z.mod_pos_bound (y - (D + (a - F))) k Hk). lia. }
          assert (Hz0 : 0 <= z < Z.of_nat n) by (unfold a' in *; nia).
          assert (Hj : In (a - F + k * z, k) (map fst qs)).
          { rewrite A2. apply in_map_iff. exists (Z.to_nat z). split; [f_equal; lia|].
            eapply Permutation_in; [symmetry; exact Hox|]. apply in_seq. lia. }
          apply in_map_iff in Hj. destruct Hj as (q & Ef & Hq). apply (Hy q Hq). rewrite Ef. cbn [fst snd]. lia. }
      assert (Hb1 : forall q, In q qs -> a - F <= fst (fst q) /\ fst (fst q) + snd (fst q) <= a' - F /\ 0 < snd (fst q)).
      { intros q Hq. destruct (Hq1 q Hq) as (j & Hj & Ef & _). rewrite Ef. cbn [fst snd]. unfold a'. nia. }
      assert (Hfa : forall qs', (forall q, In q qs' -> a' - F <= fst (fst q) /\ fst (fst q) + snd (fst q) <= b - F) ->
                    faithful m1 (F :: S2) qs' -> faithful (s_mem s) (F :: S2) qs').
      { intros qs' Hb Hf. unfold faithful in *. rewrite Forall_forall in *. intros q Hq. destruct (Hf q Hq) as [G L].
        split; [|exact L]. eapply given_ext; [|exact G]. specialize (Hb q Hq). rewrite Forall_forall. intros p Hp z Hz.
        replace (p + z) with (p + (z + F - F)) by lia. apply Hkeep; [|lia]. now apply Hnc. }
      assert (Hwr : forall m2 qs', (forall q, In q qs' -> a' - F <= fst (fst q) /\ fst (fst q) + snd (fst q) <= b - F) ->
                    written m1 m2 D qs' -> written (s_mem s) m2 D (qs ++ qs')).
      { intros m2 qs' Hb [W1 W2]. destruct Hw1 as [V1 V2]. split.
        - apply Forall_app. split; [|exact W1]. rewrite Forall_forall in V1. apply Forall_forall. intros q Hq. eapply range_is_ext; [|apply V1, Hq].
          intros y Hy. symmetry. apply W2. intros q' Hq'. specialize (Hb q' Hq'). specialize (Hb1 q Hq). lia.
        - intros y Hy. rewrite W2, V2; [reflexivity| |]; intros q Hq; apply Hy, in_app_iff; [now left|now right]. }
      destruct (IH HA2 ltac:(lia) (mkst m1 st' tr')) as (e & Ee & He).
      { cbn [s_mem]. intros i Hi. rewrite Hdn. apply Hd. lia. }
      { cbn [s_mem]. eapply Forall_impl; [|exact Hs]. cbn. intros p Hp i Hi. rewrite Hdn. apply Hp. lia. }
      { exact Hnc. }
      exists e. split; [exact Ee|]. rewrite Hpl. fold a' in He. cbn [s_mem s_st s_trace] in He. destruct e as [s'|s' ch].
      + destruct He as (css & C1 & C2 & C3 & C4 & C5).
        assert (Hb : forall q, In q (concat css) -> a' - F <= fst (fst q) /\ fst (fst q) + snd (fst q) <= b - F).
        { intros q Hq. destruct (steps_bound F a' b l css Ht C1 q Hq) as (? & ? & ?). lia. }
        exists (qs :: css). cbn [concat]. repeat split.
        * constructor; [|exact C1]. rewrite A2. apply Permutation_map. exact Hox.
        * apply Forall_app. split; [exact A3|]. apply Hfa; assumption.
        * eapply answers_app; eassumption.
        * rewrite C4, A4, map_app, app_assoc. reflexivity.
        * apply (Hwr (s_mem s') (concat css) Hb C5).
        * apply (Hwr (s_mem s') (concat css) Hb C5).
      + destruct He as (before & group & after & css & part & i & k' & rest & st0 & C1 & C2 & C3 & C4 & C5 & C6 & C7 & C8 & C9).
        assert (Hg : forall g i k, In g (before ++ [group]) -> In (i, k) g -> a' - F <= i /\ i + k <= b - F /\ 0 < k).
        { intros g i0 k0 Hg Hi. eapply places_bound; [exact Ht| |exact Hi]. rewrite C1. apply in_app_iff in Hg. apply in_app_iff.
          destruct Hg as [Hg|[<-|[] ] ]; [now left|right; now left]. }
        assert (Hb : forall q, In q (concat css ++ part) -> a' - F <= fst (fst q) /\ fst (fst q) + snd (fst q) <= b - F).
        { intros q Hq. apply in_app_iff in Hq. destruct Hq as [Hq|Hq].
          - apply in_concat in Hq. destruct Hq as (qs' & Hqs & Hq).
            assert (X : exists g, In g before /\ Permutation (map fst qs') g).
            { clear - C2 Hqs. induction C2; [destruct Hqs|]. destruct Hqs as [<-|Hqs]; [exists x; split; [now left|assumption]|].
              destruct (IHC2 Hqs) as (g & ? & ?). exists g. split; [now right|assumption]. }
            destruct X as (g & X1 & X2). destruct (Hg g (fst (fst q)) (snd (fst q))) as (? & ? & ?); [apply in_app_iff; now left| |lia].
            rewrite <- surjective_pairing. eapply Permutation_in; [exact X2|]. now apply in_map.
          - destruct (Hg group (fst (fst q)) (snd (fst q))) as (? & ? & ?); [apply in_app_iff; right; now left| |lia].
            rewrite <- surjective_pairing. eapply Permutation_in; [exact C3|]. apply in_app_iff. left. now apply in_map. }
        exists (map (fun j => (a - F + k * Z.of_nat j, k)) (seq 0 n) :: before), group, after, (qs :: css), part, i, k', rest, st0.
        cbn [concat]. repeat split.
        * rewrite C1. reflexivity.
        * constructor; [|exact C2]. rewrite A2. apply Permutation_map. exact Hox.
        * exact C3.
        * rewrite <- app_assoc. apply Forall_app. split; [exact A3|]. apply Hfa; assumption.
        * rewrite <- app_assoc. eapply answers_app; eassumption.
        * eapply given_ext; [|exact C6]. rewrite Forall_forall. intros p Hp z Hz.
          assert (X : a' - F <= i /\ i + k' <= b - F /\ 0 < k').
          { apply (Hg group); [apply in_app_iff; right; now left|]. eapply Permutation_in; [exact C3|]. apply in_app_iff. right. now left. }
          replace (p + z) with (p + (z + F - F)) by lia. apply Hkeep; [|lia]. rewrite Forall_forall in Hnc. now apply Hnc.
        * exact C7.
        * rewrite C8, A4, !map_app, <- !app_assoc. reflexivity.
        * apply (Hwr (s_mem s') (concat css)); [|exact C9]. intros q Hq. apply Hb, in_app_iff. now left.
        * apply (Hwr (s_mem s') (concat css)); [|exact C9]. intros q Hq. apply Hb, in_app_iff. now left.
  Qed.
End Run.
