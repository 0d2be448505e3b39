(** The property-level lemmas about transform_reduce. *)
From Verif Require Import Base BaseFacts ExecModel ExecProofs ExecForEach ExecSpec ExecThm
  TransformModel ReduceModel ReduceSpec ReduceProofs TReduceModel TReduceSpec TReduceProofs.
From Coq Require Import Permutation ZifyBool ZifyNat.
Ltac Zify.zify_post_hook ::= idtac.

Lemma nth_error_firstn' {A} (l : list A) n i :
  nth_error (firstn n l) i = if (i <? n)%nat then nth_error l i else None.
Proof.
  revert i l. induction n as [|n IH]; intros i l; [now destruct i|].
  destruct l as [|x l].
  - destruct i; [reflexivity|]. cbn [firstn nth_error]. now destruct (_ <? _)%nat.
  - destruct i as [|i]; [reflexivity|]. cbn [firstn nth_error]. rewrite IH. reflexivity.
Qed.

Lemma nth_error_skipn' {A} (l : list A) n i : nth_error (skipn n l) i = nth_error l (n + i).
Proof.
  revert l. induction n as [|n IH]; intros l; [reflexivity|]. destruct l; [now destruct i|]. apply IH.
Qed.

(** With room for it, the prologue leaves elements over. *)
Lemma room_leaves c pol w first last : target_ok c -> width_ok w -> range_ok first last ->
  prologue_room c pol w first last ->
  forall maxe tp, prologue_args c pol w (last - first) first = Some (maxe, tp) -> tp < last - first.
Proof.
  intros Hc Hw Hr Hroom.
  intros maxe tp Epa. assert (Hcfg := target_cfg c Hc).
  destruct Hr as [Hle H64]. change (2 ^ 64) with two64 in H64.
  assert (Hw' : 1 <= w < two64) by exact Hw. clear Hw.
  assert (Hpos : prologue_is_possible c w = true).
  { unfold prologue_args, use_aligned_loadstore, maybe_prologue in Epa.
    destruct (prologue_is_possible c w); [reflexivity|].
    rewrite !andb_false_r in Epa. discriminate. }
  destruct Hcfg as [Hstd|Hfb]; [|rewrite fallback_impossible in Hpos by assumption; discriminate].
  destruct (prologue_args_std _ _ _ _ _ _ _ Hstd (proj2 Hw') Epa) as (_ & -> & Htp & Hal & Hleast).
  destruct (possible_std c w Hstd Hpos) as (J & s & HJ & Hs & EJ & Es & Hmal).
  assert (Hmpos : 0 < c_malign c w) by (apply malign_pos; [now left|lia]).
  destruct Hroom as [R1 R2]. destruct (p_aligned pol) eqn:Epal.
  - destruct (R1 eq_refl) as (a & Ha & Haa).
    + unfold prologue_is_possible in Hpos. lia.
    + exists (J + s). split; [lia|]. rewrite EJ, Es. symmetry. apply Z.pow_add_r; lia.
    + apply (is_aligned_at c a w Hmpos) in Haa. specialize (Hleast a ltac:(lia) Haa). lia.
  - assert (Epau : p_auto pol = true).
    { unfold prologue_args, use_aligned_loadstore, maybe_prologue in Epa.
      rewrite Epal in Epa. destruct (p_auto pol); [reflexivity|]. cbn in Epa. discriminate. }
    destruct (R2 Epau) as [R3 R4].
    assert (tp <= last - first)
      by (apply (prologue_args_auto_fits c pol w (last - first) first w tp); try assumption; lia).
    destruct (Z.eq_dec tp (last - first)) as [Eeq|]; [|lia].
    exfalso. destruct R4 as (a & Ha & Haa).
    { apply (is_aligned_at c last w Hmpos). replace last with (first + tp) by lia. exact Hal. }
    apply (is_aligned_at c a w Hmpos) in Haa. specialize (Hleast a ltac:(lia) Haa). lia.
Qed.

(** The control flow on any loads that present the elements of a chunk in some order. *)
Section On.
  Context {A : Type}.
  Variables (op : A -> A -> A) (ldf : bool -> list Z -> Z -> res (list A)).

  Lemma transform_reduce_on_chunks c pol w first last srcs2 (vals : list A) init d :
    target_ok c -> c_ce c = false -> policy_ok pol -> width_ok w -> range_ok first last ->
    size_matches pol w first last ->
    (forall maxe tp, prologue_args c pol w (last - first) first = Some (maxe, tp) -> tp = d /\ d < last - first) ->
    (prologue_args c pol w (last - first) first = None -> d = 0) ->
    Z.of_nat (length vals) = last - first ->
    (forall al p k, 0 <= p -> 0 < k -> p + k <= last - first -> k <= w -> (p_match pol = true -> k = w) ->
       tr_chunk w d (last - first) p k ->
       (al = true -> aligned_at c (first + p) k = true) ->
       exists v, ldf al (adv p (first :: srcs2)) k = Ok v /\ Permutation v (seg vals p k)) ->
    exists x, transform_reduce_on op ldf c pol w first last srcs2 init = Ok x
              /\ gsum op (init :: vals) x.
  Proof.
    intros Hc Hce Hpol Hw Hr Hm Hroom Hd0 Hlen Hld.
    unfold transform_reduce_on. destruct (Z.eqb_spec first last) as [E|Hne].
    { subst last. exists init. split; [reflexivity|]. 
      destruct vals; [apply gsum_one|cbn in Hlen; lia]. }
    destruct Hr as [Hle H64]. change (2 ^ 64) with two64 in H64.
    assert (Hw' : 1 <= w < two64) by exact Hw. clear Hw.
    assert (Etrap : p_match pol && negb ((last - first) mod w =? 0) = false).
    { destruct (p_match pol) eqn:Em; [|reflexivity]. destruct (Hm Em) as [q Hq].
      rewrite Hq, Z.mod_mul by lia. reflexivity. }
    rewrite Etrap, Hce.
    set (algn := fun p k => aligned_at c (first + p) k = true).
    set (usable := fun p k => tr_chunk w d (last - first) p k /\ 0 < k <= w /\ (p_match pol = true -> k = w)).
    assert (Hld' : forall al p k, 0 <= p -> 0 < k -> p + k <= Z.of_nat (length vals) -> usable p k ->
              (al = true -> algn p k) ->
              exists v, ldf al (adv p (first :: srcs2)) k = Ok v /\ Permutation v (seg vals p k)).
    { intros al p k H1 H2 H3 (H7 & H6 & H4) H5. apply Hld; try assumption; lia. }
    assert (Hcfg := target_cfg c Hc).
    assert (Huw : forall q, d <= q -> (w | q - d) -> q + w <= Z.of_nat (length vals) -> usable q w).
    { intros q H1 H2 H3. split; [|split; [lia|reflexivity] ]. right. left. rewrite <- Hlen. now repeat split. }
    assert (Hus : p_match pol = false -> forall i, 0 <= i -> Z.testbit ((last - first - d) mod w) i = true ->
              usable (last - first - ((last - first - d) mod w) mod 2 ^ (i + 1)) (2 ^ i)).
    { intros Em i Hi Hb. pose proof (pow2_pos i Hi).
      assert (Hmb : 0 <= (last - first - d) mod w < w) by (apply Z.mod_pos_bound; lia).
      assert (Hle' : 2 ^ i <= (last - first - d) mod w).
      { destruct (Z_le_gt_dec (2 ^ i) ((last - first - d) mod w)) as [?|Hgt]; [assumption|].
        rewrite testbit_small in Hb by (rewrite ?Z.pow_add_r; lia). lia. }
      split; [|split; [lia|congruence] ]. right. right. now exists i. }
    assert (Haln : forall J, (forall i, 0 <= i -> c_malign c (2 ^ i) = 2 ^ i * c_sz c) -> cfg_std c ->
              0 <= J -> w = 2 ^ J -> forall s, aligned_at c (first + s) w = true ->
              forall i q, 0 <= i -> 2 ^ i <= w -> (2 ^ i | q - s) -> algn q (2 ^ i)).
    { intros J Hmal Hstd HJ EJ s Hs i q Hi Hiw Hd. unfold algn.
      assert (HiJ : i <= J).
      { destruct (Z_le_gt_dec i J); [assumption|]. assert (2 ^ J < 2 ^ i) by (apply Z.pow_lt_mono_r; lia). lia. }
      rewrite EJ in Hs. apply (aligned_at_iff c i (first + q) (first + s) Hstd Hi (Hmal i Hi)).
      - apply (aligned_at_smaller c i J); try assumption. lia.
      - now replace (first + q - (first + s)) with (q - s) by lia. }
    destruct (prologue_args c pol w (last - first) first) as [[maxe tp]|] eqn:Epa.
    - assert (Hpos : prologue_is_possible c w = true).
      { unfold prologue_args, use_aligned_loadstore, maybe_prologue in Epa.
        destruct (prologue_is_possible c w); [reflexivity|].
        rewrite !andb_false_r in Epa. discriminate. }
      destruct Hcfg as [Hstd|Hfb];
        [|rewrite fallback_impossible in Hpos by assumption; discriminate].
      destruct (prologue_args_std _ _ _ _ _ _ _ Hstd (proj2 Hw') Epa) as (_ & -> & Htp & Hal & Hleast).
      destruct (possible_std c w Hstd Hpos) as (J & s & HJ & Hs & EJ & Es & Hmal).
      assert (Hmpos : 0 < c_malign c w) by (apply malign_pos; [now left|lia]).
      assert (Hpm : p_match pol = false).
      { destruct Hpol as (_ & Hp1 & Hp2). unfold prologue_args, use_aligned_loadstore, maybe_prologue in Epa.
        destruct (p_aligned pol); [auto|]. destruct (p_auto pol); [auto|discriminate]. }
      destruct (Hroom w tp eq_refl) as [Etp Htplt]. subst d.
      assert (HJ64 : J < 64).
      { apply pow2_lt_inv; [lia|]. change (2 ^ 64) with two64. lia. }
      destruct (tr_prologue_ok op ldf (first :: srcs2) vals usable algn
                  Hld' J tp 65 0 init [init]) as (acc1 & E1 & G1).
      { lia. }
      { change (Z.of_nat 65) with 65. lia. }
      { lia. }
      { lia. }
      { lia. }
      { intros i Hi Hb. pose proof (pow2_pos i ltac:(lia)). split; [left; exists i; repeat split; lia || assumption|].
        split; [|congruence]. split; [lia|]. rewrite EJ. apply Z.pow_le_mono_r; lia. }
      { intros i q Hi Hd. apply (Haln J Hmal Hstd ltac:(lia) EJ tp Hal); [lia| |assumption].
        rewrite EJ. apply Z.pow_le_mono_r; lia. }
      { apply gsum_one. }
      change (2 ^ 0) with 1 in E1, G1. rewrite <- EJ in E1. rewrite E1. cbn [bindR].
      rewrite Z.mod_1_r, Z.sub_0_r in G1.
      rewrite (Z.mod_small (last - first - tp) two64) by lia.
      destruct (tr_body_ok op ldf (first :: srcs2) vals usable algn
                  ltac:(rewrite Hlen; exact H64) Hld' pol w (use_aligned_loadstore c pol w)
                  acc1 ([init] ++ seg vals 0 tp) first tp) as (x & Ex & Gx).
      { lia. }
      { lia. }
      { lia. }
      { congruence. }
      { exact Huw. }
      { rewrite Hlen. exact Hus. }
      { intros _. exists J. lia. }
      { intros _. apply (Haln J Hmal Hstd ltac:(lia) EJ tp Hal). }
      { assumption. }
      rewrite Hlen in Ex, Gx. replace (first + (last - first)) with last in Ex by lia.
      rewrite Ex. exists x. split; [reflexivity|].
      eapply gsum_perm; [|exact Gx]. cbn [app]. apply perm_skip.
      rewrite <- (seg_all vals) at 3. replace (Z.of_nat (length vals)) with (tp + (last - first - tp)) by lia.
      rewrite (seg_app vals 0 tp) by lia. reflexivity.
    - specialize (Hd0 eq_refl). subst d. destruct (tr_body_ok op ldf (first :: srcs2) vals usable algn
                  ltac:(rewrite Hlen; exact H64) Hld' pol w (use_aligned_loadstore c pol w)
                  init [init] first 0) as (x & Ex & Gx).
      { lia. }
      { lia. }
      { lia. }
      { intros Em. destruct (Hm Em) as [q Hq]. exists q. lia. }
      { exact Huw. }
      { rewrite Hlen. exact Hus. }
      { intros Eu. assert (Hpos : prologue_is_possible c w = true).
        { unfold use_aligned_loadstore in Eu. now apply andb_prop in Eu. }
        destruct Hcfg as [Hstd|Hfb];
          [|rewrite fallback_impossible in Hpos by assumption; discriminate].
        destruct (possible_std c w Hstd Hpos) as (J & s & HJ & Hs & EJ & _). exists J. lia. }
      { intros Eu. assert (Hpos : prologue_is_possible c w = true).
        { unfold use_aligned_loadstore in Eu. now apply andb_prop in Eu. }
        destruct Hcfg as [Hstd|Hfb];
          [|rewrite fallback_impossible in Hpos by assumption; discriminate].
        destruct (possible_std c w Hstd Hpos) as (J & s & HJ & Hs & EJ & Es & Hmal).
        pose proof (prologue_args_none_aligned c pol w _ first Eu Epa) as Hal0.
        apply (Haln J Hmal Hstd ltac:(lia) EJ 0). now rewrite Z.add_0_r. }
      { apply gsum_one. }
      rewrite Hlen, Z.sub_0_r, Z.add_0_r, adv_0 in Ex. replace (first + (last - first)) with last in Ex by lia.
      rewrite Ex. exists x. split; [reflexivity|]. rewrite Z.sub_0_r, seg_all in Gx. exact Gx.
  Qed.

  Lemma transform_reduce_on_fit c pol w first last srcs2 (vals : list A) init :
    target_ok c -> c_ce c = false -> policy_ok pol -> width_ok w -> range_ok first last ->
    size_matches pol w first last ->
    (forall maxe tp, prologue_args c pol w (last - first) first = Some (maxe, tp) -> tp < last - first) ->
    Z.of_nat (length vals) = last - first ->
    (forall al p k, 0 <= p -> 0 < k -> p + k <= last - first -> k <= w -> (p_match pol = true -> k = w) ->
       (al = true -> aligned_at c (first + p) k = true) ->
       exists v, ldf al (adv p (first :: srcs2)) k = Ok v /\ Permutation v (seg vals p k)) ->
    exists x, transform_reduce_on op ldf c pol w first last srcs2 init = Ok x
              /\ gsum op (init :: vals) x.
  Proof.
    intros Hc Hce Hpol Hw Hr Hm Hroom Hlen Hld.
    apply (transform_reduce_on_chunks c pol w first last srcs2 vals init
             (match prologue_args c pol w (last - first) first with Some (_, tp) => tp | None => 0 end)); try assumption.
    - intros maxe tp E. rewrite E. split; [reflexivity|]. now apply (Hroom maxe).
    - intros E. now rewrite E.
    - intros al p k H1 H2 H3 H4 H5 _ H6. now apply Hld.
  Qed.

  Lemma transform_reduce_on_consteval c pol w first last srcs2 (vals : list A) init :
    c_ce c = true -> width_ok w -> range_ok first last -> size_matches pol w first last ->
    Z.of_nat (length vals) = last - first ->
    (forall p, 0 <= p -> p + 1 <= last - first ->
       exists v, ldf false (adv p (first :: srcs2)) 1 = Ok v /\ Permutation v (seg vals p 1)) ->
    transform_reduce_on op ldf c pol w first last srcs2 init = Ok (seq_sum op init vals).
  Proof.
    intros Hce Hw Hr Hm Hlen Hld.
    unfold transform_reduce_on. destruct (Z.eqb_spec first last) as [E|Hne].
    { subst last. destruct vals; [reflexivity|cbn in Hlen; lia]. }
    destruct Hr as [Hle H64]. change (2 ^ 64) with two64 in H64.
    assert (Hw' : 1 <= w < two64) by exact Hw. clear Hw.
    assert (Etrap : p_match pol && negb ((last - first) mod w =? 0) = false).
    { destruct (p_match pol) eqn:Em; [|reflexivity]. destruct (Hm Em) as [q Hq].
      rewrite Hq, Z.mod_mul by lia. reflexivity. }
    rewrite Etrap, Hce.
    assert (E := tr_const_ok op ldf (first :: srcs2) vals (fun p k => k = 1) (fun p k => False)).
    specialize (E ltac:(intros [|] p k H1 H2 H3 -> H5; [now destruct (H5 eq_refl)|]; apply Hld; lia) first
                  (loop_fuel first last) (fun _ => eq_refl) 0 init ltac:(lia)).
    rewrite Hlen, Z.add_0_r, adv_0 in E. replace (first + (last - first)) with last in E by lia.
    rewrite E; [reflexivity|]. unfold loop_fuel. lia.
  Qed.
End On.

Section Thm.
  Context {T A : Type}.
  Variables (g : list T -> A) (tr : list (list T) -> list A) (op : A -> A -> A).

  Lemma load_chunks_srcs (m : mem T) srcs k : 0 <= k ->
    (forall i, 0 <= i < k -> exists args, Forall2 (fun p x => m (p + i) = Some x) srcs args) ->
    exists chunks, Forall2 (fun p ch => load m p (Z.to_nat k) = Some ch) srcs chunks.
  Proof.
    intros Hk. induction srcs as [|p srcs IH]; intros H; [exists []; constructor|].
    destruct IH as [chunks Hc].
    { intros i Hi. destruct (H i Hi) as [args Ha]. inversion Ha; subst. eauto. }
    destruct (load_ok m p (Z.to_nat k)) as [ch Hch].
    { intros a Ha. destruct (H (a - p) ltac:(lia)) as [args Hargs]. inversion Hargs as [|? x ? ? Hx]; subst.
      replace (p + (a - p)) with a in Hx by lia. congruence. }
    exists (ch :: chunks). now constructor.
  Qed.

  Lemma ld_ok c m srcs vals : srcs <> [] ->
    transformed_are g m srcs (Z.of_nat (length vals)) vals ->
    forall al p k, 0 <= p -> 0 < k -> p + k <= Z.of_nat (length vals) -> transforms_at g tr (length srcs) k ->
      (al = true -> aligned_at c (hd 0 srcs + p) k = true) ->
      ld c tr m al (adv p srcs) k = Ok (seg vals p k).
  Proof.
    intros Hne [_ Hv] al p k Hp Hk Hpk Htr Hal.
    destruct (load_chunks_srcs m (adv p srcs) k) as [chunks Hch]; [lia| |].
    { intros i Hi. destruct (Hv (p + i) ltac:(lia)) as (args & Ha & _). exists args.
      unfold adv. clear - Ha. induction Ha as [|q x srcs args Hq _ IH]; constructor; [|assumption].
      rewrite <- Hq. f_equal. lia. }
    assert (Hlen : Forall (fun ch => Z.of_nat (length ch) = k) chunks).
    { clear - Hch Hk. induction Hch as [|? ? ? ? H _ IH]; constructor; [|assumption].
      apply load_length in H. lia. }
    assert (Hne2 : length chunks = length srcs).
    { clear - Hch. unfold adv in Hch. revert chunks Hch.
      induction srcs as [|q srcs IH]; intros chunks Hch; inversion Hch; subst; [reflexivity|].
      cbn [length]. f_equal. now apply IH. }
    destruct (Htr chunks Hne2 Hlen) as [Hl Hn].
    assert (Hval : tr chunks = seg vals p k).
    { apply nth_error_ext. intros i. unfold seg. rewrite nth_error_firstn', nth_error_skipn'.
      destruct (Nat.ltb_spec i (Z.to_nat k)) as [Hi|Hi]; [|apply nth_error_None; lia].
      destruct (Hv (p + Z.of_nat i) ltac:(lia)) as (args & Ha & Hg).
      replace (Z.to_nat p + i)%nat with (Z.to_nat (p + Z.of_nat i)) by lia. rewrite Hg. apply Hn.
      clear - Ha Hch Hi Hk. unfold adv in Hch. revert chunks Hch.
      induction Ha as [|q x srcs args Hq _ IH]; intros chunks Hch; inversion Hch as [|? ch ? chs Hc Hr]; subst;
        constructor; [|now apply IH].
      rewrite <- Hq. rewrite (load_nth _ _ _ _ Hc (q + (p + Z.of_nat i)) ltac:(lia)). f_equal. lia. }
    rewrite <- Hval. clear Hl Hn Hval Hlen. destruct srcs as [|s srcs]; [contradiction|]. cbn [adv map ld].
    inversion Hch as [|? ch ? chs Hc Hr]; subst. unfold load_chunk. cbn [hd] in Hal.
    assert (Eal : al && negb (aligned_at c (s + p) k) = false).
    { destruct al; [rewrite Hal by reflexivity|]; reflexivity. }
    rewrite Eal, Hc. cbn [of_option bindR].
    replace (mapR _ (map (fun p0 => p0 + p) srcs)) with (@Ok (list (list T)) chs); [reflexivity|].
    cbn [andb]. fold (adv p srcs) in Hr |- *. clear - Hr.
    induction Hr as [|? ? ? ? H _ IH]; [reflexivity|]. cbn [mapR]. rewrite H. cbn [of_option bindR].
    rewrite <- IH. reflexivity.
  Qed.

  Lemma transform_reduce_empty c m pol w first srcs2 init :
    transform_reduce c op tr m pol w first first srcs2 init = Ok init.
  Proof. unfold transform_reduce, transform_reduce_on. now rewrite Z.eqb_refl. Qed.

  Lemma transform_reduce_fit c pol w first last srcs2 (m : mem T) vals init :
    target_ok c -> c_ce c = false -> policy_ok pol -> width_ok w -> range_ok first last ->
    size_matches pol w first last ->
    (forall maxe tp, prologue_args c pol w (last - first) first = Some (maxe, tp) -> tp < last - first) ->
    (forall k, 0 < k -> (p_match pol = true -> k = w) -> transforms_at g tr (S (length srcs2)) k) ->
    transformed_are g m (first :: srcs2) (last - first) vals ->
    exists x, transform_reduce c op tr m pol w first last srcs2 init = Ok x
              /\ gsum op (init :: vals) x.
  Proof.
    intros Hc Hce Hpol Hw Hr Hm Hroom Htr Hv.
    assert (Hlen : Z.of_nat (length vals) = last - first) by apply Hv.
    apply transform_reduce_on_fit; try assumption.
    intros al p k H1 H2 H3 _ H4 H5. exists (seg vals p k). split; [|reflexivity].
    rewrite <- Hlen in Hv.
    apply (ld_ok c m (first :: srcs2) vals ltac:(discriminate) Hv); try assumption; [lia|].
    now apply Htr.
  Qed.

  Lemma transform_reduce_runtime c pol w first last srcs2 (m : mem T) vals init :
    target_ok c -> c_ce c = false -> policy_ok pol -> width_ok w -> range_ok first last ->
    size_matches pol w first last -> prologue_room c pol w first last ->
    (forall k, 0 < k -> (p_match pol = true -> k = w) -> transforms_at g tr (S (length srcs2)) k) ->
    transformed_are g m (first :: srcs2) (last - first) vals ->
    exists x, transform_reduce c op tr m pol w first last srcs2 init = Ok x
              /\ gsum op (init :: vals) x.
  Proof.
    intros Hc Hce Hpol Hw Hr Hm Hroom Htr Hv. apply transform_reduce_fit; try assumption.
    now apply room_leaves.
  Qed.

  Lemma plain_room c pol w first last : plain pol -> prologue_room c pol w first last.
  Proof. intros [H1 H2]. split; congruence. Qed.

  Lemma plain_policy pol : plain pol -> policy_ok pol.
  Proof. intros [H1 H2]. repeat split; congruence. Qed.

  Lemma transform_reduce_plain c pol w first last srcs2 (m : mem T) vals init :
    target_ok c -> c_ce c = false -> plain pol -> width_ok w -> range_ok first last ->
    size_matches pol w first last ->
    (forall k, 0 < k -> transforms_at g tr (S (length srcs2)) k) ->
    transformed_are g m (first :: srcs2) (last - first) vals ->
    exists x, transform_reduce c op tr m pol w first last srcs2 init = Ok x
              /\ gsum op (init :: vals) x.
  Proof.
    intros Hc Hce Hp Hw Hr Hm Htr Hv. apply transform_reduce_runtime; try assumption.
    - now apply plain_policy.
    - now apply plain_room.
    - intros k Hk _. now apply Htr.
  Qed.

  Lemma transform_reduce_prologue c pol w first last srcs2 (m : mem T) vals init :
    target_ok c -> c_ce c = false -> policy_ok pol -> width_ok w -> range_ok first last ->
    size_matches pol w first last -> prologue_room c pol w first last ->
    (forall k, 0 < k -> transforms_at g tr (S (length srcs2)) k) ->
    transformed_are g m (first :: srcs2) (last - first) vals ->
    exists x, transform_reduce c op tr m pol w first last srcs2 init = Ok x
              /\ gsum op (init :: vals) x.
  Proof.
    intros Hc Hce Hp Hw Hr Hm Hro Htr Hv. apply transform_reduce_runtime; try assumption.
    intros k Hk _. now apply Htr.
  Qed.

  Lemma transform_reduce_match c pol w first last srcs2 (m : mem T) vals init :
    target_ok c -> c_ce c = false -> policy_ok pol -> p_match pol = true -> width_ok w ->
    range_ok first last -> size_matches pol w first last ->
    transforms_at g tr (S (length srcs2)) w ->
    transformed_are g m (first :: srcs2) (last - first) vals ->
    exists x, transform_reduce c op tr m pol w first last srcs2 init = Ok x
              /\ gsum op (init :: vals) x.
  Proof.
    intros Hc Hce Hp Hpm Hw Hr Hm Htr Hv. apply transform_reduce_runtime; try assumption.
    - destruct Hp as (_ & H1 & H2).
      split; [intros E; rewrite (H1 E) in Hpm; discriminate|intros E; rewrite (H2 E) in Hpm; discriminate].
    - intros k Hk Ek. rewrite (Ek Hpm). exact Htr.
  Qed.

  Lemma transform_reduce_fold c pol w first last srcs2 (m : mem T) vals init :
    assoc_comm op ->
    target_ok c -> c_ce c = false -> policy_ok pol -> width_ok w -> range_ok first last ->
    size_matches pol w first last -> prologue_room c pol w first last ->
    (forall k, 0 < k -> transforms_at g tr (S (length srcs2)) k) ->
    transformed_are g m (first :: srcs2) (last - first) vals ->
    transform_reduce c op tr m pol w first last srcs2 init = Ok (seq_sum op init vals).
  Proof.
    intros Hop Hc Hce Hp Hw Hr Hm Hro Htr Hv.
    destruct (transform_reduce_prologue c pol w first last srcs2 m vals init) as (x & Ex & Gx); try assumption.
    rewrite Ex. f_equal. now apply gsum_fold.
  Qed.

  Lemma transform_reduce_consteval c pol w first last srcs2 (m : mem T) vals init :
    c_ce c = true -> width_ok w -> range_ok first last -> size_matches pol w first last ->
    transforms_at g tr (S (length srcs2)) 1 ->
    transformed_are g m (first :: srcs2) (last - first) vals ->
    transform_reduce c op tr m pol w first last srcs2 init = Ok (seq_sum op init vals).
  Proof.
    intros Hce Hw Hr Hm Htr Hv.
    assert (Hlen : Z.of_nat (length vals) = last - first) by apply Hv.
    apply transform_reduce_on_consteval; try assumption.
    intros p H1 H2. exists (seg vals p 1). split; [|reflexivity].
    rewrite <- Hlen in Hv.
    apply (ld_ok c m (first :: srcs2) vals ltac:(discriminate) Hv); try assumption; [lia|lia|discriminate].
  Qed.

  Lemma transform_reduce_trap c pol w first last srcs2 (m : mem T) init :
    p_match pol = true -> width_ok w -> range_ok first last -> ~ (exists n, last - first = n * w) ->
    transform_reduce c op tr m pol w first last srcs2 init = Stop STrap.
  Proof.
    intros Hm Hw Hr Hn. unfold width_ok in Hw.
    unfold transform_reduce, transform_reduce_on. destruct (Z.eqb_spec first last) as [E|Hne].
    { exfalso. apply Hn. exists 0. lia. }
    rewrite Hm. destruct (Z.eqb_spec ((last - first) mod w) 0) as [E|_]; [|reflexivity].
    exfalso. apply Hn. apply Z.mod_divide in E; [|lia]. exact E.
  Qed.
End Thm.

(** ** The public overloads *)
Lemma id_transforms {T} (d : T) k :
  transforms_at (fun args => hd d args) (fun chunks : list (list T) => hd [] chunks) 1 k.
Proof.
  intros chunks Hne HF. destruct chunks as [|ch rest]; [discriminate|]. inversion HF; subst. cbn [hd].
  split; [reflexivity|]. intros i args Ha. inversion Ha; subst. cbn [hd]. assumption.
Qed.

Lemma reduce_alg_runtime {T} (op : T -> T -> T) c pol w first last (m : mem T) l init :
  target_ok c -> c_ce c = false -> policy_ok pol -> width_ok w -> range_ok first last ->
  size_matches pol w first last -> prologue_room c pol w first last ->
  range_is m first last l ->
  exists x, reduce_alg c op m pol w first last init = Ok x /\ gsum op (init :: l) x.
Proof.
  intros Hc Hce Hp Hw Hr Hm Hro [Hl Hv]. unfold reduce_alg.
  apply (transform_reduce_prologue (fun args => hd init args)); try assumption.
  - intros k _. apply id_transforms.
  - split; [exact Hl|]. intros i Hi. assert (Hi' : (Z.to_nat i < length l)%nat) by lia.
    destruct (nth_error l (Z.to_nat i)) as [x|] eqn:E; [|apply nth_error_None in E; lia].
    exists [x]. split; [|reflexivity]. constructor; [|constructor].
    rewrite <- E, Hv by lia. f_equal. lia.
Qed.

Lemma sum_alg_runtime {T} (zero : T) (plus : T -> T -> T) c pol w first last (m : mem T) l :
  assoc_comm plus ->
  target_ok c -> c_ce c = false -> policy_ok pol -> width_ok w -> range_ok first last ->
  size_matches pol w first last -> prologue_room c pol w first last ->
  range_is m first last l ->
  sum_alg zero plus c m pol w first last = Ok (seq_sum plus zero l).
Proof.
  intros Hop Hc Hce Hp Hw Hr Hm Hro Hv. unfold sum_alg.
  destruct (reduce_alg_runtime plus c pol w first last m l zero) as (x & Ex & Gx); try assumption.
  rewrite Ex. f_equal. now apply gsum_fold.
Qed.

Lemma map2_nth {T} (f : T -> T -> T) a : forall b i x y, nth_error a i = Some x -> nth_error b i = Some y ->
  nth_error (map2 f a b) i = Some (f x y).
Proof.
  induction a as [|p a IH]; intros [|q b] [|i] x y; cbn; try discriminate.
  - intros H1 H2. congruence.
  - apply IH.
Qed.

Lemma inner_product_runtime {T} (plus mult : T -> T -> T) c pol w first1 last1 first2 (m : mem T) l1 l2 init :
  target_ok c -> c_ce c = false -> policy_ok pol -> width_ok w -> range_ok first1 last1 ->
  size_matches pol w first1 last1 -> prologue_room c pol w first1 last1 ->
  range_is m first1 last1 l1 -> range_is m first2 (first2 + (last1 - first1)) l2 ->
  exists x, inner_product plus mult c m pol w first1 last1 first2 init = Ok x
            /\ gsum plus (init :: map (fun xy => mult (fst xy) (snd xy)) (combine l1 l2)) x.
Proof.
  intros Hc Hce Hp Hw Hr Hm Hro [Hl1 Hv1] [Hl2 Hv2]. unfold inner_product.
  set (g := fun args => match args with [x; y] => mult x y | _ => init end).
  set (tr := fun chunks : list (list T) => match chunks with [a; b] => map2 mult a b | _ => [] end).
  assert (Hval : transformed_are g m [first1; first2] (last1 - first1)
                   (map (fun xy => mult (fst xy) (snd xy)) (combine l1 l2))).
  { split; [rewrite map_length, combine_length; lia|]. intros i Hi.
    destruct (nth_error l1 (Z.to_nat i)) as [x|] eqn:E1; [|apply nth_error_None in E1; lia].
    destruct (nth_error l2 (Z.to_nat i)) as [y|] eqn:E2; [|apply nth_error_None in E2; lia].
    exists [x; y]. split.
    - constructor; [|constructor; [|constructor]].
      + rewrite <- E1, Hv1 by lia. f_equal. lia.
      + rewrite <- E2, Hv2 by lia. f_equal. lia.
    - rewrite nth_error_map. assert (Ec : nth_error (combine l1 l2) (Z.to_nat i) = Some (x, y)).
      { clear - E1 E2. revert l2 E1 E2. generalize (Z.to_nat i) as k. induction l1 as [|p l1 IH];
          intros [|k] [|q l2]; cbn; try discriminate; [intros; congruence|apply IH]. }
      rewrite Ec. reflexivity. }
  apply (transform_reduce_prologue g); try assumption.
  intros k _ chunks Hl HF. destruct chunks as [|a [|b [|? ?]]]; try discriminate.
  inversion HF as [|? ? Ha HF2]; subst. inversion HF2 as [|? ? Hb _]; subst. cbn.
  split; [rewrite map2_length; lia|]. intros i args Hargs.
  inversion Hargs as [|? x ? ? Hx Hargs2]; subst. inversion Hargs2 as [|? y ? ? Hy Hargs3]; subst.
  inversion Hargs3; subst. now apply map2_nth.
Qed.
