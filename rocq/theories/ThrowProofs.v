(** for_each and transform with callables that throw. *)
From Verif Require Import Base BaseFacts ExecModel ExecProofs ExecForEach ExecRun ExecSpec ExecThm
  TransformModel TransformSpec TransformProofs TransformThm ExecExamples ThrowModel ThrowSpec.
From Coq Require Import ZifyBool ZifyNat.
Ltac Zify.zify_post_hook ::= idtac.

Section ForEach.
  Context {T St : Type} (f : St -> list (list T) -> St * option (list (list T))).

  Lemma told_snoc st tr outs st1 ch out st2 :
    told f st tr outs st1 -> f st1 ch = (st2, Some out) ->
    told f st (tr ++ [ch]) (outs ++ [out]) st2.
  Proof.
    induction 1; intros E; cbn; econstructor; eauto. constructor.
  Qed.

  Lemma run_tiles_throwing c wb : lanes_kept f -> forall a b l, tiles a b l ->
    Forall (call_aligned c) l ->
    forall (m : mem T) st tr, (forall x, a <= x < b -> m x <> None) ->
    exists e, run_calls_throwing f c wb l (mkst m st tr) = Ok e /\
      match e with
      | Returned s => exists tr' outs, s_trace s = tr ++ tr' /\ told f st tr' outs (s_st s)
          /\ load m a (Z.to_nat (b - a)) = Some (seen tr')
          /\ (wb = true -> load (s_mem s) a (Z.to_nat (b - a)) = Some (seen outs))
          /\ (forall x, ~ (wb = true /\ a <= x < b) -> s_mem s x = m x)
      | Threw s ch => exists p q tr' outs st0, a <= p < q /\ q <= b /\ s_trace s = tr ++ tr'
          /\ told f st tr' outs st0 /\ f st0 ch = (s_st s, None)
          /\ load m a (Z.to_nat (p - a)) = Some (seen tr')
          /\ load m p (Z.to_nat (q - p)) = Some (concat ch)
          /\ (wb = true -> load (s_mem s) a (Z.to_nat (p - a)) = Some (seen outs))
          /\ (forall x, ~ (wb = true /\ a <= x < p) -> s_mem s x = m x)
      end.
  Proof.
    intros Hk a b l H. induction H as [a|a b k n al l Hpos Hn Ht IH]; intros HA m st tr Hdef.
    - eexists. split; [reflexivity|]. cbn. exists [], []. rewrite app_nil_r, Z.sub_diag.
      repeat split; constructor.
    - inversion HA as [|? ? HA1 HA2]; subst. pose proof (tiles_le _ _ _ Ht) as Hle.
      cbn [run_calls_throwing]. unfold load_and_invoke_throwing.
      cbn [s_mem s_st s_trace k_al k_pos k_k k_n].
      set (d := k * Z.of_nat n) in *. assert (Hd : 0 < d) by (unfold d; nia).
      destruct (load_chunks_ok (fun (s : unit) (x : list (list T)) => (s, x)) c m al k n a Hpos) as (ch & Ech & Hlen & Hld);
        [exact HA1|intros x Hx; apply Hdef; fold d in Hx; lia|].
      fold d in Hld. rewrite Ech. cbn [bindR].
      destruct (f st ch) as [st1 [out|]] eqn:Ef.
      + assert (Hout : map (@length T) out = repeat (Z.to_nat k) n).
        { rewrite <- Hlen. apply (Hk st). now rewrite Ef. }
        assert (Hst : exists m1 : mem T, (if wb then store_chunks c m al a k out else Ok m) = Ok m1
                  /\ (wb = true -> load m1 a (Z.to_nat d) = Some (concat out))
                  /\ (forall x, ~ (wb = true /\ a <= x < a + d) -> m1 x = m x)
                  /\ (forall x, m1 x = None <-> m x = None)).
        { destruct wb.
          - destruct (store_chunks_ok (fun (s : unit) (x : list (list T)) => (s, x)) c al k out m n a Hpos Hout)
              as (m1 & Em & Hl & Ho & Hdn);
              [exact HA1|intros x Hx; apply Hdef; fold d in Hx; lia|].
            exists m1. fold d in Hl, Ho. repeat split; try assumption; try (intros _; assumption);
              try apply Hdn. intros x Hx. apply Ho. intros Hx'. apply Hx. tauto.
          - exists m. repeat split; try discriminate; try tauto. }
        destruct Hst as (m1 & Em & Hl1 & Ho1 & Hdn). rewrite Em. cbn [bindR].
        destruct (IH HA2 m1 st1 (tr ++ [ch])) as (e & Ee & He).
        { intros x Hx. rewrite Hdn. apply Hdef. lia. }
        rewrite Ee. exists e. split; [reflexivity|].
        assert (Hsplit : forall p, a + d <= p -> Z.to_nat (p - a)
                  = (Z.to_nat d + Z.to_nat (p - (a + d)))%nat) by lia.
        assert (Hp0 : a + Z.of_nat (Z.to_nat d) = a + d) by lia.
        destruct e as [s|s ch'].
        * destruct He as (tr' & outs & Etr & Htold & Hlm & Hlw & Ho).
          exists (ch :: tr'), (out :: outs). split; [rewrite Etr, <- app_assoc; reflexivity|].
          split; [econstructor; eassumption|].
          rewrite (Hsplit b) by lia. unfold seen in *. cbn [concat]. rewrite !concat_app.
          split; [|split].
          -- rewrite load_app, Hld, Hp0.
             rewrite (load_ext m m1) by (intros x Hx; symmetry; apply Ho1; lia).
             now rewrite Hlm.
          -- intros E. rewrite load_app, Hp0.
             rewrite (load_ext (s_mem s) m1) by (intros x Hx; apply Ho; lia).
             now rewrite (Hl1 E), (Hlw E).
          -- intros x Hx. rewrite Ho by (intros [H1 H2]; apply Hx; split; [assumption|lia]).
             apply Ho1. intros [H1 H2]. apply Hx. split; [assumption|lia].
        * destruct He as (p & q & tr' & outs & st0 & Hpq & Hqb & Etr & Htold & Ef0 & Hlm & Hlc & Hlw & Ho).
          exists p, q, (ch :: tr'), (out :: outs), st0. split; [lia|]. split; [assumption|].
          split; [rewrite Etr, <- app_assoc; reflexivity|].
          split; [econstructor; eassumption|]. split; [assumption|].
          rewrite (Hsplit p) by lia. unfold seen in *. cbn [concat]. rewrite !concat_app.
          split; [|split; [|split]].
          -- rewrite load_app, Hld, Hp0.
             rewrite (load_ext m m1) by (intros x Hx; symmetry; apply Ho1; lia).
             now rewrite Hlm.
          -- rewrite (load_ext m m1) by (intros x Hx; symmetry; apply Ho1; lia). exact Hlc.
          -- intros E. rewrite load_app, Hp0.
             rewrite (load_ext (s_mem s) m1) by (intros x Hx; apply Ho; lia).
             now rewrite (Hl1 E), (Hlw E).
          -- intros x Hx. rewrite Ho by (intros [H1 H2]; apply Hx; split; [assumption|lia]).
             apply Ho1. intros [H1 H2]. apply Hx. split; [assumption|lia].
      + eexists. split; [reflexivity|]. cbn [s_mem s_st s_trace].
        exists a, (a + d), [], [], st. rewrite app_nil_r, Z.sub_diag.
        replace (a + d - a) with d by lia.
        split; [lia|]. split; [lia|]. split; [reflexivity|]. split; [constructor|].
        split; [assumption|]. split; [reflexivity|]. split; [assumption|].
        split; [reflexivity|]. reflexivity.
  Qed.

  Lemma for_each_throwing c pol w wb first last m st :
    target_ok c -> c_ce c = false -> policy_ok pol -> width_ok w -> range_ok first last ->
    size_matches pol w first last -> reaches_alignment c pol w first last ->
    lanes_kept f -> mapped m first last ->
    exists e, run_for_each_throwing f c pol w wb first last m st = Ok e /\
      match e with
      | Returned s => done_up_to f wb first last m st (s_trace s) (s_mem s) (s_st s)
      | Threw s ch => exists p q st0, first <= p < q /\ q <= last
          /\ done_up_to f wb first p m st (s_trace s) (s_mem s) st0
          /\ range_is m p q (concat ch)
          /\ f st0 ch = (s_st s, None)
      end.
  Proof.
    intros Hc Hce Hp Hw [Hr1 Hr2] Hs Hra Hk Hm.
    destruct (reaches_fits _ _ _ _ _ Hc Hw Hra) as [Hfit Hsm].
    destruct (for_each_calls c pol w first last) as (l & E & HT & HA & _);
      try assumption; [now apply target_cfg|now apply policy_pol|].
    unfold run_for_each_throwing. rewrite E.
    destruct (run_tiles_throwing c wb Hk first last l HT HA m st [] (mapped_some _ _ _ Hm))
      as (e & Ee & He).
    rewrite Ee. cbn [bindR]. destruct e as [s|s ch]; (eexists; split; [reflexivity|]).
    - destruct He as (tr & outs & Etr & Ht & Hl & Hlw & Ho). rewrite Etr. cbn [app].
      exists outs. split; [assumption|]. split; [now apply load_range_is|].
      split; [intros Ew; apply load_range_is; auto|exact Ho].
    - destruct He as (p & q & tr & outs & st0 & Hpq & Hq & Etr & Ht & Ef & Hl & Hlc & Hlw & Ho).
      rewrite Etr. cbn [app]. exists p, q, st0. split; [assumption|]. split; [assumption|].
      split; [|split; [apply load_range_is; [lia|assumption]|assumption]].
      exists outs. split; [assumption|]. split; [apply load_range_is; [lia|assumption]|].
      split; [intros Ew; apply load_range_is; [lia|auto]|exact Ho].
  Qed.

  Lemma told_maps (g : T -> T) : maps_lanes g f -> forall st tr outs st',
    told f st tr outs st' -> outs = map (map (map g)) tr.
  Proof.
    intros Hg st tr outs st' H. induction H; [reflexivity|]. cbn. f_equal; [|assumption].
    apply (Hg st). now rewrite H.
  Qed.

  Lemma done_maps (g : T -> T) first p m st tr m' st' : maps_lanes g f ->
    done_up_to f true first p m st tr m' st' -> forall a, m' a = map_range g m first p a.
  Proof.
    intros Hg (outs & Ht & Hr & Hw & Ho) a. unfold map_range.
    destruct ((first <=? a) && (a <? p)) eqn:E.
    - rewrite (told_maps g Hg _ _ _ _ Ht) in Hw. specialize (Hw eq_refl).
      rewrite seen_map in Hw. destruct Hw as [Hl Hw]. destruct Hr as [Hl' Hr].
      rewrite map_length in *.
      replace a with (first + Z.of_nat (Z.to_nat (a - first))) by lia.
      rewrite <- Hw, <- Hr by lia. apply nth_error_map.
    - apply Ho. lia.
  Qed.

  Lemma maps_keeps (g : T -> T) : maps_lanes g f -> lanes_kept f.
  Proof.
    intros Hg st ch out E. rewrite (Hg _ _ _ E), map_map. apply map_ext. intros x. apply map_length.
  Qed.

  Lemma for_each_throwing_map (g : T -> T) c pol w first last m st :
    target_ok c -> c_ce c = false -> policy_ok pol -> width_ok w -> range_ok first last ->
    size_matches pol w first last -> reaches_alignment c pol w first last ->
    maps_lanes g f -> mapped m first last ->
    exists e, run_for_each_throwing f c pol w true first last m st = Ok e /\
      match e with
      | Returned s => forall a, s_mem s a = map_range g m first last a
      | Threw s ch => exists p q, first <= p < q /\ q <= last
          /\ (forall a, s_mem s a = map_range g m first p a)
          /\ range_is m p q (concat ch)
      end.
  Proof.
    intros Hc Hce Hp Hw Hr Hs Hra Hg Hm.
    destruct (for_each_throwing c pol w true first last m st) as (e & E & He);
      try assumption; [now apply (maps_keeps g)|].
    exists e. split; [assumption|]. destruct e as [s|s ch].
    - eapply done_maps; eassumption.
    - destruct He as (p & q & st0 & H1 & H2 & H3 & H4 & _). exists p, q.
      repeat split; try assumption; try apply H1; try apply H4. eapply done_maps; eassumption.
  Qed.
End ForEach.

(** A callable that does not throw: nothing is different. *)
Lemma for_each_nothrow {T St} (g : St -> list (list T) -> St * list (list T)) c pol w wb first last m st :
  run_for_each_throwing (fun s ch => (fst (g s ch), Some (snd (g s ch)))) c pol w wb first last m st
  = bindR (run_for_each g c pol w wb first last m st) (fun s => Ok (Returned s)).
Proof.
  unfold run_for_each_throwing, run_for_each. destruct (for_each c pol w first last) as [l r].
  assert (H : forall s, run_calls_throwing (fun s ch => (fst (g s ch), Some (snd (g s ch)))) c wb l s
              = bindR (run_calls g c wb l s) (fun s => Ok (Returned s))).
  { induction l as [|k l IH]; intros s; [reflexivity|]. cbn [run_calls_throwing run_calls].
    unfold load_and_invoke_throwing, load_and_invoke.
    destruct (load_chunks c (s_mem s) (k_al k) (k_pos k) (k_k k) (k_n k)) as [ch|x]; [|reflexivity].
    cbn [bindR]. destruct (g (s_st s) ch) as [st' out]. cbn [fst snd].
    destruct (if wb then _ else _) as [m'|x]; [|reflexivity]. cbn [bindR]. apply IH. }
  rewrite H. destruct (run_calls g c wb l (mkst m st [])) as [s|x]; [|reflexivity].
  cbn [bindR]. now destruct r.
Qed.

Lemma shape_bound pol w l : 1 <= w -> call_shape pol w l ->
  Forall (fun k => k_k k * (Z.of_nat (k_n k) - 1) <= w * (Z.max 1 (p_unroll pol) - 1)) l.
Proof.
  intros Hw (ies & a & b & des & E & _ & _ & _ & Ha & _).
  assert (H : Forall (fun s : Z * nat => fst s * (Z.of_nat (snd s) - 1)
                                         <= w * (Z.max 1 (p_unroll pol) - 1)) (map size_of l)).
  { rewrite E, !Forall_app. repeat split.
    - apply Forall_map, Forall_forall. intros i _. cbn. nia.
    - apply Forall_forall. intros x Hx. assert (a <> 0%nat) by (intros ->; contradiction).
      apply repeat_spec in Hx. subst x. cbn [fst snd].
      assert (1 < p_unroll pol) by (destruct (Z_lt_le_dec 1 (p_unroll pol)); [assumption|exfalso; auto]).
      rewrite Z2Nat.id, Z.max_r by lia. lia.
    - apply Forall_forall. intros x Hx. apply repeat_spec in Hx. subst x. cbn [fst snd]. nia.
    - apply Forall_map, Forall_forall. intros i _. cbn. nia. }
  rewrite Forall_map in H. exact H.
Qed.

Section Transform.
  Context {T : Type} (op : list T -> T) (opv : list (list T) -> option (list T)).

  Lemma invoke_all_throwing_ok m k n : lanewise_or_throws op opv -> 0 < k ->
    forall srcs, srcs <> [] ->
    Forall (fun p => forall j, 0 <= j < k * Z.of_nat n -> m (p + j) <> None) srcs ->
    exists e, invoke_all_throwing opv m srcs k n = Ok e /\
      match e with
      | Returned rs => map (@length T) rs = repeat (Z.to_nat k) n
          /\ forall j args, 0 <= j < k * Z.of_nat n ->
               Forall2 (fun p x => m (p + j) = Some x) srcs args ->
               nth_error (concat rs) (Z.to_nat j) = Some (op args)
      | Threw _ chunks => opv chunks = None /\
          exists i, 0 <= i /\ i + k <= k * Z.of_nat n
            /\ Forall2 (fun p ch => load m (p + i) (Z.to_nat k) = Some ch) srcs chunks
      end.
  Proof.
    intros Hop Hk. induction n as [|n IH]; intros srcs Hne Hdef.
    - eexists. split; [reflexivity|]. split; [reflexivity|]. intros; lia.
    - cbn [invoke_all_throwing]. unfold invoke_at_throwing.
      destruct (load_all m srcs (Z.to_nat k)) as (chunks & E & H2).
      { eapply Forall_impl; [|exact Hdef]. cbn. intros p Hp j Hj. apply Hp. nia. }
      rewrite E. cbn [bindR].
      assert (Hlen : Forall (fun ch => length ch = Z.to_nat k) chunks).
      { clear - H2. induction H2; constructor; [|assumption]. now apply load_length in H. }
      assert (Hcne : chunks <> []) by (intros ->; inversion H2; subst; contradiction).
      destruct (opv chunks) as [r|] eqn:Er.
      + destruct (Hop _ _ _ Hcne Hlen Er) as [Hl Hnr].
        destruct (IH (adv k srcs)) as (e & Ee & He).
        { destruct srcs; [contradiction|discriminate]. }
        { unfold adv. apply Forall_map. eapply Forall_impl; [|exact Hdef]. cbn.
          intros p Hp j Hj. replace (p + k + j) with (p + (k + j)) by lia. apply Hp. nia. }
        rewrite Ee. cbn [bindR]. destruct e as [rs|rs chunks'].
        * eexists. split; [reflexivity|]. destruct He as [Hsh Hnth].
          split; [cbn; now rewrite Hl, Hsh|].
          intros j args Hj Hargs. cbn [concat]. destruct (Z_lt_le_dec j k) as [Hjk|Hjk].
          -- rewrite nth_error_app1 by lia. apply Hnr.
             clear - H2 Hj Hjk Hargs. revert args Hargs.
             induction H2 as [|p ch srcs chunks Hp H2 IH]; intros args Hargs;
               inversion Hargs; subst; constructor; [|now apply IH].
             match goal with H : m (p + _) = Some _ |- _ => rewrite <- H end.
             symmetry. rewrite (load_nth _ _ _ _ Hp) by lia. f_equal. lia.
          -- rewrite nth_error_app2 by lia. rewrite Hl.
             replace (Z.to_nat j - Z.to_nat k)%nat with (Z.to_nat (j - k)) by lia.
             apply Hnth; [nia|]. clear - Hargs. unfold adv. induction Hargs; constructor; [|assumption].
             now replace (x + k + (j - k)) with (x + j) by lia.
        * eexists. split; [reflexivity|]. destruct He as (Hn & i & Hi & Hik & HF). split; [assumption|].
          exists (k + i). split; [lia|]. split; [nia|].
          clear - HF. unfold adv in HF. remember (map _ srcs) as s eqn:Es. revert srcs Es.
          induction HF; intros [|p srcs] Es; try discriminate; constructor; injection Es as -> ->.
          -- now replace (p + (k + i)) with (p + k + i) by lia.
          -- now apply IHHF.
      + eexists. split; [reflexivity|]. split; [assumption|]. exists 0. split; [lia|]. split; [nia|].
        clear - H2. induction H2; constructor; [|assumption]. now rewrite Z.add_0_r.
  Qed.

  (** [transformed] for the positions [a,b) of the first input, which starts at [F]. *)
  Definition updated (F D : Z) (S2 : list Z) (a b : Z) (m m' : mem T) : Prop :=
    (forall i args, a <= i < b -> Forall2 (fun p x => m (p + (i - F)) = Some x) (F :: S2) args ->
                    m' (D + (i - F)) = Some (op args))
    /\ (forall x, ~ (D + (a - F) <= x < D + (b - F)) -> m' x = m x).

  Lemma run_steps_throwing_ok c F D S2 B : lanewise_or_throws op opv -> forall a b l, tiles a b l ->
    Forall (call_aligned (shift_cfg F D c)) l ->
    Forall (fun k => k_k k * (Z.of_nat (k_n k) - 1) <= B) l -> F <= a ->
    forall m, (forall i, a <= i < b -> m (D + (i - F)) <> None) ->
    (forall i, a <= i < b -> m i <> None) ->
    Forall (fun p => forall i, a <= i < b -> m (p + (i - F)) <> None) S2 ->
    Forall (fun p => D <= p \/ p + (b - F) <= D) (F :: S2) ->
    exists e, run_steps_throwing opv c m (map (ev F D S2) l) = Ok e /\
      match e with
      | Returned m' => updated F D S2 a b m m'
      | Threw m' chunks => opv chunks = None /\ exists p i k, a <= p <= i /\ 0 < k /\ i + k <= b
          /\ i - p <= B /\ updated F D S2 a p m m'
          /\ Forall2 (fun q ch => load m (q + (i - F)) (Z.to_nat k) = Some ch) (F :: S2) chunks
      end.
  Proof.
    intros Hop a b l H. induction H as [a|a b k n al l Hk Hn Ht IH]; intros HA HB HF m Hd Hs1 Hs2 Hnc.
    - eexists. split; [reflexivity|]. split; [intros; lia|reflexivity].
    - inversion HA as [|? ? HA1 HA2]; inversion HB as [|? ? HB1 HB2]; subst.
      cbn [k_k k_n] in HB1. pose proof (tiles_le _ _ _ Ht) as Hle.
      set (a' := a + k * Z.of_nat n) in *.
      assert (Haa : a < a') by (unfold a'; nia).
      cbn [map run_steps_throwing]. unfold run_step_throwing.
      cbn [ev t_srcs t_k t_n t_al t_dst k_pos k_k k_n k_al].
      destruct (invoke_all_throwing_ok m k n Hop Hk (a :: adv (a - F) S2)) as (e & Er & He);
        [discriminate| |].
      { constructor.
        - intros j Hj. apply Hs1. unfold a' in *. lia.
        - unfold adv. apply Forall_map. eapply Forall_impl; [|exact Hs2]. cbn. intros p Hp j Hj.
          replace (p + (a - F) + j) with (p + (a + j - F)) by lia. apply Hp. unfold a' in *; lia. }
      rewrite Er. cbn [bindR]. destruct e as [rs|x chunks].
      2:{ eexists. split; [reflexivity|]. destruct He as (Hnone & i & Hi & Hik & H2).
          split; [assumption|]. exists a, (a + i), k. split; [lia|]. split; [assumption|].
          split; [unfold a' in *; lia|]. split; [nia|]. split; [split; [intros; lia|reflexivity]|].
          inversion H2 as [|? ? ? chunks' E1 H2']; subst. constructor.
          - replace (F + (a + i - F)) with (a + i) by lia. assumption.
          - clear - H2'. unfold adv in H2'. remember (map _ S2) as s eqn:Es. revert S2 Es.
            induction H2'; intros [|p S2] Es; try discriminate; constructor; injection Es as -> ->.
            + now replace (p + (a + i - F)) with (p + (a - F) + i) by lia.
            + now apply IHH2'. }
      destruct He as (Hsh & Hnth).
      destruct (store_chunks_ok (fun (s : unit) (x : list (list T)) => (s, x)) c al k rs m n (D + (a - F)) Hk Hsh) as (m1 & Em & Hld & Ho & Hdn).
      { intros Eal i Hi. specialize (HA1 Eal i Hi). cbn [k_pos k_k] in HA1. rewrite shift_aligned in HA1.
        replace (D + (a - F) + k * i) with (D + (a + k * i - F)) by lia. exact HA1. }
      { intros x Hx. replace x with (D + (x - D + F - F)) by lia. apply Hd. unfold a' in *; lia. }
      rewrite Em. cbn [bindR].
      assert (Hkeep : forall p i, (D <= p \/ p + (b - F) <= D) -> a' <= i < b ->
                m1 (p + (i - F)) = m (p + (i - F))).
      { intros p i Hp Hi. apply Ho. fold a'. unfold a' in *. lia. }
      assert (Hfirst : forall m' p, updated F D S2 a' p m1 m' -> a' <= p <= b -> updated F D S2 a p m m').
      { intros m' p [Hs Ho2] Hpb. split.
        - intros i args Hi Hargs. destruct (Z_lt_le_dec i a') as [Hia|Hia].
          + rewrite Ho2 by lia.
            assert (Hr := Hnth (i - a) args ltac:(unfold a' in *; lia)).
            assert (Hx : nth_error (concat rs) (Z.to_nat (i - a)) = Some (op args)).
            { apply Hr. inversion Hargs as [|? ? ? args' H1 H2]; subst. constructor.
              - replace (a + (i - a)) with (F + (i - F)) by lia. exact H1.
              - clear - H2. unfold adv. induction H2; constructor; [|assumption].
                now replace (x + (a - F) + (i - a)) with (x + (i - F)) by lia. }
            rewrite <- Hx.
            rewrite (load_nth _ _ _ _ Hld) by (unfold a' in *; nia). f_equal. lia.
          + apply Hs; [lia|]. assert (Hib : a' <= i < b) by lia. clear - Hargs Hnc Hkeep Hib.
            revert Hargs Hnc. generalize (F :: S2) as srcs. intros srcs Hargs.
            induction Hargs; intros Hnc; inversion Hnc; subst; constructor; [|auto].
            rewrite Hkeep by (try assumption; lia). assumption.
        - intros x Hx. rewrite Ho2 by lia. apply Ho. fold a'. unfold a' in *. lia. }
      destruct (IH HA2 HB2 ltac:(lia) m1) as (e & Ee & He).
      { intros i Hi. rewrite Hdn. apply Hd. lia. }
      { intros i Hi. rewrite Hdn. apply Hs1. lia. }
      { eapply Forall_impl; [|exact Hs2]. cbn. intros p Hp i Hi. rewrite Hdn. apply Hp. lia. }
      { exact Hnc. }
      exists e. split; [exact Ee|]. destruct e as [m2|m2 chunks].
      + apply Hfirst; [assumption|lia].
      + destruct He as (Hnone & p & i & k' & Hp & Hk' & Hi & HiB & Hu & H2). split; [assumption|].
        exists p, i, k'. split; [lia|]. do 3 (split; [assumption|]).
        split; [apply Hfirst; [assumption|lia]|].
        clear - H2 Hnc Hkeep Hi Hk' Hp. revert H2 Hnc. generalize (F :: S2) as srcs.
        intros srcs H2. induction H2; intros Hnc; inversion Hnc; subst; constructor; [|auto].
        rewrite <- H. apply load_ext. intros z Hz.
        replace z with (x + (z - x + F - F)) by lia. symmetry. apply Hkeep; [assumption|lia].
  Qed.

  Lemma updated_transformed F D S2 n m m' :
    updated F D S2 F (F + n) m m' -> transformed op (F :: S2) D n m m'.
  Proof.
    intros [H1 H2]. split.
    - intros i args Hi Hargs. replace (D + i) with (D + (F + i - F)) by lia.
      apply H1; [lia|]. replace (F + i - F) with i by lia. exact Hargs.
    - intros a Ha. apply H2. lia.
  Qed.

  Lemma transform_throwing c pol w first last dst srcs2 (m : mem T) :
    target_ok c -> c_ce c = false -> policy_ok pol -> width_ok w -> range_ok first last ->
    size_matches pol w first last -> reaches_alignment c pol w dst (dst + (last - first)) ->
    lanewise_or_throws op opv ->
    Forall (fun p => mapped m p (p + (last - first))) (dst :: first :: srcs2) ->
    no_clobber dst (last - first) (first :: srcs2) ->
    exists e r, run_transform_throwing opv c pol w first last dst srcs2 m = Ok (e, r) /\
      match e with
      | Returned m' => r = Some (dst + (last - first))
          /\ transformed op (first :: srcs2) dst (last - first) m m'
      | Threw m' chunks => r = None /\ opv chunks = None
          /\ exists n i k, 0 <= n <= i /\ 0 < k /\ i + k <= last - first
             /\ i - n <= w * (Z.max 1 (p_unroll pol) - 1)
             /\ transformed op (first :: srcs2) dst n m m'
             /\ Forall2 (fun p ch => range_is m (p + i) (p + i + k) ch) (first :: srcs2) chunks
      end.
  Proof.
    intros Hc Hce Hp Hw Hr Hs Hra Hop Hm Hnc. destruct Hr as [Hr1 Hr2].
    destruct (Z.eq_dec first last) as [<-|Hne].
    { unfold run_transform_throwing, transform. rewrite Z.eqb_refl. cbn. do 2 eexists.
      split; [reflexivity|]. cbn. rewrite Z.sub_diag, Z.add_0_r. split; [reflexivity|].
      split; [lia|reflexivity]. }
    destruct (reaches_fits (shift_cfg first dst c) pol w first last) as [Hf Hsm];
      [now apply shift_target|assumption|now apply shift_reaches|].
    assert (Hmd : p_match pol = true -> (w | last - first)).
    { intros Em. destruct (Hs Em) as [n Hn]. exists n. exact Hn. }
    destruct (transform_rt_steps c pol w first last dst srcs2) as (l & E & HT & HA & HS);
      try assumption; [now apply target_cfg|now apply policy_pol|].
    assert (E' : transform c pol w first last dst srcs2
                 = (map (ev first dst srcs2) l, Ok (dst + (last - first)))).
    { unfold transform. rewrite Hce. destruct (Z.eqb_spec first last) as [|_]; [contradiction|].
      destruct (p_match pol) eqn:Em; cbn [andb]; [|exact E].
      unfold width_ok in Hw. rewrite (proj2 (Z.mod_divide (last - first) w ltac:(lia))) by (now apply Hmd).
      exact E. }
    unfold run_transform_throwing. rewrite E'.
    inversion Hm as [|? ? Hmd' Hm']; subst. inversion Hm' as [|? ? Hm1 Hm2]; subst.
    destruct (run_steps_throwing_ok c first dst srcs2 _ Hop first last l HT HA (shape_bound pol w l (proj1 Hw) HS) ltac:(lia) m)
      as (e & Er & He).
    - intros i Hi. eapply mapped_some; [exact Hmd'|lia].
    - intros i Hi. eapply mapped_some; [exact Hm1|lia].
    - eapply Forall_impl; [|exact Hm2]. cbn. intros p Hp' i Hi. eapply mapped_some; [exact Hp'|lia].
    - exact Hnc.
    - rewrite Er. cbn [bindR]. destruct e as [m'|m' chunks]; cbn [bindR]; do 2 eexists;
        (split; [reflexivity|]); cbn.
      + split; [reflexivity|]. apply updated_transformed.
        now replace (first + (last - first)) with last by lia.
      + split; [reflexivity|]. destruct He as (Hnone & p & i & k & Hpi & Hk & Hik & HiB & Hu & H2).
        split; [assumption|]. exists (p - first), (i - first), k. split; [lia|]. split; [assumption|].
        split; [lia|]. split; [lia|]. split; [apply updated_transformed; now replace (first + (p - first)) with p by lia|].
        clear - H2 Hk. induction H2; constructor; [|assumption].
        apply load_range_is; [lia|]. replace (x + (i - first) + k - (x + (i - first))) with k by lia.
        assumption.
  Qed.
End Transform.

Lemma transform_nothrow {T} (opv : list (list T) -> list T) c pol w first last dst srcs2 m :
  run_transform_throwing (fun ch => Some (opv ch)) c pol w first last dst srcs2 m
  = bindR (run_transform opv c pol w first last dst srcs2 m) (fun r => Ok (Returned (fst r), Some (snd r))).
Proof.
  unfold run_transform_throwing, run_transform.
  destruct (transform c pol w first last dst srcs2) as [l r].
  assert (HI : forall m k n srcs, invoke_all_throwing (fun ch => Some (opv ch)) m srcs k n
             = bindR (invoke_all opv m srcs k n) (fun rs => Ok (Returned rs))).
  { intros m0 k n. induction n as [|n IH]; intros srcs; [reflexivity|].
    cbn [invoke_all_throwing invoke_all]. unfold invoke_at_throwing, invoke_at.
    destruct (mapR _ srcs) as [ch|x]; [|reflexivity]. cbn [bindR]. rewrite IH.
    now destruct (invoke_all opv m0 (adv k srcs) k n). }
  assert (H : forall m, run_steps_throwing (fun ch => Some (opv ch)) c m l
             = bindR (run_steps opv c m l) (fun m' => Ok (Returned m'))).
  { induction l as [|s l IH]; intros m0; [reflexivity|]. cbn [run_steps_throwing run_steps].
    unfold run_step_throwing, run_step. rewrite HI.
    destruct (invoke_all opv m0 (t_srcs s) (t_k s) (t_n s)) as [rs|x]; [|reflexivity].
    cbn [bindR]. destruct (store_chunks c m0 (t_al s) (t_dst s) (t_k s) rs) as [m1|x]; [|reflexivity].
    cbn [bindR]. apply IH. }
  rewrite H. destruct (run_steps opv c m l) as [m'|x]; [|reflexivity]. cbn [bindR].
  now destruct r.
Qed.
