(** Executing a tiling sequence of calls. *)
From Verif Require Import Base BaseFacts ExecModel ExecProofs ExecForEach.
From Coq Require Import ZifyBool ZifyNat.
Ltac Zify.zify_post_hook ::= idtac.

(** ** for_each in constant evaluation *)
Lemma for_each_calls_ce c pol w first last :
  c_ce c = true -> 1 <= w < two64 -> first <= last ->
  (p_match pol = true -> (w | last - first)) ->
  (w = 2 -> first = last \/ (last - first) mod 2 <> 0) ->
  exists l, for_each c pol w first last = (l, Ok tt) /\ tiles first last l
            /\ Forall (call_aligned c) l /\ Forall (call_size pol w) l /\ call_shape pol w l.
Proof.
  intros Hce Hw Hle Hmatch Hodd. unfold for_each.
  destruct (Z.eqb_spec first last) as [->|Hne].
  { exists []. split; [reflexivity|]. split; [constructor|]. do 2 (split; [constructor|]).
    exists [], 0%nat, 0%nat, []. repeat split; constructor. }
  assert (Etrap : p_match pol && negb ((last - first) mod w =? 0) = false).
  { destruct (p_match pol); [|reflexivity]. cbn [andb].
    assert ((last - first) mod w = 0) by (apply Z.mod_divide; [lia|]; now apply Hmatch). lia. }
  rewrite Etrap, Hce.
  destruct (const_loop_ok w (loop_fuel first last) last first) as [E Hu];
    [lia|lia|unfold loop_fuel; lia|].
  set (l1 := fst (const_loop (loop_fuel first last) w last first)) in *.
  set (b := last - (last - first) mod w) in *.
  rewrite E. unfold bindW at 1.
  assert (Hmb : 0 <= (last - first) mod w < w) by (apply Z.mod_pos_bound; lia).
  assert (HT1 : tiles first b l1) by (eapply uniform_tiles; [| |exact Hu]; lia).
  pose proof (uniform_pos _ _ _ _ _ _ Hu first ltac:(rewrite Z.sub_diag; apply Z.divide_0_r)) as P1.
  assert (HA1 : Forall (call_aligned c) l1).
  { eapply Forall_impl; [|exact P1]. intros k (_ & _ & Ek & _) E'. congruence. }
  assert (HS1 : Forall (call_size pol w) l1).
  { eapply Forall_impl; [|exact P1]. intros k (E1 & E2 & _). left. auto. }
  assert (H3 : exists l3, (if 1 <? w then for_each_epilogue 64 c w ((last - first) mod w) last false
                           else retW tt) = (l3, Ok tt) /\ desc false (exponent w) b last l3
                     /\ (p_match pol = true -> l3 = [])).
  { destruct (Z.ltb_spec 1 w) as [Hw1|Hw1].
    - destruct (Z.eq_dec ((last - first) mod w) 0) as [E0|N0].
      + rewrite E0. assert (w <> 2).
        { intros ->. destruct (Hodd eq_refl); [lia|]. lia. }
        exists []. split; [apply for_each_epilogue_zero; [assumption|lia]|].
        unfold b. rewrite E0, Z.sub_0_r. split; [constructor|reflexivity].
      + assert (Em : p_match pol = false).
        { destruct (p_match pol); [|reflexivity]. exfalso. apply N0. apply Z.mod_divide; [lia|].
          now apply Hmatch. }
        rewrite Em.
        cut (exists l3, for_each_epilogue 64 c w ((last - first) mod w) last false = (l3, Ok tt)
                        /\ desc false (exponent w) b last l3).
        { intros (l3 & A & B). exists l3. repeat split; try assumption. discriminate. }
        apply for_each_epilogue_ok; [| |lia].
        * split; [lia|]. apply Z.log2_up_spec. lia.
        * split; [apply Z.log2_up_nonneg|]. apply Z.log2_up_le_pow2; [lia|].
          unfold two64 in Hw. change (Z.of_nat 64) with 64. lia.
    - exists []. split; [reflexivity|]. unfold b. replace w with 1 by lia.
      rewrite Z.mod_1_r, Z.sub_0_r. split; [constructor|reflexivity]. }
  destruct H3 as (l3 & E3 & D3 & M3). rewrite E3. exists (l1 ++ l3). split; [reflexivity|].
  pose proof (desc_pos _ _ _ _ _ D3 (Z.log2_up_nonneg _) b
                ltac:(rewrite Z.sub_diag; apply Z.divide_0_r)) as P3.
  split; [eapply tiles_app; [exact HT1|eapply desc_tiles; exact D3]|].
  rewrite !Forall_app. repeat split; try assumption.
  - eapply Forall_impl; [|exact P3]. intros k (i & _ & _ & _ & Ek & _) E'. congruence.
  - eapply Forall_impl; [|exact P3]. intros k (i & Hi & Ek & En & _). right. exists i.
    repeat split; try lia; try assumption. apply exponent_bound; lia.
  - replace (l1 ++ l3) with ([] ++ l1 ++ l3) by reflexivity.
    eapply body_shape; [lia|constructor|reflexivity|exact Hu|exact D3|exact M3].
Qed.

(** ** Running *)
Section Run.
  Context {T St : Type}.
  Variable f : St -> list (list T) -> St * list (list T).
  (** A callable cannot change the number of lanes of its arguments (they are simd objects). *)
  Definition keeps_shape : Prop :=
    forall st ch, map (@length T) (snd (f st ch)) = map (@length T) ch.

  (** States and outputs produced by feeding the invocations one after the other. *)
  Fixpoint final_state (st : St) (tr : list (list (list T))) : St :=
    match tr with [] => st | x :: tr' => final_state (fst (f st x)) tr' end.
  Fixpoint outputs (st : St) (tr : list (list (list T))) : list (list (list T)) :=
    match tr with [] => [] | x :: tr' => snd (f st x) :: outputs (fst (f st x)) tr' end.

  Lemma load_chunks_ok c m al k n : forall pos, 0 < k ->
    (al = true -> forall i, 0 <= i < Z.of_nat n -> aligned_at c (pos + k * i) k = true) ->
    (forall a, pos <= a < pos + k * Z.of_nat n -> m a <> None) ->
    exists vs, load_chunks c m al pos k n = Ok vs
      /\ map (@length T) vs = repeat (Z.to_nat k) n
      /\ load m pos (Z.to_nat (k * Z.of_nat n)) = Some (concat vs).
  Proof.
    induction n as [|n IH]; intros pos Hk Hal Hdef.
    - exists []. rewrite Z.mul_0_r. repeat split.
    - cbn [load_chunks]. unfold load_chunk.
      assert (Ea : al && negb (aligned_at c pos k) = false).
      { destruct al; [|reflexivity]. specialize (Hal eq_refl 0 ltac:(lia)).
        rewrite Z.mul_0_r, Z.add_0_r in Hal. now rewrite Hal. }
      rewrite Ea. destruct (load_ok m pos (Z.to_nat k)) as [v Ev]; [intros a Ha; apply Hdef; nia|].
      rewrite Ev. cbn [of_option bindR].
      destruct (IH (pos + k) Hk) as (vs & Evs & Hsh & Hld).
      + intros E i Hi. replace (pos + k + k * i) with (pos + k * (i + 1)) by lia. apply Hal; [exact E|lia].
      + intros a Ha. apply Hdef. nia.
      + rewrite Evs. cbn [bindR]. exists (v :: vs). split; [reflexivity|]. split.
        * cbn. f_equal; [apply (load_length _ _ _ _ Ev)|exact Hsh].
        * replace (Z.to_nat (k * Z.of_nat (S n)))
            with (Z.to_nat k + Z.to_nat (k * Z.of_nat n))%nat by nia.
          rewrite load_app, Ev, Z2Nat.id by lia. rewrite Hld. reflexivity.
  Qed.

  Lemma concat_length_repeat (vs : list (list T)) k n :
    map (@length T) vs = repeat k n -> length (concat vs) = (k * n)%nat.
  Proof.
    revert n; induction vs as [|v vs IH]; intros [|n] H; cbn in *; try discriminate; [lia|].
    inversion H; subst. rewrite app_length, (IH n); [lia|assumption].
  Qed.

  Lemma store_chunks_ok c al k vs : forall m n pos, 0 < k ->
    map (@length T) vs = repeat (Z.to_nat k) n ->
    (al = true -> forall i, 0 <= i < Z.of_nat n -> aligned_at c (pos + k * i) k = true) ->
    (forall a, pos <= a < pos + k * Z.of_nat n -> m a <> None) ->
    exists m', store_chunks c m al pos k vs = Ok m'
      /\ load m' pos (Z.to_nat (k * Z.of_nat n)) = Some (concat vs)
      /\ (forall a, ~ (pos <= a < pos + k * Z.of_nat n) -> m' a = m a)
      /\ (forall a, m' a = None <-> m a = None).
  Proof.
    induction vs as [|v vs IH]; intros m n pos Hk Hsh Hal Hdef.
    - destruct n; [|discriminate]. exists m. rewrite Z.mul_0_r. repeat split; tauto.
    - destruct n as [|n]; [discriminate|]. cbn in Hsh. injection Hsh as Hlen Hsh'.
      cbn [store_chunks]. unfold store_chunk.
      assert (Ea : al && negb (aligned_at c pos k) = false).
      { destruct al; [|reflexivity]. specialize (Hal eq_refl 0 ltac:(lia)).
        rewrite Z.mul_0_r, Z.add_0_r in Hal. now rewrite Hal. }
      rewrite Ea. destruct (store_ok m pos v) as [m1 E1]; [intros a Ha; apply Hdef; nia|].
      rewrite E1. cbn [of_option bindR].
      assert (Hlz : Z.of_nat (length v) = k) by lia.
      pose proof (store_outside _ _ _ _ E1) as Ho1. pose proof (store_defined _ _ _ _ E1) as Hd1.
      destruct (IH m1 n (pos + k) Hk Hsh') as (m2 & E2 & Hld & Ho2 & Hd2).
      + intros E i Hi. replace (pos + k + k * i) with (pos + k * (i + 1)) by lia. apply Hal; [exact E|lia].
      + intros a Ha. rewrite Ho1 by lia. apply Hdef. nia.
      + rewrite E2. exists m2. split; [reflexivity|]. split; [|split].
        * replace (Z.to_nat (k * Z.of_nat (S n)))
            with (Z.to_nat k + Z.to_nat (k * Z.of_nat n))%nat by nia.
          rewrite load_app, Z2Nat.id by lia. rewrite Hld.
          rewrite (load_ext m2 m1) by (intros a Ha; apply Ho2; lia).
          rewrite <- Hlen, (store_load _ _ _ _ E1). reflexivity.
        * intros a Ha. rewrite Ho2 by nia. apply Ho1. nia.
        * intros a. rewrite Hd2. apply Hd1.
  Qed.

  Lemma load_and_invoke_ok c wb m st tr k : keeps_shape -> 0 < k_k k -> call_aligned c k ->
    (forall a, k_pos k <= a < k_pos k + k_k k * Z.of_nat (k_n k) -> m a <> None) ->
    exists ch m',
      load_and_invoke f c wb (mkst m st tr) k = Ok (mkst m' (fst (f st ch)) (tr ++ [ch]))
      /\ map (@length T) ch = repeat (Z.to_nat (k_k k)) (k_n k)
      /\ load m (k_pos k) (Z.to_nat (k_k k * Z.of_nat (k_n k))) = Some (concat ch)
      /\ (wb = false -> m' = m)
      /\ (wb = true -> load m' (k_pos k) (Z.to_nat (k_k k * Z.of_nat (k_n k)))
                       = Some (concat (snd (f st ch))))
      /\ (forall a, ~ (k_pos k <= a < k_pos k + k_k k * Z.of_nat (k_n k)) -> m' a = m a)
      /\ (forall a, m' a = None <-> m a = None).
  Proof.
    intros Hshape Hk Hal Hdef. unfold load_and_invoke. cbn [s_mem s_st s_trace].
    destruct (load_chunks_ok c m (k_al k) (k_k k) (k_n k) (k_pos k) Hk Hal Hdef)
      as (ch & Ech & Hlen & Hld).
    rewrite Ech. cbn [bindR]. destruct (f st ch) as [st' out] eqn:Ef.
    assert (Hout : map (@length T) out = repeat (Z.to_nat (k_k k)) (k_n k)).
    { rewrite <- Hlen. specialize (Hshape st ch). rewrite Ef in Hshape. exact Hshape. }
    exists ch. destruct wb.
    - destruct (store_chunks_ok c (k_al k) (k_k k) out m (k_n k) (k_pos k) Hk Hout Hal Hdef)
        as (m' & Em & Hl & Ho & Hd).
      rewrite Em. cbn [bindR]. exists m'. rewrite Ef. cbn [fst snd].
      split; [reflexivity|]. repeat split; try assumption; try discriminate; try (intros _; assumption); apply Hd.
    - cbn [bindR]. exists m. rewrite Ef. cbn [fst snd].
      split; [reflexivity|]. repeat split; try assumption; try discriminate; tauto.
  Qed.

  Lemma run_tiles c wb : keeps_shape -> forall a b l, tiles a b l -> Forall (call_aligned c) l ->
    forall m st tr, (forall x, a <= x < b -> m x <> None) ->
    exists m' tr',
      run_calls f c wb l (mkst m st tr) = Ok (mkst m' (final_state st tr') (tr ++ tr'))
      /\ map (map (@length T)) tr' = map (fun k => repeat (Z.to_nat (k_k k)) (k_n k)) l
      /\ load m a (Z.to_nat (b - a)) = Some (concat (concat tr'))
      /\ (wb = false -> m' = m)
      /\ (wb = true -> load m' a (Z.to_nat (b - a)) = Some (concat (concat (outputs st tr'))))
      /\ (forall x, ~ (a <= x < b) -> m' x = m x)
      /\ (forall x, m' x = None <-> m x = None).
  Proof.
    intros Hshape a b l H. induction H as [a|a b k n al l Hk Hn Ht IH]; intros HA m st tr Hdef.
    - exists m, []. cbn. rewrite app_nil_r, Z.sub_diag. repeat split; tauto.
    - inversion HA as [|? ? HA1 HA2]; subst. pose proof (tiles_le _ _ _ Ht) as Hle.
      set (kc := mkcall a k n al) in *.
      destruct (load_and_invoke_ok c wb m st tr kc Hshape) as (ch & m1 & E1 & Hs1 & Hl1 & Hf1 & Ht1 & Ho1 & Hd1);
        [exact Hk|exact HA1|cbn; intros x Hx; apply Hdef; lia|].
      cbn [k_pos k_k k_n kc] in *.
      destruct (IH HA2 m1 (fst (f st ch)) (tr ++ [ch])) as (m2 & tr' & E2 & Hs2 & Hl2 & Hf2 & Ht2 & Ho2 & Hd2).
      { intros x Hx. rewrite Hd1. apply Hdef. nia. }
      cbn [run_calls]. rewrite E1. cbn [bindR]. rewrite E2.
      exists m2, (ch :: tr'). split; [cbn [final_state]; now rewrite <- app_assoc|].
      assert (Hsplit : Z.to_nat (b - a)
                = (Z.to_nat (k * Z.of_nat n) + Z.to_nat (b - (a + k * Z.of_nat n)))%nat) by nia.
      assert (Hpos : a + Z.of_nat (Z.to_nat (k * Z.of_nat n)) = a + k * Z.of_nat n) by nia.
      split; [cbn; f_equal; assumption|]. split; [|split; [|split; [|split]]].
      + rewrite Hsplit, load_app, Hl1, Hpos.
        rewrite (load_ext m m1) by (intros x Hx; symmetry; apply Ho1; lia).
        rewrite Hl2. cbn [concat]. rewrite concat_app. reflexivity.
      + intros E. rewrite (Hf2 E). apply (Hf1 E).
      + intros E. rewrite Hsplit, load_app, Hpos.
        rewrite (load_ext m2 m1) by (intros x Hx; apply Ho2; lia).
        rewrite (Ht1 E), (Ht2 E). cbn [outputs concat]. rewrite concat_app. reflexivity.
      + intros x Hx. rewrite Ho2 by nia. apply Ho1. nia.
      + intros x. rewrite Hd2. apply Hd1.
  Qed.

  (** The main statement, from any description of the calls. *)
  Lemma run_for_each_ok c pol w wb first last m st l :
    keeps_shape -> for_each c pol w first last = (l, Ok tt) -> tiles first last l ->
    Forall (call_aligned c) l -> (forall x, first <= x < last -> m x <> None) ->
    exists m' tr,
      run_for_each f c pol w wb first last m st = Ok (mkst m' (final_state st tr) tr)
      /\ map (map (@length T)) tr = map (fun k => repeat (Z.to_nat (k_k k)) (k_n k)) l
      /\ load m first (Z.to_nat (last - first)) = Some (concat (concat tr))
      /\ (wb = false -> m' = m)
      /\ (wb = true -> load m' first (Z.to_nat (last - first)) = Some (concat (concat (outputs st tr))))
      /\ (forall x, ~ (first <= x < last) -> m' x = m x).
  Proof.
    intros Hshape E HT HA Hdef. unfold run_for_each. rewrite E.
    destruct (run_tiles c wb Hshape first last l HT HA m st [] Hdef)
      as (m' & tr & Er & Hs & Hl & Hf & Ht & Ho & _).
    rewrite Er. cbn [bindR app]. exists m', tr. repeat split; assumption.
  Qed.
End Run.
