(** transform_reduce combines the elements in the order of OrderSpec. *)
From Verif Require Import Base BaseFacts ExecModel TransformModel ReduceModel ReduceSpec ReduceProofs
  TReduceModel TReduceProofs ScheduleSpec OrderSpec.
From Coq Require Import ZifyBool ZifyNat.
Ltac Zify.zify_post_hook ::= idtac.

(** ** More defined loads give no other result *)
Section Mono.
  Context {A : Type}.
  Variable op : A -> A -> A.
  Variables ld1 ld2 : bool -> list Z -> Z -> res (list A).
  Hypothesis H12 : forall al ps k v, ld1 al ps k = Ok v -> ld2 al ps k = Ok v.

  Definition leR {B} (a b : res B) : Prop := forall x, a = Ok x -> b = Ok x.

  Lemma leR_refl {B} (a : res B) : leR a a.
  Proof. intros x H. exact H. Qed.

  Lemma leR_bind {B C} (a b : res B) (f g : B -> res C) :
    leR a b -> (forall x, leR (f x) (g x)) -> leR (bindR a f) (bindR b g).
  Proof.
    intros H1 H2 x. destruct a as [y|]; [|discriminate]. rewrite (H1 y eq_refl). apply H2.
  Qed.

  Ltac mono :=
    repeat first
      [ match goal with |- leR ?a ?a => apply leR_refl end
      | apply leR_bind; [try (intros ? ?; apply H12; assumption)|intros ?]
      | match goal with
        | |- leR (if ?b then _ else _) (if ?b then _ else _) => destruct b
        | |- leR (match ?p with (_, _) => _ end) _ => destruct p
        end
      | solve [auto] ].

  Lemma tr_prologue_mono fuel : forall size max acc1 ps tp,
    leR (tr_prologue op ld1 fuel size max acc1 ps tp) (tr_prologue op ld2 fuel size max acc1 ps tp).
  Proof. induction fuel as [|fuel IH]; intros; cbn [tr_prologue]; mono. Qed.

  Lemma tr_epilogue_acc_mono fuel : forall s acc1 acc ps lo al,
    leR (tr_epilogue_acc op ld1 fuel s acc1 acc ps lo al) (tr_epilogue_acc op ld2 fuel s acc1 acc ps lo al).
  Proof. induction fuel as [|fuel IH]; intros; cbn [tr_epilogue_acc]; mono. Qed.

  Lemma tr_epilogue_mono fuel : forall s acc1 ps lo al,
    leR (tr_epilogue op ld1 fuel s acc1 ps lo al) (tr_epilogue op ld2 fuel s acc1 ps lo al).
  Proof.
    induction fuel as [|fuel IH]; intros; cbn [tr_epilogue]; mono. apply tr_epilogue_acc_mono.
  Qed.

  Lemma ld_n_mono al w n : forall ps, leR (ld_n ld1 al ps w n) (ld_n ld2 al ps w n).
  Proof. induction n as [|n IH]; intros; cbn [ld_n]; mono. Qed.

  Lemma tr_unrolled_mono fuel : forall w n al ul f ps accs,
    leR (tr_unrolled op ld1 fuel w n al ul f ps accs) (tr_unrolled op ld2 fuel w n al ul f ps accs).
  Proof.
    induction fuel as [|fuel IH]; intros; cbn [tr_unrolled]; mono. apply ld_n_mono.
  Qed.

  Lemma tr_first_mono pol w al f l ps : leR (tr_first op ld1 pol w al f l ps) (tr_first op ld2 pol w al f l ps).
  Proof.
    unfold tr_first. cbv zeta. destruct (1 <? p_unroll pol); [|mono].
    destruct (_ <=? _); [|mono].
    apply leR_bind; [apply ld_n_mono|intros accs].
    apply leR_bind; [apply tr_unrolled_mono|intros [[accs' f'] ps']]. mono.
  Qed.

  Lemma tr_loop_mono fuel : forall mt w al l f ps acc,
    leR (tr_loop op ld1 fuel mt w al l f ps acc) (tr_loop op ld2 fuel mt w al l f ps acc).
  Proof. induction fuel as [|fuel IH]; intros; cbn [tr_loop]; mono. Qed.

  Lemma tr_body_mono pol w al acc1 f l d ps :
    leR (tr_body op ld1 pol w al acc1 f l d ps) (tr_body op ld2 pol w al acc1 f l d ps).
  Proof.
    unfold tr_body. cbv zeta. destruct (_ || _).
    - apply leR_bind; [apply tr_first_mono|intros [[acc0 f0] ps1]].
      apply leR_bind; [apply tr_loop_mono|intros [acc ps2]].
      mono; exact (tr_epilogue_acc_mono _ _ _ _ _ _ _).
    - mono. exact (tr_epilogue_mono _ _ _ _ _ _).
  Qed.

  Lemma tr_const_mono fuel : forall l f ps acc1,
    leR (tr_const op ld1 fuel l f ps acc1) (tr_const op ld2 fuel l f ps acc1).
  Proof. induction fuel as [|fuel IH]; intros; cbn [tr_const]; mono. Qed.

  Lemma transform_reduce_on_mono c pol w f l f2 init :
    leR (transform_reduce_on op ld1 c pol w f l f2 init) (transform_reduce_on op ld2 c pol w f l f2 init).
  Proof.
    unfold transform_reduce_on. cbv zeta. mono.
    - apply tr_const_mono.
    - destruct (prologue_args _ _ _ _ _) as [[maxe tp]|]; mono; try apply tr_body_mono.
      exact (tr_prologue_mono _ _ _ _ _ _).
  Qed.
End Mono.

Lemma pow_nat k : Z.of_nat (2 ^ k)%nat = 2 ^ Z.of_nat k.
Proof. rewrite Nat2Z.inj_pow. reflexivity. Qed.

Lemma pow_to_nat k : Z.to_nat (2 ^ Z.of_nat k) = (2 ^ k)%nat.
Proof. rewrite <- pow_nat. apply Nat2Z.id. Qed.

Lemma pow_succ k : (2 ^ S k = 2 ^ k + 2 ^ k)%nat.
Proof. cbn [Nat.pow]. lia. Qed.

Lemma pow_pos k : (1 <= 2 ^ k)%nat.
Proof. pose proof (Nat.pow_nonzero 2 k). lia. Qed.

(** ** The lanes of one simd object *)
Section Across.
  Context {A : Type}.
  Variables (op : A -> A -> A) (dflt : A).

  Lemma zip_map2 a : forall b, zip op a b = map2 op a b.
  Proof.
    induction a as [|x a IH]; intros [|y b]; try reflexivity.
    unfold zip in *. cbn [combine map map2 fst snd]. f_equal. apply IH.
  Qed.

  Lemma zip_length a b : length a = length b -> length (zip op a b) = length a.
  Proof. intros H. rewrite zip_map2. now apply map2_length. Qed.

  Lemma across_step k v : (length v < 2 ^ S k)%nat ->
    across_below op dflt (S k) v = across_below op dflt k v.
  Proof.
    intros H. cbn [across_below]. destruct (Nat.leb_spec (length v) 3) as [H3|H3].
    - destruct k; cbn [across_below]; [reflexivity|]. destruct (Nat.leb_spec (length v) 3); [reflexivity|lia].
    - destruct (Nat.leb_spec (2 ^ S k) (length v)); [lia|reflexivity].
  Qed.

  Lemma across_enough v : forall k, (length v < 2 ^ S k)%nat -> across_below op dflt k v = across op dflt v.
  Proof.
    intros k. unfold across. destruct (Nat.eq_dec (length v) 0) as [E0|N0].
    { intros _. destruct v; [|discriminate]. destruct k; reflexivity. }
    pose proof (Nat.log2_spec (length v) ltac:(lia)) as [Hl Hu]. set (b := Nat.log2 (length v)) in *.
    induction k as [|k IH]; intros H.
    - assert (b = 0)%nat; [|now subst b; rewrite H0].
      destruct b; [reflexivity|]. rewrite pow_succ in Hl. pose proof (pow_pos b). cbn in H. lia.
    - destruct (Nat.eq_dec b (S k)) as [->|Nb]; [reflexivity|].
      assert (Hlt : (length v < 2 ^ S k)%nat).
      { apply Nat.lt_le_trans with (2 ^ S b)%nat; [assumption|]. apply Nat.pow_le_mono_r; [lia|].
        assert (b < S (S k))%nat; [|lia]. apply (Nat.pow_lt_mono_r_iff 2); lia. }
      rewrite across_step by assumption. now apply IH.
  Qed.

  Lemma reduce_across_fuel fuel : forall v, (length v <= fuel)%nat -> v <> [] ->
    Z.of_nat (length v) < two64 -> reduce_fuel op fuel v = Some (across op dflt v).
  Proof.
    induction fuel as [|fuel IH]; intros v Hf Hne H64.
    { destruct v; [contradiction|cbn in Hf; lia]. }
    cbn [reduce_fuel]. destruct (Z.ltb_spec 3 (Z.of_nat (length v))) as [H3|H3].
    2:{ unfold across. destruct v as [|x r]; [contradiction|].
        destruct (Nat.log2 (length (x :: r))); cbn [across_below]; [reflexivity|].
        destruct (Nat.leb_spec (length (x :: r)) 3); [reflexivity|lia]. }
    pose proof (Nat.log2_spec (length v) ltac:(lia)) as [Hl Hu].
    assert (Hb : (2 <= Nat.log2 (length v))%nat).
    { change 2%nat with (Nat.log2 4). apply Nat.log2_le_mono. lia. }
    unfold across. destruct (Nat.log2 (length v)) as [|h] eqn:Eb; [lia|]. cbn [across_below].
    destruct (Nat.leb_spec (length v) 3); [lia|]. destruct (Nat.leb_spec (2 ^ S h) (length v)); [|lia].
    assert (Ez : Z.log2 (Z.of_nat (length v) / 2) = Z.of_nat h).
    { apply Z.log2_unique; [lia|]. rewrite <- Nat2Z.inj_succ, <- !pow_nat.
      pose proof (Z.div_mod (Z.of_nat (length v)) 2 ltac:(lia)).
      pose proof (Z.mod_pos_bound (Z.of_nat (length v)) 2 ltac:(lia)).
      rewrite !pow_succ in *. lia. }
    rewrite bit_floor_ok.
    2:{ split; [apply Z.div_str_pos; lia|]. apply Z.le_lt_trans with (Z.of_nat (length v)); [|assumption].
        apply Z.div_le_upper_bound; lia. }
    rewrite Ez, pow_to_nat. rewrite <- pow_nat.
    rewrite <- zip_map2. pose proof (pow_succ h) as Eh. pose proof (pow_pos h) as Hph.
    assert (L1 : length (firstn (2 ^ h) v) = (2 ^ h)%nat) by (rewrite firstn_length; lia).
    assert (L2 : length (firstn (2 ^ h) (skipn (2 ^ h) v)) = (2 ^ h)%nat)
      by (rewrite firstn_length, skipn_length; lia).
    set (z := zip op _ _).
    assert (Lz : length z = (2 ^ h)%nat) by (unfold z; rewrite zip_length by congruence; exact L1).
    assert (Hz : reduce_fuel op fuel z = Some (across_below op dflt h z)).
    { rewrite IH; [|lia|intros E; rewrite E in Lz; cbn in Lz; lia|lia].
      f_equal. symmetry. apply across_enough. rewrite pow_succ. lia. }
    rewrite Hz. replace (2 * 2 ^ h)%nat with (2 ^ S h)%nat by lia.
    assert (Lr : length (skipn (2 ^ S h) v) = (length v - 2 ^ S h)%nat) by apply skipn_length.
    destruct (Z.ltb_spec 0 (Z.of_nat (length v) - 2 * Z.of_nat (2 ^ h))) as [Hr|Hr].
    - destruct (skipn (2 ^ S h) v) as [|y r] eqn:Es; [cbn in Lr; lia|].
      rewrite IH; [|lia|discriminate|lia]. do 2 f_equal. symmetry. apply across_enough.
      rewrite Lr. rewrite (pow_succ (S h)) in Hu. lia.
    - destruct (skipn (2 ^ S h) v) as [|y r] eqn:Es; [reflexivity|cbn in Lr; lia].
  Qed.

  Lemma hreduce_across v : v <> [] -> Z.of_nat (length v) < two64 ->
    hreduce op v = Ok (across op dflt v).
  Proof. intros H1 H2. unfold hreduce, reduce. now rewrite reduce_across_fuel. Qed.
End Across.

(** ** The control flow on loads that are right wherever they are inside of the range *)
Section Exact.
  Context {A : Type}.
  Variables (op : A -> A -> A) (dflt : A) (ldf : bool -> list Z -> Z -> res (list A)).
  Variables (ps0 : list Z) (vals : list A).
  Notation n := (Z.of_nat (length vals)).
  Notation across := (across op dflt).
  Hypothesis Hld : forall al p k, 0 <= p -> 0 < k -> p + k <= n ->
    ldf al (adv p ps0) k = Ok (seg vals p k).

  Lemma vop_zip a b : length a = length b -> vop op a b = Ok (zip op a b).
  Proof. intros H. rewrite vop_ok by assumption. now rewrite zip_map2. Qed.

  Lemma rest_length p : 0 <= p <= n -> Z.of_nat (length (skipn (Z.to_nat p) vals)) = n - p.
  Proof. intros. rewrite skipn_length. lia. Qed.

  Lemma nonempty_length {B} (l : list B) k : length l = k -> (1 <= k)%nat -> l <> [].
  Proof. intros H Hk ->. cbn in H. lia. Qed.

  Lemma halve_ok k (acc : list A) (f : list A -> res A) : length acc = (2 ^ S k)%nat ->
    bindR (split2 (2 ^ Z.of_nat (S k) / 2) (2 ^ Z.of_nat (S k) / 2) acc) (fun lh =>
    bindR (vop op (fst lh) (snd lh)) f) = f (halves op k acc)
    /\ length (halves op k acc) = (2 ^ k)%nat.
  Proof.
    intros Hl. pose proof (pow_succ k).
    assert (E : 2 ^ Z.of_nat (S k) / 2 = Z.of_nat (2 ^ k)).
    { rewrite <- pow_nat. replace (Z.of_nat (2 ^ S k)) with (Z.of_nat (2 ^ k) * 2) by lia.
      now rewrite Z.div_mul by lia. }
    rewrite E, split2_ok by lia. cbn [bindR fst snd]. rewrite Nat2Z.id.
    assert (L1 : length (firstn (2 ^ k) acc) = (2 ^ k)%nat) by (rewrite firstn_length; lia).
    assert (L2 : length (skipn (2 ^ k) acc) = (2 ^ k)%nat) by (rewrite skipn_length; lia).
    rewrite vop_zip by congruence. cbn [bindR]. split; [reflexivity|].
    unfold halves. rewrite zip_length; congruence.
  Qed.

  (** ** Epilogue *)
  Lemma tr_epilogue_acc_exact fuel : forall k p lo acc1 acc al,
    (k < fuel)%nat -> 2 ^ Z.of_nat k < two64 -> 0 <= p ->
    p + lo mod 2 ^ (Z.of_nat k + 1) = n -> lo mod 2 ^ (Z.of_nat k + 1) <> 0 ->
    length acc = (2 ^ k)%nat ->
    tr_epilogue_acc op ldf fuel (2 ^ Z.of_nat k) acc1 acc (adv p ps0) lo al
    = Ok (tail op dflt k acc1 acc (skipn (Z.to_nat p) vals)).
  Proof.
    induction fuel as [|fuel IH]; intros k p lo acc1 acc al Hk H64 Hp Hpn Hne Hlen; [lia|].
    pose proof (pow_pos k) as Hpk. pose proof (pow_nat k) as Ek.
    cbn [tr_epilogue_acc]. rewrite single_bit_pow2 by lia. cbn [negb].
    rewrite land_pow2, land_pred_pow2 by lia.
    assert (Hmb : 0 <= lo mod 2 ^ Z.of_nat k < 2 ^ Z.of_nat k) by (apply Z.mod_pos_bound; lia).
    assert (Hsp := mod_pow2_split lo (Z.of_nat k) ltac:(lia)).
    assert (Hr : Z.of_nat (length (skipn (Z.to_nat p) vals)) = n - p).
    { apply rest_length. split; [lia|]. destruct (Z.testbit lo (Z.of_nat k)); lia. }
    assert (Etail : forall a r, tail op dflt k acc1 a r =
              let fits := (2 ^ k <=? length r)%nat in
              let a' := if fits then zip op a (firstn (2 ^ k) r) else a in
              let r' := if fits then skipn (2 ^ k) r else r in
              match r', k with
              | [], _ => op acc1 (across a')
              | _, O => dflt
              | _, S h => tail op dflt h acc1 (halves op h a') r'
              end) by (intros; destruct k; reflexivity).
    rewrite Etail. clear Etail. cbv zeta.
    destruct (Z.testbit lo (Z.of_nat k)) eqn:Eb.
    - destruct (Z.eqb_spec (2 ^ Z.of_nat k) 0) as [|_]; [lia|]. cbn [negb].
      rewrite Hld by lia. cbn [bindR].
      assert (Ls : length (seg vals p (2 ^ Z.of_nat k)) = (2 ^ k)%nat) by (rewrite seg_length by lia; lia).
      rewrite vop_zip by congruence. cbn [bindR].
      destruct (Nat.leb_spec (2 ^ k) (length (skipn (Z.to_nat p) vals))) as [_|]; [|lia].
      replace (firstn (2 ^ k) (skipn (Z.to_nat p) vals)) with (seg vals p (2 ^ Z.of_nat k))
        by (unfold seg; now rewrite pow_to_nat).
      set (acc' := zip op acc _).
      assert (L' : length acc' = (2 ^ k)%nat) by (unfold acc'; rewrite zip_length; congruence).
      assert (Es : skipn (2 ^ k) (skipn (Z.to_nat p) vals) = skipn (Z.to_nat (p + 2 ^ Z.of_nat k)) vals)
        by (rewrite skipn_skipn'; f_equal; lia).
      rewrite Es.
      assert (Hr2 : Z.of_nat (length (skipn (Z.to_nat (p + 2 ^ Z.of_nat k)) vals)) = lo mod 2 ^ Z.of_nat k)
        by (rewrite rest_length; lia).
      assert (Hfin : lo mod 2 ^ Z.of_nat k = 0 ->
        bindR (hreduce op acc') (fun x => Ok (op acc1 x))
        = Ok match skipn (Z.to_nat (p + 2 ^ Z.of_nat k)) vals, k with
             | [], _ => op acc1 (across acc')
             | _, O => dflt
             | _, S h => tail op dflt h acc1 (halves op h acc') (skipn (Z.to_nat (p + 2 ^ Z.of_nat k)) vals)
             end).
      { intros E0. rewrite (hreduce_across op dflt) by (solve [now apply (nonempty_length acc' (2 ^ k))|lia]). cbn [bindR].
        destruct (skipn (Z.to_nat (p + 2 ^ Z.of_nat k)) vals); [reflexivity|cbn in Hr2; lia]. }
      destruct (Z.eqb_spec (2 ^ Z.of_nat k) 1) as [E1|N1]; [apply Hfin; lia|].
      destruct (Z.eqb_spec (lo mod 2 ^ Z.of_nat k) 0) as [E0|N0]; [auto|]. clear Hfin.
      destruct k as [|h]; [cbn in N1; lia|].
      destruct (halve_ok h acc' (fun acc2 => tr_epilogue_acc op ldf fuel (2 ^ Z.of_nat (S h) / 2) acc1 acc2
                                    (adv (2 ^ Z.of_nat (S h)) (adv p ps0)) lo al) L') as [E2 L2].
      rewrite E2, adv_adv. destruct (pow2_half (Z.of_nat (S h)) ltac:(lia)) as [Hh Hh2].
      replace (Z.of_nat (S h) - 1) with (Z.of_nat h) in * by lia. rewrite Hh.
      replace (Z.of_nat (S h)) with (Z.of_nat h + 1) in * by lia.
      rewrite IH; try assumption; try lia.
      destruct (skipn (Z.to_nat (p + 2 ^ (Z.of_nat h + 1))) vals) eqn:Ex; [cbn in Hr2; lia|reflexivity].
    - cbn [Z.eqb negb]. rewrite Z.add_0_l in Hsp.
      destruct (Z.eqb_spec (lo mod 2 ^ Z.of_nat k) 0) as [E0|N0]; [lia|].
      destruct k as [|h]; [change (2 ^ Z.of_nat 0) with 1 in N0; now rewrite Z.mod_1_r in N0|].
      assert (Hlt : (1 <? 2 ^ Z.of_nat (S h)) = true).
      { apply Z.ltb_lt. change 1 with (2 ^ 0). apply Z.pow_lt_mono_r; lia. }
      rewrite Hlt.
      destruct (halve_ok h acc (fun acc2 => tr_epilogue_acc op ldf fuel (2 ^ Z.of_nat (S h) / 2) acc1 acc2
                                    (adv p ps0) lo al) Hlen) as [E2 L2].
      rewrite E2. destruct (pow2_half (Z.of_nat (S h)) ltac:(lia)) as [Hh Hh2].
      replace (Z.of_nat (S h) - 1) with (Z.of_nat h) in * by lia. rewrite Hh.
      destruct (Nat.leb_spec (2 ^ S h) (length (skipn (Z.to_nat p) vals))) as [|_]; [lia|].
      replace (Z.of_nat (S h)) with (Z.of_nat h + 1) in * by lia.
      rewrite IH; try assumption; try lia.
      destruct (skipn (Z.to_nat p) vals) eqn:Ex; [cbn in Hr; lia|reflexivity].
  Qed.

  Lemma tr_epilogue_exact fuel : forall k p lo acc1 al,
    (k < fuel)%nat -> 2 ^ Z.of_nat k < two64 -> 0 <= p ->
    p + lo mod 2 ^ (Z.of_nat k + 1) = n -> lo mod 2 ^ (Z.of_nat k + 1) <> 0 ->
    tr_epilogue op ldf fuel (2 ^ Z.of_nat k) acc1 (adv p ps0) lo al
    = Ok (short op dflt k acc1 (skipn (Z.to_nat p) vals)).
  Proof.
    induction fuel as [|fuel IH]; intros k p lo acc1 al Hk H64 Hp Hpn Hne; [lia|].
    pose proof (pow_pos k) as Hpk. pose proof (pow_nat k) as Ek.
    cbn [tr_epilogue]. rewrite single_bit_pow2 by lia. cbn [negb].
    rewrite land_pow2, land_pred_pow2 by lia.
    assert (Hmb : 0 <= lo mod 2 ^ Z.of_nat k < 2 ^ Z.of_nat k) by (apply Z.mod_pos_bound; lia).
    assert (Hsp := mod_pow2_split lo (Z.of_nat k) ltac:(lia)).
    assert (Hr : Z.of_nat (length (skipn (Z.to_nat p) vals)) = n - p).
    { apply rest_length. split; [lia|]. destruct (Z.testbit lo (Z.of_nat k)); lia. }
    assert (Eshort : forall r, short op dflt k acc1 r =
              if (2 ^ k <=? length r)%nat then
                match skipn (2 ^ k) r, k with
                | [], _ => op acc1 (across (firstn (2 ^ k) r))
                | _, O => dflt
                | r', S h => tail op dflt h acc1 (halves op h (firstn (2 ^ k) r)) r'
                end
              else match k with O => dflt | S h => short op dflt h acc1 r end) by (intros; destruct k; reflexivity).
    rewrite Eshort. clear Eshort.
    destruct (Z.testbit lo (Z.of_nat k)) eqn:Eb.
    - destruct (Z.eqb_spec (2 ^ Z.of_nat k) 0) as [|_]; [lia|]. cbn [negb].
      rewrite Hld by lia. cbn [bindR].
      assert (L' : length (seg vals p (2 ^ Z.of_nat k)) = (2 ^ k)%nat) by (rewrite seg_length by lia; lia).
      destruct (Nat.leb_spec (2 ^ k) (length (skipn (Z.to_nat p) vals))) as [_|]; [|lia].
      replace (firstn (2 ^ k) (skipn (Z.to_nat p) vals)) with (seg vals p (2 ^ Z.of_nat k))
        by (unfold seg; now rewrite pow_to_nat).
      set (acc' := seg vals p _) in *.
      assert (Es : skipn (2 ^ k) (skipn (Z.to_nat p) vals) = skipn (Z.to_nat (p + 2 ^ Z.of_nat k)) vals)
        by (rewrite skipn_skipn'; f_equal; lia).
      rewrite Es.
      assert (Hr2 : Z.of_nat (length (skipn (Z.to_nat (p + 2 ^ Z.of_nat k)) vals)) = lo mod 2 ^ Z.of_nat k)
        by (rewrite rest_length; lia).
      assert (Hfin : lo mod 2 ^ Z.of_nat k = 0 ->
        bindR (hreduce op acc') (fun x => Ok (op acc1 x))
        = Ok match skipn (Z.to_nat (p + 2 ^ Z.of_nat k)) vals, k with
             | [], _ => op acc1 (across acc')
             | _, O => dflt
             | r', S h => tail op dflt h acc1 (halves op h acc') r'
             end).
      { intros E0. rewrite (hreduce_across op dflt) by (solve [now apply (nonempty_length acc' (2 ^ k))|lia]). cbn [bindR].
        destruct (skipn (Z.to_nat (p + 2 ^ Z.of_nat k)) vals); [reflexivity|cbn in Hr2; lia]. }
      destruct (Z.eqb_spec (2 ^ Z.of_nat k) 1) as [E1|N1]; [apply Hfin; lia|].
      destruct (Z.eqb_spec (lo mod 2 ^ Z.of_nat k) 0) as [E0|N0]; [auto|]. clear Hfin.
      destruct k as [|h]; [cbn in N1; lia|].
      destruct (halve_ok h acc' (fun acc2 => tr_epilogue_acc op ldf fuel (2 ^ Z.of_nat (S h) / 2) acc1 acc2
                                    (adv (2 ^ Z.of_nat (S h)) (adv p ps0)) lo al) L') as [E2 L2].
      rewrite E2, adv_adv. destruct (pow2_half (Z.of_nat (S h)) ltac:(lia)) as [Hh Hh2].
      replace (Z.of_nat (S h) - 1) with (Z.of_nat h) in * by lia. rewrite Hh.
      replace (Z.of_nat (S h)) with (Z.of_nat h + 1) in * by lia.
      rewrite tr_epilogue_acc_exact; try assumption; try lia.
      destruct (skipn (Z.to_nat (p + 2 ^ (Z.of_nat h + 1))) vals) eqn:Ex; [cbn in Hr2; lia|reflexivity].
    - cbn [Z.eqb negb]. rewrite Z.add_0_l in Hsp.
      destruct (Z.eqb_spec (lo mod 2 ^ Z.of_nat k) 0) as [E0|N0]; [lia|].
      destruct k as [|h]; [change (2 ^ Z.of_nat 0) with 1 in N0; now rewrite Z.mod_1_r in N0|].
      assert (Hlt : (1 <? 2 ^ Z.of_nat (S h)) = true).
      { apply Z.ltb_lt. change 1 with (2 ^ 0). apply Z.pow_lt_mono_r; lia. }
      rewrite Hlt. destruct (pow2_half (Z.of_nat (S h)) ltac:(lia)) as [Hh Hh2].
      replace (Z.of_nat (S h) - 1) with (Z.of_nat h) in * by lia. rewrite Hh.
      destruct (Nat.leb_spec (2 ^ S h) (length (skipn (Z.to_nat p) vals))) as [|_]; [lia|].
      replace (Z.of_nat (S h)) with (Z.of_nat h + 1) in * by lia.
      apply IH; try assumption; lia.
  Qed.

  (** ** Prologue *)
  Lemma tr_prologue_exact J tp fuel : forall j acc1,
    (j <= J)%nat -> (J - j < fuel)%nat -> (J < 64)%nat -> 0 <= tp < 2 ^ Z.of_nat J -> tp <= n ->
    tr_prologue op ldf fuel (2 ^ Z.of_nat j) (2 ^ Z.of_nat J) acc1 ps0 tp
    = Ok (fold_left (fun t ch => op t (across ch))
            (parts (map (Nat.pow 2) (filter (fun i => Z.testbit tp (Z.of_nat i)) (seq j (64 - j))))
                   (skipn (Z.to_nat (tp mod 2 ^ Z.of_nat j)) vals)) acc1).
  Proof.
    induction fuel as [|fuel IH]; intros j acc1 Hj Hf H64 Htp Htn; [lia|].
    pose proof (pow_pos j) as Hpj. pose proof (pow_nat j) as Ej.
    cbn [tr_prologue]. rewrite !single_bit_pow2 by lia. cbn [negb andb].
    rewrite land_pow2, land_pred_pow2 by lia.
    assert (Hmb : 0 <= tp mod 2 ^ Z.of_nat j < 2 ^ Z.of_nat j) by (apply Z.mod_pos_bound; lia).
    assert (Hsp := mod_pow2_split tp (Z.of_nat j) ltac:(lia)).
    assert (Hle1 : tp mod 2 ^ (Z.of_nat j + 1) <= tp) by (apply Z.mod_le; [lia|apply pow2_pos; lia]).
    replace (64 - j)%nat with (S (64 - S j)) by lia. cbn [seq filter].
    assert (Hnext : forall acc1',
      (if 2 ^ Z.of_nat j <? 2 ^ Z.of_nat J
       then tr_prologue op ldf fuel (2 ^ Z.of_nat j * 2) (2 ^ Z.of_nat J) acc1' ps0 tp else Ok acc1')
      = Ok (fold_left (fun t ch => op t (across ch))
            (parts (map (Nat.pow 2) (filter (fun i => Z.testbit tp (Z.of_nat i)) (seq (S j) (64 - S j))))
                   (skipn (Z.to_nat (tp mod 2 ^ (Z.of_nat j + 1))) vals)) acc1')).
    { intros acc1'. destruct (Z.ltb_spec (2 ^ Z.of_nat j) (2 ^ Z.of_nat J)) as [Hlt|Hge].
      - assert (Z.of_nat j < Z.of_nat J) by (apply pow2_lt_inv; lia).
        replace (2 ^ Z.of_nat j * 2) with (2 ^ Z.of_nat (S j))
          by (rewrite <- !pow_nat, pow_succ; lia).
        rewrite IH by (assumption || lia). replace (Z.of_nat (S j)) with (Z.of_nat j + 1) by lia. reflexivity.
      - assert (j = J).
        { destruct (Nat.eq_dec j J); [assumption|]. exfalso.
          assert (2 ^ Z.of_nat j < 2 ^ Z.of_nat J) by (apply Z.pow_lt_mono_r; lia). lia. }
        subst j. replace (filter _ _) with (@nil nat); [reflexivity|].
        symmetry. assert (Hz : forall k a, (J <= a)%nat ->
                    filter (fun i => Z.testbit tp (Z.of_nat i)) (seq a k) = []).
        { induction k as [|k IHk]; intros a Ha; [reflexivity|]. cbn [seq filter].
          replace (Z.testbit tp (Z.of_nat a)) with false; [apply IHk; lia|]. symmetry.
          assert (2 ^ Z.of_nat J <= 2 ^ Z.of_nat a) by (apply Z.pow_le_mono_r; lia).
          rewrite Z.testbit_odd, Z.shiftr_div_pow2, Z.div_small by lia. reflexivity. }
        apply Hz. lia. }
    destruct (Z.testbit tp (Z.of_nat j)) eqn:Eb.
    - destruct (Z.eqb_spec (2 ^ Z.of_nat j) 0) as [|_]; [lia|].
      assert (H1 : 2 ^ Z.of_nat j < two64).
      { change two64 with (2 ^ 64). apply Z.pow_lt_mono_r; lia. }
      rewrite Hld by lia. cbn [bindR]. rewrite (hreduce_across op dflt); [|apply (nonempty_length _ (2 ^ j)); [rewrite seg_length; lia|lia]|rewrite seg_length; lia].
      cbn [bindR]. rewrite Hnext. cbn [map parts fold_left].
      rewrite skipn_skipn'. unfold seg. rewrite pow_to_nat. do 3 f_equal. f_equal. lia.
    - cbn [Z.eqb bindR]. rewrite Hnext, Hsp. cbn [Z.add]. reflexivity.
  Qed.

  (** ** The full chunks *)
  Section Loops.
    Variables (w p0 : Z) (al : bool) (F : Z).
    Hypothesis Hw : 1 <= w.
    Hypothesis Hp0 : 0 <= p0 <= n.
    Let W := Z.to_nat w.
    Let l := skipn (Z.to_nat p0) vals.
    Let q := (length l / W)%nat.

    Lemma l_length : Z.of_nat (length l) = n - p0.
    Proof. unfold l. now apply rest_length. Qed.

    Lemma q_spec : (q * W <= length l < (q + 1) * W)%nat.
    Proof.
      unfold q. pose proof (Nat.div_mod (length l) W ltac:(unfold W; lia)).
      pose proof (Nat.mod_upper_bound (length l) W ltac:(unfold W; lia)). nia.
    Qed.

    Lemma fits_q i : Z.of_nat i * w <= n - p0 <-> (i <= q)%nat.
    Proof.
      pose proof q_spec as [H1 H2]. pose proof l_length as Hl.
      assert (Z.of_nat W = w) by (unfold W; lia). split.
      - intros H3. assert (Z.of_nat (i * W) <= Z.of_nat (length l)) by nia.
        assert (i * W <= length l)%nat by lia. assert (i * W < (q + 1) * W)%nat by lia. nia.
      - intros H3. assert (i * W <= q * W)%nat by nia. assert (Z.of_nat (i * W) <= Z.of_nat (length l)) by lia. nia.
    Qed.

    Lemma chunk_seg i : chunk W l i = seg vals (p0 + Z.of_nat i * w) w.
    Proof.
      unfold chunk, seg, l. rewrite skipn_skipn'. fold W. do 2 f_equal. unfold W. nia.
    Qed.

    Lemma ld_chunk i : (i < q)%nat ->
      ldf al (adv (p0 + Z.of_nat i * w) ps0) w = Ok (chunk W l i) /\ length (chunk W l i) = W.
    Proof.
      intros Hi. pose proof (proj2 (fits_q (S i)) ltac:(lia)) as H.
      rewrite chunk_seg. split; [apply Hld; nia|]. apply seg_length; nia.
    Qed.

    Lemma tr_loop_exact matching fuel : forall i acc,
      (i <= q)%nat -> (q - i < fuel)%nat -> (matching = true -> (w | n - p0)) -> length acc = W ->
      tr_loop op ldf fuel matching w al (F + n) (F + p0 + Z.of_nat i * w) (adv (p0 + Z.of_nat i * w) ps0) acc
      = Ok (fold_left (zip op) (map (chunk W l) (seq i (q - i))) acc, adv (p0 + Z.of_nat q * w) ps0).
    Proof.
      induction fuel as [|fuel IH]; intros i acc Hi Hf Hm Hlen; [lia|].
      cbn [tr_loop].
      assert (Hcond : (if matching then negb (F + p0 + Z.of_nat i * w =? F + n)
                       else F + p0 + Z.of_nat i * w <=? F + n - w) = (i <? q)%nat).
      { pose proof (fits_q (S i)) as H1. pose proof (proj2 (fits_q i) Hi) as H0.
        replace (Z.of_nat (S i) * w) with (Z.of_nat i * w + w) in H1 by lia.
        destruct matching.
        - destruct (Hm eq_refl) as [k Hk].
          destruct (Z.eqb_spec (F + p0 + Z.of_nat i * w) (F + n)) as [E|N]; cbn [negb]; symmetry.
          + apply Nat.ltb_ge. destruct (Nat.le_gt_cases q i); [assumption|].
            assert (Z.of_nat i * w + w <= n - p0) by (apply H1; lia). lia.
          + apply Nat.ltb_lt. assert (Z.of_nat i < k) by nia. apply H1. nia.
        - destruct (Nat.ltb_spec i q) as [Hlt|Hge].
          + assert (Z.of_nat i * w + w <= n - p0) by (apply H1; lia). lia.
          + apply Z.leb_gt. assert (~ (Z.of_nat i * w + w <= n - p0)) by (intros C; apply H1 in C; lia). lia. }
      rewrite Hcond. destruct (Nat.ltb_spec i q) as [Hlt|Hge].
      - destruct (ld_chunk i Hlt) as [E L]. rewrite E. cbn [bindR]. rewrite vop_zip by congruence. cbn [bindR].
        rewrite adv_adv. replace (F + p0 + Z.of_nat i * w + w) with (F + p0 + Z.of_nat (S i) * w) by lia.
        replace (p0 + Z.of_nat i * w + w) with (p0 + Z.of_nat (S i) * w) by lia.
        rewrite IH; try assumption; try lia; [|rewrite zip_length; congruence].
        replace (q - i)%nat with (S (q - S i)) by lia. reflexivity.
      - replace (q - i)%nat with 0%nat by lia. cbn [seq map fold_left]. do 3 f_equal. nia.
    Qed.

    Lemma ld_n_exact k : forall i, (i + k <= q)%nat ->
      ld_n ldf al (adv (p0 + Z.of_nat i * w) ps0) w k = Ok (map (chunk W l) (seq i k)).
    Proof.
      induction k as [|k IH]; intros i Hi; [reflexivity|]. cbn [ld_n].
      destruct (ld_chunk i ltac:(lia)) as [E _]. rewrite E. cbn [bindR]. rewrite adv_adv.
      replace (p0 + Z.of_nat i * w + w) with (p0 + Z.of_nat (S i) * w) by lia.
      rewrite IH by lia. reflexivity.
    Qed.

    Lemma stack_snoc cs c : cs <> [] -> stack op (cs ++ [c]) = zip op (stack op cs) c.
    Proof. intros H. destruct cs as [|x cs]; [contradiction|]. cbn [app stack]. now rewrite fold_left_app. Qed.

    Lemma fold_zip_length cs : forall c : list A, length c = W -> Forall (fun x => length x = W) cs ->
      length (fold_left (zip op) cs c) = W.
    Proof.
      induction cs as [|x cs IH]; intros c Hc HF; [assumption|]. inversion HF; subst. cbn [fold_left].
      apply IH; [rewrite zip_length; congruence|assumption].
    Qed.

    Lemma stack_length cs : cs <> [] -> Forall (fun x => length x = W) cs -> length (stack op cs) = W.
    Proof. intros H HF. destruct cs as [|c cs]; [contradiction|]. inversion HF; subst. now apply fold_zip_length. Qed.

    Lemma vop_n_exact {I} (f g : I -> list A) (is : list I) :
      (forall i, In i is -> length (f i) = W /\ length (g i) = W) ->
      vop_n op (map f is) (map g is) = Ok (map (fun i => zip op (f i) (g i)) is).
    Proof.
      induction is as [|i is IH]; intros H; [reflexivity|]. cbn [map vop_n].
      destruct (H i (or_introl eq_refl)) as [H1 H2]. rewrite vop_zip by congruence. cbn [bindR].
      rewrite IH by (intros; apply H; now right). reflexivity.
    Qed.

    (** The accumulators after [g] groups. *)
    Definition acc_at (u g j : nat) : list A := stack op (map (fun i => chunk W l (i * u + j)) (seq 0 g)).

    Lemma acc_at_length u g j : (1 <= g)%nat -> (j < u)%nat -> (g * u <= q)%nat -> length (acc_at u g j) = W.
    Proof.
      intros Hg Hj Hq. apply stack_length.
      - destruct g; [lia|discriminate].
      - apply Forall_forall. intros x Hx. apply in_map_iff in Hx. destruct Hx as (i & <- & Hi).
        apply in_seq in Hi. apply ld_chunk. nia.
    Qed.

    Lemma acc_at_succ u g j : (1 <= g)%nat -> acc_at u (S g) j = zip op (acc_at u g j) (chunk W l (g * u + j)).
    Proof.
      intros Hg. unfold acc_at. replace (S g) with (g + 1)%nat by lia.
      rewrite seq_app, map_app. cbn [seq map Nat.add]. rewrite stack_snoc; [reflexivity|].
      destruct g; [lia|discriminate].
    Qed.

    Lemma seq_shift_map a k : seq a k = map (fun j => a + j)%nat (seq 0 k).
    Proof.
      revert a. induction k as [|k IH]; intros a; [reflexivity|]. cbn [seq map]. f_equal; [lia|].
      rewrite IH, (IH 1%nat), map_map. apply map_ext. intros. lia.
    Qed.

    Lemma tr_unrolled_exact u fuel : (1 <= u)%nat -> forall g,
      (1 <= g)%nat -> ((g + 1) * u <= q)%nat -> (q / u - g <= fuel)%nat ->
      tr_unrolled op ldf fuel w u al (F + n - w * Z.of_nat u) (F + p0 + Z.of_nat (g * u) * w)
                  (adv (p0 + Z.of_nat (g * u) * w) ps0) (map (acc_at u g) (seq 0 u))
      = Ok (map (acc_at u (q / u)) (seq 0 u), F + p0 + Z.of_nat (q / u * u) * w,
            adv (p0 + Z.of_nat (q / u * u) * w) ps0).
    Proof.
      intros Hu. induction fuel as [|fuel IH]; intros g Hg Hq Hf.
      { exfalso. assert (g + 1 <= q / u)%nat by (apply Nat.div_le_lower_bound; lia). lia. }
      cbn [tr_unrolled]. rewrite ld_n_exact by nia. cbn [bindR].
      rewrite (seq_shift_map (g * u) u), map_map.
      rewrite vop_n_exact.
      2:{ intros j Hj. apply in_seq in Hj. split; [apply acc_at_length; nia|apply ld_chunk; nia]. }
      cbn [bindR]. rewrite adv_adv.
      replace (F + p0 + Z.of_nat (g * u) * w + w * Z.of_nat u) with (F + p0 + Z.of_nat (S g * u) * w) by nia.
      replace (p0 + Z.of_nat (g * u) * w + w * Z.of_nat u) with (p0 + Z.of_nat (S g * u) * w) by nia.
      replace (map (fun i => zip op (acc_at u g i) (chunk W l (g * u + i))) (seq 0 u))
        with (map (acc_at u (S g)) (seq 0 u))
        by (apply map_ext; intros; now apply acc_at_succ).
      pose proof (fits_q ((S g + 1) * u)) as Hfit.
      destruct (Z.leb_spec (F + p0 + Z.of_nat (S g * u) * w) (F + n - w * Z.of_nat u)) as [Hle|Hgt].
      - assert ((S g + 1) * u <= q)%nat by (apply Hfit; nia). apply IH; lia.
      - assert (Hn1 : ~ ((S g + 1) * u <= q)%nat) by (intros C; apply Hfit in C; nia).
        assert (Eq : (q / u = S g)%nat).
        { symmetry. apply (Nat.div_unique q u (S g) (q - S g * u)); nia. }
        rewrite Eq. reflexivity.
    Qed.
  End Loops.

  (** ** Combining the accumulators *)
  Section Tree.
    Variables (nn Wd : nat) (acc0 : nat -> list A).
    Hypothesis Hnn : (2 <= nn)%nat.
    Notation pyr := (pyramid op nn acc0).

    Lemma nth_set_nth (x : list A) i j (cur : list (list A)) : (i < length cur)%nat ->
      nth j (set_nth cur i x) [] = if (j =? i)%nat then x else nth j cur [].
    Proof.
      intros Hi. unfold set_nth. assert (L : length (firstn i cur) = i) by (rewrite firstn_length; lia).
      destruct (Nat.eqb_spec j i) as [->|N].
      - rewrite app_nth2 by lia. rewrite L, Nat.sub_diag. reflexivity.
      - destruct (Nat.lt_ge_cases j i) as [Hlt|Hge].
        + rewrite app_nth1 by lia. rewrite <- (firstn_skipn i cur) at 2. now rewrite app_nth1 by lia.
        + rewrite app_nth2 by lia. rewrite L. destruct (j - i)%nat as [|d] eqn:Ed; [lia|]. cbn [nth].
          rewrite <- (firstn_skipn (S i) cur) at 2.
          assert (L2 : length (firstn (S i) cur) = S i) by (rewrite firstn_length; lia).
          rewrite app_nth2 by lia. rewrite L2. f_equal. lia.
    Qed.

    Lemma set_nth_length (x : list A) i (cur : list (list A)) : (i < length cur)%nat ->
      length (set_nth cur i x) = length cur.
    Proof. intros Hi. unfold set_nth. rewrite app_length, firstn_length. cbn [length]. rewrite skipn_length. lia. Qed.

    Lemma tree_inner_exact o : forall b a cur,
      length cur = nn -> (a + b = nn / 2)%nat ->
      (forall i, (i < nn)%nat -> length (nth i cur []) = Wd) ->
      (forall c, (c < a)%nat -> (c * 2 ^ S o < nn)%nat -> nth (c * 2 ^ S o) cur [] = pyr (S o) (c * 2 ^ S o)) ->
      (forall c, (c * 2 ^ o < nn)%nat -> (Nat.Odd c \/ (2 * a <= c)%nat) -> nth (c * 2 ^ o) cur [] = pyr o (c * 2 ^ o)) ->
      exists cur', tree_inner op nn (2 ^ o) (seq a b) cur = Ok cur' /\ length cur' = nn
        /\ (forall i, (i < nn)%nat -> length (nth i cur' []) = Wd)
        /\ forall c, (c * 2 ^ S o < nn)%nat -> nth (c * 2 ^ S o) cur' [] = pyr (S o) (c * 2 ^ S o).
    Proof.
      pose proof (pow_succ o) as Eo. pose proof (pow_pos o) as Hpo.
      induction b as [|b IH]; intros a cur Hl Hab HW Hdone Htodo.
      - exists cur. split; [reflexivity|]. split; [assumption|]. split; [assumption|].
        intros c Hc. destruct (Nat.lt_ge_cases c a) as [Hca|Hca]; [now apply Hdone|].
        assert (Ec : (c * 2 ^ S o = 2 * c * 2 ^ o)%nat) by nia.
        rewrite Ec in *. rewrite Htodo by lia. cbn [pyramid].
        destruct (Nat.ltb_spec (2 * c * 2 ^ o + 2 ^ o) nn) as [Hlt|]; [exfalso|reflexivity].
        pose proof (Nat.div_mod nn 2 ltac:(lia)). pose proof (Nat.mod_upper_bound nn 2 ltac:(lia)).
        assert (nn <= 2 * c + 1)%nat by lia. nia.
      - cbn [seq tree_inner]. unfold tree_one.
        assert (Ei : (a * 2 * 2 ^ o = a * 2 ^ S o)%nat) by nia. rewrite Ei. set (i := (a * 2 ^ S o)%nat) in *.
        assert (Ei2 : (i = 2 * a * 2 ^ o)%nat) by (unfold i; nia).
        destruct (Nat.ltb_spec (i + 2 ^ o) nn) as [Hlt|Hge].
        + assert (Hi : (i < nn)%nat) by lia.
          rewrite (nth_error_nth' cur [] (n := i)) by lia.
          rewrite (nth_error_nth' cur [] (n := (i + 2 ^ o)%nat)) by lia.
          rewrite vop_zip by (rewrite !HW by lia; reflexivity). cbn [bindR].
          apply IH.
          * rewrite set_nth_length; lia.
          * lia.
          * intros k Hk. rewrite nth_set_nth by lia. destruct (k =? i)%nat; [|now apply HW].
            rewrite zip_length; rewrite !HW by lia; reflexivity.
          * intros c Hc Hcn. rewrite nth_set_nth by lia. destruct (Nat.eqb_spec (c * 2 ^ S o) i) as [E|N].
            -- rewrite E. cbn [pyramid]. destruct (Nat.ltb_spec (i + 2 ^ o) nn) as [_|]; [|lia].
               assert (E1 : (i + 2 ^ o = (2 * a + 1) * 2 ^ o)%nat) by nia.
               rewrite E1, (Htodo (2 * a + 1)%nat) by (try (left; exists a; reflexivity); lia).
               rewrite <- E1. f_equal. rewrite Ei2. apply Htodo; lia.
            -- apply Hdone; [|assumption]. assert (c <> a) by (intros ->; apply N; reflexivity). lia.
          * intros c Hcn Hc. rewrite nth_set_nth by lia. destruct (Nat.eqb_spec (c * 2 ^ o) i) as [E|N].
            -- exfalso. rewrite Ei2 in E. apply Nat.mul_cancel_r in E; [|lia]. subst c.
               destruct Hc as [[x Hx]|Hc]; lia.
            -- apply Htodo; [assumption|]. destruct Hc as [Hc|Hc]; [now left|right; lia].
        + cbn [bindR]. apply IH; try assumption; [lia| |].
          * intros c Hc Hcn. destruct (Nat.eq_dec c a) as [->|N]; [|apply Hdone; [lia|assumption]].
            fold i. fold i in Hcn. cbn [pyramid]. destruct (Nat.ltb_spec (i + 2 ^ o) nn) as [|_]; [lia|].
            rewrite Ei2. apply Htodo; lia.
          * intros c Hcn Hc. apply Htodo; [assumption|]. destruct Hc as [Hc|Hc]; [now left|right; lia].
    Qed.

    Lemma tree_outer_exact b : forall o cur,
      length cur = nn -> (forall i, (i < nn)%nat -> length (nth i cur []) = Wd) ->
      (forall c, (c * 2 ^ o < nn)%nat -> nth (c * 2 ^ o) cur [] = pyr o (c * 2 ^ o)) ->
      exists cur', tree_outer op nn (seq o b) cur = Ok cur' /\ length cur' = nn
        /\ (forall c, (c * 2 ^ (o + b) < nn)%nat -> nth (c * 2 ^ (o + b)) cur' [] = pyr (o + b) (c * 2 ^ (o + b))).
    Proof.
      induction b as [|b IH]; intros o cur Hl HW H.
      - exists cur. rewrite Nat.add_0_r. auto.
      - cbn [seq tree_outer].
        destruct (tree_inner_exact o (nn / 2) 0 cur Hl eq_refl HW) as (cur' & E & L' & HW' & H').
        { intros c Hc. lia. }
        { intros c Hc _. now apply H. }
        rewrite E. cbn [bindR]. destruct (IH (S o) cur' L' HW' H') as (cur2 & E2 & L2 & H2).
        exists cur2. rewrite E2. replace (o + S b)%nat with (S o + b)%nat by lia. auto.
    Qed.

    Lemma pyramid_flat k i : (nn <= i + 2 ^ k)%nat -> forall d, pyr (k + d) i = pyr k i.
    Proof.
      intros Hk. induction d as [|d IH]; [now rewrite Nat.add_0_r|]. rewrite Nat.add_succ_r. cbn [pyramid].
      destruct (Nat.ltb_spec (i + 2 ^ (k + d)) nn) as [Hlt|]; [exfalso|assumption].
      assert (2 ^ k <= 2 ^ (k + d))%nat by (apply Nat.pow_le_mono_r; lia). lia.
    Qed.

    Lemma tree_exact cur : length cur = nn -> (forall i, (i < nn)%nat -> nth i cur [] = acc0 i /\ length (acc0 i) = Wd) ->
      tree op nn cur = Ok (pyr nn 0).
    Proof.
      intros Hl H. unfold tree.
      destruct (tree_outer_exact (bit_width (nn - 1)) 0 cur Hl) as (cur' & E & L & H').
      { intros i Hi. destruct (H i Hi) as [-> ?]. assumption. }
      { intros c Hc. cbn [pyramid]. now apply H. }
      rewrite E. cbn [bindR]. destruct cur' as [|x cur']; [cbn in L; lia|].
      specialize (H' 0%nat ltac:(cbn; lia)). cbn [Nat.mul nth Nat.add] in H'. rewrite H'. f_equal.
      assert (Hb : exists x, (nn - 1 = S x)%nat) by (exists (nn - 2)%nat; lia). destruct Hb as [y Ey].
      unfold bit_width. rewrite Ey. set (k := S (Nat.log2 (S y))).
      pose proof (Nat.log2_spec (S y) ltac:(lia)) as [_ Hu]. fold k in Hu.
      pose proof (Nat.log2_lt_lin (S y) ltac:(lia)).
      assert (Ek : (k + (nn - k) = nn)%nat) by (unfold k; lia).
      rewrite <- (pyramid_flat k 0 ltac:(lia) (nn - k)), Ek. reflexivity.
    Qed.
  End Tree.

  Lemma pyramid_length nn Wd acc0 k : forall i, (i < nn)%nat ->
    (forall j, (j < nn)%nat -> length (acc0 j) = Wd) -> length (pyramid op nn acc0 k i) = Wd.
  Proof.
    induction k as [|k IH]; intros i Hi H; cbn [pyramid]; [now apply H|].
    destruct (Nat.ltb_spec (i + 2 ^ k) nn); [|now apply IH].
    rewrite zip_length; rewrite !IH by assumption; reflexivity.
  Qed.

  (** ** After the prologue *)
  Lemma full_exact pol w p al F :
    1 <= w -> 0 <= p -> p + w <= n -> (p_match pol = true -> (w | n - p)) ->
    exists acc0 f ps1,
      tr_first op ldf pol w al (F + p) (F + n) (adv p ps0) = Ok (acc0, f, ps1)
      /\ tr_loop op ldf (loop_fuel (F + p) (F + n)) (p_match pol) w al (F + n) f ps1 acc0
         = Ok (full_chunks op (Z.to_nat w) (Z.to_nat (p_unroll pol)) (skipn (Z.to_nat p) vals),
               adv (n - (n - p) mod w) ps0)
      /\ length (full_chunks op (Z.to_nat w) (Z.to_nat (p_unroll pol)) (skipn (Z.to_nat p) vals)) = Z.to_nat w.
  Proof.
    intros Hw Hp Hpw Hm. set (W := Z.to_nat w). set (l := skipn (Z.to_nat p) vals).
    set (q := (length l / W)%nat). assert (Hpn : 0 <= p <= n) by lia.
    assert (Hq1 : (1 <= q)%nat) by (apply (fits_q w p al Hw Hpn 1); lia).
    assert (Hll : Z.of_nat (length l) = n - p) by (unfold l; apply rest_length; lia).
    assert (HqZ : Z.of_nat q * w = n - p - (n - p) mod w).
    { unfold q. rewrite Nat2Z.inj_div, Hll. replace (Z.of_nat W) with w by (unfold W; lia).
      pose proof (Z.div_mod (n - p) w ltac:(lia)). lia. }
    assert (Hend : n - (n - p) mod w = p + Z.of_nat q * w) by lia. rewrite Hend.
    assert (Hchunks : forall a b, (a + b <= q)%nat -> Forall (fun x => length x = W) (map (chunk W l) (seq a b))).
    { intros a b Hab. apply Forall_forall. intros x Hx. apply in_map_iff in Hx. destruct Hx as (i & <- & Hi).
      apply in_seq in Hi. apply (ld_chunk w p al Hw Hpn). fold W l q. lia. }
    assert (Hlf : (q < loop_fuel (F + p) (F + n))%nat) by (unfold loop_fuel; nia).
    assert (Hsingle : (1 <? Z.to_nat (p_unroll pol))%nat && (2 * Z.to_nat (p_unroll pol) <=? q)%nat = false ->
      exists acc0 f ps1,
      bindR (ldf al (adv p ps0) w) (fun v => Ok (v, F + p + w, adv w (adv p ps0))) = Ok (acc0, f, ps1)
      /\ tr_loop op ldf (loop_fuel (F + p) (F + n)) (p_match pol) w al (F + n) f ps1 acc0
         = Ok (full_chunks op W (Z.to_nat (p_unroll pol)) l, adv (p + Z.of_nat q * w) ps0)
      /\ length (full_chunks op W (Z.to_nat (p_unroll pol)) l) = W).
    { intros Ec. unfold full_chunks. fold q. rewrite Ec.
      pose proof (tr_loop_exact w p al F Hw Hpn (p_match pol) (loop_fuel (F + p) (F + n)) 1) as Hl.
      destruct (ld_chunk w p al Hw Hpn 0) as [E L]; [fold W l q; lia|]. fold W l in E, L.
      cbn [Z.of_nat] in E. rewrite Z.mul_0_l, Z.add_0_r in E. rewrite E. cbn [bindR].
      do 3 eexists. split; [reflexivity|].
      specialize (Hl (chunk W l 0) Hq1). fold W l q in Hl.
      change (Z.of_nat 1) with 1 in Hl. rewrite Z.mul_1_l in Hl.
      rewrite adv_adv. replace q with (S (q - 1)) at 1 3 by lia. cbn [seq map stack].
      rewrite Hl; [|lia|assumption|assumption]. split; [reflexivity|].
      apply (fold_zip_length w); [assumption|]. apply Hchunks. lia. }
    unfold tr_first. cbv zeta.
    destruct (Z.ltb_spec 1 (p_unroll pol)) as [Hu|Hu].
    2:{ apply Hsingle. replace (1 <? Z.to_nat (p_unroll pol))%nat with false by lia. reflexivity. }
    set (u := Z.to_nat (p_unroll pol)) in *. assert (EuZ : p_unroll pol = Z.of_nat u) by (unfold u; lia).
    rewrite EuZ.
    pose proof (fits_q w p al Hw Hpn (2 * u)) as Hfit. fold W l q in Hfit.
    destruct (Z.leb_spec (F + p + w * Z.of_nat u) (F + n - w * Z.of_nat u)) as [Hle|Hgt].
    2:{ apply Hsingle. destruct (Nat.leb_spec (2 * u) q) as [C|]; [|now rewrite andb_false_r].
        exfalso. apply Hfit in C. nia. }
    clear Hsingle. assert (H2u : (2 * u <= q)%nat) by (apply Hfit; nia).
    pose proof (ld_n_exact w p al Hw Hpn u 0) as E1. fold W l q in E1.
    cbn [Z.of_nat Nat.add] in E1. rewrite Z.mul_0_l, Z.add_0_r in E1. rewrite E1 by lia. clear E1. cbn [bindR].
    pose proof (tr_unrolled_exact w p al F Hw Hpn u (loop_fuel (F + p) (F + n)) ltac:(lia) 1 ltac:(lia)) as E2.
    fold W l q in E2. rewrite Nat.mul_1_l in E2.
    replace (map (acc_at w p u 1) (seq 0 u)) with (map (chunk W l) (seq 0 u)) in E2.
    2:{ apply map_ext. intros j. unfold acc_at. cbn [seq map stack fold_left Nat.mul Nat.add]. reflexivity. }
    rewrite adv_adv. replace (F + p + w * Z.of_nat u) with (F + p + Z.of_nat u * w) by lia.
    replace (p + w * Z.of_nat u) with (p + Z.of_nat u * w) by lia.
    rewrite E2; [|lia|].
    2:{ assert (q / u <= q)%nat by (apply Nat.div_le_upper_bound; nia). lia. }
    clear E2. cbn [bindR]. set (g := (q / u)%nat).
    assert (Hg : (2 <= g)%nat) by (apply Nat.div_le_lower_bound; lia).
    assert (Hgu : (g * u <= q)%nat).
    { unfold g. pose proof (Nat.div_mod q u ltac:(lia)). lia. }
    assert (HLa : forall j, (j < u)%nat -> length (acc_at w p u g j) = W).
    { intros j Hj. apply (acc_at_length w p al Hw Hpn); [lia|assumption|]. fold W l q. assumption. }
    rewrite (tree_exact u W (acc_at w p u g)); [|lia|now rewrite map_length, seq_length|].
    2:{ intros i Hi. split; [|now apply HLa].
        rewrite (nth_indep _ [] (acc_at w p u g 0)) by (now rewrite map_length, seq_length).
        rewrite map_nth, seq_nth by assumption. reflexivity. }
    cbn [bindR]. do 3 eexists. split; [reflexivity|].
    pose proof (tr_loop_exact w p al F Hw Hpn (p_match pol) (loop_fuel (F + p) (F + n)) (g * u)
                  (pyramid op u (acc_at w p u g) u 0)) as E3. fold W l q in E3.
    unfold full_chunks. fold q g.
    replace ((1 <? u)%nat && (2 * u <=? q)%nat) with true by lia.
    assert (HLp : length (pyramid op u (acc_at w p u g) u 0) = W) by (apply pyramid_length; [lia|exact HLa]).
    rewrite E3; [|lia|lia|assumption|exact HLp]. split; [reflexivity|].
    apply (fold_zip_length w); [exact HLp|]. apply Hchunks. lia.
  Qed.

  Lemma tr_body_exact pol w al acc1 F p :
    1 <= w < two64 -> 0 <= p -> p < n -> (p_match pol = true -> (w | n - p)) ->
    tr_body op ldf pol w al acc1 (F + p) (F + n) (n - p) (adv p ps0)
    = Ok (main op dflt (Z.to_nat w) (Z.to_nat (p_unroll pol)) acc1 (skipn (Z.to_nat p) vals)).
  Proof.
    intros Hw Hp Hpn Hm. unfold tr_body, main.
    set (W := Z.to_nat w). set (l := skipn (Z.to_nat p) vals).
    assert (Hll : Z.of_nat (length l) = n - p) by (unfold l; apply rest_length; lia).
    set (lo := (n - p) mod w). assert (Hmb : 0 <= lo < w) by (apply Z.mod_pos_bound; lia).
    assert (Hhalf : 2 <= w -> exists k, bit_ceil w / 2 = 2 ^ Z.of_nat k /\ 2 ^ Z.of_nat k < w <= 2 ^ (Z.of_nat k + 1)
                      /\ Nat.log2 (W - 1) = k /\ (k < 64)%nat).
    { intros H2. destruct (bit_ceil_half w H2) as (k & Hk & Ek & Hkw).
      exists (Z.to_nat k). rewrite Z2Nat.id by lia. split; [assumption|]. split; [assumption|].
      assert (H2k : 2 ^ (k + 1) = 2 * 2 ^ k) by (rewrite Z.pow_add_r by lia; lia).
      split.
      - assert (Hpk : Z.of_nat (2 ^ Z.to_nat k)%nat = 2 ^ k) by (rewrite pow_nat, Z2Nat.id by lia; reflexivity).
        apply Nat.log2_unique; [lia|]. rewrite pow_succ. unfold W. lia.
      - assert (k < 64); [|lia]. apply pow2_lt_inv; [lia|]. change (2 ^ 64) with two64. lia. }
    destruct (p_match pol || (F + p <=? F + n - w)) eqn:Econd.
    - assert (Hpw : p + w <= n).
      { destruct (p_match pol) eqn:Em.
        - destruct (Hm eq_refl) as [q Hq]. assert (0 < q) by nia. nia.
        - cbn in Econd. lia. }
      replace (W <=? length l)%nat with true by (unfold W; lia).
      destruct (full_exact pol w p al F) as (acc0 & f & ps1 & E1 & E2 & L); try assumption; try lia.
      rewrite E1. cbn [bindR]. rewrite E2. cbn [bindR]. clear E1 E2. fold W l lo in L |- *.
      set (acc := full_chunks op W _ l) in *.
      set (rest := skipn (length l / W * W) l).
      assert (Erest : rest = skipn (Z.to_nat (n - lo)) vals).
      { unfold rest, l. rewrite skipn_skipn'. fold l. f_equal.
        assert (Z.of_nat (length l / W * W) = n - p - lo); [|lia].
        rewrite Nat2Z.inj_mul, Nat2Z.inj_div, Hll. replace (Z.of_nat W) with w by (unfold W; lia).
        pose proof (Z.div_mod (n - p) w ltac:(lia)). fold lo in H. lia. }
      assert (Hrl : Z.of_nat (length rest) = lo) by (rewrite Erest, rest_length; lia).
      assert (Hfin : lo = 0 -> forall x, bindR (hreduce op acc) (fun x => Ok (op acc1 x))
                 = Ok match rest with [] => op acc1 (across acc) | _ => x end).
      { intros E0 x. rewrite (hreduce_across op dflt); [|apply (nonempty_length acc W); [assumption|unfold W; lia]|rewrite L; unfold W; lia].
        cbn [bindR]. destruct rest; [reflexivity|cbn in Hrl; lia]. }
      destruct (Z.eqb_spec w 1) as [E1|N1]; [apply Hfin; lia|].
      assert (Hm0 : p_match pol = true -> lo = 0).
      { intros Em. unfold lo. apply Z.mod_divide; [lia|now apply Hm]. }
      destruct (p_match pol) eqn:Em; cbn [orb]; [apply Hfin; auto|].
      destruct (Z.eqb_spec lo 0) as [E0|N0]; [apply Hfin; lia|]. clear Hfin.
      destruct (Hhalf ltac:(lia)) as (k & Ek & Hkw & El & H64k). rewrite Ek, El.
      assert (Hk2 : 2 ^ (Z.of_nat k + 1) = 2 * 2 ^ Z.of_nat k) by (rewrite Z.pow_add_r by lia; lia).
      assert (Hlom : lo mod 2 ^ (Z.of_nat k + 1) = lo) by (apply Z.mod_small; lia).
      pose proof (pow_nat k) as Epk. pose proof (pow_succ k) as Esk.
      rewrite split2_ok by (rewrite ?L; unfold W; lia). cbn [bindR fst snd]. rewrite pow_to_nat.
      assert (La : length (firstn (2 ^ k) acc) = (2 ^ k)%nat) by (rewrite firstn_length, L; unfold W; lia).
      assert (Lb : length (skipn (2 ^ k) acc) = (W - 2 ^ k)%nat) by (rewrite skipn_length, L; reflexivity).
      destruct rest as [|r0 rr] eqn:Er; [cbn in Hrl; lia|]. rewrite Erest.
      destruct (Z.eqb_spec (2 ^ Z.of_nat k) (w - 2 ^ Z.of_nat k)) as [Eeq|Nne].
      + replace (2 ^ S k =? W)%nat with true by (unfold W; lia).
        assert (Hh : length (firstn (2 ^ k) acc) = length (skipn (2 ^ k) acc))
          by (rewrite La, Lb; unfold W; lia).
        rewrite vop_zip by exact Hh. cbn [bindR].
        apply tr_epilogue_acc_exact; try lia. unfold halves. rewrite zip_length by exact Hh. exact La.
      + replace (2 ^ S k =? W)%nat with false by (unfold W; lia).
        rewrite (hreduce_across op dflt).
        2:{ apply (nonempty_length _ (W - 2 ^ k)); [exact Lb|unfold W; lia]. }
        2:{ rewrite Lb. unfold W. lia. }
        cbn [bindR]. apply tr_epilogue_acc_exact; lia.
    - apply orb_false_iff in Econd. destruct Econd as [Em Hgt].
      replace (W <=? length l)%nat with false by (unfold W; lia).
      assert (Hlo : lo = n - p) by (unfold lo; apply Z.mod_small; lia).
      destruct (Hhalf ltac:(lia)) as (k & Ek & Hkw & El & H64k). rewrite Ek, El.
      assert (Hlom : lo mod 2 ^ (Z.of_nat k + 1) = lo) by (apply Z.mod_small; lia).
      pose proof (pow2_pos (Z.of_nat k) ltac:(lia)).
      destruct (Z.ltb_spec 0 (2 ^ Z.of_nat k)) as [_|]; [|lia].
      apply tr_epilogue_exact; lia.
  Qed.
End Exact.
