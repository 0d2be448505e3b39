(** Proofs for for_each over structs (C50). *)
From Verif Require Import Base BaseFacts PermuteModel SimdizeModel SimdizeSpec SimdizeProofs
  ExecModel ExecSpec ExecProofs ExecForEach ExecRun ExecThm StructRunModel StructRunSpec.
From Coq Require Import ZifyBool ZifyNat Permutation.
Ltac Zify.zify_post_hook ::= idtac.

Lemma unordered_dec s k n : unordered_path s k n \/ ~ unordered_path s k n.
Proof.
  unfold unordered_path.
  destruct (s_shuffle s); [|right; intros H; decompose [and] H; discriminate].
  destruct (s_ce s); [right; intros H; decompose [and] H; discriminate|].
  destruct (s_unpadded s); [|right; intros H; decompose [and] H; discriminate].
  destruct (s_floats s); [|right; intros H; decompose [and] H; discriminate].
  destruct (s_tuple3 s); [|right; intros H; decompose [and] H; discriminate].
  destruct (Z.eq_dec k 3) as [->|]; [|right; tauto]. destruct (Z.eq_dec n 8) as [->|]; [|right; tauto].
  left. repeat split.
Qed.

Lemma unordered_kind_dec kd k : unordered_kind kd k \/ ~ unordered_kind kd k.
Proof. destruct kd; cbn; [apply unordered_dec|tauto]. Qed.

Section Objects.
  Context {W : Type}.
  Implicit Types (m : mem W) (o : list (list W)).

  Lemma map_val_ok (l : list W) : mapR (fun l => of_option (lane_val l)) (map Val l) = Ok l.
  Proof. induction l as [|x l IH]; cbn; [reflexivity|]. now rewrite IH. Qed.

  Lemma map_vals_ok (vs : list (list W)) : mapR (mapR (fun l => of_option (lane_val l))) (map (map Val) vs) = Ok vs.
  Proof. induction vs as [|v vs IH]; cbn; [reflexivity|]. now rewrite map_val_ok, IH. Qed.

  (** Every object has its lanes. *)
  Lemma lanes_exist o k n : shaped o k n -> 0 <= n -> exists xs, Z.of_nat (length xs) = n /\ lanes_are k o xs.
  Proof.
    intros Hs Hn.
    assert (H : forall c, (c <= Z.to_nat n)%nat -> exists xs, length xs = c /\ forall i x, nth_error xs i = Some x -> lane_is o i x).
    { induction c as [|c IH]; intros Hc.
      - exists []. split; [reflexivity|]. intros [|i] x E; discriminate.
      - destruct IH as (xs & L & H); [lia|].
        destruct (element_ok o k n (Z.of_nat c) Hs ltac:(lia)) as (x & _ & Lx & Nx).
        exists (xs ++ [x]). split; [rewrite app_length; cbn; lia|]. intros i y E.
        destruct (Nat.lt_ge_cases i c).
        + rewrite nth_error_app1 in E by lia. auto.
        + rewrite nth_error_app2 in E by lia. destruct (i - length xs)%nat as [|[|d] ] eqn:D; cbn in E; try discriminate.
          injection E as <-. replace i with c by lia. split; [destruct Hs; lia|].
          intros j v Ej. rewrite (Nx j v Ej). f_equal. lia. }
    destruct (H (Z.to_nat n) ltac:(lia)) as (xs & L & HH). exists xs. split; [lia|]. split; [|assumption].
    now replace (Z.of_nat (length xs)) with n by lia.
  Qed.

  Lemma lane_of_element o k n i x : shaped o k n -> 0 <= i < n -> element o i = Ok x -> lane_is o (Z.to_nat i) x.
  Proof.
    intros Hs Hi E. destruct (element_ok o k n i Hs Hi) as (y & E' & L & N). rewrite E in E'. injection E' as <-.
    split; [destruct Hs; lia|exact N].
  Qed.

  Lemma lane_unique o i x y : lane_is o i x -> lane_is o i y -> x = y.
  Proof.
    intros [L1 H1] [L2 H2]. apply nth_error_ext. intros j.
    destruct (nth_error o j) as [v|] eqn:E; [now rewrite (H1 j v E), (H2 j v E)|].
    apply nth_error_None in E. assert (nth_error x j = None) as -> by (apply nth_error_None; lia).
    symmetry. apply nth_error_None. lia.
  Qed.

  Lemma structs_exist m k first last : 1 <= k -> first <= last -> structs_mapped m k first last ->
    exists zs, structs_are m k first last zs.
  Proof.
    intros Hk Hle Hm.
    assert (H : forall c, (c <= Z.to_nat (last - first))%nat -> exists xs, length xs = c /\
              forall i x, nth_error xs i = Some x -> load m (k * (first + Z.of_nat i)) (Z.to_nat k) = Some x).
    { induction c as [|c IH]; intros Hc.
      - exists []. split; [reflexivity|]. intros [|i] x E; discriminate.
      - destruct IH as (xs & L & H); [lia|].
        destruct (load_ok m (k * (first + Z.of_nat c)) (Z.to_nat k)) as [x Ex].
        { intros a Ha. apply Hm. split; [nia|]. assert (k * (first + Z.of_nat c + 1) <= k * last) by (apply Z.mul_le_mono_nonneg_l; lia). lia. }
        exists (xs ++ [x]). split; [rewrite app_length; cbn; lia|]. intros i y E.
        destruct (Nat.lt_ge_cases i c).
        + rewrite nth_error_app1 in E by lia. auto.
        + rewrite nth_error_app2 in E by lia. destruct (i - length xs)%nat as [|[|d] ] eqn:D; cbn in E; try discriminate.
          injection E as <-. now replace i with c by lia. }
    destruct (H (Z.to_nat (last - first)) ltac:(lia)) as (xs & L & HH). exists xs. split; [lia|assumption].
  Qed.

  Lemma ordered_lanes m k pos n o : 1 <= k -> 1 <= n -> shaped o k n -> lanes_from m (k * pos) k n o ->
    exists xs, structs_are m k pos (pos + n) xs /\ lanes_are k o xs.
  Proof.
    intros Hk Hn Hs Hl. destruct (lanes_exist o k n Hs ltac:(lia)) as (xs & L & H). exists xs. split; [|assumption].
    split; [lia|]. intros i x E.
    assert (Hi : (i < length xs)%nat) by (apply nth_error_Some; congruence).
    destruct (element_is_struct m (k * pos) k n o (Z.of_nat i) Hs Hl ltac:(lia) ltac:(lia)) as (y & Ey & Ly).
    rewrite (lane_unique o i x y); [|now apply H|].
    - rewrite <- Ly. f_equal. lia.
    - rewrite <- (Nat2Z.id i). eapply lane_of_element; [exact Hs|lia|exact Ey].
  Qed.

  Lemma obj_load_ok (zero : W) kd m pos k n : 1 <= k -> 1 <= n -> structs_mapped m k pos (pos + n) ->
    exists o zs xs, obj_load zero kd m pos k n = Ok o /\ structs_are m k pos (pos + n) zs
      /\ presented kd k zs xs /\ lanes_are k o xs.
  Proof.
    intros Hk Hn Hm.
    assert (Hd : defined_at m (k * pos) (k * n)). { intros q Hq. apply Hm. lia. }
    destruct kd as [se|].
    - destruct (unordered_dec (se n) k n) as [U|U].
      + assert (U' := U). destruct U' as (_ & _ & _ & _ & _ & -> & ->).
        destruct (load_unordered_structs zero (se 8) m (3 * pos) U Hd) as (vs & E & Hs & Hp).
        cbn [obj_load]. rewrite E. cbn [bindR]. rewrite map_vals_ok.
        destruct (structs_exist m 3 pos (pos + 8) ltac:(lia) ltac:(lia) Hm) as (zs & Hz).
        destruct (lanes_exist vs 3 8 Hs ltac:(lia)) as (xs & Lx & Hx).
        exists vs, zs, xs. split; [reflexivity|]. split; [exact Hz|]. split; [|exact Hx].
        left. split; [exact U|]. destruct Hz as [Lz Hz]. destruct Hx as [_ Hx].
        split; [lia|].
        assert (P : forall i x, nth_error xs i = Some x ->
                  nth_error zs (Z.to_nat (nth i [0; 3; 6; 1; 4; 7; 2; 5] 0)) = Some x).
        { intros i x Ei. assert (Hi : (i < length xs)%nat) by (apply nth_error_Some; congruence).
          destruct (Hp (Z.of_nat i) ltac:(lia)) as (y & Ey & Ly). rewrite Nat2Z.id in Ly.
          assert (x = y) as <-.
          { apply (lane_unique vs i); [now apply Hx|]. rewrite <- (Nat2Z.id i).
            eapply lane_of_element; [exact Hs|lia|exact Ey]. }
          set (q := nth i [0; 3; 6; 1; 4; 7; 2; 5] 0) in *.
          assert (Hq : 0 <= q < 8).
          { unfold q. assert (i < 8)%nat by lia. do 8 (destruct i as [|i]; [cbn; lia|]). lia. }
          destruct (nth_error zs (Z.to_nat q)) as [z|] eqn:Ez; [|apply nth_error_None in Ez; lia].
          specialize (Hz _ _ Ez). change (Z.to_nat 3) with 3%nat in Hz.
          replace (3 * (pos + Z.of_nat (Z.to_nat q))) with (3 * pos + 3 * q) in Hz by lia. congruence. }
        assert (L8 : length xs = 8%nat) by lia. clear - P L8.
        do 8 (destruct xs as [|? xs]; [discriminate|]). destruct xs; [|discriminate].
        pose proof (P 0%nat _ eq_refl) as P0. pose proof (P 1%nat _ eq_refl) as P1.
        pose proof (P 2%nat _ eq_refl) as P2. pose proof (P 3%nat _ eq_refl) as P3.
        pose proof (P 4%nat _ eq_refl) as P4. pose proof (P 5%nat _ eq_refl) as P5.
        pose proof (P 6%nat _ eq_refl) as P6. pose proof (P 7%nat _ eq_refl) as P7.
        cbn [nth] in *.
        change (Z.to_nat 0) with 0%nat in *. change (Z.to_nat 3) with 3%nat in *. change (Z.to_nat 6) with 6%nat in *.
        change (Z.to_nat 1) with 1%nat in *. change (Z.to_nat 4) with 4%nat in *. change (Z.to_nat 7) with 7%nat in *.
        change (Z.to_nat 2) with 2%nat in *. change (Z.to_nat 5) with 5%nat in *.
        cbn [map]. congruence.
      + destruct (load_elements_lanes zero (se n) m (k * pos) k n Hk Hn Hd U) as (vs & E & Hs & Hl).
        cbn [obj_load]. rewrite E. cbn [bindR]. rewrite map_vals_ok.
        destruct (ordered_lanes m k pos n vs Hk Hn Hs Hl) as (xs & Hx & Hx').
        exists vs, xs, xs. split; [reflexivity|]. split; [exact Hx|]. split; [|exact Hx'].
        right. split; [|reflexivity]. intros [Uk L8]. cbn in Uk. apply U. destruct Hx as [Lx _].
        now replace n with 8 by lia.
    - destruct (tuple_load_lanes zero m (k * pos) k n Hk Hn Hd) as (vs & E & Hs & Hl).
      destruct (ordered_lanes m k pos n vs Hk Hn Hs Hl) as (xs & Hx & Hx').
      exists vs, xs, xs. split; [exact E|]. split; [exact Hx|]. split; [|exact Hx']. right. split; [|reflexivity].
      cbn. tauto.
  Qed.

  (** copy_to *)
  Lemma obj_store_ok kd m pos k n o xs : 1 <= k -> 1 <= n -> structs_mapped m k pos (pos + n) ->
    lanes_are k o xs -> Z.of_nat (length xs) = n ->
    exists m', obj_store kd o m pos k n = Ok m' /\ structs_are m' k pos (pos + n) xs
      /\ forall a, ~ (k * pos <= a < k * (pos + n)) -> m' a = m a.
  Proof.
    intros Hk Hn Hm [Hs Hx] L. rewrite L in Hs.
    assert (Hd : defined_at m (k * pos) (k * n)). { intros q Hq. apply Hm. lia. }
    assert (H : exists m', obj_store kd o m pos k n = Ok m' /\ stored m m' (k * pos) k n o).
    { destruct kd; [now apply store_elements_ok|now apply tuple_store_ok]. }
    destruct H as (m' & E & Hi & Ho). exists m'. split; [exact E|]. split.
    - split; [lia|]. intros i x Ex. destruct (Hx i x Ex) as [Lx Nx].
      assert (Hlt : (i < length xs)%nat) by (apply nth_error_Some; congruence).
      destruct Hs as [Lo _]. replace (Z.to_nat k) with (length x) by lia. apply load_intro. intros j Hj.
      destruct (nth_error o j) as [v|] eqn:Ev; [|apply nth_error_None in Ev; lia].
      rewrite (Nx j v Ev). replace (k * (pos + Z.of_nat i) + Z.of_nat j) with (k * pos + k * Z.of_nat i + Z.of_nat j) by lia.
      rewrite (Hi (Z.of_nat i) (Z.of_nat j) v); [now rewrite Nat2Z.id|lia|lia|now rewrite Nat2Z.id].
    - intros a Ha. apply Ho. lia.
  Qed.
End Objects.

Section Chunks.
  Context {W : Type}.
  Implicit Types (m : mem W) (o : list (list W)).

  Lemma structs_app m k a b c xs ys : structs_are m k a b xs -> structs_are m k b c ys -> structs_are m k a c (xs ++ ys).
  Proof.
    intros [L1 H1] [L2 H2]. split; [rewrite app_length; lia|]. intros i x E.
    destruct (Nat.lt_ge_cases i (length xs)).
    - rewrite nth_error_app1 in E by lia. now apply H1.
    - rewrite nth_error_app2 in E by lia. rewrite <- (H2 _ _ E). f_equal. f_equal. lia.
  Qed.

  Lemma structs_ext m m' k a b xs : 1 <= k -> (forall p, k * a <= p < k * b -> m p = m' p) ->
    structs_are m k a b xs -> structs_are m' k a b xs.
  Proof.
    intros Hk Hm [L H]. split; [exact L|]. intros i x E.
    assert (Hi : (i < length xs)%nat) by (apply nth_error_Some; congruence).
    rewrite <- (H i x E). apply load_ext. intros p Hp. symmetry. apply Hm.
    assert (k * (a + Z.of_nat i + 1) <= k * b) by (apply Z.mul_le_mono_nonneg_l; lia). nia.
  Qed.

  Lemma mapped_part m k a b a' b' : 1 <= k -> a <= a' -> b' <= b -> structs_mapped m k a b -> structs_mapped m k a' b'.
  Proof. intros Hk Ha Hb H p Hp. apply H. nia. Qed.

  Lemma load_objs_ok (zero : W) kd m k n : 1 <= k -> 1 <= n -> forall u pos, structs_mapped m k pos (pos + n * Z.of_nat u) ->
    exists os zss xss, load_objs zero kd m pos k n u = Ok os
      /\ structs_are m k pos (pos + n * Z.of_nat u) (concat zss)
      /\ Forall2 (presented kd k) zss xss /\ Forall2 (lanes_are k) os xss
      /\ map (@length _) zss = repeat (Z.to_nat n) u.
  Proof.
    intros Hk Hn. induction u as [|u IH]; intros pos Hm.
    - exists [], [], []. split; [reflexivity|]. split; [split; [cbn; lia|intros [|i] x E; discriminate]|].
      repeat split; constructor.
    - destruct (obj_load_ok zero kd m pos k n Hk Hn) as (o & zs & xs & E & Hz & Hp & Hl);
        [eapply mapped_part; [exact Hk| | |exact Hm]; lia|].
      destruct (IH (pos + n)) as (os & zss & xss & E' & Hz' & Hp' & Hl' & Hs);
        [eapply mapped_part; [exact Hk| | |exact Hm]; lia|].
      exists (o :: os), (zs :: zss), (xs :: xss). cbn [load_objs]. rewrite E. cbn [bindR]. rewrite E'. cbn [bindR].
      split; [reflexivity|]. cbn [concat].
      split; [eapply structs_app; [exact Hz|]; now replace (pos + n * Z.of_nat (S u)) with (pos + n + n * Z.of_nat u) by lia|].
      split; [now constructor|]. split; [now constructor|]. cbn [map repeat]. f_equal; [|assumption].
      destruct Hz as [Lz _]. lia.
  Qed.

  Lemma store_objs_ok kd k n : 1 <= k -> 1 <= n -> forall os xss pos m,
    structs_mapped m k pos (pos + n * Z.of_nat (length os)) ->
    Forall2 (lanes_are k) os xss -> Forall (fun xs => Z.of_nat (length xs) = n) xss ->
    exists m', store_objs kd m pos k n os = Ok m'
      /\ structs_are m' k pos (pos + n * Z.of_nat (length os)) (concat xss)
      /\ forall a, ~ (k * pos <= a < k * (pos + n * Z.of_nat (length os))) -> m' a = m a.
  Proof.
    intros Hk Hn. induction os as [|o os IH]; intros xss pos m Hm F L.
    - inversion F; subst. exists m. split; [reflexivity|]. split; [|auto].
      split; [cbn; lia|intros [|i] x E; discriminate].
    - inversion F as [|o' xs os' xss' Hl Hls]; subst. inversion L as [|xs' xss'' Lx Ls]; subst xs' xss''.
      cbn [length] in *.
      destruct (obj_store_ok kd m pos k n o xs Hk Hn) as (m1 & E1 & S1 & O1);
        [eapply mapped_part; [exact Hk| | |exact Hm]; lia|exact Hl|exact Lx|].
      destruct (IH xss' (pos + n) m1) as (m2 & E2 & S2 & O2); [|exact Hls|exact Ls|].
      { intros a Ha. rewrite O1 by lia. apply Hm. nia. }
      exists m2. cbn [store_objs]. rewrite E1. cbn [bindR]. split; [exact E2|].
      replace (pos + n + n * Z.of_nat (length os)) with (pos + n * Z.of_nat (S (length os))) in * by lia.
      split.
      + cbn [concat]. eapply structs_app; [|exact S2]. eapply structs_ext; [exact Hk| |exact S1].
        intros p Hp. symmetry. apply O2. lia.
      + intros a Ha. rewrite O2 by nia. apply O1. nia.
  Qed.
End Chunks.

Section Run.
  Context {W St : Type} (zero : W) (f : St -> list (list (list W)) -> St * list (list (list W))).

  Lemma presented_length kd k (zs xs : list (list W)) : presented kd k zs xs -> length xs = length zs.
  Proof.
    intros [ [_ [L E] ] | [_ ->] ]; [|reflexivity]. apply (f_equal (@length _)) in E. rewrite !map_length in E. now rewrite L.
  Qed.

  Lemma presented_lengths kd k (zss xss : list (list (list W))) : Forall2 (presented kd k) zss xss ->
    map (@length _) xss = map (@length _) zss.
  Proof. induction 1 as [|zs xs zss xss H _ IH]; cbn; [reflexivity|]. now rewrite (presented_length _ _ _ _ H), IH. Qed.

  (** The objects a callable leaves behind have lanes too. *)
  Lemma kept_lanes k (os os' xss : list (list (list W))) :
    Forall2 (fun o o' => forall k n, shaped o k n -> shaped o' k n) os os' -> Forall2 (lanes_are k) os xss ->
    exists yss, Forall2 (lanes_are k) os' yss /\ map (@length _) yss = map (@length _) xss.
  Proof.
    intros H. revert xss. induction H as [|o o' os os' Ho _ IH]; intros xss F; inversion F as [|o1 xs os1 xss' Hl Hls]; subst.
    - exists []. split; [constructor|reflexivity].
    - destruct (IH _ Hls) as (yss & Hy & Ly). destruct Hl as [Hs _].
      destruct (lanes_exist o' k _ (Ho _ _ Hs) ltac:(lia)) as (ys & L & Hl').
      exists (ys :: yss). split; [now constructor|]. cbn. rewrite Ly. f_equal. lia.
  Qed.

  Lemma Forall_length_map (n : nat) (xss : list (list (list W))) u : map (@length _) xss = repeat n u ->
    Forall (fun xs => length xs = n) xss /\ length xss = u.
  Proof.
    revert u. induction xss as [|xs xss IH]; intros [|u] E; try discriminate; [split; constructor|].
    cbn in E. injection E as E1 E2. destruct (IH _ E2). split; [now constructor|cbn; lia].
  Qed.

  Lemma struct_run_ok kd k wb : keeps_objects f -> 1 <= k -> forall a b l, tiles a b l -> forall m st t0,
    structs_mapped m k a b ->
    exists m' tr zss xss, struct_run zero f kd k wb l (mkss m st t0) = Ok (mkss m' (state_after f st tr) (t0 ++ tr))
      /\ structs_are m k a b (concat zss) /\ Forall2 (presented kd k) zss xss /\ Forall2 (lanes_are k) (concat tr) xss
      /\ map (@length _) zss = flat_map (fun c => repeat (Z.to_nat (k_k c)) (k_n c)) l
      /\ (wb = false -> m' = m)
      /\ (wb = true -> exists yss, Forall2 (lanes_are k) (concat (left_behind f st tr)) yss
                        /\ structs_are m' k a b (concat yss) /\ map (@length _) yss = map (@length _) zss)
      /\ forall p, ~ (k * a <= p < k * b) -> m' p = m p.
  Proof.
    intros Hf Hk a b l HT. induction HT as [a|a b n u al l Hn Hu HT IH]; intros m st t0 Hm.
    - exists m, [], [], []. rewrite app_nil_r. split; [reflexivity|].
      assert (Hnil : forall m : mem W, structs_are m k a a []) by (intros m0; split; [cbn; lia|intros [|i] x E; discriminate]).
      split; [apply Hnil|]. split; [constructor|]. split; [constructor|]. split; [reflexivity|]. split; [auto|].
      split; [|auto]. intros _. exists []. split; [constructor|]. split; [apply Hnil|reflexivity].
    - pose proof (tiles_le _ _ _ HT) as Hle.
      destruct (load_objs_ok zero kd m k n Hk ltac:(lia) u a) as (os & zs & xs & E & Hz & Hp & Hl & Hs);
        [eapply mapped_part; [exact Hk| | |exact Hm]; lia|].
      cbn [struct_run]. unfold struct_invoke at 1. cbn [k_pos k_k k_n ss_mem ss_st ss_trace]. rewrite E. cbn [bindR].
      destruct (f st os) as [st' out] eqn:Ef.
      assert (Hout : Forall2 (fun o o' => forall k n, shaped o k n -> shaped o' k n) os out).
      { pose proof (Hf st os) as H. now rewrite Ef in H. }
      destruct (kept_lanes k os out xs Hout Hl) as (ys & Hy & Ly).
      rewrite (presented_lengths _ _ _ _ Hp), Hs in Ly.
      destruct (Forall_length_map _ _ _ Ly) as [Fy Cy].
      assert (Lo : length out = u). { rewrite <- Cy. clear - Hy. induction Hy; cbn; congruence. }
      assert (Hst : exists m1, (if wb then store_objs kd m a k n out else Ok m) = Ok m1
                /\ (wb = false -> m1 = m) /\ (wb = true -> structs_are m1 k a (a + n * Z.of_nat u) (concat ys))
                /\ forall p, ~ (k * a <= p < k * (a + n * Z.of_nat u)) -> m1 p = m p).
      { destruct wb; [|exists m; split; [reflexivity|]; split; [auto|]; split; [discriminate|auto] ].
        destruct (store_objs_ok kd k n Hk ltac:(lia) out ys a m) as (m1 & E1 & S1 & O1);
          [rewrite Lo; eapply mapped_part; [exact Hk| | |exact Hm]; lia|exact Hy
          |eapply Forall_impl; [|exact Fy]; cbn; intros; lia|].
        rewrite Lo in S1, O1. exists m1. split; [exact E1|]. split; [discriminate|]. split; [intros _; exact S1|exact O1]. }
      destruct Hst as (m1 & E1 & W0 & W1 & O1). rewrite E1. cbn [bindR].
      destruct (IH m1 st' (t0 ++ [os])) as (m' & tr & zss & xss & Er & Hz' & Hp' & Hl' & Hs' & V0 & V1 & O').
      { intros p Hp'. rewrite O1 by lia. apply Hm. nia. }
      exists m', (os :: tr), (zs ++ zss), (xs ++ xss). rewrite Er, <- app_assoc. cbn [app state_after].
      rewrite Ef. cbn [fst]. split; [reflexivity|].
      split; [rewrite concat_app; eapply structs_app; [exact Hz|]; eapply structs_ext; [exact Hk| |exact Hz'];
              intros p Hp''; apply O1; lia|].
      split; [now apply Forall2_app|]. cbn [concat]. split; [now apply Forall2_app|].
      split; [cbn [flat_map k_k k_n]; now rewrite map_app, Hs, Hs'|].
      split; [intros Ew; rewrite (V0 Ew); exact (W0 Ew)|].
      split; [|intros p Hp''; rewrite O' by nia; apply O1; nia].
      intros Ew. destruct (V1 Ew) as (yss & Hy' & Sy & Ly'). exists (ys ++ yss). cbn [left_behind concat]. rewrite Ef. cbn [fst snd].
      split; [now apply Forall2_app|]. split; [|rewrite !map_app, Ly, Ly', Hs; reflexivity].
      rewrite concat_app. eapply structs_app; [|exact Sy]. eapply structs_ext; [exact Hk| |exact (W1 Ew)].
      intros p Hp''. symmetry. apply O'. lia.
  Qed.

  Lemma struct_target_ok c : struct_target c -> target_ok c.
  Proof. intros [H1 H2]. split; [assumption|]. right. assumption. Qed.

  (** The shape of the calls: no prologue, full width up to [b], less from there on. *)
  Definition plain_shape (w first last : Z) (l : list call) : Prop :=
    exists lu l3 b, l = lu ++ l3 /\ tiles first b lu /\ Forall (fun c => k_k c = w) lu /\ (w | b - first)
      /\ tiles b last l3 /\ Forall (fun c => 0 < k_k c < w) l3 /\ last - b < 2 ^ exponent w.

  Lemma desc_span al j a b l : desc al j a b l -> 0 <= j -> b - a < 2 ^ j.
  Proof.
    induction 1 as [j a|j i a b l Hi _ IH]; intros Hj; [pose proof (Z.pow_pos_nonneg 2 j); lia|].
    specialize (IH ltac:(lia)). pose proof (Z.pow_le_mono_r 2 (i + 1) j ltac:(lia) ltac:(lia)).
    rewrite Z.pow_add_r in * by lia. lia.
  Qed.

  Lemma struct_calls c pol w first last :
    struct_target c -> c_ce c = false -> policy_ok pol -> width_ok w -> range_ok first last ->
    size_matches pol w first last ->
    exists l, for_each c pol w first last = (l, Ok tt) /\ tiles first last l /\ plain_shape w first last l.
  Proof.
    intros Hc Hce Hp Hw [Hr1 Hr2] Hmatch. unfold width_ok in Hw. unfold for_each.
    destruct (Z.eqb_spec first last) as [->|Hne].
    { exists []. split; [reflexivity|]. split; [constructor|]. exists [], [], last. split; [reflexivity|]. rewrite Z.sub_diag. repeat split; try constructor; try apply Z.divide_0_r.
      apply Z.pow_pos_nonneg; [lia|apply Z.log2_up_nonneg]. }
    assert (Etrap : p_match pol && negb ((last - first) mod w =? 0) = false).
    { destruct (p_match pol) eqn:E; [|reflexivity]. cbn [andb].
      assert ((last - first) mod w = 0); [|lia]. apply Z.mod_divide; [lia|]. destruct (Hmatch E) as [n Hn]. now exists n. }
    rewrite Etrap, Hce. unfold for_each_rt.
    assert (Hno : prologue_is_possible c w = false).
    { unfold prologue_is_possible. destruct Hc as [H1 H2]. specialize (H2 w). lia. }
    assert (Epa : prologue_args c pol w (last - first) first = None).
    { unfold prologue_args, use_aligned_loadstore, maybe_prologue. now rewrite Hno, !andb_false_r. }
    rewrite Epa.
    destruct (for_each_body_ok c pol w first last (last - first))
      as (l1 & l2 & l3 & a & b & Eb & Hu1 & Hl1 & Hu2 & Hdb & Hda & Hd3 & Hm3);
      [assumption|assumption|reflexivity| |].
    { intros E. destruct (Hmatch E) as [n Hn]. now exists n. }
    rewrite Eb. exists (l1 ++ l2 ++ l3). split; [reflexivity|].
    destruct (body_facts c pol w first last l1 l2 l3 a b) as (HT & _); try assumption; try lia.
    { apply target_cfg, struct_target_ok, Hc. }
    { intros Eu. unfold use_aligned_loadstore in Eu. rewrite Hno, andb_false_r in Eu. discriminate. }
    split; [exact HT|]. exists (l1 ++ l2), l3, b. split; [apply app_assoc|].
    assert (HT1 : tiles first a l1).
    { destruct (Z_le_gt_dec (p_unroll pol) 1) as [Hu|Hu].
      - rewrite (Hl1 Hu) in *. inversion Hu1; subst. constructor.
      - eapply uniform_tiles; [| |exact Hu1]; lia. }
    split; [eapply tiles_app; [exact HT1|eapply uniform_tiles; [| |exact Hu2]; lia]|].
    split.
    { apply Forall_app. split.
      - eapply Forall_impl; [|exact (uniform_pos _ _ _ _ _ _ Hu1 first ltac:(rewrite Z.sub_diag; apply Z.divide_0_r))]. now intros q [H _].
      - eapply Forall_impl; [|exact (uniform_pos _ _ _ _ _ _ Hu2 a ltac:(rewrite Z.sub_diag; apply Z.divide_0_r))]. now intros q [H _]. }
    split; [exact Hdb|]. split; [eapply desc_tiles; exact Hd3|].
    split; [|eapply desc_span; [exact Hd3|apply Z.log2_up_nonneg] ].
    pose proof (desc_pos _ _ _ _ _ Hd3 (Z.log2_up_nonneg _) b ltac:(rewrite Z.sub_diag; apply Z.divide_0_r)) as P3.
    eapply Forall_impl; [|exact P3]. intros q (i & Hi & -> & _).
    pose proof (exponent_bound w i ltac:(lia) Hi). pose proof (Z.pow_pos_nonneg 2 i). lia.
  Qed.

  Definition small_sizes w (l : list call) : Prop := Forall (fun c => 0 < k_k c <= w) l.

  (** A successful run, in full. *)
  Definition struct_run_spec kd k wb first last (m : mem W) st (l : list call) (r : res (sstate W St)) : Prop :=
    exists s zss xss, r = Ok s
      /\ structs_are m k first last (concat zss) /\ Forall2 (presented kd k) zss xss
      /\ Forall2 (lanes_are k) (concat (ss_trace s)) xss
      /\ map (@length _) zss = flat_map (fun c => repeat (Z.to_nat (k_k c)) (k_n c)) l
      /\ ss_st s = state_after f st (ss_trace s)
      /\ (wb = false -> ss_mem s = m)
      /\ (wb = true -> exists yss, Forall2 (lanes_are k) (concat (left_behind f st (ss_trace s))) yss
                        /\ structs_are (ss_mem s) k first last (concat yss) /\ map (@length _) yss = map (@length _) zss)
      /\ forall p, ~ (k * first <= p < k * last) -> ss_mem s p = m p.

  Lemma struct_for_each_calls c pol w first last :
    struct_target c -> policy_ok pol -> width_ok w -> range_ok first last ->
    size_matches pol w first last -> (c_ce c = true -> w = 2 -> first = last \/ (last - first) mod 2 <> 0) ->
    exists l, for_each c pol w first last = (l, Ok tt) /\ tiles first last l
      /\ (c_ce c = false -> plain_shape w first last l) /\ small_sizes w l.
  Proof.
    intros Hc Hp Hw Hr Hs Hce. destruct (c_ce c) eqn:Ece.
    - destruct Hr as [Hr1 Hr2].
      destruct (for_each_calls_ce c pol w first last) as (l & E & HT & _ & HS & _); try assumption; [now auto|].
      exists l. split; [exact E|]. split; [exact HT|]. split; [discriminate|].
      eapply Forall_impl; [|exact HS]. intros q [ [-> _] | (i & Hi & -> & Hiw & _) ]; [unfold width_ok in Hw; lia|].
      pose proof (Z.pow_pos_nonneg 2 i). lia.
    - destruct (struct_calls c pol w first last Hc Ece Hp Hw Hr Hs) as (l & E & HT & HS). exists l.
      split; [exact E|]. split; [exact HT|]. split; [auto|].
      destruct HS as (lu & l3 & b & -> & _ & Hlu & _ & _ & Hl3 & _). apply Forall_app. unfold width_ok in Hw.
      split; [eapply Forall_impl; [|exact Hlu]|eapply Forall_impl; [|exact Hl3] ]; cbn; intros; lia.
  Qed.

  Lemma struct_for_each_ok kd k c pol w wb first last m st :
    keeps_objects f -> 1 <= k -> struct_target c -> policy_ok pol -> width_ok w -> range_ok first last ->
    size_matches pol w first last -> (c_ce c = true -> w = 2 -> first = last \/ (last - first) mod 2 <> 0) ->
    structs_mapped m k first last ->
    exists l, (c_ce c = false -> plain_shape w first last l) /\ small_sizes w l /\ tiles first last l
    /\ struct_run_spec kd k wb first last m st l (struct_for_each zero f kd k c pol w wb first last m st).
  Proof.
    intros Hf Hk Hc Hp Hw Hr Hs Hce Hm.
    destruct (struct_for_each_calls c pol w first last Hc Hp Hw Hr Hs Hce) as (l & E & HT & HS & HZ).
    exists l. split; [exact HS|]. split; [exact HZ|]. split; [exact HT|].
    destruct (struct_run_ok kd k wb Hf Hk first last l HT m st [] Hm) as (m' & tr & zss & xss & Er & H1 & H2 & H3 & H4 & H5 & H6 & H7).
    exists (mkss m' (state_after f st tr) tr), zss, xss. unfold struct_for_each. rewrite E, Er. cbn [bindR app ss_mem ss_st ss_trace].
    do 6 (split; [first [reflexivity|assumption]|]). split; [exact H5|]. split; [exact H6|exact H7].
  Qed.
End Run.
