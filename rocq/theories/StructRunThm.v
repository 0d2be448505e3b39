(** Theorems on for_each over structs (C50). *)
From Verif Require Import Base BaseFacts PermuteModel SimdizeModel SimdizeSpec SimdizeProofs
  ExecModel ExecSpec ExecProofs ExecForEach ExecThm StructRunModel StructRunSpec StructRunProofs.
From Coq Require Import ZifyBool ZifyNat Permutation.
Ltac Zify.zify_post_hook ::= idtac.

Section Thm.
  Context {W St : Type} (zero : W) (f : St -> list (list (list W)) -> St * list (list (list W))).

  Lemma sizes_of_chunks w l (zss : list (list (list W))) : small_sizes w l ->
    map (@length _) zss = flat_map (fun c => repeat (Z.to_nat (k_k c)) (k_n c)) l ->
    Forall (fun zs => Z.of_nat (length zs) <= w) zss.
  Proof.
    intros H E. apply Forall_forall. intros zs Hz. assert (Hin : In (length zs) (map (@length _) zss)) by now apply in_map.
    rewrite E in Hin. apply in_flat_map in Hin as (q & Hq & Hr). apply repeat_spec in Hr. unfold small_sizes in H.
    rewrite Forall_forall in H. specialize (H q Hq). cbn in H. lia.
  Qed.

  Lemma presented_ordered kd k w first last m (zss xss : list (list (list W))) : in_order kd k w first last ->
    structs_are m k first last (concat zss) ->
    Forall (fun zs => Z.of_nat (length zs) <= w) zss -> Forall2 (presented kd k) zss xss -> xss = zss.
  Proof.
    intros Ho [Hc _] Hs F.
    assert (Ho' : ~ unordered_kind kd k \/ Forall (fun zs => Z.of_nat (length zs) < 8) zss).
    { destruct Ho as [Ho|[Ho|Ho] ]; [now left|right..].
      - eapply Forall_impl; [|exact Hs]. cbn. intros; lia.
      - apply Forall_forall. intros z Hz. apply in_split in Hz as (l1 & l2 & ->).
        rewrite concat_app in Hc. cbn in Hc. rewrite !app_length in Hc. lia. }
    clear Hc Hs Ho. revert Ho'. rename F into F0. intros Ho. induction F0 as [|zs xs zss xss H _ IH]; [reflexivity|].
    f_equal.
    - destruct H as [ [U [L _] ] | [_ ->] ]; [|reflexivity]. destruct Ho as [|Ho]; [contradiction|]. inversion Ho; subst. lia.
    - apply IH. destruct Ho as [|Ho]; [now left|]. right. now inversion Ho.
  Qed.

  (** Every struct is passed to the callable once, in order. *)
  Lemma struct_visits kd k c pol w wb first last m st :
    keeps_objects f -> 1 <= k -> runs_on c pol w first last -> structs_mapped m k first last ->
    in_order kd k w first last ->
    exists s xss, struct_for_each zero f kd k c pol w wb first last m st = Ok s
      /\ Forall2 (lanes_are k) (concat (ss_trace s)) xss /\ structs_are m k first last (concat xss)
      /\ ss_st s = state_after f st (ss_trace s)
      /\ (wb = false -> ss_mem s = m)
      /\ (wb = true -> exists yss, Forall2 (lanes_are k) (concat (left_behind f st (ss_trace s))) yss
                        /\ structs_are (ss_mem s) k first last (concat yss))
      /\ forall p, ~ (k * first <= p < k * last) -> ss_mem s p = m p.
  Proof.
    intros Hf Hk (H1 & H2 & H3 & H4 & H5 & H6) Hm Ho.
    destruct (struct_for_each_ok zero f kd k c pol w wb first last m st Hf Hk H1 H2 H3 H4 H5 H6 Hm)
      as (l & _ & Hz & _ & s & zss & xss & E & S1 & P & L & Hl & Hst & W0 & W1 & O).
    rewrite (presented_ordered kd k w first last m zss xss Ho S1 (sizes_of_chunks _ _ _ Hz Hl) P) in *.
    exists s, zss. do 5 (split; [assumption|]). split; [|assumption].
    intros Ew. destruct (W1 Ew) as (yss & A & B & _). exists yss. auto.
  Qed.

  Lemma shuffled_perm (zs xs : list (list W)) : shuffled zs xs -> Permutation xs zs.
  Proof.
    intros [L E]. do 8 (destruct zs as [|? zs]; [discriminate|]). destruct zs; [|discriminate]. cbn in E.
    assert (E' : xs = [l; l2; l5; l0; l3; l6; l1; l4]).
    { clear L. do 8 (destruct xs as [|? xs]; [discriminate|]). destruct xs; [|discriminate]. cbn in E. congruence. }
    subst xs. clear.
    change [l; l2; l5; l0; l3; l6; l1; l4] with ([l] ++ [l2; l5] ++ [l0; l3; l6; l1; l4]).
    apply perm_skip.
    apply Permutation_trans with ([l0; l3; l6; l1; l4] ++ [l2; l5]); [apply (Permutation_app_comm [l2; l5])|]. cbn.
    apply perm_skip.
    apply Permutation_trans with ([l1; l4; l2; l5] ++ [l3; l6]); [apply (Permutation_app_comm [l3; l6] [l1; l4; l2; l5])|]. cbn.
    apply perm_skip.
    apply Permutation_trans with ([l2; l5; l3; l6] ++ [l4]); [apply (Permutation_app_comm [l4] [l2; l5; l3; l6])|]. cbn.
    apply perm_skip.
    apply Permutation_trans with ([l3; l6; l4] ++ [l5]); [apply (Permutation_app_comm [l5] [l3; l6; l4])|]. cbn.
    apply perm_skip.
    apply Permutation_trans with ([l4; l5] ++ [l6]); [apply (Permutation_app_comm [l6] [l4; l5])|]. cbn. reflexivity.
  Qed.

  Lemma presented_perm kd k (zss xss : list (list (list W))) : Forall2 (presented kd k) zss xss ->
    Permutation (concat xss) (concat zss).
  Proof.
    induction 1 as [|zs xs zss xss H _ IH]; [constructor|]. cbn. apply Permutation_app; [|assumption].
    destruct H as [ [_ H] | [_ ->] ]; [now apply shuffled_perm|reflexivity].
  Qed.

  (** Every struct is passed to the callable once, in some order, whatever the type. *)
  Lemma struct_visits_all kd k c pol w wb first last m st :
    keeps_objects f -> 1 <= k -> runs_on c pol w first last -> structs_mapped m k first last ->
    exists s zs xss, struct_for_each zero f kd k c pol w wb first last m st = Ok s
      /\ structs_are m k first last zs
      /\ Forall2 (lanes_are k) (concat (ss_trace s)) xss /\ Permutation (concat xss) zs
      /\ ss_st s = state_after f st (ss_trace s)
      /\ (wb = false -> ss_mem s = m)
      /\ forall p, ~ (k * first <= p < k * last) -> ss_mem s p = m p.
  Proof.
    intros Hf Hk (H1 & H2 & H3 & H4 & H5 & H6) Hm.
    destruct (struct_for_each_ok zero f kd k c pol w wb first last m st Hf Hk H1 H2 H3 H4 H5 H6 Hm)
      as (l & _ & Hz & _ & s & zss & xss & E & S1 & P & L & Hl & Hst & W0 & W1 & O).
    exists s, (concat zss), xss. do 3 (split; [assumption|]). split; [now apply presented_perm in P|]. auto.
  Qed.

  Lemma app_eq_len {A} (a b c d : list A) : a ++ b = c ++ d -> length a = length c -> a = c /\ b = d.
  Proof.
    revert c. induction a as [|x a IH]; intros [|y c] E L; try discriminate; [auto|].
    cbn in E. injection E as -> E. destruct (IH c E) as [-> ->]; auto.
  Qed.

  Lemma updates_keeps g : updates_lanes g f -> keeps_objects f.
  Proof.
    intros H st ch. specialize (H st ch). induction H as [|o o' os os' [Ho _] _ IH]; constructor; assumption.
  Qed.

  Lemma lanes_unique k (o : list (list W)) xs ys : 1 <= k -> length xs = length ys -> lanes_are k o xs ->
    (forall i y, nth_error ys i = Some y -> lane_is o i y) -> xs = ys.
  Proof.
    intros Hk L [_ H1] H2. apply nth_error_ext. intros i.
    destruct (nth_error xs i) as [x|] eqn:E1; destruct (nth_error ys i) as [y|] eqn:E2; try reflexivity.
    - f_equal. apply (lane_unique o i); [now apply H1|now apply H2].
    - apply nth_error_None in E2. assert (i < length xs)%nat by (apply nth_error_Some; congruence). lia.
    - apply nth_error_None in E1. assert (i < length ys)%nat by (apply nth_error_Some; congruence). lia.
  Qed.

  (** What an updating callable leaves behind. *)
  Lemma left_updated g k : 1 <= k -> updates_lanes g f -> forall tr st xss yss,
    Forall2 (lanes_are k) (concat tr) xss -> Forall2 (lanes_are k) (concat (left_behind f st tr)) yss ->
    map (@length _) yss = map (@length _) xss -> concat yss = map g (concat xss).
  Proof.
    intros Hk Hg tr. induction tr as [|ch tr IH]; intros st xss yss Hx Hy L; cbn [concat left_behind] in *.
    - inversion Hx; subst. inversion Hy; subst. reflexivity.
    - apply Forall2_app_inv_l in Hx as (x1 & x2 & Hx1 & Hx2 & ->).
      apply Forall2_app_inv_l in Hy as (y1 & y2 & Hy1 & Hy2 & ->).
      pose proof (Hg st ch) as Hu.
      assert (Lc : length y1 = length x1).
      { transitivity (length (snd (f st ch))); [clear - Hy1; induction Hy1; cbn; congruence|].
        transitivity (length ch); [clear - Hu; induction Hu; cbn; congruence|].
        clear - Hx1; induction Hx1; cbn; congruence. }
      rewrite !map_app in L.
      assert (map (@length _) y1 = map (@length _) x1 /\ map (@length _) y2 = map (@length _) x2) as [L1 L2].
      { apply app_eq_len in L; [exact L|]. now rewrite !map_length. }
      rewrite !concat_app, map_app. f_equal; [|eapply IH; eassumption].
      clear - Hk Hu Hx1 Hy1 L1. revert x1 y1 Hx1 Hy1 L1.
      induction Hu as [|o o' os os' [_ Ho] _ IH]; intros x1 y1 Hx1 Hy1 L1.
      + inversion Hx1; subst. inversion Hy1; subst. reflexivity.
      + inversion Hx1 as [|o1 xs os1 xss' Hxl Hxs]; subst. inversion Hy1 as [|o2 ys os2 yss' Hyl Hys]; subst.
        cbn in L1. injection L1 as La Lb. cbn [concat]. rewrite map_app. f_equal; [|now apply IH].
        apply (lanes_unique k o'); [exact Hk|now rewrite map_length|exact Hyl|].
        intros i y E. rewrite nth_error_map in E. destruct (nth_error xs i) as [x|] eqn:Ex; [|discriminate].
        injection E as <-. apply Ho. now apply Hxl.
  Qed.

  (** Each struct is replaced by its image, in place. *)
  Lemma struct_updates g kd k c pol w first last m st :
    updates_lanes g f -> 1 <= k -> runs_on c pol w first last -> structs_mapped m k first last ->
    in_order kd k w first last ->
    exists s zs, struct_for_each zero f kd k c pol w true first last m st = Ok s
      /\ structs_are m k first last zs /\ structs_are (ss_mem s) k first last (map g zs)
      /\ forall p, ~ (k * first <= p < k * last) -> ss_mem s p = m p.
  Proof.
    intros Hg Hk (H1 & H2 & H3 & H4 & H5 & H6) Hm Ho.
    destruct (struct_for_each_ok zero f kd k c pol w true first last m st (updates_keeps g Hg) Hk H1 H2 H3 H4 H5 H6 Hm)
      as (l & _ & Hz & _ & s & zss & xss & E & S1 & P & L & Hl & Hst & W0 & W1 & O).
    rewrite (presented_ordered kd k w first last m zss xss Ho S1 (sizes_of_chunks _ _ _ Hz Hl) P) in *.
    destruct (W1 eq_refl) as (yss & A & B & C). exists s, (concat zss). do 2 (split; [assumption|]). split; [|assumption].
    rewrite <- (left_updated g k Hk Hg _ _ _ _ L A C). exact B.
  Qed.

  Lemma struct_updates_all g kd k c pol w first last m st :
    updates_lanes g f -> 1 <= k -> runs_on c pol w first last -> structs_mapped m k first last ->
    exists s zs ys, struct_for_each zero f kd k c pol w true first last m st = Ok s
      /\ structs_are m k first last zs /\ structs_are (ss_mem s) k first last ys /\ Permutation ys (map g zs)
      /\ forall p, ~ (k * first <= p < k * last) -> ss_mem s p = m p.
  Proof.
    intros Hg Hk (H1 & H2 & H3 & H4 & H5 & H6) Hm.
    destruct (struct_for_each_ok zero f kd k c pol w true first last m st (updates_keeps g Hg) Hk H1 H2 H3 H4 H5 H6 Hm)
      as (l & _ & Hz & _ & s & zss & xss & E & S1 & P & L & Hl & Hst & W0 & W1 & O).
    destruct (W1 eq_refl) as (yss & A & B & C). exists s, (concat zss), (concat yss). do 3 (split; [assumption|]).
    split; [|assumption].
    rewrite (left_updated g k Hk Hg _ _ _ _ L A); [|now rewrite C, (presented_lengths kd k _ _ P)].
    apply Permutation_map. now apply presented_perm in P.
  Qed.

  (** Eight lanes on the unordered path. *)
  Definition perm8 : list nat := [0; 3; 6; 1; 4; 7; 2; 5]%nat.
  Definition shuffle_nat (blocks i : nat) : nat :=
    if (i <? 8 * blocks)%nat then (8 * (i / 8) + nth (i mod 8) perm8 0)%nat else i.

  Lemma perm8_lt i : (nth i perm8 0 < 8)%nat.
  Proof. do 8 (destruct i as [|i]; [cbn; lia|]). destruct i; cbn; lia. Qed.

  Lemma shuffle_block (zs xs : list (list W)) i : shuffled zs xs -> (i < 8)%nat -> nth_error xs i = nth_error zs (nth i perm8 0%nat).
  Proof.
    intros [L E] Hi.
    assert (H : nth_error (map Some xs) i = nth_error (map (nth_error zs) perm8) i) by now rewrite E.
    rewrite !nth_error_map in H.
    assert (Ex : exists x, nth_error xs i = Some x).
    { apply (f_equal (@length _)) in E. rewrite !map_length in E. cbn in E.
      destruct (nth_error xs i) eqn:Q; [eauto|]. apply nth_error_None in Q. lia. }
    destruct Ex as [x Ex]. rewrite Ex in *. cbn [option_map] in H.
    rewrite (nth_error_nth' perm8 0%nat) in H by (cbn; lia). cbn [option_map] in H. congruence.
  Qed.

  Lemma blocks_shuffled kd k : unordered_kind kd k -> forall B R (xss : list (list (list W))),
    Forall (fun zs => length zs = 8%nat) B -> Forall (fun zs => (length zs < 8)%nat) R ->
    Forall2 (presented kd k) (B ++ R) xss ->
    forall i, (i < length (concat (B ++ R)))%nat ->
      nth_error (concat xss) i = nth_error (concat (B ++ R)) (shuffle_nat (length B) i).
  Proof.
    intros U B R. induction B as [|zs B IH]; intros xss HB HR F i Hi.
    - cbn [app length] in *. unfold shuffle_nat. rewrite Nat.mul_0_r. cbn [Nat.ltb Nat.leb].
      assert (xss = R) as ->; [|reflexivity].
      clear i Hi. revert xss F. induction R as [|r R IH]; intros xss F; inversion F as [|r' x R' xss' Hp Hps]; subst; [reflexivity|].
      inversion HR; subst. f_equal; [|now apply IH]. destruct Hp as [ [_ [L _] ] | [_ ->] ]; [lia|reflexivity].
    - inversion F as [|z' xs B' xss' Hp Hps]; subst. inversion HB as [|? ? L8 HB']; subst. cbn [app concat length] in *.
      assert (Hs : shuffled zs xs) by (destruct Hp as [ [_ Hs] | [N _] ]; [exact Hs|exfalso; apply N; auto]).
      assert (Lx : length xs = 8%nat) by (rewrite (presented_length kd k zs xs Hp); exact L8).
      rewrite app_length in Hi.
      destruct (Nat.lt_ge_cases i 8) as [H8|H8].
      + rewrite nth_error_app1 by lia. unfold shuffle_nat.
        assert ((i <? 8 * S (length B))%nat = true) as -> by (apply Nat.ltb_lt; lia).
        rewrite Nat.div_small, Nat.mod_small by lia. rewrite nth_error_app1 by (pose proof (perm8_lt i); lia).
        now apply shuffle_block.
      + rewrite nth_error_app2 by lia. rewrite Lx, (IH _ HB' HR Hps) by lia.
        assert (Hd : i = (1 * 8 + (i - 8))%nat) by lia.
        assert (Ed : (i / 8 = 1 + (i - 8) / 8)%nat) by (rewrite Hd at 1; rewrite Nat.div_add_l by lia; reflexivity).
        assert (Em : (i mod 8 = (i - 8) mod 8)%nat) by (rewrite Hd at 1; rewrite Nat.add_comm; apply Nat.mod_add; lia).
        assert (shuffle_nat (S (length B)) i = (8 + shuffle_nat (length B) (i - 8))%nat) as ->.
        { unfold shuffle_nat. rewrite Ed, Em.
          destruct (Nat.ltb_spec i (8 * S (length B))); destruct (Nat.ltb_spec (i - 8) (8 * length B)); lia. }
        rewrite nth_error_app2 by lia. f_equal. lia.
  Qed.

  Lemma tiles_count a b l : tiles a b l ->
    Z.of_nat (list_sum (flat_map (fun c => repeat (Z.to_nat (k_k c)) (k_n c)) l)) = b - a.
  Proof.
    induction 1 as [a|a b n u al l Hn Hu HT IH]; [cbn; lia|]. cbn [flat_map k_k k_n]. rewrite list_sum_app, Nat2Z.inj_add, IH.
    assert (Z.of_nat (list_sum (repeat (Z.to_nat n) u)) = n * Z.of_nat u); [|lia].
    clear - Hn. induction u as [|u IH]; [cbn; lia|]. cbn [repeat list_sum fold_right]. fold (list_sum (repeat (Z.to_nat n) u)). lia.
  Qed.

  Lemma sum_const n l : Forall (fun x => x = n) l -> list_sum l = (n * length l)%nat.
  Proof. induction 1 as [|x l -> _ IH]; [cbn; lia|]. cbn [length]. change (list_sum (n :: l)) with (n + list_sum l)%nat. lia. Qed.

  Lemma chunks_8 first last l (zss : list (list (list W))) : plain_shape 8 first last l ->
    map (@length _) zss = flat_map (fun c => repeat (Z.to_nat (k_k c)) (k_n c)) l ->
    exists B R, zss = B ++ R /\ Forall (fun zs => length zs = 8%nat) B /\ Forall (fun zs => (length zs < 8)%nat) R
      /\ Z.of_nat (length B) = (last - first) / 8.
  Proof.
    intros (lu & l3 & b & -> & HTu & Hu & Hd & HT3 & H3 & Hb) E. rewrite flat_map_app in E.
    set (n := length (flat_map (fun c => repeat (Z.to_nat (k_k c)) (k_n c)) lu)) in *.
    exists (firstn n zss), (skipn n zss). split; [symmetry; apply firstn_skipn|].
    assert (E1 : map (@length _) (firstn n zss) = flat_map (fun c => repeat (Z.to_nat (k_k c)) (k_n c)) lu).
    { rewrite <- firstn_map, E. unfold n. rewrite firstn_app, Nat.sub_diag, firstn_all, firstn_O. apply app_nil_r. }
    assert (E2 : map (@length _) (skipn n zss) = flat_map (fun c => repeat (Z.to_nat (k_k c)) (k_n c)) l3).
    { rewrite <- skipn_map, E. unfold n. rewrite skipn_app, Nat.sub_diag, skipn_all, skipn_O. reflexivity. }
    assert (F1 : Forall (fun x => x = 8%nat) (flat_map (fun c => repeat (Z.to_nat (k_k c)) (k_n c)) lu)).
    { apply Forall_forall. intros x Hx. apply in_flat_map in Hx as (q & Hq & Hr). apply repeat_spec in Hr.
      rewrite Forall_forall in Hu. specialize (Hu q Hq). cbn in Hu. lia. }
    split; [|split].
    - apply Forall_forall. intros z Hz. assert (In (length z) (map (@length _) (firstn n zss))) as Hin by now apply in_map.
      rewrite E1 in Hin. rewrite Forall_forall in F1. now apply F1.
    - apply Forall_forall. intros z Hz. assert (In (length z) (map (@length _) (skipn n zss))) as Hin by now apply in_map.
      rewrite E2 in Hin. apply in_flat_map in Hin as (q & Hq & Hr). apply repeat_spec in Hr.
      rewrite Forall_forall in H3. specialize (H3 q Hq). cbn in H3. lia.
    - assert (Ln : length (firstn n zss) = n).
      { apply (f_equal (@length _)) in E1. rewrite map_length in E1. exact E1. }
      rewrite Ln. pose proof (tiles_count _ _ _ HTu) as Hc. rewrite (sum_const 8 _ F1) in Hc. fold n in Hc.
      change (2 ^ exponent 8) with 8 in Hb. pose proof (tiles_le _ _ _ HT3).
      apply Z.div_unique with (r := last - b); lia.
  Qed.

  Lemma shuffle_index_nat count blocks i : Z.of_nat blocks = count / 8 -> 0 <= i ->
    shuffle_index count i = Z.of_nat (shuffle_nat blocks (Z.to_nat i)).
  Proof.
    intros Hb Hi. unfold shuffle_index, shuffle_nat.
    destruct (Z.ltb_spec i (8 * (count / 8))); destruct (Nat.ltb_spec (Z.to_nat i) (8 * blocks)); try lia.
    rewrite Nat2Z.inj_add, Nat2Z.inj_mul. change (Z.of_nat 8) with 8.
    assert (Z.of_nat (Z.to_nat i / 8) = i / 8) as -> by (rewrite Nat2Z.inj_div, Z2Nat.id by lia; reflexivity).
    assert (Em : (Z.to_nat i mod 8)%nat = Z.to_nat (i mod 8)).
    { apply Nat2Z.inj. rewrite Nat2Z.inj_mod, Z2Nat.id, Z2Nat.id by (try lia; apply Z.mod_pos_bound; lia). reflexivity. }
    rewrite Em. f_equal. set (q := Z.to_nat (i mod 8)). clearbody q.
    do 8 (destruct q as [|q]; [reflexivity|]). destruct q; reflexivity.
  Qed.

  (** With 8 lanes of three floats every struct is updated but ends up elsewhere. *)
  Lemma struct_shuffles g kd k c pol first last m st :
    updates_lanes g f -> unordered_kind kd k -> c_ce c = false -> runs_on c pol 8 first last -> structs_mapped m k first last ->
    exists s, struct_for_each zero f kd k c pol 8 true first last m st = Ok s
      /\ (forall i, 0 <= i < last - first -> exists z,
            load m (k * (first + shuffle_index (last - first) i)) (Z.to_nat k) = Some z
            /\ load (ss_mem s) (k * (first + i)) (Z.to_nat k) = Some (g z))
      /\ forall p, ~ (k * first <= p < k * last) -> ss_mem s p = m p.
  Proof.
    intros Hg U Hce (H1 & H2 & H3 & H4 & H5 & H6) Hm.
    assert (Hk : 1 <= k). { destruct kd as [se|]; [|destruct U]. destruct U as (_ & _ & _ & _ & _ & -> & _). lia. }
    destruct (struct_for_each_ok zero f kd k c pol 8 true first last m st (updates_keeps g Hg) Hk H1 H2 H3 H4 H5 H6 Hm)
      as (l & Hsh & Hz & _ & s & zss & xss & E & S1 & P & L & Hl & Hst & W0 & W1 & O).
    destruct (W1 eq_refl) as (yss & A & B & C). exists s. split; [exact E|]. split; [|exact O].
    assert (Ey : concat yss = map g (concat xss)).
    { apply (left_updated g k Hk Hg _ _ _ _ L A). now rewrite C, (presented_lengths kd k _ _ P). }
    destruct (chunks_8 first last l zss (Hsh Hce) Hl) as (BB & R & -> & HB & HR & HN).
    intros i Hi. destruct S1 as [LS HS]. destruct B as [LB HBB].
    assert (Hi' : (Z.to_nat i < length (concat (BB ++ R)))%nat) by lia.
    pose proof (blocks_shuffled kd k U BB R xss HB HR P (Z.to_nat i) Hi') as Q.
    assert (Hx : exists x, nth_error (concat xss) (Z.to_nat i) = Some x).
    { destruct (nth_error (concat xss) (Z.to_nat i)) eqn:Q'; [eauto|]. exfalso. apply nth_error_None in Q'.
      rewrite Ey, map_length in LB. lia. }
    destruct Hx as [x Hx]. rewrite Hx in Q. symmetry in Q. exists x. split.
    - rewrite (shuffle_index_nat _ _ i HN ltac:(lia)). exact (HS _ _ Q).
    - specialize (HBB (Z.to_nat i) (g x)). rewrite Z2Nat.id in HBB by lia. apply HBB. rewrite Ey, nth_error_map, Hx. reflexivity.
  Qed.
End Thm.
