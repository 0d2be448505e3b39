(** Proofs for transform over structs (C52). *)
From Verif Require Import Base BaseFacts PermuteModel SimdizeModel SimdizeSpec SimdizeProofs
  ExecModel ExecSpec ExecProofs ExecForEach ExecRun ExecThm StructRunModel StructRunSpec StructRunProofs
  TransformModel TransformProofs TransformThm StructTransformModel StructTransformSpec.
From Coq Require Import ZifyBool ZifyNat.
Ltac Zify.zify_post_hook ::= idtac.

(** ** The order in which elements are presented *)
Definition perm (j : Z) : Z := nth (Z.to_nat j) [0; 3; 6; 1; 4; 7; 2; 5] 0.
Definition lane_order (n j : Z) : Z := if n =? 8 then perm j else j.
Definition block_order (n j : Z) : Z := if n =? 8 then 8 * (j / 8) + perm (j mod 8) else j.

Lemma perm_cases j : 0 <= j < 8 -> In j [0; 1; 2; 3; 4; 5; 6; 7].
Proof. intros H. cbn. lia. Qed.

Lemma perm_range j : 0 <= j < 8 -> 0 <= perm j < 8.
Proof. intros H. apply perm_cases in H. cbn in H. decompose [or] H; subst; try contradiction; vm_compute; split; congruence. Qed.

Lemma perm_inj i j : 0 <= i < 8 -> 0 <= j < 8 -> perm i = perm j -> i = j.
Proof.
  intros Hi Hj. apply perm_cases in Hi, Hj. cbn in Hi, Hj.
  decompose [or] Hi; subst; try contradiction; decompose [or] Hj; subst; try contradiction; vm_compute; congruence.
Qed.

Lemma block_split n j c : 0 < n -> 0 <= j < n -> 0 <= c -> block_order n (n * c + j) = n * c + lane_order n j.
Proof.
  intros Hn Hj Hc. unfold block_order, lane_order. destruct (Z.eqb_spec n 8) as [->|]; [|reflexivity].
  replace (8 * c + j) with (j + c * 8) by lia. rewrite Z.div_add, Z.mod_add, (Z.div_small j), (Z.mod_small j) by lia. lia.
Qed.

Lemma block_range n u j : 0 < n -> 0 <= j < n * u -> 0 <= block_order n j < n * u.
Proof.
  intros Hn Hj. assert (Hq : 0 <= j / n < u) by (split; [apply Z.div_pos; lia|apply Z.div_lt_upper_bound; lia]).
  assert (Hm : 0 <= j mod n < n) by (apply Z.mod_pos_bound; lia).
  rewrite (Z.div_mod j n) by lia. rewrite block_split by lia.
  assert (0 <= lane_order n (j mod n) < n).
  { unfold lane_order. destruct (Z.eqb_spec n 8) as [->|]; [apply perm_range|]; lia. }
  nia.
Qed.

Lemma block_inj n i j : 0 < n -> 0 <= i -> 0 <= j -> block_order n i = block_order n j -> i = j.
Proof.
  intros Hn Hi Hj. unfold block_order. destruct (Z.eqb_spec n 8) as [->|]; [|auto]. intros E.
  assert (Hmi : 0 <= i mod 8 < 8) by (apply Z.mod_pos_bound; lia).
  assert (Hmj : 0 <= j mod 8 < 8) by (apply Z.mod_pos_bound; lia).
  pose proof (perm_range _ Hmi). pose proof (perm_range _ Hmj).
  assert (Eq : i / 8 = j / 8) by lia. assert (Em : perm (i mod 8) = perm (j mod 8)) by lia.
  apply perm_inj in Em; [|assumption..]. rewrite (Z.div_mod i 8), (Z.div_mod j 8) by lia. lia.
Qed.

Fixpoint call_order (l : list call) (p : Z) : Z :=
  match l with
  | [] => p
  | c :: l' => if p <? k_pos c + k_k c * Z.of_nat (k_n c) then k_pos c + block_order (k_k c) (p - k_pos c)
               else call_order l' p
  end.

Lemma call_order_range a b l : tiles a b l -> forall p, a <= p < b -> a <= call_order l p < b.
Proof.
  induction 1 as [a|a b n u al l Hn Hu HT IH]; intros p Hp; [lia|]. cbn [call_order k_pos k_k k_n].
  pose proof (tiles_le _ _ _ HT). destruct (Z.ltb_spec p (a + n * Z.of_nat u)).
  - pose proof (block_range n (Z.of_nat u) (p - a) Hn ltac:(lia)). lia.
  - specialize (IH p ltac:(lia)). nia.
Qed.

Lemma call_order_inj a b l : tiles a b l -> forall p q, a <= p < b -> a <= q < b -> call_order l p = call_order l q -> p = q.
Proof.
  induction 1 as [a|a b n u al l Hn Hu HT IH]; intros p q Hp Hq; [lia|]. cbn [call_order k_pos k_k k_n].
  destruct (Z.ltb_spec p (a + n * Z.of_nat u)); destruct (Z.ltb_spec q (a + n * Z.of_nat u)); intros E.
  - assert (p - a = q - a); [|lia]. apply (block_inj n); lia.
  - pose proof (block_range n (Z.of_nat u) (p - a) Hn ltac:(lia)). pose proof (call_order_range _ _ _ HT q ltac:(lia)). lia.
  - pose proof (block_range n (Z.of_nat u) (q - a) Hn ltac:(lia)). pose proof (call_order_range _ _ _ HT p ltac:(lia)). lia.
  - apply IH; lia.
Qed.

Lemma call_order_id l : Forall (fun c => k_k c <> 8) l -> forall p, call_order l p = p.
Proof.
  induction 1 as [|c l Hc _ IH]; intros p; [reflexivity|]. cbn [call_order]. unfold block_order.
  destruct (Z.eqb_spec (k_k c) 8); [contradiction|]. destruct (p <? _); [lia|apply IH].
Qed.

Lemma call_order_blocks first l3 : Forall (fun c => k_k c <> 8) l3 -> forall a b lu, tiles a b lu ->
  Forall (fun c => k_k c = 8) lu -> (8 | a - first) -> forall p,
  (a <= p < b -> call_order (lu ++ l3) p = first + (8 * ((p - first) / 8) + perm ((p - first) mod 8)))
  /\ (b <= p -> call_order (lu ++ l3) p = p).
Proof.
  intros H3 a b lu HT. induction HT as [a|a b n u al l Hn Hu HT IH]; intros HF Hd p.
  - split; [lia|]. intros _. cbn. now apply call_order_id.
  - inversion HF as [|? ? E8 HF']; subst. cbn in E8. subst n. pose proof (tiles_le _ _ _ HT) as Hle.
    cbn [app call_order k_pos k_k k_n].
    destruct (IH HF') with (p := p) as [I1 I2].
    { destruct Hd as [q Hq]. exists (q + Z.of_nat u). lia. }
    destruct (Z.ltb_spec p (a + 8 * Z.of_nat u)).
    + split; [|lia]. intros Hp. unfold block_order. cbn [Z.eqb Pos.eqb]. destruct Hd as [q Hq].
      replace (p - first) with (p - a + q * 8) by lia. rewrite Z.div_add, Z.mod_add by lia. lia.
    + split; [intros Hp; apply I1; lia|exact I2].
Qed.

Lemma plain_order first last l : plain_shape 8 first last l -> forall i, 0 <= i < last - first ->
  call_order l (first + i) - first = shuffle_index (last - first) i.
Proof.
  intros (lu & l3 & b & -> & HTu & Hu & Hd & HT3 & H3 & Hb) i Hi.
  change (2 ^ exponent 8) with 8 in Hb. pose proof (tiles_le _ _ _ HT3).
  assert (H3' : Forall (fun c => k_k c <> 8) l3) by (eapply Forall_impl; [|exact H3]; cbn; intros; lia).
  destruct (call_order_blocks first l3 H3' first b lu HTu Hu ltac:(rewrite Z.sub_diag; apply Z.divide_0_r) (first + i)) as [I1 I2].
  assert (E : 8 * ((last - first) / 8) = b - first).
  { destruct Hd as [q Hq]. assert ((last - first) / 8 = q) as ->; [|lia].
    symmetry. apply Z.div_unique with (r := last - b); lia. }
  unfold shuffle_index. rewrite E. destruct (Z.ltb_spec i (b - first)).
  - rewrite I1 by lia. replace (first + i - first) with i by lia. unfold perm. lia.
  - rewrite I2 by lia. lia.
Qed.

(** ** Loads *)
Section Loads.
  Context {W : Type} (zero : W).
  Implicit Types (m : mem W).

  Lemma unordered_range_dec r : unordered_range r \/ ~ unordered_range r.
  Proof. unfold unordered_range. destruct (r_kind r); [tauto|apply unordered_kind_dec]. Qed.

  (** Lane [j] of an input is element [j], or element [lane_order n j]. *)
  Definition presents m (r : srange) (p n : Z) (o : list (list W)) : Prop :=
    shaped o (r_k r) n /\
    forall j x, 0 <= j < n ->
      (unordered_range r -> elem m r (p + lane_order n j) x -> lane_is o (Z.to_nat j) x)
      /\ (~ unordered_range r -> elem m r (p + j) x -> lane_is o (Z.to_nat j) x).

  Lemma lanes_ordered m r p n o : 1 <= n -> 0 <= r_k r -> shaped o (r_k r) n ->
    lanes_from m (r_base r + r_k r * p) (r_k r) n o -> (unordered_range r -> n <> 8) -> presents m r p n o.
  Proof.
    intros Hn Hk Hs Hl U. split; [exact Hs|].
    assert (H : forall j x, 0 <= j < n -> elem m r (p + j) x -> lane_is o (Z.to_nat j) x).
    { intros j x Hj E. destruct (element_is_struct m _ _ n o j Hs Hl Hk Hj) as (y & Ey & Ly).
      assert (x = y) as ->.
      { unfold elem in E. replace (r_base r + r_k r * (p + j)) with (r_base r + r_k r * p + r_k r * j) in E by lia. congruence. }
      eapply lane_of_element; [exact Hs|exact Hj|exact Ey]. }
    intros j x Hj. split; [|auto]. intros Hu E. apply H; [exact Hj|]. unfold lane_order in E.
    destruct (Z.eqb_spec n 8); [destruct (U Hu); assumption|exact E].
  Qed.

  Lemma range_load_ok m r p n : kind_ok (r_kind r) (r_k r) -> 1 <= n -> range_mapped m r p n ->
    exists o, range_load zero m r p n = Ok o /\ presents m r p n o.
  Proof.
    intros Hk Hn Hm. destruct r as [kd k b]. cbn in Hk. unfold range_load. cbn [r_kind r_k r_base].
    set (r := mksr kd k b) in *.
    assert (Hd : defined_at m (b + k * p) (k * n)). { intros q Hq. apply Hm. cbn. lia. }
    destruct kd as [|kd].
    - cbn in Hk. subst k. cbn [Z.eqb Pos.eqb].
      destruct (load_ok m (b + 1 * p) (Z.to_nat n)) as [v Ev].
      { intros a Ha. replace a with (b + 1 * p + (a - (b + 1 * p))) by lia. apply Hd. lia. }
      rewrite Ev. cbn [of_option bindR]. exists [v]. split; [reflexivity|].
      pose proof (load_length _ _ _ _ Ev) as Lv.
      apply lanes_ordered; cbn [r_k r_base r]; try lia.
      + split; [reflexivity|]. intros u [<-|[]]. lia.
      + intros i j u Hi Hj E. assert (j = 0) as -> by lia. cbn in E. injection E as <-.
        rewrite (load_nth _ _ _ _ Ev) by lia. f_equal. lia.
      + intros U. destruct U.
    - cbn in Hk. destruct kd as [se|].
      + destruct (unordered_dec (se n) k n) as [U|U].
        * assert (U' := U). destruct U' as (_ & _ & _ & _ & _ & -> & ->).
          destruct (load_unordered_structs zero (se 8) m (b + 3 * p) U Hd) as (vs & E & Hs & Hp).
          rewrite E. cbn [bindR]. rewrite map_vals_ok. exists vs. split; [reflexivity|]. split; [exact Hs|].
          intros j x Hj. split; [|intros N; destruct N; exact U]. intros _ Ex.
          destruct (Hp j Hj) as (y & Ey & Ly). fold (perm j) in Ly.
          assert (x = y) as ->.
          { unfold elem, lane_order in Ex. cbn [r_k r_base r Z.eqb Pos.eqb] in Ex. change (Z.to_nat 3) with 3%nat in Ex.
            replace (b + 3 * (p + perm j)) with (b + 3 * p + 3 * perm j) in Ex by lia. congruence. }
          eapply lane_of_element; [exact Hs|exact Hj|exact Ey].
        * destruct (load_elements_lanes zero (se n) m (b + k * p) k n Hk Hn Hd U) as (vs & E & Hs & Hl).
          rewrite E. cbn [bindR]. rewrite map_vals_ok. exists vs. split; [reflexivity|].
          apply lanes_ordered; cbn [r_k r_base r]; try assumption; try lia.
          intros Hu En. subst n. apply U. exact Hu.
      + destruct (tuple_load_lanes zero m (b + k * p) k n Hk Hn Hd) as (vs & E & Hs & Hl).
        exists vs. split; [exact E|]. apply lanes_ordered; cbn [r_k r_base r]; try assumption; try lia.
        intros Hu. destruct Hu.
  Qed.

  (** [x] is the element an input presents in lane [j] of an object of [n] lanes. *)
  Definition shown m (n j : Z) (rp : srange * Z) (x : list W) : Prop :=
    (unordered_range (fst rp) /\ elem m (fst rp) (snd rp + lane_order n j) x)
    \/ (~ unordered_range (fst rp) /\ elem m (fst rp) (snd rp + j) x).

  Lemma range_loads_ok m n : 1 <= n -> forall rs ps, length rs = length ps ->
    Forall (fun r => kind_ok (r_kind r) (r_k r)) rs ->
    Forall (fun rp => range_mapped m (fst rp) (snd rp) n) (combine rs ps) ->
    exists os, range_loads zero m rs ps n = Ok os /\ Forall2 (fun k o => shaped o k n) (map r_k rs) os
      /\ forall j xs, 0 <= j < n -> Forall2 (shown m n j) (combine rs ps) xs -> Forall2 (fun o x => lane_is o (Z.to_nat j) x) os xs.
  Proof.
    intros Hn. induction rs as [|r rs IH]; intros [|p ps] L Hk Hm; try discriminate.
    - exists []. split; [reflexivity|]. split; [constructor|]. intros j xs _ F. inversion F; subst. constructor.
    - inversion Hk as [|? ? Hk1 Hk2]; subst. cbn [combine] in Hm. inversion Hm as [|? ? Hm1 Hm2]; subst. cbn [fst snd] in Hm1.
      destruct (range_load_ok m r p n Hk1 Hn Hm1) as (o & Eo & Hs & Ho).
      destruct (IH ps ltac:(cbn in L; lia) Hk2 Hm2) as (os & Eos & Hss & Hos).
      exists (o :: os). cbn [range_loads]. rewrite Eo. cbn [bindR]. rewrite Eos. cbn [bindR map].
      split; [reflexivity|]. split; [now constructor|]. intros j xs Hj F. cbn [combine] in F.
      inversion F as [|? x ? xs' F1 F2]; subst. constructor; [|now apply Hos].
      destruct (Ho j x Hj) as [H1 H2]. destruct F1 as [ [U E] | [U E] ]; auto.
  Qed.

  Variable (op : list (list W) -> list W) (opv : list (list (list W)) -> list (list W)).

  Definition move (d : Z) (rp : srange * Z) : srange * Z := (fst rp, snd rp + d).

  Lemma combine_adv d rs ps : combine rs (adv d ps) = map (move d) (combine rs ps).
  Proof. revert ps. induction rs as [|r rs IH]; intros [|p ps]; [reflexivity..|]. cbn. now rewrite <- IH. Qed.

  Lemma sinvoke_all_ok ko m rs k : lanewise_structs (map r_k rs) ko op opv -> 1 <= k ->
    Forall (fun r => kind_ok (r_kind r) (r_k r)) rs -> forall u ps, length rs = length ps ->
    Forall (fun rp => range_mapped m (fst rp) (snd rp) (k * Z.of_nat u)) (combine rs ps) ->
    exists os, sinvoke_all zero opv m rs ps k u = Ok os /\ length os = u /\ Forall (fun o => shaped o ko k) os
      /\ forall c j xs o, 0 <= j < k -> nth_error os c = Some o ->
           Forall2 (shown m k j) (map (move (k * Z.of_nat c)) (combine rs ps)) xs -> lane_is o (Z.to_nat j) (op xs).
  Proof.
    intros Hop Hk Hks. induction u as [|u IH]; intros ps L Hm.
    - exists []. split; [reflexivity|]. split; [reflexivity|]. split; [constructor|]. intros [|c] j xs o _ E; discriminate.
    - assert (Hpart : forall (d n : Z) rp, kind_ok (r_kind (fst rp)) (r_k (fst rp)) -> 0 <= d -> 0 <= n -> d + n <= k * Z.of_nat (S u) ->
                range_mapped m (fst rp) (snd rp) (k * Z.of_nat (S u)) -> range_mapped m (fst rp) (snd rp + d) n).
      { intros d n [r p] Hkr Hd Hn Hdn H a Ha. apply H. cbn [fst snd] in *. assert (1 <= r_k r) by (destruct (r_kind r); cbn in Hkr; lia). nia. }
      assert (Hkc : Forall (fun rp => kind_ok (r_kind (fst rp)) (r_k (fst rp))) (combine rs ps)).
      { apply Forall_forall. intros [r p] Hin. apply in_combine_l in Hin. rewrite Forall_forall in Hks. now apply Hks. }
      destruct (range_loads_ok m k Hk rs ps L Hks) as (o1 & E1 & Hs1 & Ho1).
      { rewrite Forall_forall in *. intros rp Hin. specialize (Hpart 0 k rp (Hkc rp Hin) ltac:(lia) ltac:(lia) ltac:(lia) (Hm rp Hin)).
        rewrite Z.add_0_r in Hpart. exact Hpart. }
      destruct (IH (adv k ps)) as (os & Eos & Lo & Hso & Hos).
      { unfold adv. now rewrite map_length. }
      { rewrite combine_adv, Forall_map. rewrite Forall_forall in *. intros rp Hin. cbn [move fst snd].
        apply Hpart; auto; lia. }
      cbn [sinvoke_all]. rewrite E1. cbn [bindR]. rewrite Eos. cbn [bindR].
      destruct (Hop k o1 Hk Hs1) as [Hsh Hl].
      exists (opv o1 :: os). split; [reflexivity|]. split; [cbn; lia|]. split; [now constructor|].
      intros [|c] j xs o Hj En F; cbn [nth_error] in En.
      + injection En as <-. apply Hl; [lia|]. apply Ho1; [exact Hj|].
        replace (map (move (k * Z.of_nat 0)) (combine rs ps)) with (combine rs ps) in F; [exact F|].
        rewrite <- (map_id (combine rs ps)) at 1. apply map_ext. intros [r p]. unfold move. cbn [fst snd]. f_equal. lia.
      + apply (Hos c j xs o Hj En). rewrite combine_adv, map_map.
        replace (map (move (k * Z.of_nat (S c))) (combine rs ps)) with
          (map (fun x => move (k * Z.of_nat c) (move k x)) (combine rs ps)) in F; [exact F|].
        apply map_ext. intros [r p]. unfold move. cbn [fst snd]. f_equal. lia.
  Qed.

  (** ** Stores *)
  Lemma out_store_ok c kd ko o m al pos n : kind_ok kd ko -> 1 <= n -> shaped o ko n ->
    (kd = RScalar -> al = true -> aligned_at c pos n = true) ->
    structs_mapped m ko pos (pos + n) ->
    exists m', out_store c kd ko o m al pos n = Ok m'
      /\ (forall j x, 0 <= j < n -> lane_is o (Z.to_nat j) x -> load m' (ko * (pos + j)) (Z.to_nat ko) = Some x)
      /\ (forall a, ~ (ko * pos <= a < ko * (pos + n)) -> m' a = m a)
      /\ forall a, m a <> None -> m' a <> None.
  Proof.
    intros Hk Hn Hs Hal Hm. destruct kd as [|kd]; cbn in Hk.
    - subst ko. destruct Hs as [Lo Hv]. destruct o as [|v [|v' o] ]; cbn in Lo; try lia.
      cbn [out_store Z.eqb Pos.eqb]. unfold store_chunk.
      replace (al && negb (aligned_at c pos n)) with false.
      2:{ destruct al; [|reflexivity]. rewrite (Hal eq_refl eq_refl). reflexivity. }
      pose proof (Hv v (or_introl eq_refl)) as Lv.
      destruct (store_ok m pos v) as [m' E]; [intros a Ha; apply Hm; lia|]. rewrite E. exists m'. split; [reflexivity|].
      pose proof (store_outside _ _ _ _ E) as Ho. split.
      + intros j x Hj [Lx Nx]. cbn in Lx. destruct x as [|w [|w' x] ]; try discriminate.
        specialize (Nx 0%nat v eq_refl). cbn in Nx. change (Z.to_nat 1) with 1%nat. rewrite Z.mul_1_l.
        assert (Em : m' (pos + j) = Some w).
        { rewrite (store_inside _ _ _ _ E) by lia. now replace (pos + j - pos) with j by lia. }
        cbn. now rewrite Em.
      + split; [intros a Ha; apply Ho; lia|]. intros a Ha. now rewrite (store_defined _ _ _ _ E).
    - cbn [out_store].
      destruct (lanes_exist o ko n Hs ltac:(lia)) as (xs & Lx & Hx).
      destruct (obj_store_ok kd m pos ko n o xs Hk Hn Hm Hx Lx) as (m' & E & [_ Hi] & Ho).
      exists m'. split; [exact E|]. split; [|split; [exact Ho|] ].
      2:{ intros a Ha. destruct (Z_le_dec (ko * pos) a) as [L1|L1]; [|rewrite Ho by lia; exact Ha].
          destruct (Z_lt_dec a (ko * (pos + n))) as [L2|L2]; [|rewrite Ho by lia; exact Ha].
          set (i := (a - ko * pos) / ko).
          assert (Hi' : 0 <= i < n) by (split; [apply Z.div_pos; lia|apply Z.div_lt_upper_bound; lia]).
          destruct (nth_error xs (Z.to_nat i)) as [y|] eqn:Ey; [|apply nth_error_None in Ey; lia].
          specialize (Hi _ _ Ey). rewrite Z2Nat.id in Hi by lia.
          apply (load_defined _ _ _ _ Hi). pose proof (Z.div_mod (a - ko * pos) ko ltac:(lia)) as Q.
          pose proof (Z.mod_pos_bound (a - ko * pos) ko ltac:(lia)). fold i in Q. lia. }
      intros j x Hj Hl.
      destruct (nth_error xs (Z.to_nat j)) as [y|] eqn:Ey; [|apply nth_error_None in Ey; lia].
      specialize (Hi _ _ Ey). rewrite Z2Nat.id in Hi by lia. rewrite Hi. f_equal.
      apply (lane_unique o (Z.to_nat j)); [|exact Hl]. now apply Hx.
  Qed.

  Lemma out_stores_ok c kd ko al n : kind_ok kd ko -> 1 <= n -> forall os pos m, Forall (fun o => shaped o ko n) os ->
    (kd = RScalar -> al = true -> forall i, 0 <= i < Z.of_nat (length os) -> aligned_at c (pos + n * i) n = true) ->
    structs_mapped m ko pos (pos + n * Z.of_nat (length os)) ->
    exists m', out_stores c kd ko m al pos n os = Ok m'
      /\ (forall q o j x, nth_error os q = Some o -> 0 <= j < n -> lane_is o (Z.to_nat j) x ->
            load m' (ko * (pos + n * Z.of_nat q + j)) (Z.to_nat ko) = Some x)
      /\ (forall a, ~ (ko * pos <= a < ko * (pos + n * Z.of_nat (length os))) -> m' a = m a)
      /\ forall a, m a <> None -> m' a <> None.
  Proof.
    intros Hk Hn. assert (Hko : 1 <= ko) by (destruct kd; cbn in Hk; lia).
    induction os as [|o os IH]; intros pos m Hs Hal Hm.
    - exists m. split; [reflexivity|]. split; [intros [|q] o j x E; discriminate|]. split; auto.
    - inversion Hs as [|? ? Hs1 Hs2]; subst. cbn [length] in *.
      destruct (out_store_ok c kd ko o m al pos n Hk Hn Hs1) as (m1 & E1 & V1 & O1 & D1).
      { intros Ek Ea. specialize (Hal Ek Ea 0 ltac:(lia)). now rewrite Z.mul_0_r, Z.add_0_r in Hal. }
      { eapply mapped_part; [exact Hko| | |exact Hm]; lia. }
      destruct (IH (pos + n) m1 Hs2) as (m2 & E2 & V2 & O2 & D2).
      { intros Ek Ea i Hi. replace (pos + n + n * i) with (pos + n * (i + 1)) by lia. apply Hal; auto. lia. }
      { intros a Ha. apply D1, Hm. nia. }
      replace (pos + n + n * Z.of_nat (length os)) with (pos + n * Z.of_nat (S (length os))) in * by lia.
      exists m2. cbn [out_stores]. rewrite E1. cbn [bindR]. split; [exact E2|]. split.
      + intros [|q] o' j x En Hj Hl; cbn [nth_error] in En.
        * injection En as <-. rewrite <- (V1 j x Hj Hl). replace (pos + n * Z.of_nat 0 + j) with (pos + j) by lia.
          apply load_ext. intros a Ha. apply O2. nia.
        * rewrite <- (V2 q o' j x En Hj Hl). f_equal. f_equal. lia.
      + split; [|auto]. intros a Ha. rewrite O2 by nia. apply O1. nia.
  Qed.

  (** ** Execution *)
  Definition picked m (F : Z) (l : list call) (i : Z) (rp : srange * Z) (x : list W) : Prop :=
    (unordered_range (fst rp) /\ elem m (fst rp) (snd rp + (call_order l i - F)) x)
    \/ (~ unordered_range (fst rp) /\ elem m (fst rp) (snd rp + (i - F)) x).

  Lemma Forall2_impl_in {A B} (P Q : A -> B -> Prop) l l' :
    (forall a b, In a l -> P a b -> Q a b) -> Forall2 P l l' -> Forall2 Q l l'.
  Proof.
    intros H F. induction F as [|a b l l' HP F IH]; constructor; [apply H; [now left|assumption]|].
    apply IH. intros a' b' Hin. apply H. now right.
  Qed.

  Lemma Forall2_map_l {A B C} (P : B -> C -> Prop) (g : A -> B) l l' :
    Forall2 (fun a c => P (g a) c) l l' -> Forall2 P (map g l) l'.
  Proof. induction 1; constructor; assumption. Qed.

  Lemma elem_keep m m' (r : srange) p x lo hi : 1 <= r_k r ->
    (forall a, ~ (lo <= a < hi) -> m' a = m a) ->
    r_base r + r_k r * (p + 1) <= lo \/ hi <= r_base r + r_k r * p -> elem m r p x -> elem m' r p x.
  Proof.
    intros Hk Ho Hd E. unfold elem in *. rewrite <- E. apply load_ext. intros a Ha. apply Ho. lia.
  Qed.

  Lemma srun_steps_ok c rs kd ko F D S2 : lanewise_structs (map r_k rs) ko op opv -> kind_ok kd ko ->
    Forall (fun r => kind_ok (r_kind r) (r_k r)) rs -> length rs = S (length S2) ->
    forall a b l, tiles a b l -> (kd = RScalar -> Forall (call_aligned (shift_cfg F D c)) l) -> F <= a ->
    forall m, structs_mapped m ko (D + (a - F)) (D + (b - F)) ->
    Forall (fun rp => range_mapped m (fst rp) (snd rp + (a - F)) (b - a)) (combine rs (F :: S2)) ->
    Forall (not_overwritten ko D (b - F)) (combine rs (F :: S2)) ->
    exists m', srun_steps zero opv c rs kd ko m (map (ev F D S2) l) = Ok m'
      /\ (forall i args, a <= i < b -> Forall2 (picked m F l i) (combine rs (F :: S2)) args ->
            load m' (ko * (D + (i - F))) (Z.to_nat ko) = Some (op args))
      /\ forall x, ~ (ko * (D + (a - F)) <= x < ko * (D + (b - F))) -> m' x = m x.
  Proof.
    intros Hop Hk Hks HL a b l H. assert (Hko : 1 <= ko) by (destruct kd; cbn in Hk; lia).
    assert (Hkc : forall rp, In rp (combine rs (F :: S2)) -> 1 <= r_k (fst rp)).
    { intros [r p] Hin. apply in_combine_l in Hin. rewrite Forall_forall in Hks. specialize (Hks r Hin).
      cbn [fst]. destruct (r_kind r); cbn in Hks; lia. }
    induction H as [a|a b k n al l Hk0 Hn Ht IH]; intros HA HF m Hd Hm Hnc.
    - exists m. cbn. split; [reflexivity|]. split; [intros; lia|auto].
    - pose proof (tiles_le _ _ _ Ht) as Hle. set (a' := a + k * Z.of_nat n) in *.
      assert (Haa : a < a') by (unfold a'; nia).
      cbn [map srun_steps]. unfold srun_step. cbn [ev t_srcs t_k t_n t_al t_dst k_pos k_k k_n k_al].
      replace (a :: adv (a - F) S2) with (adv (a - F) (F :: S2)) by (cbn; f_equal; lia).
      destruct (sinvoke_all_ok ko m rs k Hop ltac:(lia) Hks n (adv (a - F) (F :: S2))) as (os & Eo & Lo & Hs & Hl).
      { unfold adv. rewrite map_length. cbn. lia. }
      { rewrite combine_adv, Forall_map. rewrite Forall_forall in *. intros rp Hin. cbn [move fst snd]. intros x Hx.
        apply (Hm rp Hin). specialize (Hkc rp Hin). unfold a' in *. nia. }
      rewrite Eo. cbn [bindR].
      destruct (out_stores_ok c kd ko al k Hk ltac:(lia) os (D + (a - F)) m Hs) as (m1 & Em & V1 & O1 & D1).
      { intros Ek Ea i Hi. specialize (HA Ek). pose proof (Forall_inv HA) as HA1. rewrite Lo in Hi. specialize (HA1 Ea i Hi).
        cbn [k_pos k_k] in HA1. rewrite shift_aligned in HA1.
        replace (D + (a - F) + k * i) with (D + (a + k * i - F)) by lia. exact HA1. }
      { rewrite Lo. eapply mapped_part; [exact Hko| | |exact Hd]; unfold a' in *; lia. }
      rewrite Lo in O1. rewrite Em. cbn [bindR].
      replace (D + (a - F) + k * Z.of_nat n) with (D + (a' - F)) in O1 by (unfold a'; lia).
      assert (Hkeep : forall rp q x, In rp (combine rs (F :: S2)) -> a' <= q < b ->
                elem m (fst rp) (snd rp + (q - F)) x -> elem m1 (fst rp) (snd rp + (q - F)) x).
      { intros [r p] q x Hin Hq. cbn [fst snd]. pose proof (Hkc _ Hin) as Hkr. cbn [fst] in Hkr.
        apply (elem_keep m m1 r _ x (ko * (D + (a - F))) (ko * (D + (a' - F))) Hkr O1).
        rewrite Forall_forall in Hnc. specialize (Hnc _ Hin). cbn [not_overwritten] in Hnc.
        destruct Hnc as [ [E1 E2] | [E2 | E2] ].
        - right. rewrite E1 in *. assert (ko * (a' - F) <= ko * (q - F)) by (apply Z.mul_le_mono_nonneg_l; lia). lia.
        - left. assert (r_k r * (q - F + 1) <= r_k r * (b - F)) by (apply Z.mul_le_mono_nonneg_l; lia).
          assert (0 <= ko * (a - F)) by nia. lia.
        - right. assert (ko * (a' - F) <= ko * (b - F)) by (apply Z.mul_le_mono_nonneg_l; lia).
          assert (0 <= r_k r * (q - F)) by nia. lia. }
      destruct (IH ltac:(intros Ek; specialize (HA Ek); now inversion HA) ltac:(lia) m1) as (m2 & E2 & V2 & O2).
      { intros x Hx. apply D1, Hd. nia. }
      { rewrite Forall_forall in *. intros rp Hin x Hx. specialize (Hm rp Hin x). specialize (Hkc rp Hin).
        apply D1, Hm. nia. }
      { exact Hnc. }
      exists m2. split; [exact E2|]. split.
      + intros i args Hi Hargs. destruct (Z_lt_le_dec i a') as [Hia|Hia].
        * set (q := Z.to_nat ((i - a) / k)). set (j := (i - a) mod k).
          assert (Hj : 0 <= j < k) by (apply Z.mod_pos_bound; lia).
          assert (Hq : 0 <= (i - a) / k < Z.of_nat n).
          { split; [apply Z.div_pos; lia|apply Z.div_lt_upper_bound; unfold a' in *; lia]. }
          assert (Ei : i - a = k * Z.of_nat q + j).
          { unfold q, j. rewrite Z2Nat.id by lia. apply Z.div_mod. lia. }
          destruct (nth_error os q) as [o|] eqn:Eq; [|apply nth_error_None in Eq; lia].
          assert (El : lane_is o (Z.to_nat j) (op args)).
          { apply (Hl q j args o Hj Eq). rewrite combine_adv, map_map. apply Forall2_map_l.
            eapply Forall2_impl_in; [|exact Hargs]. intros [r p] x _ Hp. unfold picked, shown in *. cbn [move fst snd] in *.
            cbn [call_order k_pos k_k k_n] in Hp. fold a' in Hp.
            destruct (Z.ltb_spec i a'); [|lia].
            rewrite Ei, block_split in Hp by lia.
            destruct Hp as [ [U E] | [U E] ]; [left|right]; (split; [exact U|]).
            - replace (p + (a - F) + k * Z.of_nat q + lane_order k j) with (p + (a + (k * Z.of_nat q + lane_order k j) - F)) by lia.
              exact E.
            - replace (p + (a - F) + k * Z.of_nat q + j) with (p + (i - F)) by lia. exact E. }
          rewrite <- (V1 q o j (op args) Eq Hj El).
          replace (D + (i - F)) with (D + (a - F) + k * Z.of_nat q + j) by lia.
          apply load_ext. intros x Hx. apply O2.
          assert (ko * (D + (a - F) + k * Z.of_nat q + j + 1) <= ko * (D + (a' - F))) by (apply Z.mul_le_mono_nonneg_l; lia). lia.
        * apply V2; [lia|]. eapply Forall2_impl_in; [|exact Hargs]. intros rp x Hin Hp. unfold picked in *.
          cbn [call_order k_pos k_k k_n] in Hp. fold a' in Hp. destruct (Z.ltb_spec i a'); [lia|].
          destruct Hp as [ [U E] | [U E] ]; [left|right]; (split; [exact U|]).
          -- apply Hkeep; [exact Hin|apply (call_order_range _ _ _ Ht); lia|exact E].
          -- apply Hkeep; [exact Hin|lia|exact E].
      + intros x Hx. rewrite O2 by nia. apply O1. nia.
  Qed.
End Loads.
