(** The calls the algorithms make are announced: proofs for C71. *)
From Verif Require Import Base BaseFacts ExecModel ExecSpec ExecThm ScheduleSpec ScheduleProofs ScheduleThm ScheduleMore
  TransformModel TransformSpec ThrowModel CallsModel CallsSpec CallsThm TReduceModel TReduceSpec CountModel
  AcceptModel InstModel InstSpec InstCallsSpec InstProofs AnyReduceSpec AnyReduceThm CountAny OrderThm.
From Coq Require Import ZifyBool ZifyNat Permutation.
Ltac Zify.zify_post_hook ::= idtac.

Lemma in_digits d i : 0 <= d -> In i (digits d) -> 2 ^ Z.of_nat i <= d.
Proof.
  intros Hd. unfold digits. rewrite filter_In. intros [_ H].
  destruct (Z.le_gt_cases (2 ^ Z.of_nat i) d) as [L|L]; [exact L|].
  destruct (Z.eq_dec d 0) as [->|N]; [rewrite Z.testbit_0_l in H; discriminate|].
  rewrite Z.bits_above_log2 in H; [discriminate|lia|apply Z.log2_lt_pow2; lia].
Qed.

Opaque digits.

Lemma prologue_small c pol w first n d : policy_ok pol -> 1 <= w -> prologue_length c pol w first n d ->
  0 <= d < w /\ (p_match pol = true -> d = 0).
Proof.
  intros (H1 & H2 & H3) Hw Hd. destruct Hd as [(Hca & Hn & Hp)|(-> & _)]; [|split; [lia|reflexivity] ].
  split; [split; [apply Hn|exact (next_aligned_below c w first d Hca Hn)]|].
  intros Em. destruct Hp as [Ha|[Hu _] ].
  - rewrite H2 in Em by exact Ha. discriminate.
  - rewrite H3 in Em by exact Hu. discriminate.
Qed.

Lemma schedule_announced cfg pol w d n :
  policy_fits cfg -> describes cfg pol w -> 1 <= w < 2 ^ 64 -> 0 <= d < w -> d <= n ->
  (p_match pol = true -> d = 0 /\ n mod w = 0) ->
  Forall (fun g => exists k, announced cfg (length g) k /\ Forall (fun x => x = k) g) (schedule w (p_unroll pol) d n).
Proof.
  intros F (E1 & E2 & E3) Hw Hd Hn Hm. unfold schedule.
  assert (D0 : digits 0 = []) by (pose proof digits_0 as X; now destruct (digits 0)).
  assert (P : forall e, 0 <= e < w -> (p_match pol = true -> e = 0) -> forall i, In i (digits e) ->
    exists k, announced cfg (length (power_chunk i)) k /\ Forall (fun x => x = k) (power_chunk i)).
  { intros e He H0 i Hi. exists (Nat.pow 2 i). split; [|repeat constructor]. right.
    split; [rewrite E3; destruct (p_match pol); [|reflexivity]; rewrite (H0 eq_refl), D0 in Hi; destruct Hi|].
    split; [reflexivity|]. split; [|now exists i]. rewrite E1. pose proof (in_digits e i ltac:(lia) Hi).
    apply Nat2Z.inj_lt. rewrite Nat2Z.inj_pow, Z2Nat.id by lia. change (Z.of_nat 2) with 2. lia. }
  apply Forall_app. split; [|apply Forall_app; split; [|apply Forall_app; split] ].
  - apply Forall_map, Forall_forall. intros i Hi. apply (P d); [lia|intros X; apply (Hm X)|exact Hi].
  - unfold groups. destruct (Z.ltb_spec 1 (p_unroll pol)) as [L|L]; [|constructor].
    apply Forall_forall. intros g Hg. apply repeat_spec in Hg as ->. exists (c_size cfg). split.
    + left. split; [reflexivity|]. right. rewrite repeat_length, E2. f_equal. lia.
    + rewrite E1. apply Forall_forall. intros x Hx. now apply repeat_spec in Hx.
  - apply Forall_forall. intros g Hg. apply repeat_spec in Hg as ->. exists (c_size cfg). split; [left; auto|].
    rewrite E1. repeat constructor.
  - apply Forall_map, Forall_forall. intros i Hi. apply in_rev in Hi. pose proof (Z.mod_pos_bound (n - d) w ltac:(lia)).
    apply (P ((n - d) mod w)); [lia| |exact Hi]. intros X. destruct (Hm X) as [-> Y]. now rewrite Z.sub_0_r.
Qed.

Lemma matching_mod pol w first last : 1 <= w -> size_matches pol w first last -> p_match pol = true ->
  (last - first) mod w = 0.
Proof. intros Hw H E. destruct (H E) as [q ->]. apply Z_mod_mult. Qed.

(** for_each *)
Lemma for_each_announced T St (f : St -> list (list T) -> St * list (list T)) c pol w wb first last m st cfg :
  target_ok c -> c_ce c = false -> policy_ok pol -> width_ok w -> range_ok first last ->
  size_matches pol w first last -> reaches_alignment c pol w first last ->
  ExecSpec.keeps_lanes f -> mapped m first last ->
  policy_fits cfg -> describes cfg pol w ->
  exists s, run_for_each f c pol w wb first last m st = Ok s
    /\ Forall (fun chunks => exists n, announced cfg (length chunks) n /\ Forall (fun v => length v = n) chunks) (s_trace s).
Proof.
  intros T1 T2 T3 T4 T5 T6 T7 T8 T9 F D.
  assert (Hw : 1 <= w < 2 ^ 64) by exact T4.
  destruct (for_each_schedule f c pol w wb first last m st) as (s & d & R & Hd & E); try assumption.
  exists s. split; [exact R|].
  destruct (prologue_small _ _ _ _ _ _ T3 (proj1 Hw) Hd) as [Hd0 Hd1].
  assert (Hdn : d <= last - first) by (apply (reaches_length c pol w first last); assumption).
  assert (A := schedule_announced cfg pol w d (last - first) F D Hw Hd0 Hdn
                 (fun X => conj (Hd1 X) (matching_mod pol w first last (proj1 Hw) T6 X))).
  rewrite <- E in A. rewrite Forall_map in A. revert A. apply Forall_impl. intros chunks (k & H1 & H2).
  rewrite map_length in H1. exists k. split; [exact H1|]. rewrite Forall_map in H2. exact H2.
Qed.

Lemma announced_one cfg k n : announced cfg k n -> announced_width cfg n.
Proof. intros [[H _]|(H1 & _ & H2 & H3)]; [left; exact H|right; auto]. Qed.

Lemma place_group_sizes l : forall i p k, In (p, k) (place_group i l) -> exists n, In n l /\ k = Z.of_nat n.
Proof.
  induction l as [|x l IH]; intros i p k H; [destruct H|]. destruct H as [H|H].
  - injection H as _ <-. exists x. split; [now left|reflexivity].
  - destruct (IH _ _ _ H) as (n & Hn & E). exists n. split; [now right|exact E].
Qed.

Lemma places_announced cfg pol w c first n d :
  target_ok c -> policy_ok pol -> width_ok w -> 0 <= n -> d <= n -> (p_match pol = true -> n mod w = 0) ->
  prologue_length c pol w first n d -> policy_fits cfg -> describes cfg pol w ->
  forall p k, In (p, k) (concat (places 0 (schedule w (p_unroll pol) d n))) -> announced_width cfg (Z.to_nat k).
Proof.
  intros Hc Hp Hw Hn Hdn Hmod Hd F D p k H. rewrite concat_places in H.
  assert (Hw' : 1 <= w < 2 ^ 64) by exact Hw.
  destruct (prologue_small _ _ _ _ _ _ Hp (proj1 Hw') Hd) as [Hd0 Hd1].
  destruct (place_group_sizes _ _ _ _ H) as (x & Hx & ->). rewrite Nat2Z.id.
  assert (A := schedule_announced cfg pol w d n F D Hw' Hd0 Hdn (fun X => conj (Hd1 X) (Hmod X))).
  apply in_concat in Hx as (g & Hg & Hx). rewrite Forall_forall in A. destruct (A g Hg) as (y & A1 & A2).
  rewrite Forall_forall in A2. rewrite (A2 x Hx). exact (announced_one _ _ _ A1).
Qed.

(** transform *)
Lemma given_widths {T} (m : mem T) srcs p k ch : given m srcs p k ch -> Forall (fun v => length v = Z.to_nat k) ch.
Proof.
  intros H. induction H as [|q v srcs ch [H _] _ IH]; constructor; [|exact IH]. lia.
Qed.

Section Transform.
  Context {T St : Type} (op : St -> list (list T) -> St * option (list T)).

  Lemma faithful_widths (P : nat -> Prop) (m : mem T) srcs qs :
    faithful m srcs qs -> (forall p k, In (p, k) (map fst qs) -> P (Z.to_nat k)) ->
    Forall (fun chunks => exists n, P n /\ Forall (fun v => length v = n) chunks) (map (fun q => fst (snd q)) qs).
  Proof.
    intros H HP. apply Forall_map, Forall_forall. intros q Hq. unfold faithful in H. rewrite Forall_forall in H.
    destruct (H q Hq) as [G _]. exists (Z.to_nat (snd (fst q))). split.
    - apply (HP (fst (fst q))). destruct q as [[i k] r]. apply (in_map fst) in Hq. exact Hq.
    - exact (given_widths m srcs _ _ _ G).
  Qed.

  Lemma perm_in (gs : list (list (Z * Z))) : forall css : list (list (answer T)),
    Forall2 (fun g qs => Permutation (map fst qs) g) gs css ->
    forall a, In a (map fst (concat css)) -> In a (concat gs).
  Proof.
    intros css H. induction H as [|g qs gs css Hp H IH]; intros a Ha; [destruct Ha|]. cbn [concat] in *.
    rewrite map_app in Ha. apply in_app_iff in Ha as [Ha|Ha]; apply in_app_iff.
    - left. eapply Permutation_in; eassumption.
    - right. now apply IH.
  Qed.

  Lemma account_widths (P : nat -> Prop) (m : mem T) srcs dst st ps e :
    account op m srcs dst st ps e -> (forall p k, In (p, k) (concat ps) -> P (Z.to_nat k)) ->
    Forall (fun chunks => exists n, P n /\ Forall (fun v => length v = n) chunks) (all_calls e).
  Proof.
    intros HA HP. destruct e as [s|s ch]; cbn [account all_calls] in *.
    - destruct HA as (css & H1 & H2 & _ & -> & _). eapply faithful_widths; [exact H2|].
      intros p k H. apply (HP p). exact (perm_in ps css H1 (p, k) H).
    - destruct HA as (before & group & after & css & part & i & k & rest & st0 & -> & H1 & H2 & H3 & _ & H4 & _ & -> & _).
      assert (Hin : forall a, In a (map fst (concat css ++ part)) \/ a = (i, k) -> In a (concat (before ++ group :: after))).
      { intros a Ha. rewrite concat_app. apply in_app_iff. rewrite map_app, in_app_iff in Ha.
        destruct Ha as [[Ha|Ha]|Ha].
        - left. exact (perm_in before css H1 a Ha).
        - right. cbn [concat]. apply in_app_iff. left. eapply Permutation_in; [exact H2|]. apply in_app_iff. now left.
        - right. cbn [concat]. apply in_app_iff. left. eapply Permutation_in; [exact H2|]. apply in_app_iff. right. left. now symmetry. }
      apply Forall_app. split.
      + eapply faithful_widths; [exact H3|]. intros p q H. apply (HP p). apply Hin. now left.
      + constructor; [|constructor]. exists (Z.to_nat k). split; [apply (HP i); apply Hin; now right|].
        exact (given_widths m srcs _ _ _ H4).
  Qed.

  Lemma transform_announced order c pol w first last dst srcs2 (m : mem T) st cfg :
    target_ok c -> c_ce c = false -> policy_ok pol -> width_ok w -> range_ok first last ->
    size_matches pol w first last -> reaches_alignment c pol w dst (dst + (last - first)) ->
    keeps_count op -> any_order order ->
    Forall (fun p => mapped m p (p + (last - first))) (dst :: first :: srcs2) ->
    no_clobber dst (last - first) (first :: srcs2) ->
    policy_fits cfg -> describes cfg pol w ->
    exists e, run_transform_in op order c pol w first last dst srcs2 m st
        = Ok (e, returned_iterator (dst + (last - first)) e)
      /\ Forall (fun chunks => exists n, announced_width cfg n /\ Forall (fun v => length v = n) chunks) (all_calls e).
  Proof.
    intros Hc Hce Hp Hw Hr Hs Hra Hk Ho Hm Hn F D.
    destruct (prologue_length_exists c pol w dst (last - first) Hc Hw) as [d Hd].
    destruct (transform_calls op order c pol w first last dst srcs2 m st d) as (e & E & HA); try assumption.
    exists e. split; [exact E|]. eapply account_widths; [exact HA|].
    destruct Hr as [Hr1 Hr2]. assert (Hw' : 1 <= w < 2 ^ 64) by exact Hw.
    eapply (places_announced cfg pol w c dst); try eassumption; [lia| |].
    - replace (last - first) with (dst + (last - first) - dst) by lia.
      apply (reaches_length c pol w dst (dst + (last - first))); try assumption; [split; lia|].
      now replace (dst + (last - first) - dst) with (last - first) by lia.
    - intros X. exact (matching_mod pol w first last (proj1 Hw') Hs X).
  Qed.
End Transform.

(** transform_reduce *)
Lemma bit_below d w i : 0 <= d < w -> 0 <= i -> Z.testbit d i = true -> (Nat.pow 2 (Z.to_nat i) < Z.to_nat w)%nat
  /\ Z.to_nat (2 ^ i) = Nat.pow 2 (Z.to_nat i).
Proof.
  intros Hd Hi H.
  assert (E : Z.of_nat (Nat.pow 2 (Z.to_nat i)) = 2 ^ i)
    by (rewrite Nat2Z.inj_pow, Z2Nat.id by lia; reflexivity).
  assert (2 ^ i <= d).
  { destruct (Z.le_gt_cases (2 ^ i) d) as [L|L]; [exact L|].
    destruct (Z.eq_dec d 0) as [->|N]; [rewrite Z.testbit_0_l in H; discriminate|].
    rewrite Z.bits_above_log2 in H; [discriminate|lia|apply Z.log2_lt_pow2; lia]. }
  split; [lia|]. rewrite <- E. apply Nat2Z.id.
Qed.

Lemma tr_chunk_announced cfg pol w d n : policy_fits cfg -> describes cfg pol w -> 1 <= w -> 0 <= d < w ->
  (p_match pol = true -> d = 0 /\ n mod w = 0) ->
  forall p k, tr_chunk w d n p k -> announced_width cfg (Z.to_nat k).
Proof.
  intros F (E1 & E2 & E3) Hw Hd Hm p k H. unfold announced_width. rewrite E1, E3.
  assert (P : forall e i, 0 <= e < w -> (p_match pol = true -> e = 0) -> 0 <= i -> Z.testbit e i = true ->
    p_match pol = false /\ (Z.to_nat (2 ^ i) < Z.to_nat w)%nat /\ exists j, Z.to_nat (2 ^ i) = Nat.pow 2 j).
  { intros e i He H0 Hi Hb. split.
    - destruct (p_match pol); [|reflexivity]. rewrite (H0 eq_refl), Z.testbit_0_l in Hb. discriminate.
    - destruct (bit_below e w i He Hi Hb) as [B1 B2]. rewrite B2. split; [exact B1|eauto]. }
  destruct H as [(i & Hi & Hb & _ & ->)|[(-> & _)|(i & Hi & Hb & _ & ->)] ].
  - right. apply (P d i); try assumption. intros X. apply (Hm X).
  - now left.
  - right. pose proof (Z.mod_pos_bound (n - d) w ltac:(lia)). apply (P ((n - d) mod w) i); try assumption.
    intros X. destruct (Hm X) as [-> Y]. now rewrite Z.sub_0_r.
Qed.

Lemma transform_reduce_announced T A (op : A -> A -> A) (tr tr' : list (list T) -> list A)
    c pol w first last srcs2 (m : mem T) init d cfg :
  target_ok c -> c_ce c = false -> policy_ok pol -> width_ok w -> range_ok first last ->
  size_matches pol w first last ->
  prologue_length c pol w first (last - first) d -> (first = last \/ d < last - first) ->
  keeps_lanes tr (S (length srcs2)) -> keeps_lanes tr' (S (length srcs2)) ->
  Forall (fun p => mapped m p (p + (last - first))) (first :: srcs2) ->
  policy_fits cfg -> describes cfg pol w -> same_where (announced_width cfg) tr tr' ->
  exists r, transform_reduce c op tr m pol w first last srcs2 init = Ok r
    /\ transform_reduce c op tr' m pol w first last srcs2 init = Ok r.
Proof.
  intros Hc Hce Hp Hw Hr Hs Hd Hdn Hk Hk' Hm F D HS.
  assert (Hw' : 1 <= w < 2 ^ 64) by exact Hw.
  destruct (transform_reduce_any tr op c pol w first last srcs2 m init d) as (v & V1 & V2 & E & _); try assumption.
  destruct (transform_reduce_any tr' op c pol w first last srcs2 m init d) as (v' & V1' & V2' & E' & _); try assumption.
  eexists. split; [exact E|]. rewrite E'. do 2 f_equal. destruct Hdn as [Hf|Hdn]; [now rewrite V2, V2'|].
  destruct (prologue_small _ _ _ _ _ _ Hp (proj1 Hw') Hd) as [Hd0 Hd1].
  specialize (V1 ltac:(lia)). specialize (V1' ltac:(lia)).
  apply (chunk_values_unique tr' m (first :: srcs2) w d (last - first)); [lia|lia|exact V1'|].
  destruct V1 as [L V]. split; [exact L|]. intros p k C. destruct (V p k C) as (ch & G & G1 & G2).
  assert (Eq : tr ch = tr' ch).
  { apply (HS (Z.to_nat k)); [|exact (given_widths m _ _ _ _ G)].
    apply (tr_chunk_announced cfg pol w d (last - first)) with (p := p); try assumption; [lia|].
    intros X. split; [exact (Hd1 X)|exact (matching_mod pol w first last (proj1 Hw') Hs X)]. }
  exists ch. rewrite <- Eq. auto.
Qed.

(** count_if *)
Lemma count_if_announced T (pred pred' : list T -> list bool) c lib pol w first last m cfg :
  keeps_mask pred -> keeps_mask pred' ->
  target_ok c -> c_ce c = false -> policy_ok pol -> width_ok w -> range_ok first last ->
  size_matches pol w first last -> reaches_alignment c pol w first last -> mapped m first last ->
  policy_fits cfg -> describes cfg pol w ->
  (forall l, announced_width cfg (length l) -> pred l = pred' l) ->
  count_if pred c lib pol w first last m = count_if pred' c lib pol w first last m.
Proof.
  intros Hk Hk' Hc Hce Hp Hw Hr Hs Hra Hm F D HS.
  assert (Hw' : 1 <= w < 2 ^ 64) by exact Hw.
  destruct (prologue_length_exists c pol w first (last - first) Hc Hw) as [d Hd].
  destruct (count_if_any pred Hk c lib pol w first last m d) as (ch & C & ->); try assumption.
  destruct (count_if_any pred' Hk' c lib pol w first last m d) as (ch' & C' & ->); try assumption.
  assert (Hdn : d <= last - first) by (apply (reaches_length c pol w first last); assumption).
  assert (Hr1 : first <= last) by apply Hr.
  assert (A : forall p k, In (p, k) (concat (places 0 (schedule w (p_unroll pol) d (last - first)))) ->
    announced_width cfg (Z.to_nat k)).
  { eapply (places_announced cfg pol w c first); try eassumption; [lia|].
    intros X. exact (matching_mod pol w first last (proj1 Hw') Hs X). }
  assert (E : map pred ch = map pred' ch').
  { revert ch' C'. unfold chunks_at in C.
    induction C as [|[p k] v ps ch G C IH]; intros ch' C'; inversion C' as [|x v' y ch'' G' C'' ]; subst; [reflexivity|].
    cbn [fst snd] in *. cbn [map].
    assert (Ev : v = v').
    { assert (L : length v = length v') by (destruct G, G'; lia). apply nth_error_ext. intros i.
      destruct (Nat.ltb_spec i (length v)) as [Hi|Hi].
      - rewrite (proj2 G i Hi), (proj2 G' i ltac:(lia)). reflexivity.
      - rewrite !(proj2 (nth_error_None _ _)) by lia. reflexivity. }
    subst v'. f_equal.
    - apply HS. replace (length v) with (Z.to_nat k) by (destruct G; lia). apply (A p). now left.
    - apply IH; [|exact C'']. intros q j Hq. apply (A q). now right. }
  unfold true_values. now rewrite E.
Qed.

(** What has to compile is enough for the calls that are made. *)
Lemma announced_supported osize cfg f : policy_fits cfg -> for_each_compiles osize cfg f = true ->
  forall k n, announced cfg k n -> f k n = true.
Proof.
  intros F H k n A. pose proof F as (_ & U0 & _). apply (for_each_iff osize cfg f F) in H as (H1 & H2 & H3).
  destruct A as [[-> [->| ->] ]|(_ & -> & B & j & ->)].
  - exact H1.
  - destruct (Nat.eq_dec (c_unroll cfg) 1) as [->|N]; [exact H1|apply H2; lia].
  - apply H3; [|right; exact B]. pose proof (Nat.pow_nonzero 2 j ltac:(discriminate)). lia.
Qed.

Lemma width_supported_transform p t ok cfg : policy_fits cfg ->
  well_formed (transform_sites p t (of_widths t ok) cfg) = true -> forall n, announced_width cfg n -> ok n = true.
Proof.
  intros F H n A. apply (transform_widths_iff p t ok cfg F) in H as (H1 & _ & _ & H4).
  destruct A as [->|(M & L & j & ->)]; [exact H1|now apply H4].
Qed.

Lemma width_supported_reduce p t ok1 ok2 el cfg : policy_fits cfg ->
  well_formed (transform_reduce_sites p t (of_widths t ok1) (reduce_of_widths t ok2 el) cfg) = true ->
  forall n, announced_width cfg n -> ok1 n = true.
Proof.
  intros F H n A. apply (transform_reduce_widths_iff p t ok1 ok2 el cfg F) in H as (H1 & _ & _ & _ & H5 & _).
  destruct A as [->|(M & L & j & ->)]; [exact H1|now apply H5].
Qed.

Lemma width_supported_count osize cfg pred : policy_fits cfg -> count_if_compiles osize cfg pred = true ->
  forall n, announced_width cfg n -> pred n = true.
Proof.
  intros F H n A. apply (count_if_iff osize cfg pred F) in H as (H1 & H2).
  destruct A as [->|(M & L & j & ->)]; [exact H1|]. apply H2; [|now right]. pose proof (Nat.pow_nonzero 2 j ltac:(discriminate)). lia.
Qed.

Lemma for_each_calls_supported T St (f : St -> list (list T) -> St * list (list T)) c pol w wb first last m st osize cfg ok :
  target_ok c -> c_ce c = false -> policy_ok pol -> width_ok w -> range_ok first last ->
  size_matches pol w first last -> reaches_alignment c pol w first last ->
  ExecSpec.keeps_lanes f -> mapped m first last ->
  policy_fits cfg -> describes cfg pol w -> for_each_compiles osize cfg ok = true ->
  exists s, run_for_each f c pol w wb first last m st = Ok s
    /\ Forall (fun chunks => exists n, Forall (fun v => length v = n) chunks /\ ok (length chunks) n = true) (s_trace s).
Proof.
  intros T1 T2 T3 T4 T5 T6 T7 T8 T9 F D H.
  destruct (for_each_announced T St f c pol w wb first last m st cfg) as (s & R & A); try assumption.
  exists s. split; [exact R|]. revert A. apply Forall_impl. intros chunks (n & A & L). exists n. split; [exact L|].
  exact (announced_supported osize cfg ok F H _ _ A).
Qed.

Lemma transform_calls_supported T St (op : St -> list (list T) -> St * option (list T)) order
    c pol w first last dst srcs2 (m : mem T) st cfg p t ok :
  target_ok c -> c_ce c = false -> policy_ok pol -> width_ok w -> range_ok first last ->
  size_matches pol w first last -> reaches_alignment c pol w dst (dst + (last - first)) ->
  keeps_count op -> any_order order ->
  Forall (fun p => mapped m p (p + (last - first))) (dst :: first :: srcs2) ->
  no_clobber dst (last - first) (first :: srcs2) ->
  policy_fits cfg -> describes cfg pol w -> well_formed (transform_sites p t (of_widths t ok) cfg) = true ->
  exists e, run_transform_in op order c pol w first last dst srcs2 m st
      = Ok (e, returned_iterator (dst + (last - first)) e)
    /\ Forall (fun chunks => exists n, Forall (fun v => length v = n) chunks /\ ok n = true) (all_calls e).
Proof.
  intros T1 T2 T3 T4 T5 T6 T7 T8 T9 T10 T11 F D H.
  destruct (transform_announced op order c pol w first last dst srcs2 m st cfg) as (e & R & A); try assumption.
  exists e. split; [exact R|]. revert A. apply Forall_impl. intros chunks (n & A & L). exists n. split; [exact L|].
  exact (width_supported_transform p t ok cfg F H n A).
Qed.

Lemma transform_reduce_calls_supported T A (op : A -> A -> A) (tr tr' : list (list T) -> list A)
    c pol w first last srcs2 (m : mem T) init d cfg p t ok1 ok2 el :
  target_ok c -> c_ce c = false -> policy_ok pol -> width_ok w -> range_ok first last ->
  size_matches pol w first last ->
  prologue_length c pol w first (last - first) d -> (first = last \/ d < last - first) ->
  keeps_lanes tr (S (length srcs2)) -> keeps_lanes tr' (S (length srcs2)) ->
  Forall (fun p => mapped m p (p + (last - first))) (first :: srcs2) ->
  policy_fits cfg -> describes cfg pol w ->
  well_formed (transform_reduce_sites p t (of_widths t ok1) (reduce_of_widths t ok2 el) cfg) = true ->
  same_where (fun n => ok1 n = true) tr tr' ->
  exists r, transform_reduce c op tr m pol w first last srcs2 init = Ok r
    /\ transform_reduce c op tr' m pol w first last srcs2 init = Ok r.
Proof.
  intros T1 T2 T3 T4 T5 T6 T7 T8 T9 T10 T11 F D H HS.
  apply (transform_reduce_announced T A op tr tr' c pol w first last srcs2 m init d cfg); try assumption.
  intros n chunks Hn L. apply (HS n); [|exact L]. exact (width_supported_reduce p t ok1 ok2 el cfg F H n Hn).
Qed.

Lemma count_if_calls_supported T (pred pred' : list T -> list bool) c lib pol w first last m osize cfg ok :
  keeps_mask pred -> keeps_mask pred' ->
  target_ok c -> c_ce c = false -> policy_ok pol -> width_ok w -> range_ok first last ->
  size_matches pol w first last -> reaches_alignment c pol w first last -> mapped m first last ->
  policy_fits cfg -> describes cfg pol w -> count_if_compiles osize cfg ok = true ->
  (forall l, ok (length l) = true -> pred l = pred' l) ->
  count_if pred c lib pol w first last m = count_if pred' c lib pol w first last m.
Proof.
  intros K K' T1 T2 T3 T4 T5 T6 T7 T8 F D H HS.
  apply (count_if_announced T pred pred' c lib pol w first last m cfg); try assumption.
  intros l Hl. apply HS. exact (width_supported_count osize cfg ok F H _ Hl).
Qed.
