(** The property-level lemmas of C69. *)
From Verif Require Import Base BaseFacts ExecModel ExecProofs ExecForEach ExecSpec ExecThm TransformModel
  ReduceModel ReduceSpec ReduceProofs TReduceModel TReduceSpec TReduceProofs TReduceThm
  ScheduleSpec ScheduleProofs OrderSpec OrderProofs.
From Coq Require Import Permutation ZifyBool ZifyNat.
Ltac Zify.zify_post_hook ::= idtac.

Section On.
  Context {A : Type}.
  Variables (op : A -> A -> A) (ldf : bool -> list Z -> Z -> res (list A)).

  (** Loads that are right inside of the range, whether aligned or not. *)
  Definition filled (first : Z) (ps0 : list Z) (vals : list A) (al : bool) (ps : list Z) (k : Z)
    : res (list A) :=
    let p := hd 0 ps - first in
    if (0 <=? p) && (0 <? k) && (p + k <=? Z.of_nat (length vals))
       && (if list_eq_dec Z.eq_dec ps (adv p ps0) then true else false)
    then Ok (seg vals p k) else ldf al ps k.

  Lemma filled_inside first srcs2 vals al p k :
    0 <= p -> 0 < k -> p + k <= Z.of_nat (length vals) ->
    filled first (first :: srcs2) vals al (adv p (first :: srcs2)) k = Ok (seg vals p k).
  Proof.
    intros H1 H2 H3. unfold filled. cbn [adv map hd]. replace (first + p - first) with p by lia.
    replace ((0 <=? p) && (0 <? k) && (p + k <=? Z.of_nat (length vals))) with true by lia. cbn [andb].
    destruct (list_eq_dec _ _ _) as [_|N]; [reflexivity|]. now destruct N.
  Qed.

  Lemma transform_reduce_on_order c pol w first last srcs2 (vals : list A) init d x :
    target_ok c -> c_ce c = false -> policy_ok pol -> width_ok w -> range_ok first last ->
    size_matches pol w first last ->
    prologue_length c pol w first (last - first) d -> (first = last \/ d < last - first) ->
    Z.of_nat (length vals) = last - first ->
    (forall al p k v, 0 <= p -> 0 < k -> p + k <= last - first ->
       ldf al (adv p (first :: srcs2)) k = Ok v -> v = seg vals p k) ->
    transform_reduce_on op ldf c pol w first last srcs2 init = Ok x ->
    x = grouped op (Z.to_nat w) (Z.to_nat (p_unroll pol)) d init vals.
  Proof.
    intros Hc Hce Hpol Hw Hr Hm Hd Hdn Hlen Hld Hrun.
    assert (Hmono : forall al ps k v, ldf al ps k = Ok v -> filled first (first :: srcs2) vals al ps k = Ok v).
    { intros al ps k v E. unfold filled. set (p := hd 0 ps - first).
      destruct ((0 <=? p) && (0 <? k) && (p + k <=? Z.of_nat (length vals))) eqn:Eb; [|exact E]. cbn [andb].
      destruct (list_eq_dec _ _ _) as [Ep|_]; [|exact E]. rewrite Ep in E.
      f_equal. symmetry. apply (Hld al p k v); try lia; exact E. }
    apply (transform_reduce_on_mono op ldf _ Hmono) in Hrun. clear Hmono Hld.
    set (ld2 := filled first (first :: srcs2) vals) in *.
    assert (Hld : forall al p k, 0 <= p -> 0 < k -> p + k <= Z.of_nat (length vals) ->
                    ld2 al (adv p (first :: srcs2)) k = Ok (seg vals p k)) by (intros; now apply filled_inside).
    clearbody ld2. cut (Ok x = Ok (grouped op (Z.to_nat w) (Z.to_nat (p_unroll pol)) d init vals)); [congruence|].
    rewrite <- Hrun. clear Hrun x.
    unfold transform_reduce_on. destruct (Z.eqb_spec first last) as [E|Hne].
    { subst last. destruct vals; [reflexivity|cbn in Hlen; lia]. }
    destruct Hdn as [|Hdn]; [contradiction|].
    destruct Hr as [Hle H64]. change (2 ^ 64) with two64 in H64.
    assert (Hw' : 1 <= w < two64) by exact Hw. clear Hw.
    assert (Etrap : p_match pol && negb ((last - first) mod w =? 0) = false).
    { destruct (p_match pol) eqn:Em; [|reflexivity]. destruct (Hm Em) as [q Hq].
      rewrite Hq, Z.mod_mul by lia. reflexivity. }
    rewrite Etrap, Hce.
    assert (Hcfg := target_cfg c Hc).
    assert (Hg : grouped op (Z.to_nat w) (Z.to_nat (p_unroll pol)) d init vals
                 = main op init (Z.to_nat w) (Z.to_nat (p_unroll pol)) (prologue_total op init d init vals)
                        (skipn (Z.to_nat d) vals)).
    { destruct vals; [cbn in Hlen; lia|reflexivity]. }
    rewrite Hg. clear Hg.
    destruct (prologue_args c pol w (last - first) first) as [[maxe tp]|] eqn:Epa.
    - destruct (prologue_some_length c pol w _ first maxe tp Hcfg Hw' Epa) as (Hd' & _ & Htp & -> & Hpos).
      assert (d = tp) by (eapply prologue_length_unique; eassumption). subst tp.
      destruct Hcfg as [Hstd|Hfb]; [|rewrite fallback_impossible in Hpos by assumption; discriminate].
      destruct (possible_std c w Hstd Hpos) as (J & s & HJ & Hs & EJ & Es & Hmal).
      assert (HJ64 : J < 64).
      { apply pow2_lt_inv; [lia|]. change (2 ^ 64) with two64. lia. }
      assert (Hpm : p_match pol = false).
      { destruct Hpol as (_ & Hp1 & Hp2). unfold prologue_args, use_aligned_loadstore, maybe_prologue in Epa.
        destruct (p_aligned pol); [auto|]. destruct (p_auto pol); [auto|discriminate]. }
      pose proof (tr_prologue_exact op init ld2 (first :: srcs2) vals
                    Hld (Z.to_nat J) d 65 0 init) as E.
      rewrite Z2Nat.id in E by lia. change (2 ^ Z.of_nat 0) with 1 in E.
      rewrite <- EJ, Z.mod_1_r in E.
      change (Z.to_nat 0) with 0%nat in E. change (64 - 0)%nat with 64%nat in E. cbn [skipn] in E.
      assert (Edig : filter (fun i => Z.testbit d (Z.of_nat i)) (seq 0 64) = digits d)
        by (unfold digits; exact eq_refl).
      rewrite Edig in E. clear Edig.
      assert (Et : prologue_total op init d init vals
                   = fold_left (fun t ch => op t (across op init ch)) (parts (map (Nat.pow 2) (digits d)) vals) init)
        by (unfold prologue_total; exact eq_refl).
      rewrite <- Et in E. clear Et.
      rewrite E by lia. clear E. cbn [bindR].
      rewrite (Z.mod_small (last - first - d) two64) by lia.
      pose proof (tr_body_exact op init ld2 (first :: srcs2) vals
                    Hld pol w (use_aligned_loadstore c pol w)
                    (prologue_total op init d init vals) first d) as E.
      rewrite Hlen in E. replace (first + (last - first)) with last in E by lia.
      apply E; (congruence || lia).
    - assert (d = 0).
      { eapply prologue_length_unique; [eassumption|]. now apply prologue_none_length. }
      subst d. pose proof (tr_body_exact op init ld2 (first :: srcs2) vals
                    Hld pol w (use_aligned_loadstore c pol w)
                    init first 0) as E.
      rewrite Hlen, Z.sub_0_r, Z.add_0_r, adv_0 in E. replace (first + (last - first)) with last in E by lia.
      change (prologue_total op init 0 init vals) with init. change (Z.to_nat 0) with 0%nat in *.
      cbn [skipn] in *.
      apply E; try lia. intros Em. destruct (Hm Em) as [q Hq]. exists q. lia.
  Qed.
End On.

Section Thm.
  Context {T A : Type}.
  Variables (g : list T -> A) (tr : list (list T) -> list A) (op : A -> A -> A).

  (** A load that succeeds has read the elements. *)
  Lemma ld_inside c (m : mem T) srcs vals : srcs <> [] ->
    transformed_are g m srcs (Z.of_nat (length vals)) vals ->
    forall al p k v, 0 <= p -> 0 < k -> p + k <= Z.of_nat (length vals) -> transforms_at g tr (length srcs) k ->
      ld c tr m al (adv p srcs) k = Ok v -> v = seg vals p k.
  Proof.
    intros Hne Hv al p k v Hp Hk Hpk Htr E.
    assert (Hal : al = true -> aligned_at c (hd 0 srcs + p) k = true).
    { intros ->. destruct srcs as [|s srcs]; [contradiction|]. cbn [hd]. cbn [adv map ld] in E.
      unfold load_chunk in E at 1. destruct (aligned_at c (s + p) k); [reflexivity|discriminate]. }
    pose proof (ld_ok g tr op c m srcs vals Hne Hv al p k Hp Hk Hpk Htr Hal). congruence.
  Qed.

  Lemma transform_reduce_order c pol w first last srcs2 (m : mem T) vals init d :
    target_ok c -> c_ce c = false -> policy_ok pol -> width_ok w -> range_ok first last ->
    size_matches pol w first last ->
    prologue_length c pol w first (last - first) d -> (first = last \/ d < last - first) ->
    (forall k, 0 < k -> transforms_at g tr (S (length srcs2)) k) ->
    transformed_are g m (first :: srcs2) (last - first) vals ->
    transform_reduce c op tr m pol w first last srcs2 init
    = Ok (grouped op (Z.to_nat w) (Z.to_nat (p_unroll pol)) d init vals).
  Proof.
    intros Hc Hce Hpol Hw Hr Hm Hd Hdn Htr Hv.
    destruct (Z.eq_dec first last) as [E|Hne].
    { subst last. rewrite transform_reduce_empty. destruct Hv as [Hv _]. destruct vals; [reflexivity|cbn in Hv; lia]. }
    destruct Hdn as [|Hdn]; [contradiction|].
    destruct (transform_reduce_fit g tr op c pol w first last srcs2 m vals init) as (x & Ex & _); try assumption.
    { intros maxe tp Epa. destruct (prologue_some_length c pol w _ first maxe tp (target_cfg c Hc) Hw Epa) as (Hd' & _).
      rewrite <- (prologue_length_unique _ _ _ _ _ _ _ Hd Hd'). exact Hdn. }
    { intros k Hk _. now apply Htr. }
    rewrite Ex. f_equal. assert (Hlen : Z.of_nat (length vals) = last - first) by apply Hv.
    apply (transform_reduce_on_order op (ld c tr m) c pol w first last srcs2); try assumption; [now right|].
    intros al p k v H1 H2 H3. rewrite <- Hlen in Hv.
    apply (ld_inside c m (first :: srcs2) vals ltac:(discriminate) Hv); try assumption; [lia|].
    now apply Htr.
  Qed.
End Thm.

(** Where the ranges lie does not matter otherwise. *)
Lemma transform_reduce_reproducible {T1 T2 A} (op : A -> A -> A)
    (g1 : list T1 -> A) tr1 c1 pol1 first1 last1 srcs1 (m1 : mem T1)
    (g2 : list T2 -> A) tr2 c2 pol2 first2 last2 srcs2 (m2 : mem T2) w vals init d :
  target_ok c1 -> c_ce c1 = false -> policy_ok pol1 -> range_ok first1 last1 -> size_matches pol1 w first1 last1 ->
  target_ok c2 -> c_ce c2 = false -> policy_ok pol2 -> range_ok first2 last2 -> size_matches pol2 w first2 last2 ->
  width_ok w -> p_unroll pol1 = p_unroll pol2 ->
  prologue_length c1 pol1 w first1 (last1 - first1) d ->
  prologue_length c2 pol2 w first2 (last2 - first2) d ->
  (first1 = last1 \/ d < last1 - first1) ->
  (forall k, 0 < k -> transforms_at g1 tr1 (S (length srcs1)) k) ->
  (forall k, 0 < k -> transforms_at g2 tr2 (S (length srcs2)) k) ->
  transformed_are g1 m1 (first1 :: srcs1) (last1 - first1) vals ->
  transformed_are g2 m2 (first2 :: srcs2) (last2 - first2) vals ->
  transform_reduce c1 op tr1 m1 pol1 w first1 last1 srcs1 init
  = transform_reduce c2 op tr2 m2 pol2 w first2 last2 srcs2 init.
Proof.
  intros ? ? ? ? ? ? ? ? ? ? ? ? ? ? Hdn ? ? Hv1 Hv2. assert (E : last1 - first1 = last2 - first2).
  { destruct Hv1 as [<- _]. destruct Hv2 as [<- _]. reflexivity. }
  rewrite (transform_reduce_order g1 tr1 op c1 pol1 w first1 last1 srcs1 m1 vals init d) by assumption.
  rewrite (transform_reduce_order g2 tr2 op c2 pol2 w first2 last2 srcs2 m2 vals init d);
    try assumption; [congruence|].
  destruct Hdn; [left|right]; lia.
Qed.

Lemma plain_length c pol w first n : plain pol -> prologue_length c pol w first n 0.
Proof. intros [H1 H2]. right. split; [reflexivity|]. right. split; [assumption|]. congruence. Qed.

Lemma transform_reduce_order_plain {T A} (g : list T -> A) tr (op : A -> A -> A)
    c pol w first last srcs2 (m : mem T) vals init :
  target_ok c -> c_ce c = false -> plain pol -> width_ok w -> range_ok first last ->
  size_matches pol w first last ->
  (forall k, 0 < k -> transforms_at g tr (S (length srcs2)) k) ->
  transformed_are g m (first :: srcs2) (last - first) vals ->
  transform_reduce c op tr m pol w first last srcs2 init
  = Ok (grouped op (Z.to_nat w) (Z.to_nat (p_unroll pol)) 0 init vals).
Proof.
  intros Hc Hce Hp Hw Hr Hm Htr Hv. apply (transform_reduce_order g); try assumption.
  - now apply plain_policy.
  - now apply plain_length.
  - destruct Hr. lia.
Qed.

Lemma reduce_alg_order {T} (op : T -> T -> T) c pol w first last (m : mem T) l init d :
  target_ok c -> c_ce c = false -> policy_ok pol -> width_ok w -> range_ok first last ->
  size_matches pol w first last ->
  prologue_length c pol w first (last - first) d -> (first = last \/ d < last - first) ->
  range_is m first last l ->
  reduce_alg c op m pol w first last init
  = Ok (grouped op (Z.to_nat w) (Z.to_nat (p_unroll pol)) d init l).
Proof.
  intros Hc Hce Hp Hw Hr Hm Hd Hdn [Hl Hv]. unfold reduce_alg.
  apply (transform_reduce_order (fun args => hd init args)); try assumption.
  - intros k _. apply id_transforms.
  - split; [exact Hl|]. intros i Hi. assert (Hi' : (Z.to_nat i < length l)%nat) by lia.
    destruct (nth_error l (Z.to_nat i)) as [x|] eqn:E; [|apply nth_error_None in E; lia].
    exists [x]. split; [|reflexivity]. constructor; [|constructor].
    rewrite <- E, Hv by lia. f_equal. lia.
Qed.

(** ** Readings of the specification *)

Lemma nth_chunk {A} (l : list A) w r i x : (i < w)%nat -> nth i (chunk w l r) x = nth (r * w + i) l x.
Proof.
  intros Hi. unfold chunk.
  assert (Hf : forall k (a : list A) j, (j < k)%nat -> nth j (firstn k a) x = nth j a x).
  { induction k as [|k IH]; intros a j Hj; [lia|]. destruct a as [|y a]; [now destruct j|].
    destruct j as [|j]; [reflexivity|]. cbn. apply IH. lia. }
  assert (Hs : forall k (a : list A) j, nth j (skipn k a) x = nth (k + j) a x).
  { induction k as [|k IH]; intros a j; [reflexivity|]. destruct a as [|y a]; [now destruct j|]. apply IH. }
  rewrite Hf by assumption. apply Hs.
Qed.

Lemma zip_nth {A} (op : A -> A -> A) a : forall b i x, length a = length b -> (i < length a)%nat ->
  nth i (zip op a b) x = op (nth i a x) (nth i b x).
Proof.
  induction a as [|y a IH]; intros [|z b] i x Hl Hi; try (cbn in *; lia).
  destruct i as [|i]; [reflexivity|]. cbn [zip combine map nth]. apply IH; cbn in *; lia.
Qed.

Lemma stack_columns {A} (op : A -> A -> A) (dflt : A) (l : list A) w q : (1 <= w)%nat -> (1 <= q)%nat -> (q * w <= length l)%nat ->
  stack op (map (chunk w l) (seq 0 q)) = map (fun i => fold1 op dflt (column l w q i dflt)) (seq 0 w).
Proof.
  intros Hw Hq Hl.
  assert (Hc : forall r, (r < q)%nat -> length (chunk w l r) = w).
  { intros r Hr. unfold chunk. rewrite firstn_length, skipn_length. nia. }
  assert (H : forall k, (1 <= k <= q)%nat ->
     length (stack op (map (chunk w l) (seq 0 k))) = w
     /\ forall i, (i < w)%nat -> nth i (stack op (map (chunk w l) (seq 0 k))) dflt = fold1 op dflt (column l w k i dflt)).
  { induction k as [|k IH]; intros Hk; [lia|]. destruct k as [|k].
    - cbn [seq map stack fold_left]. split; [apply Hc; lia|]. intros i Hi. rewrite nth_chunk by assumption. reflexivity.
    - destruct IH as [L N]; [lia|]. replace (S (S k)) with (S k + 1)%nat by lia.
      rewrite seq_app, map_app. cbn [seq map Nat.add]. rewrite stack_snoc by discriminate.
      change (chunk w l 0 :: map (chunk w l) (seq 1 k)) with (map (chunk w l) (seq 0 (S k))).
      split; [rewrite zip_length; [exact L|]; rewrite L; symmetry; apply Hc; lia|].
      intros i Hi. rewrite zip_nth; [|rewrite L; symmetry; apply Hc; lia|now rewrite L]. rewrite N by assumption.
      rewrite nth_chunk by assumption. unfold column.
      change (S (k + 1)) with (S k + 1)%nat. rewrite seq_app, map_app. cbn [seq map app Nat.add fold1].
      rewrite fold_left_app. reflexivity. }
  destruct (H q ltac:(lia)) as [L N]. apply (nth_ext _ _ dflt dflt).
  - now rewrite L, map_length, seq_length.
  - intros i Hi. rewrite L in Hi. rewrite N by assumption.
    rewrite (nth_indep _ dflt (fold1 op dflt (column l w q 0 dflt))) by (now rewrite map_length, seq_length).
    rewrite (map_nth (fun i => fold1 op dflt (column l w q i dflt))), seq_nth by assumption. reflexivity.
Qed.

Lemma grouped_columns {A} (op : A -> A -> A) w u init (vals : list A) q :
  (1 <= w)%nat -> (u <= 1)%nat -> (1 <= q)%nat -> length vals = (q * w)%nat ->
  grouped op w u 0 init vals = op init (across op init (map (fun i => fold1 op init (column vals w q i init)) (seq 0 w))).
Proof.
  intros Hw Hu Hq Hl. unfold grouped. destruct vals as [|v0 vr] eqn:Ev; [cbn in Hl; nia|]. rewrite <- Ev in *. clear Ev.
  cbn [Z.to_nat skipn]. change (prologue_total op init 0 init vals) with init. unfold main.
  replace (w <=? length vals)%nat with true by (symmetry; apply Nat.leb_le; nia).
  assert (Eq : (length vals / w = q)%nat) by (rewrite Hl; apply Nat.div_mul; lia). rewrite Eq.
  rewrite skipn_all2 by lia. unfold full_chunks. rewrite Eq.
  replace (1 <? u)%nat with false by (symmetry; apply Nat.ltb_ge; lia). cbn [andb].
  rewrite (stack_columns op init) by lia. reflexivity.
Qed.

(** One lane: from left to right, with the initial value in front of the whole. *)
Lemma grouped_scalar {A} (op : A -> A -> A) u init (x : A) (l : list A) : (u <= 1)%nat ->
  grouped op 1 u 0 init (x :: l) = op init (fold_left op l x).
Proof.
  intros Hu. rewrite (grouped_columns op 1 u init (x :: l) (S (length l))); [|lia|assumption|lia|cbn; lia].
  f_equal. cbn [seq map across]. unfold across. cbn [length Nat.log2 across_below fold1 fold_left].
  change (fold1 op init (column (x :: l) 1 (S (length l)) 0 init) = fold1 op init (x :: l)). f_equal.
  apply (nth_ext _ _ init init).
  - unfold column. now rewrite map_length, seq_length.
  - intros i Hi. unfold column in *. rewrite map_length, seq_length in Hi.
    set (f := fun r => nth (r * 1 + 0) (x :: l) init).
    rewrite (nth_indep _ init (f 0%nat)) by (now rewrite map_length, seq_length).
    rewrite (map_nth f), seq_nth by assumption. unfold f. f_equal. lia.
Qed.

Lemma prologue_length_exists c pol w first n : target_ok c -> width_ok w ->
  exists d, prologue_length c pol w first n d.
Proof.
  intros Hc Hw. destruct (prologue_args c pol w n first) as [[maxe tp]|] eqn:E.
  - exists tp. now destruct (prologue_some_length c pol w n first maxe tp (target_cfg c Hc) Hw E).
  - exists 0. exact (prologue_none_length c pol w n first (target_cfg c Hc) Hw E).
Qed.
