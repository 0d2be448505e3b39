(** Proofs about loads, stores and where-expressions (C15, C16, C17). *)
From Verif Require Import Base BaseFacts LaneModel LaneProofs MaskModel WhereModel.
From Coq Require Import ZifyBool ZifyNat.
Ltac Zify.zify_post_hook ::= idtac.

Lemma nth_lt {A} (l : list A) i : (i < length l)%nat -> exists a, nth_error l i = Some a.
Proof.
  intros H. destruct (nth_error l i) as [a|] eqn:E; [eauto|]. apply nth_error_None in E. lia.
Qed.
Lemma lane_some {A} (l : list A) i a : nth_error l i = Some a -> lane l i = Ok a.
Proof. unfold lane. intros ->. reflexivity. Qed.
Lemma lane_inv {A} (l : list A) i a : lane l i = Ok a -> nth_error l i = Some a.
Proof. unfold lane, of_option. destruct (nth_error l i); congruence. Qed.

(** ** Loops that write memory *)
Section StoreLoop.
  Context {U : Type}.
  Variable sel : nat -> res (option U).
  Variable p : Z.
  Let body (i : nat) (cur : mem U) : res (mem U) :=
    bindR (sel i) (fun o => match o with Some u => write cur p i u | None => Ok cur end).

  Lemma store_loop_ok : forall n i0 (m : mem U),
    (forall i, (i0 <= i < i0 + n)%nat ->
       exists o, sel i = Ok o /\ forall u, o = Some u -> m (p + Z.of_nat i) <> None) ->
    exists m', loop i0 n body m = Ok m'
      /\ (forall i u, (i0 <= i < i0 + n)%nat -> sel i = Ok (Some u) -> m' (p + Z.of_nat i) = Some u)
      /\ (forall q, (forall i u, (i0 <= i < i0 + n)%nat -> sel i = Ok (Some u) -> q <> p + Z.of_nat i) -> m' q = m q).
  Proof.
    induction n as [|n IH]; intros i0 m H.
    { exists m. split; [reflexivity|]. split; [intros; lia|reflexivity]. }
    cbn [loop]. unfold body at 1. destruct (H i0 ltac:(lia)) as (o & Eo & Ho). rewrite Eo. cbn [bindR].
    assert (exists m1, match o with Some u => write m p i0 u | None => Ok m end = Ok m1
              /\ (forall u, o = Some u -> m1 (p + Z.of_nat i0) = Some u)
              /\ (forall q, (o = None \/ q <> p + Z.of_nat i0) -> m1 q = m q)
              /\ forall q, m q <> None -> m1 q <> None) as (m1 & E1 & Hw & Hf & Hd).
    { destruct o as [u|].
      - specialize (Ho u eq_refl). unfold write, mem_at, of_option.
        destruct (m (p + Z.of_nat i0)) as [u0|]; [|congruence]. cbn [bindR].
        exists (upd m (p + Z.of_nat i0) u). split; [reflexivity|]. unfold upd. split; [|split].
        + intros u' E. rewrite Z.eqb_refl. congruence.
        + intros q [Hq|Hq]; [discriminate|]. destruct (Z.eqb_spec q (p + Z.of_nat i0)); [lia|reflexivity].
        + intros q Hq. destruct (q =? p + Z.of_nat i0); congruence.
      - exists m. split; [reflexivity|]. split; [congruence|]. split; auto. }
    rewrite E1. cbn [bindR].
    destruct (IH (S i0) m1) as (m' & E & HA & HB).
    { intros i Hi. destruct (H i ltac:(lia)) as (o' & Eo' & Ho'). exists o'. split; [assumption|].
      intros u Eu. apply Hd. now apply (Ho' u). }
    exists m'. split; [exact E|]. split.
    - intros i u Hi Es. destruct (Nat.eq_dec i i0) as [->|Hne].
      + rewrite HB; [|intros i' u' Hi' _; lia]. apply Hw. congruence.
      + apply (HA i u); [lia|assumption].
    - intros q Hq. rewrite HB; [|intros i u Hi Es; apply (Hq i u); [lia|assumption]].
      apply Hf. destruct o as [u|]; [right; apply (Hq i0 u); [lia|assumption]|left; reflexivity].
  Qed.

  Lemma store_loop_inv : forall n i0 (m m' : mem U), loop i0 n body m = Ok m' ->
    forall i, (i0 <= i < i0 + n)%nat -> exists o, sel i = Ok o /\ forall u, o = Some u -> m (p + Z.of_nat i) <> None.
  Proof.
    induction n as [|n IH]; intros i0 m m' H i Hi; [lia|]. cbn [loop] in H. unfold body at 1 in H.
    destruct (sel i0) as [o|] eqn:Eo; [|discriminate]. cbn [bindR] in H.
    destruct (match o with Some u => write m p i0 u | None => Ok m end) as [m1|] eqn:E1; [|discriminate].
    cbn [bindR] in H. destruct (Nat.eq_dec i i0) as [->|Hne].
    - exists o. split; [assumption|]. intros u ->. unfold write, mem_at, of_option in E1.
      destruct (m (p + Z.of_nat i0)); [discriminate|discriminate].
    - destruct (IH (S i0) m1 m' H i ltac:(lia)) as (o' & Eo' & Ho'). exists o'. split; [assumption|].
      intros u Eu. specialize (Ho' u Eu). destruct o as [u0|].
      + unfold write, mem_at, of_option in E1. destruct (m (p + Z.of_nat i0)); [|discriminate].
        cbn [bindR] in E1. injection E1 as <-. unfold upd in Ho'.
        destruct (Z.eqb_spec (p + Z.of_nat i) (p + Z.of_nat i0)); [lia|assumption].
      + injection E1 as <-. assumption.
  Qed.
End StoreLoop.

Lemma loop_ext {S} (b b' : nat -> S -> res S) : forall n i s,
  (forall j s, (i <= j < i + n)%nat -> b j s = b' j s) -> loop i n b s = loop i n b' s.
Proof.
  induction n as [|n IH]; intros i s H; [reflexivity|]. cbn [loop]. rewrite (H i s) by lia.
  destruct (b' i s); [|reflexivity]. cbn [bindR]. apply IH. intros j s' Hj. apply H. lia.
Qed.

(** ** C15 *)
Section LoadStore.
  Context {A U : Type}.

  (** copy_to writes lane i, converted, to p[i] for all lanes and nothing else. *)
  Theorem copy_to_writes (to_mem : A -> res U) v m p :
    (forall i a, nth_error v i = Some a -> (exists u, to_mem a = Ok u) /\ m (p + Z.of_nat i) <> None) ->
    exists m', copy_to to_mem v m p = Ok m'
      /\ (forall i a u, nth_error v i = Some a -> to_mem a = Ok u -> m' (p + Z.of_nat i) = Some u)
      /\ (forall q, ~ (p <= q < p + Z.of_nat (length v)) -> m' q = m q).
  Proof.
    intros H. pose (sel i := bindR (lane v i) (fun a => bindR (to_mem a) (fun u => Ok (Some u)))).
    destruct (store_loop_ok sel p (length v) 0 m) as (m' & E & HA & HB).
    - intros i Hi. destruct (nth_lt v i ltac:(lia)) as [a Ha]. destruct (H i a Ha) as [[u Hu] Hm].
      exists (Some u). unfold sel. rewrite (lane_some v i a Ha). cbn [bindR]. rewrite Hu. split; [reflexivity|auto].
    - exists m'. split; [|split].
      + rewrite <- E. unfold copy_to. apply loop_ext. intros j s Hj. unfold sel.
        destruct (lane v j) as [a|]; [|reflexivity]. cbn [bindR]. destruct (to_mem a); reflexivity.
      + intros i a u Ha Hu. apply (HA i u).
        * assert (i < length v)%nat by (apply nth_error_Some; congruence). lia.
        * unfold sel. rewrite (lane_some v i a Ha). cbn [bindR]. now rewrite Hu.
      + intros q Hq. apply HB. intros i u Hi _. lia.
  Qed.

  (** It is defined only if all these elements exist. *)
  Theorem copy_to_needs (to_mem : A -> res U) v m p m' : copy_to to_mem v m p = Ok m' ->
    forall i a, nth_error v i = Some a -> (exists u, to_mem a = Ok u) /\ m (p + Z.of_nat i) <> None.
  Proof.
    intros H i a Ha. pose (sel i := bindR (lane v i) (fun a => bindR (to_mem a) (fun u => Ok (Some u)))).
    assert (Hi : (i < length v)%nat) by (apply nth_error_Some; congruence).
    destruct (store_loop_inv sel p (length v) 0 m m') with (i := i) as (o & Eo & Ho); [|lia|].
    - rewrite <- H. unfold copy_to. apply loop_ext. intros j s Hj. unfold sel.
      destruct (lane v j) as [b|]; [|reflexivity]. cbn [bindR]. destruct (to_mem b); reflexivity.
    - unfold sel in Eo. rewrite (lane_some v i a Ha) in Eo. cbn [bindR] in Eo.
      destruct (to_mem a) as [u|]; [|discriminate]. cbn [bindR] in Eo. injection Eo as <-.
      split; [eauto|]. now apply (Ho u).
  Qed.

  Lemma combine_fst {B C} (f : nat -> res C) : forall s (w : list B), length s = length w ->
    mapR (fun '(i, _) => f i) (combine s w) = mapR f s.
  Proof.
    induction s as [|x s IH]; intros [|y w] Hl; try discriminate; [reflexivity|]. cbn [combine mapR].
    rewrite IH; [reflexivity|]. cbn in Hl. lia.
  Qed.

  Lemma copy_from_gen (from_mem : U -> res A) v m p : copy_from from_mem v m p = load_ctor from_mem m p (length v).
  Proof.
    unfold copy_from, load_ctor, gen.
    rewrite (loop_indexed (fun i _ => bindR (mem_at m p i) from_mem)).
    - apply (combine_fst (fun i => bindR (mem_at m p i) from_mem)). apply seq_length.
    - intros d a q. rewrite bindR_assoc. destruct (mem_at m p (length d)) as [u|]; [|reflexivity]. cbn [bindR].
      destruct (from_mem u); [|reflexivity]. cbn [bindR]. now rewrite set_lane_app.
  Qed.

  Lemma seq_nth0 n i : (i < n)%nat -> nth_error (seq 0 n) i = Some i.
  Proof.
    intros H. rewrite (nth_error_nth' _ 0%nat) by now rewrite seq_length. f_equal. now rewrite seq_nth.
  Qed.

  (** gen: lane i is the value of the generator at i. *)
  Lemma gen_iff {B} n (g : nat -> res B) v : gen n g = Ok v <->
    length v = n /\ forall i, (i < n)%nat -> exists b, g i = Ok b /\ nth_error v i = Some b.
  Proof.
    unfold gen. rewrite mapR_iff, seq_length. split; intros [Hl Hn]; (split; [assumption|]).
    - intros i Hi. apply (Hn i i). now apply seq_nth0.
    - intros i x Hx. assert (Hi : (i < n)%nat).
      { rewrite <- (seq_length n 0). apply nth_error_Some. congruence. }
      rewrite seq_nth0 in Hx by assumption. injection Hx as <-. now apply Hn.
  Qed.

  Lemma mem_at_ok (m : mem U) p i u : mem_at m p i = Ok u <-> m (p + Z.of_nat i) = Some u.
  Proof. unfold mem_at, of_option. destruct (m (p + Z.of_nat i)); split; congruence. Qed.

  (** copy_from and the load constructor read p[0], ..., p[size-1], and only those. *)
  Theorem copy_from_reads (from_mem : U -> res A) v m p r : copy_from from_mem v m p = Ok r <->
    length r = length v /\ forall i, (i < length v)%nat ->
      exists u a, m (p + Z.of_nat i) = Some u /\ from_mem u = Ok a /\ nth_error r i = Some a.
  Proof.
    rewrite copy_from_gen. unfold load_ctor. rewrite gen_iff.
    split; intros [Hl Hn]; (split; [assumption|]); intros i Hi.
    - destruct (Hn i Hi) as (a & Ea & Ha). destruct (mem_at m p i) as [u|] eqn:Eu; [|discriminate].
      apply mem_at_ok in Eu. eauto.
    - destruct (Hn i Hi) as (u & a & Eu & Ea & Ha). apply mem_at_ok in Eu. rewrite Eu. cbn [bindR]. eauto.
  Qed.

  Theorem load_ctor_is_copy_from (from_mem : U -> res A) v m p : load_ctor from_mem m p (length v) = copy_from from_mem v m p.
  Proof. now rewrite copy_from_gen. Qed.

  Theorem copy_from_frame (from_mem : U -> res A) v m m' p :
    (forall q, p <= q < p + Z.of_nat (length v) -> m' q = m q) -> copy_from from_mem v m' p = copy_from from_mem v m p.
  Proof.
    intros H. rewrite !copy_from_gen. unfold load_ctor, gen. apply mapR_ext'. intros i Hi. apply in_seq in Hi.
    unfold mem_at. rewrite H by lia. reflexivity.
  Qed.

  (** Round trip, for conversions that are inverse on the values stored. *)
  Theorem store_load_round_trip (from_mem : U -> res A) (to_mem : A -> res U) v w m p m' :
    (forall a u, In a v -> to_mem a = Ok u -> from_mem u = Ok a) -> length w = length v ->
    copy_to to_mem v m p = Ok m' -> copy_from from_mem w m' p = Ok v /\ load_ctor from_mem m' p (length v) = Ok v.
  Proof.
    intros Hc Hl E. pose proof (copy_to_needs to_mem v m p m' E) as Hn.
    destruct (copy_to_writes to_mem v m p Hn) as (m1 & E1 & HA & _). assert (m1 = m') by congruence. subst m1.
    assert (K : copy_from from_mem w m' p = Ok v).
    { apply copy_from_reads. split; [congruence|]. intros i Hi. destruct (nth_lt v i ltac:(lia)) as [a Ha].
      destruct (Hn i a Ha) as [[u Hu] _]. exists u, a. split; [now apply (HA i a)|]. split; [|assumption].
      apply (Hc a u); [now apply nth_error_In in Ha|assumption]. }
    split; [exact K|]. rewrite <- Hl, <- copy_from_gen. exact K.
  Qed.

  (** Generator and subscript. *)
  Theorem gen_subscript n (g : nat -> res A) v : gen n g = Ok v ->
    length v = n /\ forall i, (i < n)%nat -> subscript v (Z.of_nat i) = g i.
  Proof.
    intros H. apply gen_iff in H. destruct H as [Hl Hn]. split; [assumption|]. intros i Hi.
    destruct (Hn i Hi) as (a & Ea & Ha). unfold subscript. rewrite Nat2Z.id, (lane_some v i a Ha), Ea.
    assert (((0 <=? Z.of_nat i) && (Z.of_nat i <? Z.of_nat (length v))) = true) as -> by lia. reflexivity.
  Qed.

  Theorem subscript_gen (v : list A) : gen (length v) (fun i => subscript v (Z.of_nat i)) = Ok v.
  Proof.
    apply gen_iff. split; [reflexivity|]. intros i Hi. destruct (nth_lt v i Hi) as [a Ha]. exists a.
    split; [|assumption]. unfold subscript. rewrite Nat2Z.id, (lane_some v i a Ha).
    assert (((0 <=? Z.of_nat i) && (Z.of_nat i <? Z.of_nat (length v))) = true) as -> by lia. reflexivity.
  Qed.

  Theorem subscript_range (v : list A) i : subscript v i = Stop STrap <-> ~ (0 <= i < Z.of_nat (length v)).
  Proof.
    unfold subscript. destruct (Z.leb_spec 0 i), (Z.ltb_spec i (Z.of_nat (length v))); cbn [andb];
      try (split; [lia|reflexivity]).
    destruct (nth_lt v (Z.to_nat i) ltac:(lia)) as [a Ha]. rewrite (lane_some v _ a Ha). split; [discriminate|lia].
  Qed.

  Lemma set_lane_nth : forall (v : list A) i j x,
    nth_error (set_lane v i x) j = if (Nat.eqb i j) then match nth_error v j with Some _ => Some x | None => None end
                                   else nth_error v j.
  Proof.
    induction v as [|a v IH]; intros i j x.
    - cbn [set_lane]. destruct j; destruct (Nat.eqb i _); reflexivity.
    - destruct i as [|i], j as [|j]; cbn [set_lane nth_error Nat.eqb]; [reflexivity|reflexivity|reflexivity|apply IH].
  Qed.

  Theorem subscript_set_get (v : list A) i x w : subscript_set v i x = Ok w ->
    length w = length v /\ subscript w i = Ok x
    /\ forall j, j <> i -> subscript w j = subscript v j.
  Proof.
    unfold subscript_set. destruct (Z.leb_spec 0 i), (Z.ltb_spec i (Z.of_nat (length v))); cbn [andb]; try discriminate.
    intros E. injection E as <-.
    assert (L : length (set_lane v (Z.to_nat i) x) = length v).
    { generalize (Z.to_nat i) as n. clear. induction v as [|a v IH]; intros n; [reflexivity|].
      destruct n; cbn [set_lane length]; [reflexivity|]. now rewrite IH. }
    split; [exact L|]. split.
    - unfold subscript. rewrite L. destruct (Z.leb_spec 0 i), (Z.ltb_spec i (Z.of_nat (length v))); try lia. cbn [andb].
      destruct (nth_lt v (Z.to_nat i) ltac:(lia)) as [a Ha]. apply lane_some. rewrite set_lane_nth, Nat.eqb_refl, Ha.
      reflexivity.
    - intros j Hj. unfold subscript. rewrite L. destruct ((0 <=? j) && (j <? Z.of_nat (length v))) eqn:Ej; [|reflexivity].
      unfold lane. rewrite set_lane_nth. destruct (Nat.eqb_spec (Z.to_nat i) (Z.to_nat j)); [lia|reflexivity].
  Qed.

  Theorem broadcast_lanes n (a : A) : broadcast n a = Ok (repeat a n).
  Proof.
    apply gen_iff. split; [apply repeat_length|]. intros i Hi. exists a. split; [reflexivity|].
    revert i Hi. induction n as [|n IH]; intros i Hi; [lia|]. destruct i; [reflexivity|]. apply IH. lia.
  Qed.
End LoadStore.

(** ** C16 *)
Section Where.
  Context {A U : Type}.

  (** [r] equals [v] in the unselected lanes and is [f] of it in the selected ones. *)
  Definition where_result (k : list bool) (v : list A) (f : nat -> A -> res A) (r : list A) : Prop :=
    length r = length v
    /\ (forall i, nth_error k i = Some false -> nth_error r i = nth_error v i)
    /\ (forall i a, nth_error k i = Some true -> nth_error v i = Some a ->
          exists b, f i a = Ok b /\ nth_error r i = Some b).
  (** The operation has an error [s] in a selected lane. *)
  Definition selected_fault (k : list bool) (v : list A) (f : nat -> A -> res A) (s : stop) : Prop :=
    exists i a, nth_error k i = Some true /\ nth_error v i = Some a /\ f i a = Stop s.

  Lemma where_loop_map k (v : list A) (f : nat -> A -> res A) : length k = length v ->
    where_loop k v f
    = mapR (fun '(i, a) => bindR (lane k i) (fun b : bool => if b then f i a else Ok a)) (combine (seq 0 (length v)) v).
  Proof.
    intros H. unfold where_loop.
    apply (loop_indexed (fun i a => bindR (lane k i) (fun b : bool => if b then f i a else Ok a))).
    intros d a p. destruct (lane k (length d)) as [b|]; [|reflexivity]. cbn [bindR]. destruct b.
    - rewrite lane_app. cbn [bindR]. destruct (f (length d) a); [|reflexivity]. cbn [bindR]. now rewrite set_lane_app.
    - reflexivity.
  Qed.

  Lemma indexed_nth (v : list A) j i a : nth_error (combine (seq 0 (length v)) v) j = Some (i, a) <->
    i = j /\ nth_error v j = Some a.
  Proof.
    rewrite combine_nth_some. split; intros [H1 H2]; (split; [|assumption]).
    - rewrite seq_nth0 in H1; [congruence|]. apply nth_error_Some. congruence.
    - subst i. apply seq_nth0. apply nth_error_Some. congruence.
  Qed.

  Theorem where_loop_ok k (v : list A) f : length k = length v ->
    forall r, where_loop k v f = Ok r <-> where_result k v f r.
  Proof.
    intros Hk r. rewrite (where_loop_map k v f Hk), mapR_iff, combine_length, seq_length. unfold where_result.
    replace (Nat.min (length v) (length v)) with (length v) by lia. split.
    - intros [Hl Hn]. split; [assumption|].
      assert (Hn' : forall i a, nth_error v i = Some a -> exists y,
                 bindR (lane k i) (fun b : bool => if b then f i a else Ok a) = Ok y /\ nth_error r i = Some y).
      { intros i a Ha. apply (Hn i (i, a)). now apply indexed_nth. }
      split.
      + intros i Ki. destruct (nth_lt v i) as [a Ha]; [rewrite <- Hk; apply nth_error_Some; congruence|].
        destruct (Hn' i a Ha) as (y & Ey & Hy). rewrite (lane_some k i _ Ki) in Ey. cbn [bindR] in Ey. congruence.
      + intros i a Ki Ha. destruct (Hn' i a Ha) as (y & Ey & Hy). rewrite (lane_some k i _ Ki) in Ey.
        cbn [bindR] in Ey. eauto.
    - intros (Hl & Hf & Ht). split; [assumption|]. intros j [i a] Hj. apply indexed_nth in Hj. destruct Hj as [-> Ha].
      destruct (nth_lt k j) as [b Hb]; [rewrite Hk; apply nth_error_Some; congruence|].
      rewrite (lane_some k j b Hb). cbn [bindR]. destruct b.
      + destruct (Ht j a Hb Ha) as (y & Ey & Hy). eauto.
      + exists a. split; [reflexivity|]. now rewrite (Hf j Hb).
  Qed.

  Lemma mapR_stop_inv {B C} (f : B -> res C) : forall l s, mapR f l = Stop s ->
    exists j x, nth_error l j = Some x /\ f x = Stop s.
  Proof.
    induction l as [|x l IH]; intros s H; [discriminate|]. cbn [mapR] in H.
    destruct (f x) as [y|s'] eqn:E.
    - cbn [bindR] in H. destruct (mapR f l) as [ys|s''] eqn:El; [discriminate|]. cbn [bindR] in H. injection H as ->.
      destruct (IH s eq_refl) as (j & x' & Hj & Hf). exists (S j), x'. auto.
    - cbn [bindR] in H. injection H as ->. exists 0%nat, x. auto.
  Qed.

  Theorem where_loop_stop k v f s : length k = length v ->
    where_loop k v f = Stop s -> selected_fault k v f s.
  Proof.
    intros Hk H. rewrite (where_loop_map k v f Hk) in H. apply mapR_stop_inv in H.
    destruct H as (j & [i a] & Hj & E). apply indexed_nth in Hj. destruct Hj as [-> Ha].
    destruct (nth_lt k j) as [b Hb]; [rewrite Hk; apply nth_error_Some; congruence|].
    rewrite (lane_some k j b Hb) in E. cbn [bindR] in E. destruct b; [|discriminate]. exists j, a. auto.
  Qed.

  (** In the words of the property: defined as soon as the selected lanes are. *)
  Theorem where_loop_defined k v f : length k = length v ->
    (forall i a, nth_error k i = Some true -> nth_error v i = Some a -> exists b, f i a = Ok b) ->
    exists r, where_loop k v f = Ok r /\ where_result k v f r.
  Proof.
    intros Hk H. destruct (where_loop k v f) as [r|s] eqn:E.
    - exists r. split; [reflexivity|]. now apply (where_loop_ok k v f Hk).
    - exfalso. apply where_loop_stop in E; [|assumption]. destruct E as (i & a & Ki & Ha & Ef).
      destruct (H i a Ki Ha) as [b Eb]. congruence.
  Qed.

  (** Assignment: selected lanes take the lanes of the right operand. *)
  Theorem where_assign_result k (v rhs : list A) : length k = length v -> length rhs = length v ->
    exists r, where_assign k v rhs = Ok r /\ length r = length v
      /\ forall i, nth_error r i = match nth_error k i with Some true => nth_error rhs i | _ => nth_error v i end.
  Proof.
    intros Hk Hr. unfold where_assign. destruct (where_loop_defined k v (fun i _ => lane rhs i) Hk) as (r & E & Hl & Hf & Ht).
    - intros i a _ Ha. destruct (nth_lt rhs i) as [b Hb]; [rewrite Hr; apply nth_error_Some; congruence|].
      exists b. now apply lane_some.
    - exists r. split; [exact E|]. split; [exact Hl|]. intros i. destruct (nth_error k i) as [[|]|] eqn:Ki.
      + destruct (nth_lt v i) as [a Ha]; [rewrite <- Hk; apply nth_error_Some; congruence|].
        destruct (Ht i a Ki Ha) as (b & Eb & Hb). apply lane_inv in Eb. congruence.
      + now apply Hf.
      + apply nth_error_None in Ki. rewrite (proj2 (nth_error_None r i)) by lia. symmetry. apply nth_error_None. lia.
  Qed.

  (** op=: undefined only through a selected lane. *)
  Theorem where_op_result (op : A -> A -> res A) k v rhs : length k = length v -> length rhs = length v ->
    (forall r, where_op op k v rhs = Ok r <->
       length r = length v
       /\ (forall i, nth_error k i = Some false -> nth_error r i = nth_error v i)
       /\ (forall i a b, nth_error k i = Some true -> nth_error v i = Some a -> nth_error rhs i = Some b ->
             exists c, op a b = Ok c /\ nth_error r i = Some c))
    /\ (forall s, where_op op k v rhs = Stop s ->
          exists i a b, nth_error k i = Some true /\ nth_error v i = Some a /\ nth_error rhs i = Some b /\ op a b = Stop s).
  Proof.
    intros Hk Hr. split.
    - intros r. unfold where_op. rewrite (where_loop_ok k v _ Hk). unfold where_result.
      split; intros (Hl & Hf & Ht); (split; [assumption|]; split; [assumption|]).
      + intros i a b Ki Ha Hb. destruct (Ht i a Ki Ha) as (c & Ec & Hc). rewrite (lane_some rhs i b Hb) in Ec.
        cbn [bindR] in Ec. eauto.
      + intros i a Ki Ha. destruct (nth_lt rhs i) as [b Hb]; [rewrite Hr; apply nth_error_Some; congruence|].
        destruct (Ht i a b Ki Ha Hb) as (c & Ec & Hc). exists c. rewrite (lane_some rhs i b Hb). auto.
    - intros s H. apply where_loop_stop in H; [|assumption]. destruct H as (i & a & Ki & Ha & E).
      destruct (nth_lt rhs i) as [b Hb]; [rewrite Hr; apply nth_error_Some; congruence|].
      rewrite (lane_some rhs i b Hb) in E. exists i, a, b. auto.
  Qed.

  Theorem where_step_result (step : A -> res A) k v : length k = length v ->
    (forall r, where_step step k v = Ok r <->
       length r = length v
       /\ (forall i, nth_error k i = Some false -> nth_error r i = nth_error v i)
       /\ (forall i a, nth_error k i = Some true -> nth_error v i = Some a ->
             exists c, step a = Ok c /\ nth_error r i = Some c))
    /\ (forall s, where_step step k v = Stop s ->
          exists i a, nth_error k i = Some true /\ nth_error v i = Some a /\ step a = Stop s).
  Proof.
    intros Hk. split; [intros r; exact (where_loop_ok k v (fun _ a => step a) Hk r)|].
    intros s H. exact (where_loop_stop k v (fun _ a => step a) s Hk H).
  Qed.

  (** The const forms return the value that the modifying forms store. *)
  Theorem c_where_is_where (neg : A -> res A) (from_mem : U -> res A) k v m p : length k = length v ->
    c_where_neg neg k v = where_step neg k v
    /\ c_where_copy_from from_mem k v m p = where_copy_from from_mem k v m p.
  Proof.
    intros Hk. unfold where_step, where_copy_from. rewrite !(where_loop_map k v _ Hk).
    assert (K : forall f : nat -> A -> res A,
      mapR (fun '(i, a) => bindR (lane k i) (fun b : bool => if b then f i a else Ok a)) (combine (seq 0 (length v)) v)
      = gen (length v) (fun i => bindR (lane v i) (fun a => bindR (lane k i) (fun b : bool => if b then f i a else Ok a)))).
    { intros f. symmetry. exact (gen_indexed (fun i a => bindR (lane k i) (fun b : bool => if b then f i a else Ok a)) v). }
    rewrite !K. unfold c_where_neg, c_where_copy_from, gen. split; apply mapR_ext'; intros i Hi; apply in_seq in Hi;
      (destruct (nth_lt v i ltac:(lia)) as [a Ha]); rewrite (lane_some v i a Ha); cbn [bindR];
      (destruct (lane k i) as [[|]|]; reflexivity).
  Qed.

  (** where(k, k) op= x behaves like where(copy of k, k) op= x. *)
  Theorem where_self_is_where (op : bool -> bool -> res bool) (k rhs : list bool) :
    where_self op k rhs
    = loop 0 (length k) (fun i cur => bindR (lane k i) (fun b : bool =>
        if b then bindR (lane cur i) (fun a => bindR (bindR (lane rhs i) (op a)) (fun r => Ok (set_lane cur i r)))
        else Ok cur)) k.
  Proof.
    unfold where_self. rewrite (loop_indexed (fun i a => if (a : bool) then bindR (lane rhs i) (op a) else Ok a)).
    - symmetry.
      rewrite (loop_indexed (fun i a => bindR (lane k i) (fun b : bool => if b then bindR (lane rhs i) (op a) else Ok a))).
      + apply mapR_ext'. intros [i a] Hin. apply In_nth_error in Hin. destruct Hin as [j Hj].
        apply combine_nth_some in Hj. destruct Hj as [H1 H2].
        rewrite seq_nth0 in H1 by (apply nth_error_Some; congruence). injection H1 as <-.
        rewrite (lane_some k j a H2). cbn [bindR]. reflexivity.
      + intros d a p. destruct (lane k (length d)) as [[|]|]; cbn [bindR]; [|reflexivity|reflexivity].
        rewrite lane_app. cbn [bindR]. destruct (bindR (lane rhs (length d)) (op a)); [|reflexivity].
        cbn [bindR]. now rewrite set_lane_app.
    - intros d a p. rewrite lane_app. cbn [bindR]. destruct a; [|reflexivity].
      destruct (bindR (lane rhs (length d)) (op true)); [|reflexivity]. cbn [bindR]. now rewrite set_lane_app.
  Qed.

  (** The bool specialisation is the one-lane case. *)
  Theorem bool_where_is_where (op : A -> A -> res A) (step neg : A -> res A) (from_mem : U -> res A)
      (to_mem : A -> res U) k (v x : A) m p :
    where_assign [k] [v] [x] = bindR (b_where_assign k v x) (fun r => Ok [r])
    /\ where_op op [k] [v] [x] = bindR (b_where_op op k v x) (fun r => Ok [r])
    /\ where_step step [k] [v] = bindR (b_where_step step k v) (fun r => Ok [r])
    /\ c_where_neg neg [k] [v] = bindR (b_c_where_neg neg k v) (fun r => Ok [r])
    /\ where_copy_from from_mem [k] [v] m p = bindR (b_where_copy_from from_mem k v m p) (fun r => Ok [r])
    /\ where_copy_to to_mem [k] [v] m p = b_where_copy_to to_mem k v m p.
  Proof.
    assert (L : forall r : res A, bindR (bindR r (fun r' => Ok [r'])) (fun s => Ok s) = bindR r (fun r' => Ok [r']))
      by (intros [|]; reflexivity).
    destruct k; cbv -[bindR mem_at write]; repeat apply conj; try reflexivity.
    all: cbn [bindR]; try reflexivity.
    - destruct (op v x); reflexivity.
    - destruct (step v); reflexivity.
    - destruct (mem_at m p 0) as [u|]; [|reflexivity]. cbn [bindR]. destruct (from_mem u); reflexivity.
    - destruct (to_mem v) as [u|]; [|reflexivity]. cbn [bindR]. destruct (write m p 0 u); reflexivity.
  Qed.

  (** ** C17 *)

  Definition selected (k : list bool) (p q : Z) : Prop :=
    exists i, nth_error k i = Some true /\ q = p + Z.of_nat i.

  (** Masked load: reads exactly the selected addresses. *)
  Theorem where_copy_from_result (from_mem : U -> res A) k v m p : length k = length v ->
    forall r, where_copy_from from_mem k v m p = Ok r <->
      length r = length v
      /\ (forall i, nth_error k i = Some false -> nth_error r i = nth_error v i)
      /\ (forall i, nth_error k i = Some true ->
            exists u a, m (p + Z.of_nat i) = Some u /\ from_mem u = Ok a /\ nth_error r i = Some a).
  Proof.
    intros Hk r. unfold where_copy_from. rewrite (where_loop_ok k v _ Hk). unfold where_result.
    split; intros (Hl & Hf & Ht); (split; [assumption|]; split; [assumption|]).
    - intros i Ki. destruct (nth_lt v i) as [a Ha]; [rewrite <- Hk; apply nth_error_Some; congruence|].
      destruct (Ht i a Ki Ha) as (b & Eb & Hb). destruct (mem_at m p i) as [u|] eqn:Eu; [|discriminate].
      apply mem_at_ok in Eu. cbn [bindR] in Eb. eauto.
    - intros i a Ki Ha. destruct (Ht i Ki) as (u & b & Eu & Eb & Hb). apply mem_at_ok in Eu. exists b.
      rewrite Eu. auto.
  Qed.

  Theorem where_copy_from_frame (from_mem : U -> res A) k v m m' p : length k = length v ->
    (forall q, selected k p q -> m' q = m q) ->
    where_copy_from from_mem k v m' p = where_copy_from from_mem k v m p.
  Proof.
    intros Hk H. unfold where_copy_from. rewrite !(where_loop_map k v _ Hk). apply mapR_ext'. intros [i a] Hin.
    destruct (lane k i) as [[|]|] eqn:Ki; cbn [bindR]; [|reflexivity|reflexivity]. apply lane_inv in Ki.
    unfold mem_at. rewrite H; [reflexivity|]. exists i. auto.
  Qed.

  (** Masked store: needs and writes exactly the selected addresses. *)
  Theorem where_copy_to_writes (to_mem : A -> res U) k v m p : length k = length v ->
    (forall i a, nth_error k i = Some true -> nth_error v i = Some a ->
       (exists u, to_mem a = Ok u) /\ m (p + Z.of_nat i) <> None) ->
    exists m', where_copy_to to_mem k v m p = Ok m'
      /\ (forall i a u, nth_error k i = Some true -> nth_error v i = Some a -> to_mem a = Ok u ->
            m' (p + Z.of_nat i) = Some u)
      /\ (forall q, ~ selected k p q -> m' q = m q).
  Proof.
    intros Hk H.
    pose (sel i := bindR (lane k i) (fun b : bool => if b then bindR (lane v i) (fun a => bindR (to_mem a) (fun u => Ok (Some u))) else Ok None)).
    assert (SE : forall i, (i < length v)%nat -> exists b a, nth_error k i = Some b /\ nth_error v i = Some a
              /\ sel i = if b then bindR (to_mem a) (fun u => Ok (Some u)) else Ok None).
    { intros i Hi. destruct (nth_lt v i Hi) as [a Ha]. destruct (nth_lt k i ltac:(lia)) as [b Hb]. exists b, a.
      split; [assumption|]. split; [assumption|]. unfold sel. rewrite (lane_some k i b Hb). cbn [bindR].
      destruct b; [|reflexivity]. rewrite (lane_some v i a Ha). reflexivity. }
    destruct (store_loop_ok sel p (length v) 0 m) as (m' & E & HA & HB).
    - intros i Hi. destruct (SE i ltac:(lia)) as (b & a & Hb & Ha & Es). rewrite Es. destruct b.
      + destruct (H i a Hb Ha) as [[u Hu] Hm]. exists (Some u). rewrite Hu. split; [reflexivity|auto].
      + exists None. split; [reflexivity|discriminate].
    - exists m'. split; [|split].
      + rewrite <- E. unfold where_copy_to. apply loop_ext. intros j s Hj. unfold sel.
        destruct (lane k j) as [[|]|]; cbn [bindR]; [|reflexivity|reflexivity].
        destruct (lane v j) as [a|]; [|reflexivity]. cbn [bindR]. destruct (to_mem a); reflexivity.
      + intros i a u Hb Ha Hu. assert (Hi : (i < length v)%nat) by (apply nth_error_Some; congruence).
        apply (HA i u); [lia|]. unfold sel. rewrite (lane_some k i _ Hb). cbn [bindR].
        rewrite (lane_some v i a Ha). cbn [bindR]. now rewrite Hu.
      + intros q Hq. apply HB. intros i u Hi Es E'. apply Hq. destruct (SE i ltac:(lia)) as (b & a & Hb & Ha & Es').
        exists i. split; [|exact E']. destruct b; [assumption|congruence].
  Qed.

  Theorem where_copy_to_needs (to_mem : A -> res U) k v m p m' : length k = length v ->
    where_copy_to to_mem k v m p = Ok m' ->
    forall i a, nth_error k i = Some true -> nth_error v i = Some a -> (exists u, to_mem a = Ok u) /\ m (p + Z.of_nat i) <> None.
  Proof.
    intros Hk H i a Ki Ha.
    pose (sel i := bindR (lane k i) (fun b : bool => if b then bindR (lane v i) (fun a => bindR (to_mem a) (fun u => Ok (Some u))) else Ok None)).
    assert (Hi : (i < length v)%nat) by (apply nth_error_Some; congruence).
    destruct (store_loop_inv sel p (length v) 0 m m') with (i := i) as (o & Eo & Ho); [|lia|].
    - rewrite <- H. unfold where_copy_to. apply loop_ext. intros j s Hj. unfold sel.
      destruct (lane k j) as [[|]|]; cbn [bindR]; [|reflexivity|reflexivity].
      destruct (lane v j) as [b|]; [|reflexivity]. cbn [bindR]. destruct (to_mem b); reflexivity.
    - unfold sel in Eo. rewrite (lane_some k i _ Ki) in Eo. cbn [bindR] in Eo. rewrite (lane_some v i a Ha) in Eo.
      cbn [bindR] in Eo. destruct (to_mem a) as [u|]; [|discriminate]. cbn [bindR] in Eo. injection Eo as <-.
      split; [eauto|]. now apply (Ho u).
  Qed.
End Where.

(** Masked loads of simd_mask. *)
Theorem mask_load_masked_result m p k r : mask_load_ctor_masked m p k = Ok r <->
  length r = length k
  /\ (forall i, nth_error k i = Some false -> nth_error r i = Some false)
  /\ (forall i, nth_error k i = Some true -> exists b, m (p + Z.of_nat i) = Some b /\ nth_error r i = Some b).
Proof.
  unfold mask_load_ctor_masked. rewrite gen_iff. split.
  - intros [Hl Hn]. split; [assumption|]. split; intros i Ki;
      (assert (Hi : (i < length k)%nat) by (apply nth_error_Some; congruence));
      destruct (Hn i Hi) as (b & Eb & Hb); rewrite (lane_some k i _ Ki) in Eb; cbn [bindR] in Eb.
    + congruence.
    + apply mem_at_ok in Eb. eauto.
  - intros (Hl & Hf & Ht). split; [assumption|]. intros i Hi. destruct (nth_lt k i Hi) as [b Hb].
    rewrite (lane_some k i b Hb). cbn [bindR]. destruct b.
    + destruct (Ht i Hb) as (c & Ec & Hc). apply mem_at_ok in Ec. eauto.
    + exists false. split; [reflexivity|]. now apply Hf.
Qed.

Theorem mask_load_masked_frame m m' p k : (forall q, selected k p q -> m' q = m q) ->
  mask_load_ctor_masked m' p k = mask_load_ctor_masked m p k.
Proof.
  intros H. unfold mask_load_ctor_masked, gen. apply mapR_ext'. intros i Hi. apply in_seq in Hi.
  destruct (lane k i) as [[|]|] eqn:Ki; cbn [bindR]; [|reflexivity|reflexivity]. apply lane_inv in Ki.
  unfold mem_at. rewrite H; [reflexivity|]. exists i. auto.
Qed.

(** A memory with elements 10, 11, ..., 19 at 0..9. *)
Definition demo_mem : mem Z := fun q => if (0 <=? q) && (q <? 10) then Some (10 + q) else None.
Definition demo_id : Z -> res Z := fun a => Ok a.
