(** Proofs about split, concat, resize, casts, iota, bitset, min/max (C19, C35, C37-C40). *)
From Verif Require Import Base BaseFacts LaneModel LaneProofs WhereModel WhereProofs ShapeModel IntModel IntProofs.
From Coq Require Import ZifyBool ZifyNat.
Ltac Zify.zify_post_hook ::= idtac.

Lemma subscript_some {A} (v : list A) i a : nth_error v i = Some a -> subscript v (Z.of_nat i) = Ok a.
Proof.
  intros H. assert (i < length v)%nat by (apply nth_error_Some; congruence). unfold subscript. rewrite Nat2Z.id.
  assert (((0 <=? Z.of_nat i) && (Z.of_nat i <? Z.of_nat (length v))) = true) as -> by lia. now apply lane_some.
Qed.

Lemma subscript_inv {A} (v : list A) i a : subscript v (Z.of_nat i) = Ok a -> nth_error v i = Some a.
Proof.
  unfold subscript. rewrite Nat2Z.id. destruct ((0 <=? Z.of_nat i) && _); [apply lane_inv|discriminate].
Qed.

Lemma nth_skipn {A} n : forall (v : list A) i, nth_error (skipn n v) i = nth_error v (n + i).
Proof.
  induction n as [|n IH]; intros v i; [reflexivity|]. destruct v as [|a v]; [now rewrite skipn_nil; destruct i|].
  cbn [skipn Nat.add nth_error]. apply IH.
Qed.

Lemma nth_firstn {A} n : forall (v : list A) i, (i < n)%nat -> nth_error (firstn n v) i = nth_error v i.
Proof.
  induction n as [|n IH]; intros v i H; [lia|]. destruct v as [|a v]; [reflexivity|].
  destruct i as [|i]; [reflexivity|]. cbn [firstn nth_error]. apply IH. lia.
Qed.

(** ** C19 *)
Section SplitConcat.
  Context {A : Type}.

  (** Specification: the part of [v] that starts at [o] and has [s] lanes. *)
  Definition segment (v : list A) (o s : nat) : list A := firstn s (skipn o v).

  Lemma segment_spec (v : list A) o s : (o + s <= length v)%nat ->
    length (segment v o s) = s /\ forall j, (j < s)%nat -> nth_error (segment v o s) j = nth_error v (o + j).
  Proof.
    intros H. unfold segment. split.
    - rewrite firstn_length, skipn_length. lia.
    - intros j Hj. rewrite nth_firstn by assumption. apply nth_skipn.
  Qed.

  Lemma part_segment (v : list A) o s : (o + s <= length v)%nat -> part v o s = Ok (segment v o s).
  Proof.
    intros H. destruct (segment_spec v o s H) as [Hl Hn]. unfold part, load_ctor. apply gen_iff.
    split; [assumption|]. intros j Hj. destruct (nth_lt v (o + j) ltac:(lia)) as [a Ha]. exists a.
    rewrite Hn by assumption. split; [|assumption]. unfold mem_at, data_mem, of_option.
    destruct (Z.leb_spec 0 (Z.of_nat o + Z.of_nat j)); [|lia].
    replace (Z.to_nat (Z.of_nat o + Z.of_nat j)) with (o + j)%nat by lia. rewrite Ha. reflexivity.
  Qed.

  (** The recursive meaning of splitting into sizes. *)
  Fixpoint split_rec (sizes : list nat) (v : list A) : list (list A) :=
    match sizes with [] => [] | s :: sizes' => firstn s v :: split_rec sizes' (skipn s v) end.

  Lemma list_sum_app l l' : list_sum (l ++ l') = (list_sum l + list_sum l')%nat.
  Proof. induction l as [|x l IH]; [reflexivity|]. cbn [app list_sum fold_right] in *. unfold list_sum in *. lia. Qed.

  Lemma split_sizes_from sizes : forall done d v, length d = list_sum done -> length v = list_sum sizes ->
    mapR (fun i => bindR (lane (done ++ sizes) i) (fun s => part (d ++ v) (list_sum (firstn i (done ++ sizes))) s))
         (seq (length done) (length sizes))
    = Ok (split_rec sizes v).
  Proof.
    induction sizes as [|s sizes IH]; intros done d v Hd Hv; [reflexivity|]. cbn [length seq mapR split_rec].
    rewrite lane_app. cbn [bindR]. rewrite firstn_app, firstn_all, Nat.sub_diag. cbn [firstn]. rewrite app_nil_r.
    cbn [list_sum fold_right] in Hv. fold (list_sum sizes) in Hv.
    rewrite part_segment by (rewrite app_length; lia). cbn [bindR]. unfold segment.
    replace (skipn (list_sum done) (d ++ v)) with v
      by (rewrite <- Hd, skipn_app, skipn_all, Nat.sub_diag; reflexivity).
    specialize (IH (done ++ [s]) (d ++ firstn s v) (skipn s v)).
    rewrite <- !app_assoc, firstn_skipn in IH. cbn [app] in IH.
    replace (length (done ++ [s])) with (S (length done)) in IH by (rewrite app_length; cbn [length]; lia). rewrite IH; [reflexivity| |].
    - rewrite app_length, firstn_length, list_sum_app. cbn [list_sum fold_right]. lia.
    - rewrite skipn_length. lia.
  Qed.

  Lemma split_sizes_ok sizes (v : list A) : length v = list_sum sizes -> split_sizes sizes v = Ok (split_rec sizes v).
  Proof.
    intros H. unfold split_sizes. rewrite H, Nat.eqb_refl. exact (split_sizes_from sizes [] [] v eq_refl H).
  Qed.

  Lemma split_rec_nth sizes : forall v k s, length v = list_sum sizes -> nth_error sizes k = Some s ->
    nth_error (split_rec sizes v) k = Some (segment v (list_sum (firstn k sizes)) s).
  Proof.
    induction sizes as [|s0 sizes IH]; intros v k s Hv Hk; [now destruct k|].
    cbn [list_sum fold_right] in Hv. fold (list_sum sizes) in Hv.
    destruct k as [|k]; cbn [nth_error split_rec firstn].
    - injection Hk as ->. reflexivity.
    - rewrite (IH (skipn s0 v) k s) by (rewrite ?skipn_length; auto; lia). unfold segment. cbn [list_sum fold_right].
      fold (list_sum (firstn k sizes)). now rewrite skipn_skipn', Nat.add_comm.
  Qed.

  Lemma split_rec_length sizes : forall v, length (split_rec sizes v) = length sizes.
  Proof. induction sizes as [|s sizes IH]; intros v; [reflexivity|]. cbn [split_rec length]. now rewrite IH. Qed.

  (** split<Sizes...>: part k has Sizes[k] lanes, the consecutive ones after the previous parts. *)
  Theorem split_sizes_parts sizes (v : list A) : length v = list_sum sizes ->
    exists parts, split_sizes sizes v = Ok parts /\ length parts = length sizes
      /\ forall k s, nth_error sizes k = Some s -> exists part, nth_error parts k = Some part /\ length part = s
           /\ forall j, (j < s)%nat -> nth_error part j = nth_error v (list_sum (firstn k sizes) + j).
  Proof.
    intros H. exists (split_rec sizes v). split; [now apply split_sizes_ok|]. split; [apply split_rec_length|].
    intros k s Hk. exists (segment v (list_sum (firstn k sizes)) s). split; [now apply split_rec_nth|].
    apply segment_spec. rewrite H. rewrite <- (firstn_skipn k sizes) at 2. rewrite list_sum_app.
    assert (exists l, skipn k sizes = s :: l) as [l ->].
    { clear H. revert k Hk. induction sizes as [|s0 sizes IH]; intros k Hk; [now destruct k|].
      destruct k as [|k]; [injection Hk as ->; cbn; eauto|]. apply IH. exact Hk. }
    cbn [list_sum fold_right]. lia.
  Qed.

  Lemma pack_subscript_concat xs : forall i a, nth_error (concat xs) i = Some a -> @pack_simd_subscript A i xs = Ok a.
  Proof.
    induction xs as [|x xs IH]; intros i a H; [now destruct i|]. cbn [concat pack_simd_subscript] in *.
    destruct (Nat.leb_spec (length x) i).
    - rewrite nth_error_app2 in H by assumption. now apply IH.
    - rewrite nth_error_app1 in H by assumption. now apply subscript_some.
  Qed.

  Lemma concat_length (xs : list (list A)) : length (concat xs) = list_sum (map (@length A) xs).
  Proof.
    induction xs as [|x xs IH]; [reflexivity|]. cbn [concat map list_sum fold_right]. rewrite app_length, IH. reflexivity.
  Qed.

  (** concat: the lanes one after the other. *)
  Theorem concat_pack_ok (xs : list (list A)) : concat_pack xs = Ok (concat xs).
  Proof.
    unfold concat_pack. apply gen_iff. split; [apply concat_length|]. intros i Hi. rewrite <- concat_length in Hi.
    destruct (nth_lt _ i Hi) as [a Ha]. exists a. split; [|assumption]. now apply pack_subscript_concat.
  Qed.

  Lemma concat_split_rec sizes : forall v, length v = list_sum sizes -> concat (split_rec sizes v) = v.
  Proof.
    induction sizes as [|s sizes IH]; intros v H.
    - destruct v; [reflexivity|discriminate].
    - cbn [list_sum fold_right] in H. fold (list_sum sizes) in H. cbn [split_rec concat].
      rewrite IH by (rewrite skipn_length; lia). apply firstn_skipn.
  Qed.

  Theorem concat_split sizes (v : list A) parts : split_sizes sizes v = Ok parts -> concat_pack parts = Ok v.
  Proof.
    intros H. assert (Hl : length v = list_sum sizes).
    { unfold split_sizes in H. destruct (Nat.eqb_spec (length v) (list_sum sizes)); [assumption|discriminate]. }
    rewrite split_sizes_ok in H by assumption. injection H as <-. rewrite concat_pack_ok. f_equal.
    now apply concat_split_rec.
  Qed.

  Theorem split_concat (xs : list (list A)) v : concat_pack xs = Ok v -> split_sizes (map (@length A) xs) v = Ok xs.
  Proof.
    rewrite concat_pack_ok. intros H. injection H as <-. rewrite split_sizes_ok by apply concat_length. f_equal.
    induction xs as [|x xs IH]; [reflexivity|]. cbn [map split_rec concat].
    rewrite firstn_app, firstn_all, Nat.sub_diag, skipn_app, skipn_all, Nat.sub_diag. cbn [firstn skipn app].
    rewrite app_nil_r. now rewrite IH.
  Qed.

  Lemma list_sum_repeat k n : list_sum (repeat k n) = (n * k)%nat.
  Proof. induction n as [|n IH]; [reflexivity|]. cbn [repeat list_sum fold_right]. fold (list_sum (repeat k n)). lia. Qed.

  Lemma firstn_repeat (k : nat) : forall n i, (i <= n)%nat -> firstn i (repeat k n) = repeat k i.
  Proof.
    induction n as [|n IH]; intros i H; [now replace i with 0%nat by lia|].
    destruct i as [|i]; [reflexivity|]. cbn [repeat firstn]. now rewrite IH by lia.
  Qed.

  (** The array forms. *)
  Theorem split_array_is_split_sizes vs (v : list A) n : (0 < vs)%nat -> length v = (n * vs)%nat ->
    split_array vs v = split_sizes (repeat vs n) v.
  Proof.
    intros Hvs Hl. unfold split_array, split_sizes. rewrite list_sum_repeat, Hl, Nat.div_mul, !Nat.eqb_refl by lia.
    destruct (Nat.ltb_spec 0 vs); [|lia]. cbn [andb]. rewrite repeat_length. apply mapR_ext'. intros i Hi.
    apply in_seq in Hi. rewrite firstn_repeat, list_sum_repeat by lia. unfold lane.
    rewrite (nth_error_nth' _ vs) by (rewrite repeat_length; lia). rewrite nth_repeat. reflexivity.
  Qed.

  Theorem split_array_ill_formed vs (v : list A) : (0 < vs)%nat ->
    split_array vs v = Stop SIllFormed <-> (length v mod vs <> 0)%nat.
  Proof.
    intros Hvs. unfold split_array. destruct (Nat.ltb_spec 0 vs); [|lia]. cbn [andb].
    pose proof (Nat.div_mod (length v) vs ltac:(lia)) as Hd.
    destruct (Nat.eqb_spec (length v) (length v / vs * vs)) as [E|N].
    - split; [|intros N; exfalso; apply N; lia]. intros H'. exfalso.
      pose proof (split_array_is_split_sizes vs v (length v / vs) Hvs E) as Hs. unfold split_array in Hs.
      rewrite <- E, Nat.eqb_refl in Hs. destruct (Nat.ltb_spec 0 vs); [|lia]. cbn [andb] in Hs. rewrite Hs in H'.
      rewrite split_sizes_ok in H' by (rewrite list_sum_repeat; lia). discriminate.
    - split; [|reflexivity]. intros _ E. apply N. lia.
  Qed.

  Theorem concat_array_is_concat K (x : list (list A)) : (0 < K)%nat -> (forall y, In y x -> length y = K) ->
    concat_array K x = concat_pack x.
  Proof.
    intros HK Hx. rewrite concat_pack_ok. unfold concat_array.
    assert (Hlen : length (concat x) = (length x * K)%nat).
    { clear - Hx. induction x as [|y x IH]; [reflexivity|]. cbn [concat length]. rewrite app_length, IH, (Hx y).
      - lia.
      - now left.
      - intros z Hz. apply Hx. now right. }
    apply gen_iff. split; [assumption|]. intros i Hi. rewrite <- Hlen in Hi. destruct (nth_lt _ i Hi) as [a Ha].
    exists a. split; [|assumption]. clear Hi Hlen. revert i Ha. induction x as [|y x IH]; intros i Ha; [now destruct i|].
    cbn [concat] in Ha. assert (Hy : length y = K) by (apply Hx; now left).
    destruct (Nat.lt_ge_cases i K) as [Hlt|Hge].
    - rewrite nth_error_app1 in Ha by lia. rewrite Nat.div_small, Nat.mod_small by assumption. cbn [lane nth_error of_option bindR].
      now apply subscript_some.
    - rewrite nth_error_app2 in Ha by lia. rewrite Hy in Ha.
      specialize (IH (fun z Hz => Hx z (or_intror Hz)) (i - K)%nat Ha).
      replace i with (i - K + 1 * K)%nat by lia. rewrite Nat.div_add, Nat.mod_add by lia.
      rewrite Nat.add_1_r. exact IH.
  Qed.

  Theorem split_same_ok (v : list A) : split_same v = [v] /\ concat_pack (split_same v) = Ok v
    /\ split_sizes [length v] v = Ok (split_same v).
  Proof.
    split; [reflexivity|]. split; [rewrite concat_pack_ok; unfold split_same; cbn [concat]; now rewrite app_nil_r|].
    rewrite split_sizes_ok by (cbn; lia). cbn [split_rec]. now rewrite firstn_all.
  Qed.

  (** ** C37 *)

  Theorem resize_lanes (zero : A) n x : exists r, simd_resize zero n x = Ok r /\ simd_size_cast zero n x = Ok r
    /\ length r = n
    /\ (forall i, (i < n)%nat -> (i < length x)%nat -> nth_error r i = nth_error x i)
    /\ (forall i, (i < n)%nat -> (length x <= i)%nat -> nth_error r i = Some zero).
  Proof.
    set (g := fun i => if (i <? length x)%nat then nth i x zero else zero).
    exists (map g (seq 0 n)).
    assert (N : forall i, (i < n)%nat -> nth_error (map g (seq 0 n)) i = Some (g i)).
    { intros i Hi. apply map_nth_error. now apply seq_nth0. }
    assert (E : simd_resize zero n x = Ok (map g (seq 0 n))).
    { apply gen_iff. split; [now rewrite map_length, seq_length|]. intros i Hi. exists (g i). split; [|now apply N].
      unfold g. destruct (Nat.ltb_spec i (length x)); [|reflexivity].
      apply subscript_some. now apply nth_error_nth'. }
    split; [exact E|]. split; [exact E|]. split; [now rewrite map_length, seq_length|].
    split; intros i Hi Hx; rewrite (N i Hi); unfold g; destruct (Nat.ltb_spec i (length x)); try lia.
    - symmetry. now apply nth_error_nth'.
    - reflexivity.
  Qed.

  Theorem resize_grow_shrink (zero zero' : A) n x w : (length x <= n)%nat -> simd_resize zero n x = Ok w ->
    simd_resize zero' (length x) w = Ok x.
  Proof.
    intros Hn E. destruct (resize_lanes zero n x) as (r & Er & _ & Hl & Hlow & _). assert (r = w) by congruence. subst r.
    destruct (resize_lanes zero' (length x) w) as (r & Er' & _ & Hl' & Hlow' & _). rewrite Er'. f_equal.
    apply nth_error_ext. intros i. destruct (Nat.lt_ge_cases i (length x)) as [Hi|Hi].
    - rewrite Hlow' by lia. apply Hlow; lia.
    - rewrite (proj2 (nth_error_None r i)) by lia. symmetry. apply nth_error_None. assumption.
  Qed.

  (** ** C38 *)

  Theorem to_fixed_size_same (x : list A) : to_fixed_size x = x
    /\ (length x = 1%nat -> to_fixed_size_native x = Ok x).
  Proof. split; [reflexivity|]. destruct x as [|a [|b x]]; try discriminate. reflexivity. Qed.

  Theorem to_native_large sizeofT (x : list A) : 8 < sizeofT -> length x = 1%nat ->
    to_native sizeofT x = Ok x /\ to_compatible sizeofT x = Ok x.
  Proof.
    intros Hs Hl. assert (E : to_native sizeofT x = Ok x); [|split; exact E].
    destruct x as [|a [|b x]]; try discriminate. unfold to_native, compatible_size.
    destruct (Z.ltb_spec 8 sizeofT); [|lia]. reflexivity.
  Qed.

  (** The number of lanes of the result, in general. *)
  Theorem to_native_lanes sizeofT (a : A) : to_native sizeofT [a] = Ok (repeat a (compatible_size sizeofT)).
  Proof. unfold to_native. cbn [length Nat.eqb subscript lane nth_error of_option bindR]. apply broadcast_lanes. Qed.
End SplitConcat.

Theorem to_native_refuted : exists sizeofT (x r : list Z), length x = 1%nat
  /\ to_native sizeofT x = Ok r /\ length r <> length x.
Proof. exists 4, [7], [7; 7; 7; 7]. split; [reflexivity|]. split; [vm_compute; reflexivity|discriminate]. Qed.

(** Lane-wise conversion. *)
Definition converted {A B} (cv : A -> res B) (x : list A) (r : list B) : Prop :=
  length r = length x /\ forall i a, nth_error x i = Some a -> exists b, cv a = Ok b /\ nth_error r i = Some b.

Theorem static_simd_cast_lanes {A B} (cv : A -> res B) x r : static_simd_cast cv x = Ok r <-> converted cv x r.
Proof.
  unfold static_simd_cast, converted. rewrite gen_iff. split; intros [Hl Hn]; (split; [assumption|]).
  - intros i a Ha. assert (Hi : (i < length x)%nat) by (apply nth_error_Some; congruence).
    destruct (Hn i Hi) as (b & Eb & Hb). rewrite (subscript_some x i a Ha) in Eb. eauto.
  - intros i Hi. destruct (nth_lt x i Hi) as [a Ha]. destruct (Hn i a Ha) as (b & Eb & Hb). exists b.
    rewrite (subscript_some x i a Ha). auto.
Qed.

Theorem static_simd_cast_to_same {A B} (cv : A -> res B) x :
  static_simd_cast_to cv (length x) x = static_simd_cast cv x.
Proof. reflexivity. Qed.

Theorem static_mask_cast_lanes n x r : static_mask_cast_to n x = Ok r <-> n = length x /\ r = x.
Proof.
  unfold static_mask_cast_to. destruct (Nat.eqb_spec n (length x)) as [->|N].
  - rewrite subscript_gen. split; [intros H; injection H as <-; auto|intros [_ ->]; reflexivity].
  - split; [discriminate|intros [H _]; congruence].
Qed.

Theorem static_mask_cast_lanes_abi (x : list bool) : static_simd_cast (fun b : bool => Ok b) x = Ok x.
Proof. apply static_simd_cast_lanes. split; [reflexivity|]. intros i a Ha. eauto. Qed.

(** A target type with fewer lanes drops lanes silently; one with more fails a precondition. *)
Theorem static_simd_cast_to_refuted : exists n (x r : list Z),
  static_simd_cast_to (fun a => Ok a) n x = Ok r /\ length r <> length x.
Proof. exists 2%nat, [1; 2; 3; 4], [1; 2]. split; [vm_compute; reflexivity|discriminate]. Qed.

Theorem static_simd_cast_to_larger {A B} (cv : A -> res B) n x : (length x < n)%nat ->
  forall r, static_simd_cast_to cv n x <> Ok r.
Proof.
  intros Hn r H. apply gen_iff in H. destruct H as [_ H]. destruct (H (length x) Hn) as (b & Eb & _).
  rewrite (proj2 (subscript_range x (Z.of_nat (length x)))) in Eb by lia. discriminate.
Qed.

(** Every size of the target: the first lanes, if there are enough. *)
Theorem static_simd_cast_to_iff {A B} (cv : A -> res B) n x r : static_simd_cast_to cv n x = Ok r <->
  (n <= length x)%nat /\ length r = n
  /\ forall i a, (i < n)%nat -> nth_error x i = Some a -> exists b, cv a = Ok b /\ nth_error r i = Some b.
Proof.
  split.
  - intros H. assert (Hn : (n <= length x)%nat).
    { destruct (Nat.le_gt_cases n (length x)) as [|G]; [assumption|]. exfalso. now apply (static_simd_cast_to_larger cv n x G r). }
    apply gen_iff in H. destruct H as [Hl H]. split; [assumption|]. split; [assumption|]. intros i a Hi Ha.
    destruct (H i Hi) as (b & Eb & Hb). rewrite (subscript_some x i a Ha) in Eb. eauto.
  - intros (Hn & Hl & H). apply gen_iff. split; [assumption|]. intros i Hi. destruct (nth_lt x i) as [a Ha]; [lia|].
    destruct (H i a Hi Ha) as (b & Eb & Hb). exists b. rewrite (subscript_some x i a Ha). auto.
Qed.

(** ** C40 *)
Theorem iota_lanes {T} (cv : Z -> T) n : exists r, iota_simd cv n = Ok r /\ iota_array cv n = r /\ length r = n
  /\ forall i, (i < n)%nat -> nth_error r i = Some (cv (Z.of_nat i)).
Proof.
  exists (iota_array cv n).
  assert (N : forall i, (i < n)%nat -> nth_error (iota_array cv n) i = Some (cv (Z.of_nat i))).
  { intros i Hi. unfold iota_array. apply (map_nth_error (fun i => cv (Z.of_nat i)) i). now apply seq_nth0. }
  assert (L : length (iota_array cv n) = n) by (unfold iota_array; now rewrite map_length, seq_length).
  split; [|auto]. apply gen_iff. split; [assumption|]. intros i Hi. exists (cv (Z.of_nat i)). auto.
Qed.

(** ** C35 *)

Lemma set_bit_spec b i x j : bit_at (set_bit b i x) j = if Nat.eqb i j then x else bit_at b j.
Proof.
  unfold bit_at, set_bit. destruct x.
  - rewrite Z.lor_spec, Z.pow2_bits_eqb by lia. destruct (Nat.eqb_spec i j) as [->|N].
    + now rewrite Z.eqb_refl, orb_true_r.
    + destruct (Z.eqb_spec (Z.of_nat i) (Z.of_nat j)); [lia|]. apply orb_false_r.
  - rewrite Z.land_spec, Z.lnot_spec, Z.pow2_bits_eqb by lia. destruct (Nat.eqb_spec i j) as [->|N].
    + rewrite Z.eqb_refl. apply andb_false_r.
    + destruct (Z.eqb_spec (Z.of_nat i) (Z.of_nat j)); [lia|]. apply andb_true_r.
Qed.

(** A number has exactly the bits of the mask. *)
Definition bits_of (k : list bool) (b : Z) : Prop :=
  0 <= b /\ forall i, bit_at b i = match nth_error k i with Some x => x | None => false end.

Lemma set_bit_nonneg b i x : 0 <= b -> 0 <= set_bit b i x.
Proof.
  intros H. unfold set_bit. destruct x.
  - apply Z.lor_nonneg. split; [assumption|]. apply Z.pow_nonneg. lia.
  - apply Z.land_nonneg. now left.
Qed.

Lemma to_bitset_loop k : forall n i b, (i + n = length k)%nat -> 0 <= b ->
  (forall j, bit_at b j = if (j <? i)%nat then match nth_error k j with Some x => x | None => false end else false) ->
  exists b', loop i n (fun i bits => bindR (subscript k (Z.of_nat i)) (fun x => Ok (set_bit bits i x))) b = Ok b'
    /\ bits_of k b'.
Proof.
  induction n as [|n IH]; intros i b Hi Hb Hj.
  - exists b. split; [reflexivity|]. split; [assumption|]. intros j. rewrite Hj. destruct (Nat.ltb_spec j i); [reflexivity|].
    now rewrite (proj2 (nth_error_None k j)) by lia.
  - cbn [loop]. destruct (nth_lt k i ltac:(lia)) as [x Hx]. rewrite (subscript_some k i x Hx). cbn [bindR].
    apply IH; [lia|now apply set_bit_nonneg|]. intros j. rewrite set_bit_spec, Hj.
    destruct (Nat.eqb_spec i j) as [<-|N].
    + destruct (Nat.ltb_spec i (S i)); [|lia]. now rewrite Hx.
    + destruct (Nat.ltb_spec j i), (Nat.ltb_spec j (S i)); try lia; reflexivity.
Qed.

Theorem to_bitset_bits k : exists b, to_bitset k = Ok b /\ bits_of k b.
Proof.
  unfold to_bitset. destruct (Nat.eqb_spec (length k) 1) as [E|N].
  - destruct k as [|x [|y k]]; try discriminate. eexists. split; [reflexivity|].
    destruct x; (split; [lia|]); intros [|[|i]]; try reflexivity.
    all: reflexivity.
  - apply to_bitset_loop; [lia|lia|]. intros j. unfold bit_at. rewrite Z.testbit_0_l. reflexivity.
Qed.

Theorem to_simd_mask_lanes n b : exists k, to_simd_mask n b = Ok k /\ length k = n
  /\ forall i, (i < n)%nat -> nth_error k i = Some (bit_at b i).
Proof.
  unfold to_simd_mask. destruct (Nat.eqb_spec n 1) as [->|N].
  - exists [bit_at b 0]. split; [reflexivity|]. split; [reflexivity|]. intros i Hi. now replace i with 0%nat by lia.
  - exists (map (bit_at b) (seq 0 n)).
    assert (K : forall i, (i < n)%nat -> nth_error (map (bit_at b) (seq 0 n)) i = Some (bit_at b i))
      by (intros i Hi; apply map_nth_error; now apply seq_nth0).
    split; [|split; [now rewrite map_length, seq_length|exact K]].
    apply gen_iff. split; [now rewrite map_length, seq_length|]. intros i Hi. eauto.
Qed.

Theorem mask_bitset_mask k b : to_bitset k = Ok b -> to_simd_mask (length k) b = Ok k.
Proof.
  intros H. destruct (to_bitset_bits k) as (b' & Eb & _ & Hb). assert (b' = b) by congruence. subst b'.
  destruct (to_simd_mask_lanes (length k) b) as (k' & Ek & Hl & Hn). rewrite Ek. f_equal. apply nth_error_ext.
  intros i. destruct (Nat.lt_ge_cases i (length k)) as [Hi|Hi].
  - rewrite Hn, Hb by assumption. destruct (nth_lt k i Hi) as [x Hx]. now rewrite Hx.
  - rewrite (proj2 (nth_error_None k' i)) by lia. symmetry. now apply nth_error_None.
Qed.

Theorem bitset_mask_bitset n b k : 0 <= b < 2 ^ Z.of_nat n -> to_simd_mask n b = Ok k -> to_bitset k = Ok b.
Proof.
  intros Hb H. destruct (to_simd_mask_lanes n b) as (k' & Ek & Hl & Hn). assert (k' = k) by congruence. subst k'.
  destruct (to_bitset_bits k) as (b' & Eb & Hb' & Hbits). rewrite Eb. f_equal. apply Z.bits_inj'. intros i Hi.
  specialize (Hbits (Z.to_nat i)). unfold bit_at in Hbits. rewrite Z2Nat.id in Hbits by assumption. rewrite Hbits.
  destruct (Nat.lt_ge_cases (Z.to_nat i) n) as [Hlt|Hge].
  - rewrite Hn by assumption. unfold bit_at. now rewrite Z2Nat.id.
  - rewrite (proj2 (nth_error_None k _)) by lia. symmetry.
    destruct (Z.eq_dec b 0) as [->|Hb0]; [apply Z.testbit_0_l|]. apply Z.bits_above_log2; [lia|].
    apply Z.log2_lt_pow2; [lia|]. eapply Z.lt_le_trans; [apply Hb|]. apply Z.pow_le_mono_r; lia.
Qed.

(** ** C39 *)
Section Order.
  Context {T : Type}.
  Variable lt : T -> T -> bool.
  Definition le (a b : T) : Prop := lt b a = false.
  (** A strict total order. *)
  Definition total_order : Prop :=
    (forall a, lt a a = false) /\ (forall a b c, lt a b = true -> lt b c = true -> lt a c = true)
    /\ (forall a b, lt a b = false -> lt b a = false -> a = b).

  Lemma gen_subscript2 (f : T -> T -> res T) a b : length a = length b ->
    gen (length a) (fun i => bindR (subscript a (Z.of_nat i)) (fun x => bindR (subscript b (Z.of_nat i)) (f x)))
    = mapR (fun '(x, y) => f x y) (combine a b).
  Proof.
    intros H. rewrite <- (gen_lanes2 f a b H). unfold gen. apply mapR_ext'. intros i Hi. apply in_seq in Hi.
    destruct (nth_lt a i ltac:(lia)) as [x Hx]. destruct (nth_lt b i ltac:(lia)) as [y Hy].
    now rewrite (subscript_some a i x Hx), (subscript_some b i y Hy), (lane_some a i x Hx), (lane_some b i y Hy).
  Qed.

  Definition lanewise2 (f : T -> T -> T) (a b r : list T) : Prop :=
    length r = length a
    /\ forall i x y, nth_error a i = Some x -> nth_error b i = Some y -> nth_error r i = Some (f x y).

  Lemma pure_lanes2 f a b : length a = length b -> exists r,
    gen (length a) (fun i => bindR (subscript a (Z.of_nat i)) (fun x =>
       bindR (subscript b (Z.of_nat i)) (fun y => Ok (f x y)))) = Ok r /\ lanewise2 f a b r.
  Proof.
    intros H. exists (map (fun '(x, y) => f x y) (combine a b)). split.
    - rewrite (gen_subscript2 (fun x y => Ok (f x y)) a b H), <- mapR_pure. apply mapR_ext'. intros [x y] _. reflexivity.
    - split; [rewrite map_length, combine_length; lia|]. intros i x y Hx Hy.
      apply (map_nth_error (fun '(x, y) => f x y) i (combine a b) (d := (x, y))). now apply combine_nth_some.
  Qed.

  Theorem minmax_lanes a b : length a = length b -> exists mn mx,
    simd_min lt a b = Ok mn /\ simd_max lt a b = Ok mx /\ simd_minmax lt a b = Ok (mn, mx)
    /\ lanewise2 (std_min lt) a b mn /\ lanewise2 (std_max lt) a b mx.
  Proof.
    intros H. destruct (pure_lanes2 (std_min lt) a b H) as (mn & E1 & L1).
    destruct (pure_lanes2 (std_max lt) a b H) as (mx & E2 & L2). exists mn, mx.
    split; [exact E1|]. split; [exact E2|]. unfold simd_minmax, simd_min, simd_max. rewrite E1, E2. cbn [bindR]. auto.
  Qed.

  (** Lane values. *)
  Theorem minmax_values a b : total_order ->
    le (std_min lt a b) a /\ le (std_min lt a b) b /\ le a (std_max lt a b) /\ le b (std_max lt a b)
    /\ ((std_min lt a b = a /\ std_max lt a b = b) \/ (std_min lt a b = b /\ std_max lt a b = a)).
  Proof.
    intros (Hi & Ht & Ha). unfold le, std_min, std_max.
    destruct (lt b a) eqn:E1, (lt a b) eqn:E2; rewrite ?Hi, ?E1, ?E2.
    - pose proof (Ht _ _ _ E1 E2) as C. rewrite Hi in C. discriminate.
    - auto 10.
    - auto 10.
    - auto 10.
  Qed.

  Theorem clamp_lanes v lo hi : length lo = length v -> length hi = length v ->
    (forall i x y, nth_error lo i = Some x -> nth_error hi i = Some y -> le x y) ->
    exists r, simd_clamp lt v lo hi = Ok r /\ length r = length v
      /\ forall i x l h, nth_error v i = Some x -> nth_error lo i = Some l -> nth_error hi i = Some h ->
           exists y, std_clamp lt x l h = Ok y /\ nth_error r i = Some y.
  Proof.
    intros Hlo Hhi Hle. unfold simd_clamp.
    destruct (gen (length v) _) as [r|s] eqn:E.
    - exists r. split; [reflexivity|]. apply gen_iff in E. destruct E as [Hl Hn]. split; [assumption|].
      intros i x l h Hx Hl' Hh. assert (Hi : (i < length v)%nat) by (apply nth_error_Some; congruence).
      destruct (Hn i Hi) as (y & Ey & Hy). rewrite (subscript_some v i x Hx), (subscript_some lo i l Hl'), (subscript_some hi i h Hh) in Ey.
      cbn [bindR] in Ey. eauto.
    - exfalso. unfold gen in E. apply mapR_stop_inv in E. destruct E as (j & i & Hj & Ei).
      assert (Hi : (i < length v)%nat).
      { apply nth_error_In, in_seq in Hj. lia. }
      destruct (nth_lt v i Hi) as [x Hx]. destruct (nth_lt lo i ltac:(lia)) as [l Hl].
      destruct (nth_lt hi i ltac:(lia)) as [h Hh].
      rewrite (subscript_some v i x Hx), (subscript_some lo i l Hl), (subscript_some hi i h Hh) in Ei. cbn [bindR] in Ei.
      unfold std_clamp in Ei. rewrite (Hle i l h Hl Hh) in Ei. discriminate.
  Qed.

  Theorem clamp_values x l h : total_order -> le l h -> exists y, std_clamp lt x l h = Ok y
    /\ le l y /\ le y h /\ (le l x -> le x h -> y = x) /\ (lt x l = true -> y = l) /\ (lt h x = true -> y = h).
  Proof.
    intros (Hi & Ht & Ha) Hle. unfold std_clamp, le in *. rewrite Hle. eexists. split; [reflexivity|].
    destruct (lt x l) eqn:E1.
    - rewrite Hi. split; [reflexivity|]. split; [assumption|]. split; [discriminate|]. split; [reflexivity|].
      intros E2. pose proof (Ht _ _ _ E2 E1) as C. congruence.
    - destruct (lt h x) eqn:E2.
      + rewrite Hi. split; [assumption|]. split; [reflexivity|]. split; [discriminate|]. split; [discriminate|reflexivity].
      + split; [assumption|]. split; [assumption|]. split; [reflexivity|]. split; discriminate.
  Qed.

  Theorem clamp_undefined v lo hi r : length lo = length v -> length hi = length v ->
    simd_clamp lt v lo hi = Ok r ->
    forall i x y, nth_error lo i = Some x -> nth_error hi i = Some y -> le x y.
  Proof.
    intros Hlo Hhi E i x y Hx Hy. apply gen_iff in E. destruct E as [Hl Hn].
    assert (Hi : (i < length lo)%nat) by (apply nth_error_Some; congruence).
    destruct (Hn i ltac:(lia)) as (z & Ez & _). destruct (nth_lt v i ltac:(lia)) as [w Hw].
    rewrite (subscript_some v i w Hw), (subscript_some lo i x Hx), (subscript_some hi i y Hy) in Ez. cbn [bindR] in Ez.
    unfold std_clamp in Ez. unfold le. destruct (lt y x); [discriminate|reflexivity].
  Qed.
End Order.

Theorem iota_int t n r : type_ok t -> iota_simd (convert t) n = Ok r ->
  iota_scalar 0 = 0 /\ forall i, (i < n)%nat -> in_type t (Z.of_nat i) = true -> nth_error r i = Some (Z.of_nat i).
Proof.
  intros Ht E. split; [reflexivity|]. destruct (iota_lanes (convert t) n) as (r' & E' & _ & _ & Hn).
  assert (r' = r) by congruence. subst r'. intros i Hi H. rewrite Hn by assumption. now rewrite convert_id.
Qed.
