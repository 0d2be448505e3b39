(** Proofs about object representations (C36) and detail::bit_ceil. *)
From Verif Require Import Base BaseFacts LaneModel LaneProofs IntModel IntProofs WhereProofs ShapeProofs BitModel.
From Coq Require Import ZifyBool ZifyNat.
Ltac Zify.zify_post_hook ::= idtac.

(** ** Lanes and bytes *)

(** Specification: an object of the type. *)
Definition wf (t : vty) (x : list object) : Prop :=
  length x = v_lanes t /\ forall o, In o x -> length o = v_size t /\ valid_lane t o = true.

Lemma bytes_length s x : (forall o : object, In o x -> length o = s) -> length (bytes_of_lanes x) = (length x * s)%nat.
Proof.
  intros H. unfold bytes_of_lanes. induction x as [|o x IH]; [reflexivity|]. cbn [concat length]. rewrite app_length, IH, (H o).
  - lia.
  - now left.
  - intros o' Ho'. apply H. now right.
Qed.

Lemma lanes_of_bytes_lanes s : forall x, (forall o : object, In o x -> length o = s) ->
  lanes_of_bytes (length x) s (bytes_of_lanes x) = x.
Proof.
  unfold bytes_of_lanes. induction x as [|o x IH]; intros H; [reflexivity|]. cbn [length lanes_of_bytes concat].
  assert (Ho : length o = s) by (apply H; now left).
  rewrite firstn_app, skipn_app, <- Ho, firstn_all, skipn_all, Nat.sub_diag. cbn [firstn skipn app]. rewrite app_nil_r. f_equal.
  rewrite Ho. apply IH. intros o' Ho'. apply H. now right.
Qed.

Lemma bytes_of_lanes_bytes n : forall s b, length b = (n * s)%nat -> bytes_of_lanes (lanes_of_bytes n s b) = b.
Proof.
  unfold bytes_of_lanes. induction n as [|n IH]; intros s b H.
  - destruct b; [reflexivity|discriminate].
  - cbn [lanes_of_bytes concat]. rewrite IH by (rewrite skipn_length; lia). apply firstn_skipn.
Qed.

Lemma lanes_of_bytes_length n : forall s b, length (lanes_of_bytes n s b) = n.
Proof. induction n as [|n IH]; intros s b; [reflexivity|]. cbn [lanes_of_bytes length]. now rewrite IH. Qed.

Lemma lanes_of_bytes_sizes n : forall s b o, length b = (n * s)%nat -> In o (lanes_of_bytes n s b) -> length o = s.
Proof.
  induction n as [|n IH]; intros s b o H Ho; [contradiction|]. cbn [lanes_of_bytes] in Ho. destruct Ho as [<-|Ho].
  - rewrite firstn_length. lia.
  - apply (IH s (skipn s b)); [rewrite skipn_length; lia|assumption].
Qed.

(** bit_cast: defined results are objects of To with the same bytes. *)
Theorem bit_cast_bytes to from x r : wf from x -> bit_cast to from x = Ok r ->
  wf to r /\ bytes_of_lanes r = bytes_of_lanes x.
Proof.
  intros [Hl Ho] H. unfold bit_cast in H. destruct (Nat.eqb_spec (sizeof to) (sizeof from)) as [E|]; [|discriminate].
  destruct (forallb _ _) eqn:F; [|discriminate]. injection H as <-.
  assert (L : length (bytes_of_lanes x) = (v_lanes to * v_size to)%nat).
  { rewrite (bytes_length (v_size from)) by apply Ho. unfold sizeof in E. congruence. }
  split; [|now apply bytes_of_lanes_bytes]. split; [apply lanes_of_bytes_length|]. intros o Hin.
  split; [exact (lanes_of_bytes_sizes _ _ _ _ L Hin)|]. rewrite forallb_forall in F. now apply F.
Qed.

(** Casting to a type without invalid representations is always defined. *)
Theorem bit_cast_defined to from x : wf from x -> sizeof to = sizeof from -> v_bool to = false ->
  exists r, bit_cast to from x = Ok r.
Proof.
  intros Hx E Hb. unfold bit_cast. rewrite E, Nat.eqb_refl. destruct (forallb _ _) eqn:F; [eauto|].
  exfalso. rewrite <- not_true_iff_false, forallb_forall in F. apply F. intros o _. unfold valid_lane. now rewrite Hb.
Qed.

Theorem bit_cast_round_trip to from x r : wf from x -> bit_cast to from x = Ok r -> bit_cast from to r = Ok x.
Proof.
  intros Hx H. destruct (bit_cast_bytes to from x r Hx H) as [Hr Eb]. unfold bit_cast.
  assert (E : sizeof to = sizeof from).
  { unfold bit_cast in H. destruct (Nat.eqb_spec (sizeof to) (sizeof from)); [assumption|discriminate]. }
  rewrite E, Nat.eqb_refl, Eb. destruct Hx as [Hl Ho]. rewrite <- Hl, lanes_of_bytes_lanes by apply Ho.
  assert (F : forallb (valid_lane from) x = true) by (apply forallb_forall; intros o Hin; now apply Ho).
  now rewrite F.
Qed.

(** Where the bytes are. *)
Lemma lane_byte s : forall x i o j, (forall o : object, In o x -> length o = s) -> nth_error x i = Some o -> (j < s)%nat ->
  nth_error (bytes_of_lanes x) (i * s + j) = nth_error o j.
Proof.
  unfold bytes_of_lanes. induction x as [|o' x IH]; intros i o j H Hi Hj; [now destruct i|]. cbn [concat].
  assert (Ho : length o' = s) by (apply H; now left). destruct i as [|i].
  - injection Hi as ->. rewrite nth_error_app1 by lia. f_equal.
  - rewrite nth_error_app2 by lia. replace (S i * s + j - length o')%nat with (i * s + j)%nat by lia.
    apply IH; [intros; apply H; now right|assumption|assumption].
Qed.

Theorem bit_cast_byte_positions to from x r i j i' j' o o' : wf from x -> bit_cast to from x = Ok r ->
  nth_error x i = Some o -> (j < v_size from)%nat -> nth_error r i' = Some o' -> (j' < v_size to)%nat ->
  (i * v_size from + j = i' * v_size to + j')%nat -> nth_error o' j' = nth_error o j.
Proof.
  intros Hx H Hi Hj Hi' Hj' E. destruct (bit_cast_bytes to from x r Hx H) as [[_ Hr] Eb].
  rewrite <- (lane_byte (v_size to) r i' o' j'), <- (lane_byte (v_size from) x i o j); try assumption.
  - now rewrite Eb, E.
  - intros; now apply Hx.
  - intros; now apply Hr.
Qed.

(** ** Bit operations *)

Definition bitwise (o : binop) : option (Z -> Z -> Z) :=
  match o with And => Some Z.land | Or => Some Z.lor | Xor => Some Z.lxor | _ => None end.

Lemma bitwise_mod o f a b n : bitwise o = Some f -> 0 <= n -> f a b mod 2 ^ n = f (a mod 2 ^ n) (b mod 2 ^ n).
Proof.
  intros Hf Hn. apply Z.bits_inj'. intros i Hi.
  assert (S : forall a b, Z.testbit (f a b) i = match o with And => Z.testbit a i && Z.testbit b i
    | Or => Z.testbit a i || Z.testbit b i | _ => xorb (Z.testbit a i) (Z.testbit b i) end).
  { intros a' b'. destruct o; try discriminate Hf; injection Hf as <-; [apply Z.land_spec|apply Z.lor_spec|apply Z.lxor_spec]. }
  rewrite S. destruct (Z.lt_ge_cases i n).
  - rewrite !Z.mod_pow2_bits_low, S by assumption. reflexivity.
  - rewrite !Z.mod_pow2_bits_high by lia. now destruct o.
Qed.

Lemma bitwise_div o f a b n : bitwise o = Some f -> 0 <= n -> f a b / 2 ^ n = f (a / 2 ^ n) (b / 2 ^ n).
Proof.
  intros Hf Hn. rewrite <- !Z.shiftr_div_pow2 by assumption.
  destruct o; try discriminate Hf; injection Hf as <-; [apply Z.shiftr_land|apply Z.shiftr_lor|apply Z.shiftr_lxor].
Qed.

(** Specification: byte by byte. *)
Definition byte_op (f : Z -> Z -> Z) (a b : byte) : byte :=
  match a, b with Some x, Some y => Some (f x y) | _, _ => None end.
Fixpoint bytewise (f : Z -> Z -> Z) (p q : object) : object :=
  match p, q with a :: p', b :: q' => byte_op f a b :: bytewise f p' q' | _, _ => [] end.
(** Every byte has a value. *)
Definition determinate (o : object) : Prop := forall b, In b o -> exists x, b = Some x /\ 0 <= x < 256.

Lemma decode_ok : forall o, determinate o -> exists x, decode_le o = Some x /\ 0 <= x < 2 ^ (8 * Z.of_nat (length o)).
Proof.
  induction o as [|b o IH]; intros H; [exists 0; split; [reflexivity|]; cbn; lia|].
  destruct (H b ltac:(now left)) as (y & -> & Hy). destruct IH as (x & Ex & Hx); [intros c Hc; apply H; now right|].
  exists (y + 256 * x). cbn [decode_le]. rewrite Ex. split; [reflexivity|]. cbn [length].
  replace (8 * Z.of_nat (S (length o))) with (8 + 8 * Z.of_nat (length o)) by lia.
  rewrite Z.pow_add_r by lia. change (2 ^ 8) with 256. lia.
Qed.

Lemma decode_cons b o : decode_le (Some b :: o) = match decode_le o with Some x => Some (b + 256 * x) | None => None end.
Proof. reflexivity. Qed.

Lemma encode_bytewise o f : bitwise o = Some f -> forall p q x y, length p = length q -> determinate p -> determinate q ->
  decode_le p = Some x -> decode_le q = Some y -> encode_le (length p) (f x y) = bytewise f p q.
Proof.
  intros Hf. induction p as [|b p IH]; intros q x y Hl Hp Hq Ex Ey; destruct q as [|c q]; try discriminate; [reflexivity|].
  destruct (Hp b ltac:(now left)) as (b' & -> & Hb). destruct (Hq c ltac:(now left)) as (c' & -> & Hc).
  rewrite decode_cons in Ex, Ey. destruct (decode_le p) as [x'|] eqn:Ep; [|discriminate]. destruct (decode_le q) as [y'|] eqn:Eq; [|discriminate].
  assert (x = b' + 256 * x') as -> by congruence. assert (y = c' + 256 * y') as -> by congruence. cbn [length encode_le bytewise byte_op].
  change 256 with (2 ^ 8). rewrite (bitwise_mod o f), (bitwise_div o f) by (assumption || lia).
  assert (M : forall b x, 0 <= b < 256 -> (b + 2 ^ 8 * x) mod 2 ^ 8 = b /\ (b + 2 ^ 8 * x) / 2 ^ 8 = x).
  { intros b x Hb'. rewrite (Z.mul_comm _ x), Z.mod_add, Z.div_add by lia. change (2 ^ 8) with 256.
    rewrite Z.mod_small, Z.div_small by lia. lia. }
  destruct (M b' x' Hb) as [-> ->]. destruct (M c' y' Hc) as [-> ->]. f_equal.
  apply IH; auto; intros d Hd; [apply Hp|apply Hq]; now right.
Qed.

Lemma bytewise_app f : forall p q p' q', length p = length q ->
  bytewise f (p ++ p') (q ++ q') = bytewise f p q ++ bytewise f p' q'.
Proof.
  induction p as [|a p IH]; intros q p' q' H; destruct q as [|b q]; try discriminate; [reflexivity|].
  cbn [app bytewise]. now rewrite IH by (cbn in H; lia).
Qed.

Lemma bytewise_rev f : forall p q, length p = length q -> bytewise f (rev p) (rev q) = rev (bytewise f p q).
Proof.
  induction p as [|a p IH]; intros q H; destruct q as [|b q]; try discriminate; [reflexivity|].
  cbn [rev bytewise]. rewrite bytewise_app by (rewrite !rev_length; cbn in H; lia). now rewrite IH by (cbn in H; lia).
Qed.

Lemma determinate_rev o : determinate o -> determinate (rev o).
Proof. intros H b Hb. apply H. now apply in_rev. Qed.

Lemma encode_decode_op big o f p q : bitwise o = Some f -> length p = length q -> determinate p -> determinate q ->
  exists x y, decode big p = Some x /\ decode big q = Some y /\ 0 <= x < 2 ^ (8 * Z.of_nat (length p))
    /\ 0 <= y < 2 ^ (8 * Z.of_nat (length p)) /\ encode big (length p) (f x y) = bytewise f p q.
Proof.
  intros Hf Hl Hp Hq. unfold decode, encode. destruct big.
  - destruct (decode_ok _ (determinate_rev p Hp)) as (x & Ex & Hx). destruct (decode_ok _ (determinate_rev q Hq)) as (y & Ey & Hy).
    rewrite rev_length in *. exists x, y. rewrite Hl at 2. repeat (split; [assumption|]).
    rewrite <- (rev_length p), (encode_bytewise o f Hf (rev p) (rev q) x y); auto using determinate_rev.
    + rewrite bytewise_rev by assumption. apply rev_involutive.
    + now rewrite !rev_length.
  - destruct (decode_ok _ Hp) as (x & Ex & Hx). destruct (decode_ok _ Hq) as (y & Ey & Hy).
    exists x, y. rewrite Hl at 2. repeat (split; [assumption|]). now apply (encode_bytewise o f Hf p q x y).
Qed.

Lemma bytewise_length f : forall p q, length p = length q -> length (bytewise f p q) = length p.
Proof.
  induction p as [|a p IH]; intros q H; destruct q as [|b q]; try discriminate; [reflexivity|].
  cbn [bytewise length]. now rewrite IH by (cbn in H; lia).
Qed.

(** The result on lanes. *)
Definition lanes_bytewise (f : Z -> Z -> Z) (a b r : list object) : Prop :=
  length r = length a
  /\ forall i p q, nth_error a i = Some p -> nth_error b i = Some q -> nth_error r i = Some (bytewise f p q).

Lemma lanes_bytewise_map f a b : length a = length b ->
  lanes_bytewise f a b (map (fun '(p, q) => bytewise f p q) (combine a b)).
Proof.
  intros H. split; [rewrite map_length, combine_length; lia|]. intros i p q Hp Hq.
  apply (map_nth_error (fun '(p, q) => bytewise f p q) i (combine a b) (d := (p, q))). now apply combine_nth_some.
Qed.

Lemma as_unsigned_ok size w : as_unsigned size = Some w -> w = 8 * Z.of_nat size /\ (1 <= size)%nat.
Proof.
  unfold as_unsigned. destruct (existsb _ _) eqn:E; [|discriminate]. intros H. injection H as <-. split; [reflexivity|].
  apply existsb_exists in E. destruct E as (x & Hx & E). apply Nat.eqb_eq in E. subst x. cbn [In] in Hx. lia.
Qed.

Lemma expr_bitwise l u o f x y : bitwise o = Some f -> expr_bin l u o x y = Ok (f x y).
Proof. intros H. destruct o; try discriminate H; injection H as <-; reflexivity. Qed.

Lemma bitwise_in o f w x y : bitwise o = Some f -> 0 <= w -> 0 <= x < 2 ^ w -> 0 <= y < 2 ^ w ->
  convert (mkity w false) (f x y) = f x y.
Proof.
  intros Hf Hw Hx Hy. unfold convert. cbn [sgn bits]. rewrite (bitwise_mod o f) by assumption.
  now rewrite !Z.mod_small by assumption.
Qed.

Lemma bit_cast_self t x : wf t x -> bit_cast t t x = Ok x.
Proof.
  intros [Hl Ho]. unfold bit_cast. rewrite Nat.eqb_refl, <- Hl, lanes_of_bytes_lanes by apply Ho.
  assert (F : forallb (valid_lane t) x = true) by (apply forallb_forall; intros o Hin; now apply Ho). now rewrite F.
Qed.

Theorem float_bitop_lanes l big o f size (a b : list object) : bitwise o = Some f -> as_unsigned size <> None ->
  length a = length b -> (forall p : object, In p a \/ In p b -> length p = size /\ determinate p) ->
  exists r, float_bitop l big o size a b = Ok r /\ lanes_bytewise f a b r.
Proof.
  intros Hf Hs Hl Hp. unfold float_bitop. destruct (as_unsigned size) as [w|] eqn:Ew; [|congruence].
  destruct (as_unsigned_ok size w Ew) as [-> Hsz].
  set (R := map (fun '(p, q) => bytewise f p q) (combine a b)). exists R. split; [|now apply lanes_bytewise_map].
  assert (HR : forall o, In o R -> length o = size).
  { intros o' Ho'. apply in_map_iff in Ho'. destruct Ho' as ([p q] & <- & Hpq).
    pose proof (Hp p (or_introl (in_combine_l _ _ _ _ Hpq))) as [H1 _].
    pose proof (Hp q (or_intror (in_combine_r _ _ _ _ Hpq))) as [H2 _]. rewrite bytewise_length; congruence. }
  destruct (Nat.leb_spec size 8) as [H8|H8].
  - assert (Wa : wf (mkvty (length a) size false) a) by (split; [reflexivity|]; intros p Hin; split; [now apply Hp; left|reflexivity]).
    assert (Wb : wf (mkvty (length a) size false) b) by (split; [now symmetry|]; intros p Hin; split; [now apply Hp; right|reflexivity]).
    rewrite !bit_cast_self by assumption. cbn [bindR].
    assert (D : forall v, (forall p, In p v -> length p = size /\ determinate p) -> exists x, to_ints big v = Ok x
      /\ length x = length v
      /\ forall i p, nth_error v i = Some p -> exists z, decode big p = Some z /\ nth_error x i = Some z
           /\ 0 <= z < 2 ^ (8 * Z.of_nat size)).
    { intros v. induction v as [|p v IH]; intros H.
      - exists []. split; [reflexivity|]. split; [reflexivity|]. intros [|i] p; discriminate.
      - destruct IH as (x & Ex & Hlx & Hx); [intros; apply H; now right|].
        destruct (H p ltac:(now left)) as [Hlp Hd].
        destruct (encode_decode_op big o f p p Hf eq_refl Hd Hd) as (z & _ & Ez & _ & Hz & _). rewrite Hlp in Hz.
        exists (z :: x). unfold to_ints. cbn [mapR]. rewrite Ez. cbn [of_option bindR]. fold (to_ints big v). rewrite Ex.
        cbn [bindR]. split; [reflexivity|]. split; [cbn [length]; now rewrite Hlx|].
        intros [|i] p' Hp'; [injection Hp' as <-; exists z; auto|]. apply Hx. exact Hp'. }
    destruct (D a) as (x & Ex & Hlx & Hx); [intros; apply Hp; now left|].
    destruct (D b) as (y & Ey & Hly & Hy); [intros; apply Hp; now right|]. rewrite Ex, Ey. cbn [bindR].
    assert (E : f_bin l (mkity (8 * Z.of_nat size) false) o x y = Ok (map (fun '(x, y) => f x y) (combine x y))).
    { unfold f_bin, gen_conv. apply gen_iff. split; [rewrite map_length, combine_length; lia|]. intros i Hi.
      destruct (nth_lt x i Hi) as [zx Hzx]. destruct (nth_lt y i ltac:(lia)) as [zy Hzy].
      destruct (nth_lt a i ltac:(lia)) as [p Hpa]. destruct (nth_lt b i ltac:(lia)) as [q Hqb].
      destruct (Hx i p Hpa) as (zx' & _ & Hzx' & Rx). destruct (Hy i q Hqb) as (zy' & _ & Hzy' & Ry).
      assert (zx' = zx) by congruence. assert (zy' = zy) by congruence. subst zx' zy'.
      exists (f zx zy). rewrite (lane_some x i zx Hzx), (lane_some y i zy Hzy). cbn [bindR].
      rewrite (expr_bitwise l _ o f) by assumption. cbn [bindR]. split.
      - f_equal. apply (bitwise_in o f); try assumption. lia.
      - apply (map_nth_error (fun '(x, y) => f x y) i (combine x y) (d := (zx, zy))). now apply combine_nth_some. }
    rewrite E. cbn [bindR].
    replace (of_ints big size (map (fun '(x, y) => f x y) (combine x y))) with R.
    { apply bit_cast_self. split; [unfold R; cbn [v_lanes]; rewrite map_length, combine_length, <- Hl; apply Nat.min_id|].
      intros o' Ho'. split; [now apply HR|reflexivity]. }
    apply nth_error_ext. intros i. unfold of_ints, R.
    destruct (Nat.lt_ge_cases i (length a)) as [Hi|Hi].
    + destruct (nth_lt a i Hi) as [p Hpa]. destruct (nth_lt b i ltac:(lia)) as [q Hqb].
      destruct (Hx i p Hpa) as (zx & Dx & Hzx & _). destruct (Hy i q Hqb) as (zy & Dy & Hzy & _).
      rewrite map_map.
      rewrite (map_nth_error (fun '(p, q) => bytewise f p q) i (combine a b) (d := (p, q))) by now apply combine_nth_some.
      rewrite (map_nth_error _ i (combine x y) (d := (zx, zy))) by now apply combine_nth_some. f_equal.
      destruct (Hp p (or_introl (nth_error_In _ _ Hpa))) as [Lp Dp]. destruct (Hp q (or_intror (nth_error_In _ _ Hqb))) as [Lq Dq].
      destruct (encode_decode_op big o f p q Hf ltac:(congruence) Dp Dq) as (zx' & zy' & E1 & E2 & _ & _ & <-).
      rewrite Lp. congruence.
    + transitivity (@None object); [|symmetry]; apply nth_error_None; rewrite ?map_length, combine_length; lia.
  - apply gen_iff. split; [unfold R; rewrite map_length, combine_length, <- Hl; apply Nat.min_id|]. intros i Hi.
    destruct (nth_lt a i Hi) as [p Hpa]. destruct (nth_lt b i ltac:(rewrite <- Hl; exact Hi)) as [q Hqb]. exists (bytewise f p q).
    rewrite (subscript_some a i p Hpa), (subscript_some b i q Hqb). cbn [bindR].
    destruct (Hp p (or_introl (nth_error_In _ _ Hpa))) as [Lp Dp]. destruct (Hp q (or_intror (nth_error_In _ _ Hqb))) as [Lq Dq].
    destruct (encode_decode_op big o f p q Hf ltac:(congruence) Dp Dq) as (zx & zy & E1 & E2 & _ & _ & E).
    rewrite E1, E2. cbn [of_option bindR]. rewrite (expr_bitwise l _ o f) by assumption. cbn [bindR].
    split; [now rewrite <- E, Lp|].
    apply (map_nth_error (fun '(p, q) => bytewise f p q) i (combine a b) (d := (p, q))). now apply combine_nth_some.
Qed.

(** Where the bits are. *)
Theorem bytewise_spec f p q j : length p = length q -> nth_error (bytewise f p q) j =
  match nth_error p j, nth_error q j with Some x, Some y => Some (byte_op f x y) | _, _ => None end.
Proof.
  revert q j. induction p as [|a p IH]; intros q j H; destruct q as [|b q]; try discriminate.
  - now destruct j.
  - destruct j as [|j]; [reflexivity|]. cbn [bytewise nth_error]. apply IH. now injection H.
Qed.

(** A lane with padding (x87 long double: 10 of 16 bytes) makes the operation undefined. *)
Theorem float_bitop_padding_refuted : exists a b,
  length a = length b /\ (forall p, In p a \/ In p b -> length p = 16%nat)
  /\ float_bitop lp64 false And 16 a b = Stop SUB.
Proof.
  exists [repeat (Some 0) 10 ++ repeat None 6], [repeat (Some 0) 10 ++ repeat None 6]. split; [reflexivity|].
  split; [|vm_compute; reflexivity]. intros p [[<-|[]]|[<-|[]]]; reflexivity.
Qed.

(** ** detail::bit_ceil *)

Lemma land_pred_pow2 x : 0 < x -> Z.land x (x - 1) = 0 -> exists k, 0 <= k /\ x = 2 ^ k.
Proof.
  intros Hx H. exists (Z.log2 x). split; [apply Z.log2_nonneg|].
  pose proof (Z.log2_spec x Hx) as [Hlo Hhi]. destruct (Z.eq_dec x (2 ^ Z.log2 x)) as [|N]; [assumption|exfalso].
  assert (T : Z.testbit (Z.land x (x - 1)) (Z.log2 x) = true).
  { rewrite Z.land_spec. rewrite Z.bit_log2 by assumption.
    replace (Z.log2 x) with (Z.log2 (x - 1)); [|].
    - rewrite Z.bit_log2; [reflexivity|]. pose proof (Z.log2_nonneg x). assert (0 < 2 ^ Z.log2 x) by (apply Z.pow_pos_nonneg; lia). lia.
    - apply Z.log2_unique; [apply Z.log2_nonneg|]. lia. }
  rewrite H, Z.testbit_0_l in T. discriminate.
Qed.

Lemma land_pow2_pred k : 0 <= k -> Z.land (2 ^ k) (2 ^ k - 1) = 0.
Proof.
  intros Hk. change (2 ^ k - 1) with (Z.pred (2 ^ k)). rewrite <- Z.ones_equiv, Z.land_ones by assumption. apply Z.mod_same.
  pose proof (Z.pow_pos_nonneg 2 k ltac:(lia) Hk). lia.
Qed.

(** The top [j] of [k] bits set: one more after a step. *)
Lemma step_bits k j x : 1 <= j < k -> 2 ^ k - 2 ^ (k - j) <= x < 2 ^ k ->
  2 ^ k - 2 ^ (k - (j + 1)) <= Z.lor x (Z.shiftr x 1) < 2 ^ k.
Proof.
  intros Hj Hx. set (m := k - (j + 1)). assert (Hm : 0 <= m) by lia.
  assert (X0 : 0 <= x) by (assert (2 ^ (k - j) <= 2 ^ k) by (apply Z.pow_le_mono_r; lia); lia).
  set (y := Z.lor x (Z.shiftr x 1)).
  assert (Y0 : 0 <= y) by (apply Z.lor_nonneg; split; [assumption|now apply Z.shiftr_nonneg]).
  assert (B : forall i, k - j <= i < k -> Z.testbit x i = true).
  { intros i Hi. replace (Z.testbit x i) with (Z.testbit (x / 2 ^ (k - j)) (i - (k - j))).
    - replace (x / 2 ^ (k - j)) with (Z.ones j).
      + apply Z.ones_spec_low. lia.
      + rewrite Z.ones_equiv. assert (P : 2 ^ k = 2 ^ (k - j) * 2 ^ j) by (rewrite <- Z.pow_add_r by lia; f_equal; lia).
        assert (0 < 2 ^ (k - j)) by (apply Z.pow_pos_nonneg; lia).
        apply Z.div_unique_pos with (x - 2 ^ (k - j) * Z.pred (2 ^ j)); lia.
    - rewrite <- Z.shiftr_div_pow2, Z.shiftr_spec by lia. f_equal. lia. }
  assert (H : forall i, k <= i -> Z.testbit x i = false).
  { intros i Hi. destruct (Z.eq_dec x 0) as [->|]; [apply Z.testbit_0_l|]. apply Z.bits_above_log2; [assumption|].
    apply Z.log2_lt_pow2; [lia|]. apply Z.lt_le_trans with (2 ^ k); [lia|]. apply Z.pow_le_mono_r; lia. }
  assert (Y : Z.shiftr y m = Z.ones (j + 1)).
  { apply Z.bits_inj'. intros i Hi. rewrite Z.shiftr_spec by assumption. unfold y. rewrite Z.lor_spec, Z.shiftr_spec by lia.
    destruct (Z.lt_ge_cases i (j + 1)) as [Hlt|Hge].
    - rewrite Z.ones_spec_low by lia. destruct (Z.eq_dec i j) as [->|Nij].
      + rewrite (B (j + m)) by lia. reflexivity.
      + rewrite (B (i + m + 1)) by lia. apply orb_true_r.
    - rewrite Z.ones_spec_high by lia. rewrite !H by lia. reflexivity. }
  rewrite Z.shiftr_div_pow2, Z.ones_equiv in Y by assumption.
  assert (M : 0 < 2 ^ m) by (apply Z.pow_pos_nonneg; lia).
  pose proof (Z.div_mod y (2 ^ m) ltac:(lia)) as D. rewrite Y in D.
  pose proof (Z.mod_pos_bound y (2 ^ m) M) as R.
  assert (P : 2 ^ k = 2 ^ m * 2 ^ (j + 1)) by (rewrite <- Z.pow_add_r by lia; f_equal; lia). lia.
Qed.

(** Strictly between two powers of two there is none. *)
Lemma between_not_pow2 k x : 1 <= k -> 2 ^ (k - 1) < x < 2 ^ k -> Z.land x (x - 1) <> 0.
Proof.
  intros Hk Hx E. assert (0 < 2 ^ (k - 1)) by (apply Z.pow_pos_nonneg; lia). apply land_pred_pow2 in E; [|lia].
  destruct E as (i & Hi & ->). destruct Hx as [H1 H2]. apply Z.pow_lt_mono_r_iff in H1; try lia.
  apply Z.pow_lt_mono_r_iff in H2; lia.
Qed.

(** From the top bit to the result. *)
Lemma bit_ceil_rec_steps w k : 1 <= k < w -> forall n j x, 1 <= j <= k -> (Z.to_nat (k - j) <= n)%nat ->
  2 ^ k - 2 ^ (k - j) <= x <= 2 ^ k -> 2 ^ (k - 1) < x -> bit_ceil_rec (S (S n)) w x = Some (2 ^ k).
Proof.
  intros Hk. assert (W : 2 ^ k < 2 ^ w) by (apply Z.pow_lt_mono_r; lia).
  assert (K0 : 0 < 2 ^ (k - 1)) by (apply Z.pow_pos_nonneg; lia).
  assert (F : forall n, bit_ceil_rec (S n) w (2 ^ k) = Some (2 ^ k)).
  { intros n. cbn [bit_ceil_rec]. rewrite Z.mod_small, land_pow2_pred by lia. reflexivity. }
  assert (S1 : forall n x j, 1 <= j <= k -> 2 ^ k - 2 ^ (k - j) <= x < 2 ^ k -> 2 ^ (k - 1) < x ->
    exists y, 2 ^ k - 2 ^ (k - Z.min (j + 1) k) <= y <= 2 ^ k /\ x < y
      /\ bit_ceil_rec (S n) w x = bit_ceil_rec n w y).
  { intros n x j Hj Hx Hx'. exists (Z.lor x (Z.shiftr x 1) + 1).
    assert (k <> 1) by (intros ->; cbn in Hx, Hx'; lia).
    assert (B : 2 ^ k - 2 ^ (k - Z.min (j + 1) k) <= Z.lor x (Z.shiftr x 1) < 2 ^ k).
    { destruct (Z.eq_dec j k) as [->|].
      - rewrite Z.min_r by lia. replace (k - k) with (k - (k - 1 + 1)) by lia. apply step_bits; [lia|].
        replace (k - (k - 1)) with 1 by lia. rewrite Z.sub_diag in Hx. change (2 ^ 0) with 1 in Hx. change (2 ^ 1) with 2. lia.
      - rewrite Z.min_l by lia. apply step_bits; lia. }
    assert (X : x <= Z.lor x (Z.shiftr x 1)).
    { rewrite <- (Z.lor_0_r x) at 1. rewrite !(Z.lor_comm x).
      assert (A : Z.lor 0 x = x) by apply Z.lor_0_l. rewrite A.
      rewrite <- (Z.add_0_r x) at 1.
      replace (Z.lor (Z.shiftr x 1) x) with (x + Z.ldiff (Z.shiftr x 1) x).
      - assert (0 <= Z.ldiff (Z.shiftr x 1) x); [|lia]. apply Z.ldiff_nonneg. left. apply Z.shiftr_nonneg. lia.
      - rewrite Z.add_nocarry_lxor.
        + apply Z.bits_inj'. intros i Hi. rewrite Z.lxor_spec, Z.lor_spec, Z.ldiff_spec.
          now destruct (Z.testbit x i), (Z.testbit (Z.shiftr x 1) i).
        + apply Z.bits_inj'. intros i Hi. rewrite Z.land_spec, Z.ldiff_spec, Z.testbit_0_l.
          now destruct (Z.testbit x i), (Z.testbit (Z.shiftr x 1) i). }
    split; [lia|]. split; [lia|]. cbn [bit_ceil_rec]. rewrite (Z.mod_small (x - 1)) by lia.
    destruct (Z.eqb_spec (Z.land x (x - 1)) 0) as [E|_].
    - exfalso. revert E. apply (between_not_pow2 k); lia.
    - rewrite Z.mod_small by lia. reflexivity. }
  induction n as [|n IH]; intros j x Hj Hn Hx Hx'.
  - destruct (Z.eq_dec x (2 ^ k)) as [->|N]; [apply F|]. assert (j = k) by lia. subst j.
    destruct (S1 1%nat x k ltac:(lia) ltac:(lia) Hx') as (y & Hy & Hy' & ->).
    rewrite Z.sub_diag in Hx. change (2 ^ 0) with 1 in Hx. replace y with (2 ^ k) by lia. apply F.
  - destruct (Z.eq_dec x (2 ^ k)) as [->|N]; [apply F|].
    destruct (S1 (S (S n)) x j Hj ltac:(lia) Hx') as (y & Hy & Hy' & ->). apply (IH (Z.min (j + 1) k)); lia.
Qed.

(** The smallest power of two that is not less than [x]. *)
Definition least_pow2 (x r : Z) := exists k, 0 <= k /\ r = 2 ^ k /\ x <= r /\ forall i, 0 <= i -> x <= 2 ^ i -> r <= 2 ^ i.

Theorem bit_ceil_rec_least w x fuel : 0 < w -> 1 <= x <= 2 ^ (w - 1) -> (Z.to_nat w < fuel)%nat ->
  exists r, bit_ceil_rec fuel w x = Some r /\ least_pow2 x r.
Proof.
  intros Hw Hx Hf. assert (W : 2 ^ (w - 1) < 2 ^ w) by (apply Z.pow_lt_mono_r; lia).
  destruct (Z.eq_dec (Z.land x (x - 1)) 0) as [E|N].
  - exists x. destruct fuel as [|fuel]; [lia|]. cbn [bit_ceil_rec]. rewrite Z.mod_small by lia.
    rewrite E. cbn. split; [reflexivity|]. apply land_pred_pow2 in E; [|lia]. destruct E as (i & Hi & E).
    exists i. repeat split; try lia.
  - set (k := Z.log2_up x). assert (x <> 1) by (intros ->; now apply N).
    assert (K : 2 ^ (k - 1) < x <= 2 ^ k) by (apply Z.log2_up_spec; lia).
    assert (Hk : 1 <= k).
    { assert (0 < k) by (apply Z.log2_up_pos; lia). lia. }
    assert (k <= w - 1) by (apply (Z.log2_up_le_pow2 x (w - 1)); lia).
    assert (x <> 2 ^ k) by (intros E; apply N; rewrite E; apply land_pow2_pred; lia).
    exists (2 ^ k). split.
    + destruct fuel as [|[|n]]; [lia|lia|]. apply (bit_ceil_rec_steps w k ltac:(lia) n 1); try lia.
      assert (2 ^ k = 2 * 2 ^ (k - 1)) by (rewrite <- Z.pow_succ_r by lia; f_equal; lia). lia.
    + exists k. repeat split; try lia. intros i Hi Hxi. apply Z.pow_le_mono_r; [lia|].
      apply (Z.log2_up_le_pow2 x i); lia.
Qed.

(** The bit operators, byte by byte. *)
Theorem float_bitop_bytes l big o f size (a b : list object) : bitwise o = Some f -> as_unsigned size <> None ->
  length a = length b -> (forall p : object, In p a \/ In p b -> length p = size /\ determinate p) ->
  exists r, float_bitop l big o size a b = Ok r /\ length r = length a
    /\ forall i p q, nth_error a i = Some p -> nth_error b i = Some q ->
         exists o', nth_error r i = Some o' /\ length o' = size
           /\ forall j x y, nth_error p j = Some (Some x) -> nth_error q j = Some (Some y) ->
                nth_error o' j = Some (Some (f x y)).
Proof.
  intros Hf Hs Hl Hp. destruct (float_bitop_lanes l big o f size a b Hf Hs Hl Hp) as (r & Hr & [HL HR]).
  exists r. split; [assumption|]. split; [assumption|]. intros i p q Hi Hq. exists (bytewise f p q).
  destruct (Hp p (or_introl (nth_error_In _ _ Hi))) as [L1 _]. destruct (Hp q (or_intror (nth_error_In _ _ Hq))) as [L2 _].
  split; [now apply HR|]. split; [rewrite bytewise_length; congruence|]. intros j x y Hx Hy.
  rewrite bytewise_spec by congruence. now rewrite Hx, Hy.
Qed.
