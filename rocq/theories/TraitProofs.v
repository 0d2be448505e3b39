(** Specification and proofs for the traits. *)
From Verif Require Import Base BaseFacts TraitModel.
Ltac Zify.zify_post_hook ::= idtac.

(** The vectorizable types of the TS: cv-unqualified arithmetic types other than bool. *)
Definition ts_vectorizable (t : ty) : Prop := exists id, t = Arith id.
Definition ts_abi_tag (t : ty) : Prop := t = AbiScalar \/ exists n, t = AbiFixed n.
Definition ts_flag_type (t : ty) : Prop := t = ElementAligned \/ t = VectorAligned \/ exists n, t = Overaligned n.

Lemma vectorizable_same t : vectorizable t = is_vectorizable t.
Proof. destruct t as [| | |u| | | | | | |]; try reflexivity. unfold vectorizable, is_vectorizable. cbn. destruct (is_arithmetic u); reflexivity. Qed.

Lemma vectorizable_unqualified t : (forall u, t <> Cv u) -> (is_vectorizable t = true <-> ts_vectorizable t).
Proof.
  unfold ts_vectorizable.
  intros H. destruct t; cbn; split; intros E; try discriminate; try (destruct E; discriminate); try reflexivity.
  - now exists id.
  - destruct (H t eq_refl).
Qed.

Fixpoint arith_core (t : ty) : Prop := match t with Cv u => arith_core u | Bool | Arith _ => True | _ => False end.

Lemma arithmetic_core t : is_arithmetic t = true <-> arith_core t.
Proof. induction t; cbn; try (split; [discriminate|intros []]); try tauto. Qed.

(** Exactly which others are accepted: cv-qualified arithmetic types, bool included. *)
Lemma vectorizable_exact t : is_vectorizable t = true <-> ts_vectorizable t \/ exists u, t = Cv u /\ arith_core u.
Proof.
  destruct t; try (rewrite vectorizable_unqualified by discriminate; split; [auto|intros [H|(u & H & _)]; [exact H|discriminate]]).
  cbn. rewrite arithmetic_core. split; [intros H; right; eauto|]. intros [[id H]|(u & H & C)]; [discriminate|].
  injection H as <-. exact C.
Qed.

Lemma vectorizable_refuted : exists t, is_vectorizable t = true /\ vectorizable t = true /\ ~ ts_vectorizable t /\ t = Cv Bool.
Proof. exists (Cv Bool). repeat split. intros [id H]. discriminate. Qed.

Lemma abi_tag_iff t : is_abi_tag t = true <-> ts_abi_tag t.
Proof.
  unfold ts_abi_tag. destruct t; cbn; split; intros H; try discriminate; try reflexivity; eauto;
    destruct H as [H|[k H]]; discriminate.
Qed.

Lemma simd_iff t : (is_simd t = true <-> exists e a, t = Simd e a /\ is_vectorizable e = true /\ ts_abi_tag a)
  /\ (is_simd_mask t = true <-> exists e a, t = Mask e a /\ is_vectorizable e = true /\ ts_abi_tag a)
  /\ ~ (is_simd t = true /\ is_simd_mask t = true).
Proof.
  split; [|split; [|destruct t; cbn; intros [H1 H2]; discriminate]]; destruct t; cbn; split; intros H; try discriminate;
    try (destruct H as (e & a & H & _); discriminate).
  - apply andb_true_iff in H. rewrite abi_tag_iff in H. destruct H as [H1 H2]. eauto 6.
  - destruct H as (e & a & H & H1 & H2). injection H as <- <-. apply andb_true_iff. rewrite abi_tag_iff. auto.
  - apply andb_true_iff in H. rewrite abi_tag_iff in H. destruct H as [H1 H2]. eauto 6.
  - destruct H as (e & a & H & H1 & H2). injection H as <- <-. apply andb_true_iff. rewrite abi_tag_iff. auto.
Qed.

(** An ABI tag and its number of lanes. *)
Inductive tag_lanes : ty -> Z -> Prop :=
| scalar_lanes : tag_lanes AbiScalar 1
| fixed_lanes n : tag_lanes (AbiFixed n) n.

(** A tag with which the class templates cannot be instantiated. *)
Definition no_lanes (a : ty) : Prop := exists n, tag_lanes a n /\ n <= 0.

Lemma no_lanes_fixed a : no_lanes a <-> exists n, a = AbiFixed n /\ n <= 0.
Proof.
  split.
  - intros (n & T & H). destruct T; [lia|]. eauto.
  - intros (n & -> & H). exists n. split; [constructor|exact H].
Qed.

Lemma any_simd_value v : any_simd v =
  match v with
  | Simd e (AbiFixed n) => if is_vectorizable e && negb (0 <? n) then Stop SIllFormed else Ok (is_simd v)
  | _ => Ok (is_simd v)
  end.
Proof.
  destruct v as [| | | | | |e a|e a| | |]; try reflexivity. unfold any_simd, value_type, abi_type. cbn [is_simd complete].
  destruct (is_vectorizable e) eqn:Ee; [|destruct a; reflexivity]. destruct a as [| | | | |n| | | | |]; try reflexivity;
    cbn [is_abi_tag andb]; unfold both, holds; cbn [bindR].
  - rewrite vectorizable_same, Ee. reflexivity.
  - destruct (0 <? n); cbn [bindR negb]; [|reflexivity]. rewrite vectorizable_same, Ee. reflexivity.
Qed.

Lemma any_simd_mask_value v : any_simd_mask v =
  match v with
  | Mask e (AbiFixed n) => if is_vectorizable e && negb (0 <? n) then Stop SIllFormed else Ok (is_simd_mask v)
  | _ => Ok (is_simd_mask v)
  end.
Proof.
  destruct v as [| | | | | |e a|e a| | |]; try reflexivity. unfold any_simd_mask, simd_type, abi_type. cbn [complete].
  destruct (is_simd_mask (Mask e a)) eqn:E.
  - unfold both at 1. cbn [bindR]. cbn [is_simd_mask] in E. apply andb_true_iff in E. destruct E as [Ee Ea]. rewrite Ee.
    destruct a as [| | | | |n| | | | |]; try discriminate Ea; cbn [andb]; unfold both, holds.
    + cbn [bindR]. rewrite any_simd_value. cbn [is_simd is_abi_tag]. rewrite Ee. reflexivity.
    + destruct (0 <? n) eqn:En; cbn [negb bindR]; [|reflexivity]. rewrite any_simd_value, En. cbn [is_simd is_abi_tag].
      rewrite Ee. reflexivity.
  - unfold both. cbn [bindR]. cbn [is_simd_mask] in E. destruct a; try reflexivity.
    cbn [is_abi_tag] in E. rewrite andb_true_r in E. rewrite E. reflexivity.
Qed.

Lemma any_simd_ok v b : any_simd v = Ok b <->
  b = is_simd v /\ ~ exists e a, v = Simd e a /\ is_vectorizable e = true /\ no_lanes a.
Proof.
  rewrite any_simd_value. split.
  - intros H. assert (G : b = is_simd v).
    { destruct v as [| | | | | |e a| | | |]; try (injection H as <-; reflexivity).
      destruct a; try (injection H as <-; reflexivity). destruct (_ && _); [discriminate|]. injection H as <-. reflexivity. }
    split; [exact G|]. intros (e & a & -> & He & Ha). rewrite no_lanes_fixed in Ha. destruct Ha as (n & -> & Hn).
    rewrite He in H. replace (0 <? n) with false in H by (symmetry; apply Z.ltb_ge; exact Hn). discriminate.
  - intros [-> H]. destruct v as [| | | | | |e a| | | |]; try reflexivity. destruct a as [| | | | |n| | | | |]; try reflexivity.
    destruct (is_vectorizable e) eqn:Ee; [|reflexivity]. destruct (0 <? n) eqn:En; [reflexivity|]. destruct H.
    exists e, (AbiFixed n). split; [reflexivity|]. split; [exact Ee|]. rewrite no_lanes_fixed. exists n.
    split; [reflexivity|]. apply Z.ltb_ge. exact En.
Qed.

Lemma any_simd_mask_ok v b : any_simd_mask v = Ok b <->
  b = is_simd_mask v /\ ~ exists e a, v = Mask e a /\ is_vectorizable e = true /\ no_lanes a.
Proof.
  rewrite any_simd_mask_value. split.
  - intros H. assert (G : b = is_simd_mask v).
    { destruct v as [| | | | | | |e a| | |]; try (injection H as <-; reflexivity).
      destruct a; try (injection H as <-; reflexivity). destruct (_ && _); [discriminate|]. injection H as <-. reflexivity. }
    split; [exact G|]. intros (e & a & -> & He & Ha). rewrite no_lanes_fixed in Ha. destruct Ha as (n & -> & Hn).
    rewrite He in H. replace (0 <? n) with false in H by (symmetry; apply Z.ltb_ge; exact Hn). discriminate.
  - intros [-> H]. destruct v as [| | | | | | |e a| | |]; try reflexivity. destruct a as [| | | | |n| | | | |]; try reflexivity.
    destruct (is_vectorizable e) eqn:Ee; [|reflexivity]. destruct (0 <? n) eqn:En; [reflexivity|]. destruct H.
    exists e, (AbiFixed n). split; [reflexivity|]. split; [exact Ee|]. rewrite no_lanes_fixed. exists n.
    split; [reflexivity|]. apply Z.ltb_ge. exact En.
Qed.

Lemma any_stop v : (forall s, any_simd v = Stop s -> s = SIllFormed) /\ (forall s, any_simd_mask v = Stop s -> s = SIllFormed).
Proof.
  rewrite any_simd_value, any_simd_mask_value.
  split; intros s; destruct v as [| | | | | |e a|e a| | |]; try discriminate; destruct a; try discriminate;
    destruct (_ && _); try discriminate; intros H; injection H as <-; reflexivity.
Qed.

Lemma either_value v : any_simd_or_mask v = match any_simd v with Ok false => any_simd_mask v | r => r end.
Proof. unfold any_simd_or_mask, either. destruct (any_simd v) as [[|]|]; reflexivity. Qed.

Lemma concepts_same v : (forall e a, v = Simd e a \/ v = Mask e a -> is_vectorizable e = true -> ~ no_lanes a) ->
  any_simd v = Ok (is_simd v) /\ any_simd_mask v = Ok (is_simd_mask v)
  /\ any_simd_or_mask v = Ok (is_simd v || is_simd_mask v).
Proof.
  intros H. assert (A : any_simd v = Ok (is_simd v)).
  { apply any_simd_ok. split; [reflexivity|]. intros (e & a & E & He & Ha). exact (H e a (or_introl E) He Ha). }
  assert (B : any_simd_mask v = Ok (is_simd_mask v)).
  { apply any_simd_mask_ok. split; [reflexivity|]. intros (e & a & E & He & Ha). exact (H e a (or_intror E) He Ha). }
  split; [exact A|]. split; [exact B|]. rewrite either_value, A, B. destruct (is_simd v); reflexivity.
Qed.

Lemma concepts_error v :
  (any_simd v = Stop SIllFormed <-> exists e a, v = Simd e a /\ is_vectorizable e = true /\ no_lanes a)
  /\ (any_simd_mask v = Stop SIllFormed <-> exists e a, v = Mask e a /\ is_vectorizable e = true /\ no_lanes a).
Proof.
  rewrite any_simd_value, any_simd_mask_value.
  split; (split; [|intros (e & a & -> & He & Ha); rewrite no_lanes_fixed in Ha; destruct Ha as (n & -> & Hn); rewrite He;
      replace (0 <? n) with false by (symmetry; apply Z.ltb_ge; exact Hn); reflexivity]).
  - destruct v as [| | | | | |e a| | | |]; try discriminate. destruct a as [| | | | |n| | | | |]; try discriminate.
    destruct (is_vectorizable e) eqn:Ee; [|discriminate]. destruct (0 <? n) eqn:En; [discriminate|]. intros _.
    exists e, (AbiFixed n). split; [reflexivity|]. split; [exact Ee|]. rewrite no_lanes_fixed. exists n.
    split; [reflexivity|]. apply Z.ltb_ge. exact En.
  - destruct v as [| | | | | | |e a| | |]; try discriminate. destruct a as [| | | | |n| | | | |]; try discriminate.
    destruct (is_vectorizable e) eqn:Ee; [|discriminate]. destruct (0 <? n) eqn:En; [discriminate|]. intros _.
    exists e, (AbiFixed n). split; [reflexivity|]. split; [exact Ee|]. rewrite no_lanes_fixed. exists n.
    split; [reflexivity|]. apply Z.ltb_ge. exact En.
Qed.

Lemma concepts_error_case : is_simd (Simd (Arith 3) (AbiFixed 0)) = true /\ any_simd (Simd (Arith 3) (AbiFixed 0)) = Stop SIllFormed.
Proof. split; reflexivity. Qed.

(** typed_simd, sized_simd, sized_simd_mask *)
Lemma both_true a b : both a b = Ok true <-> a = Ok true /\ b = Ok true.
Proof. unfold both. destruct a as [[|]|]; cbn; split; intros H; try discriminate; try tauto; destruct H; discriminate. Qed.

Lemma any_simd_true v : any_simd v = Ok true <-> exists e a n, v = Simd e a /\ is_vectorizable e = true /\ tag_lanes a n /\ 0 < n.
Proof.
  rewrite any_simd_value. split.
  - destruct v as [| | | | | |e a| | | |]; try discriminate. cbn [is_simd].
    destruct (is_vectorizable e) eqn:Ee; [|destruct a; discriminate].
    destruct a as [| | | | |n| | | | |]; try discriminate; cbn [andb is_abi_tag].
    + intros _. exists e, AbiScalar, 1. split; [reflexivity|]. split; [exact Ee|]. split; [constructor|lia].
    + destruct (0 <? n) eqn:En; [|discriminate]. intros _. exists e, (AbiFixed n), n. split; [reflexivity|].
      split; [exact Ee|]. split; [constructor|]. apply Z.ltb_lt. exact En.
  - intros (e & a & n & -> & He & Ha & Hn). destruct Ha; cbn [is_simd is_abi_tag]; rewrite He; [reflexivity|].
    replace (0 <? n) with true by (symmetry; apply Z.ltb_lt; exact Hn). reflexivity.
Qed.

Lemma any_simd_mask_true v : any_simd_mask v = Ok true <-> exists e a n, v = Mask e a /\ is_vectorizable e = true /\ tag_lanes a n /\ 0 < n.
Proof.
  rewrite any_simd_mask_value. split.
  - destruct v as [| | | | | | |e a| | |]; try discriminate. cbn [is_simd_mask].
    destruct (is_vectorizable e) eqn:Ee; [|destruct a; discriminate].
    destruct a as [| | | | |n| | | | |]; try discriminate; cbn [andb is_abi_tag].
    + intros _. exists e, AbiScalar, 1. split; [reflexivity|]. split; [exact Ee|]. split; [constructor|lia].
    + destruct (0 <? n) eqn:En; [|discriminate]. intros _. exists e, (AbiFixed n), n. split; [reflexivity|].
      split; [exact Ee|]. split; [constructor|]. apply Z.ltb_lt. exact En.
  - intros (e & a & n & -> & He & Ha & Hn). destruct Ha; cbn [is_simd_mask is_abi_tag]; rewrite He; [reflexivity|].
    replace (0 <? n) with true by (symmetry; apply Z.ltb_lt; exact Hn). reflexivity.
Qed.

Lemma positive_true n : 0 < n -> (0 <? n) = true.
Proof. intros H. apply Z.ltb_lt. exact H. Qed.

Lemma members_ok e a n : is_vectorizable e = true -> tag_lanes a n -> 0 < n ->
  value_type (Simd e a) = Ok (Some e) /\ size (Simd e a) = Ok (Some n) /\ size (Mask e a) = Ok (Some n).
Proof.
  intros He Ha Hn. unfold value_type, size, complete. destruct Ha; [|rewrite (positive_true n Hn)]; rewrite He; auto.
Qed.

Lemma typed_simd_iff v t : typed_simd v t = Ok true <->
  exists a n, v = Simd t a /\ is_vectorizable t = true /\ tag_lanes a n /\ 0 < n.
Proof.
  unfold typed_simd. rewrite both_true, any_simd_true. split.
  - intros [(e & a & n & -> & He & Ha & Hn) H]. destruct (members_ok e a n He Ha Hn) as (M & _). rewrite M in H.
    unfold holds in H. cbn [bindR] in H. destruct (ty_eq_dec t e) as [->|N]; [|discriminate H]. exists a, n. auto.
  - intros (a & n & -> & He & Ha & Hn). split; [exists t, a, n; auto|]. destruct (members_ok t a n He Ha Hn) as (M & _).
    rewrite M. unfold holds. cbn [bindR]. destruct (ty_eq_dec t t) as [_|N]; [reflexivity|]. destruct (N eq_refl).
Qed.

Lemma sized_simd_iff v w : sized_simd v w = Ok true <->
  exists e a, v = Simd e a /\ is_vectorizable e = true /\ tag_lanes a w /\ 0 < w.
Proof.
  unfold sized_simd. rewrite both_true, any_simd_true. split.
  - intros [(e & a & n & -> & He & Ha & Hn) H]. destruct (members_ok e a n He Ha Hn) as (_ & M & _). rewrite M in H.
    unfold holds in H. cbn [bindR] in H. destruct (n =? w) eqn:E; [|discriminate H]. apply Z.eqb_eq in E. subst n.
    exists e, a. auto.
  - intros (e & a & -> & He & Ha & Hn). split; [exists e, a, w; auto|]. destruct (members_ok e a w He Ha Hn) as (_ & M & _).
    rewrite M. unfold holds. cbn [bindR]. rewrite Z.eqb_refl. reflexivity.
Qed.

Lemma sized_simd_mask_iff v w : sized_simd_mask v w = Ok true <->
  exists e a, v = Mask e a /\ is_vectorizable e = true /\ tag_lanes a w /\ 0 < w.
Proof.
  unfold sized_simd_mask. rewrite both_true, any_simd_mask_true. split.
  - intros [(e & a & n & -> & He & Ha & Hn) H]. destruct (members_ok e a n He Ha Hn) as (_ & _ & M). rewrite M in H.
    unfold holds in H. cbn [bindR] in H. destruct (n =? w) eqn:E; [|discriminate H]. apply Z.eqb_eq in E. subst n.
    exists e, a. auto.
  - intros (e & a & -> & He & Ha & Hn). split; [exists e, a, w; auto|]. destruct (members_ok e a w He Ha Hn) as (_ & _ & M).
    rewrite M. unfold holds. cbn [bindR]. rewrite Z.eqb_refl. reflexivity.
Qed.

(** The three are an error exactly if any_simd or any_simd_mask is. *)
Lemma value_type_ok v : any_simd v = Ok true -> exists o, value_type v = Ok o /\ exists n, size v = Ok n.
Proof.
  rewrite any_simd_true. intros (e & a & n & -> & He & Ha & Hn). destruct (members_ok e a n He Ha Hn) as (M1 & M2 & _).
  rewrite M1, M2. eauto.
Qed.

Lemma size_ok v : any_simd_mask v = Ok true -> exists n, size v = Ok n.
Proof.
  rewrite any_simd_mask_true. intros (e & a & n & -> & He & Ha & Hn). destruct (members_ok e a n He Ha Hn) as (_ & _ & M).
  rewrite M. eauto.
Qed.

Lemma both_error a b s : (a = Ok true -> exists x, b = Ok x) -> (both a b = Stop s <-> a = Stop s).
Proof.
  intros H. unfold both. destruct a as [[|]|]; cbn; try tauto.
  - destruct (H eq_refl) as [x ->]. split; discriminate.
Qed.

Lemma narrower_error v t w s : (typed_simd v t = Stop s <-> any_simd v = Stop s)
  /\ (sized_simd v w = Stop s <-> any_simd v = Stop s) /\ (sized_simd_mask v w = Stop s <-> any_simd_mask v = Stop s).
Proof.
  split; [|split].
  - apply both_error. intros H. destruct (value_type_ok v H) as (o & -> & _). unfold holds. cbn [bindR]. destruct o; eauto.
  - apply both_error. intros H. destruct (value_type_ok v H) as (_ & _ & n & ->). unfold holds. cbn [bindR]. destruct n; eauto.
  - apply both_error. intros H. destruct (size_ok v H) as (n & ->). unfold holds. cbn [bindR]. destruct n; eauto.
Qed.

(** memory_alignment *)
Definition ts_has_alignment (v u : ty) : Prop :=
  (is_simd v = true /\ is_vectorizable u = true) \/ (is_simd_mask v = true /\ u = Bool).

Lemma alignment_value al v u : ts_has_alignment v u -> memory_alignment al v u = Some (al u).
Proof.
  intros [[Hv Hu]|[Hv ->]].
  - destruct v; try discriminate. cbn. rewrite Hu. reflexivity.
  - destruct v; try discriminate. reflexivity.
Qed.

Lemma alignment_iff al v u : memory_alignment al v u <> None <->
  ((exists e a, v = Simd e a) /\ is_vectorizable u = true) \/ ((exists e a, v = Mask e a) /\ u = Bool).
Proof.
  split.
  - destruct v as [| | | | | |e a|e a| | |]; cbn; try congruence.
    + destruct (is_vectorizable u) eqn:E; [|congruence]. intros _. left. eauto.
    + destruct u; try congruence. intros _. right. eauto.
  - intros [[(e & a & ->) Hu]|[(e & a & ->) ->]]; cbn; [rewrite Hu|]; discriminate.
Qed.

Lemma alignment_refuted : exists v u, (forall al, memory_alignment al v u = Some (al u)) /\ ~ ts_has_alignment v u
  /\ v = Simd Bool AbiScalar.
Proof.
  exists (Simd Bool AbiScalar), (Arith 3). split; [reflexivity|]. split; [|reflexivity].
  intros [[H _]|[H _]]; discriminate.
Qed.

Lemma loadstore_iff p v : loadstore p v = true <->
  (p = Bool /\ v = Bool) \/ (is_vectorizable p = true /\ is_vectorizable v = true).
Proof.
  assert (G : loadstore p v = true <-> (p = Bool /\ v = Bool) \/ (is_vectorizable p && is_vectorizable v = true)).
  { destruct p, v; cbn; split; intros H; try tauto; try (now right); destruct H as [[H1 H2]|H]; congruence. }
  rewrite G, andb_true_iff. reflexivity.
Qed.

Lemma flag_refuted : exists t, ts_flag_type t /\ is_simd_flag_type t = false.
Proof. exists ElementAligned. split; [now left|reflexivity]. Qed.
