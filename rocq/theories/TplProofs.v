(** Proofs for C60. *)
From Verif Require Import Base BaseFacts TplModel TplSpec.
From Coq Require Import Lia.

Section Induction.
  Variable P : type -> Prop.
  Hypothesis leaf : forall x, P (TLeaf x).
  Hypothesis struct : forall x ms, Forall P ms -> P (TStruct x ms).
  Fixpoint type_rect' (t : type) : P t :=
    match t with
    | TLeaf x => leaf x
    | TStruct x ms => struct x ms ((fix go (ms : list type) : Forall P ms :=
                                      match ms with [] => Forall_nil P | m :: ms' => Forall_cons m (type_rect' m) (go ms') end) ms)
    end.
End Induction.

Definition leaves_of (ms : list type) : list Z := concat (map leaves ms).

Lemma leaves_struct x ms : leaves (TStruct x ms) = leaves_of ms.
Proof.
  unfold leaves_of. cbn. induction ms as [|m ms IH]; [reflexivity|]. cbn. now rewrite IH.
Qed.

Lemma nonempty_struct x ms : nonempty (TStruct x ms) <-> ms <> [] /\ Forall nonempty ms.
Proof.
  cbn. split.
  - intros [H1 H2]. split; [exact H1|]. clear H1.
    induction ms as [|m ms IH]; constructor; [exact (proj1 H2)|]. apply IH. exact (proj2 H2).
  - intros [H1 H2]. split; [exact H1|]. clear H1.
    induction H2 as [|m ms Hm _ IH]; [exact I|]. split; assumption.
Qed.

Lemma leaves_nonnil t : nonempty t -> (1 <= length (leaves t))%nat.
Proof.
  induction t as [x | x ms IH] using type_rect'; intros N; [cbn; lia|].
  rewrite leaves_struct. apply nonempty_struct in N. destruct N as [N1 N2].
  destruct ms as [|m ms]; [congruence|]. inversion IH; subst. inversion N2; subst.
  unfold leaves_of. cbn. rewrite app_length. specialize (H1 H3). lia.
Qed.

Lemma count_struct x m m' ms :
  flat_member_count (TStruct x (m :: m' :: ms))
  = bindR (flat_member_count m) (fun a => bindR (flat_member_count (TStruct x (m' :: ms))) (fun b => Ok (a + b)%nat)).
Proof. reflexivity. Qed.

Lemma count_leaves t : nonempty t -> flat_member_count t = Ok (length (leaves t)).
Proof.
  induction t as [x | x ms IH] using type_rect'; intros N; [reflexivity|].
  apply nonempty_struct in N. destruct N as [N1 N2].
  rewrite leaves_struct. unfold leaves_of.
  induction ms as [|m ms IHms]; [congruence|].
  inversion IH; subst. inversion N2; subst.
  destruct ms as [|m' ms].
  - cbn. rewrite app_nil_r. auto.
  - rewrite count_struct, (H1 H3). cbn [bindR].
    rewrite (IHms H2); [|congruence|assumption]. cbn [bindR].
    f_equal. change (map leaves (m :: m' :: ms)) with (leaves m :: map leaves (m' :: ms)). cbn [concat].
    now rewrite app_length.
Qed.

Lemma leaves_ge_members ms : Forall nonempty ms -> (length ms <= length (leaves_of ms))%nat.
Proof.
  unfold leaves_of. induction 1 as [|m ms H _ IH]; [cbn; lia|].
  cbn. rewrite app_length. pose proof (leaves_nonnil m H). lia.
Qed.

Lemma all_single ms : Forall nonempty ms ->
  ((length (leaves_of ms) =? length ms)%nat = forallb (fun m => (length (leaves m) =? 1)%nat) ms).
Proof.
  unfold leaves_of. induction 1 as [|m ms H Hms IH]; [reflexivity|].
  cbn [map concat forallb length]. rewrite <- IH, app_length.
  pose proof (leaves_nonnil m H). pose proof (leaves_ge_members ms Hms). unfold leaves_of in *.
  destruct (Nat.eqb_spec (length (leaves m)) 1); cbn [andb].
  - destruct (Nat.eqb_spec (length (concat (map leaves ms))) (length ms)).
    + apply Nat.eqb_eq. lia.
    + apply Nat.eqb_neq. lia.
  - apply Nat.eqb_neq. lia.
Qed.

(** flat_element on a struct. *)
Lemma element_struct i x m ms : nonempty (TStruct x (m :: ms)) ->
  flat_element i (TStruct x (m :: ms)) =
  if forallb (fun m => (length (leaves m) =? 1)%nat) (m :: ms) && (i <? length (m :: ms))%nat
  then Ok (nth_error (m :: ms) i)
  else if (length (m :: ms) <? length (leaves_of (m :: ms)))%nat && (i <? length (leaves m))%nat
       then flat_element i m else Ok None.
Proof.
  intros N. pose proof N as N'. apply nonempty_struct in N'. destruct N' as [_ N'].
  cbn [flat_element]. rewrite (count_leaves _ N), leaves_struct. cbn [bindR].
  rewrite (all_single _ N').
  destruct (_ && _); [reflexivity|].
  inversion N'; subst. rewrite (count_leaves m) by assumption. reflexivity.
Qed.

Lemma element_ok i t : nonempty t -> exists r, flat_element i t = Ok r.
Proof.
  revert i. induction t as [x | x ms IH] using type_rect'; intros i N; [cbn; eauto|].
  destruct ms as [|m ms]; [apply nonempty_struct in N; tauto|].
  rewrite element_struct by assumption.
  inversion IH; subst. apply nonempty_struct in N. destruct N as [_ N]. inversion N; subst.
  destruct (_ && _); [eauto|]. destruct (_ && _); eauto.
Qed.

Lemma compared_spec t : nonempty t ->
  match compared t with
  | Some l => length l = length (leaves t) /\ concat (map leaves l) = leaves t
              /\ forall i, (i < length (leaves t))%nat -> flat_element i t = Ok (nth_error l i)
  | None => flat_element (length (leaves t) - 1) t = Ok None
  end.
Proof.
  induction t as [x | x ms IH] using type_rect'; intros N.
  - cbn. repeat split. intros i Hi. destruct i; [reflexivity|lia].
  - pose proof N as N'. apply nonempty_struct in N'. destruct N' as [N1 N2].
    destruct ms as [|m ms]; [congruence|].
    pose proof (all_single _ N2) as S. pose proof (leaves_ge_members _ N2) as G.
    cbn [compared]. rewrite leaves_struct.
    destruct (forallb _ (m :: ms)) eqn:F.
    + apply Nat.eqb_eq in S. split; [lia|split; [reflexivity|] ].
      intros i Hi. rewrite element_struct, F by assumption.
      assert (Hi' : (i <? length (m :: ms))%nat = true) by (apply Nat.ltb_lt; lia).
      now rewrite Hi'.
    + apply Nat.eqb_neq in S.
      assert (L : (length (m :: ms) <? length (leaves_of (m :: ms)))%nat = true) by (apply Nat.ltb_lt; lia).
      inversion IH as [|? ? IHm IHms]; subst. inversion N2 as [|? ? Nm Nms]; subst.
      destruct ms as [|m' ms].
      * assert (E : leaves_of [m] = leaves m) by (unfold leaves_of; cbn; apply app_nil_r).
        rewrite E in *. specialize (IHm Nm).
        assert (El : forall i, (i < length (leaves m))%nat -> flat_element i (TStruct x [m]) = flat_element i m).
        { intros i Hi. rewrite element_struct, F by assumption. cbn [andb].
          rewrite E, L. apply Nat.ltb_lt in Hi. now rewrite Hi. }
        pose proof (leaves_nonnil m Nm).
        destruct (compared m) as [l|].
        -- destruct IHm as (A & B & C). split; [exact A|split; [exact B|] ].
           intros i Hi. rewrite El by exact Hi. apply C. exact Hi.
        -- rewrite El by lia. exact IHm.
      * rewrite element_struct, F by assumption. cbn [andb]. rewrite L. cbn [andb].
        inversion Nms; subst.
        assert (Hl : (length (leaves_of (m :: m' :: ms)) - 1 <? length (leaves m))%nat = false).
        { apply Nat.ltb_ge. unfold leaves_of. cbn. rewrite !app_length.
          pose proof (leaves_nonnil m'). specialize (H H1). lia. }
        now rewrite Hl.
Qed.

Lemma test_all_true ttup ts is :
  (forall i, In i is -> exists r, consistent_at ttup ts i = Ok r) ->
  exists b, test_all ttup ts is = Ok b
            /\ (b = true <-> forall i, In i is -> consistent_at ttup ts i = Ok (Some true)).
Proof.
  induction is as [|i is IH]; intros H.
  - exists true. split; [reflexivity|]. split; [intros _ i []|reflexivity].
  - destruct (H i (or_introl eq_refl)) as [r Hr].
    destruct IH as (b & Hb & E); [intros j Hj; apply H; now right|].
    cbn. rewrite Hr. cbn. rewrite Hb. cbn. eexists. split; [reflexivity|].
    destruct r as [[]|]; cbn; split.
    + intros ->. intros j [<- | Hj]; [exact Hr|]. now apply E.
    + intros K. apply E. intros j Hj. apply K. now right.
    + discriminate.
    + intros K. specialize (K i (or_introl eq_refl)). congruence.
    + discriminate.
    + intros K. specialize (K i (or_introl eq_refl)). congruence.
Qed.

Lemma same_as_eq s t : same_as s t = true <-> s = t.
Proof.
  revert t. induction s as [x | x ms IH] using type_rect'; intros [y | y ns]; cbn.
  - rewrite Z.eqb_eq. split; congruence.
  - split; discriminate.
  - split; discriminate.
  - rewrite andb_true_iff, Z.eqb_eq.
    match goal with |- _ /\ ?f ms ns = true <-> _ => assert (K : f ms ns = true <-> ms = ns) end.
    { clear x y. revert ns. induction IH as [|m ms Hm _ IHms]; intros [|n ns]; try (split; congruence).
      rewrite andb_true_iff, Hm, IHms. split; [intros [-> ->]; reflexivity|intros [= -> ->]; auto]. }
    rewrite K. split; [intros [-> ->]; reflexivity|intros [= -> ->]; auto].
Qed.

Lemma comparison ttup ts n : nonempty ttup -> nonempty ts ->
  length (leaves ts) = n -> length (leaves ttup) = n ->
  exists b, test_all ttup ts (seq 0 n) = Ok b
            /\ (b = true <-> exists l l', compared ttup = Some l /\ compared ts = Some l' /\ l = l').
Proof.
  intros N1 N2 L1 L2.
  destruct (test_all_true ttup ts (seq 0 n)) as (b & Hb & E).
  - intros i _. unfold consistent_at.
    destruct (element_ok i ttup N1) as [r ->], (element_ok i ts N2) as [r' ->]. cbn. eauto.
  - exists b. split; [exact Hb|]. rewrite E. clear b Hb E.
    pose proof (compared_spec ttup N1) as S1. pose proof (compared_spec ts N2) as S2.
    pose proof (leaves_nonnil ttup N1) as P1.
    split.
    + intros H. destruct (compared ttup) as [l|].
      * destruct (compared ts) as [l'|].
        -- exists l, l'. split; [reflexivity|split; [reflexivity|] ].
           destruct S1 as (A1 & _ & B1), S2 as (A2 & _ & B2).
           apply nth_error_ext. intros i.
           destruct (Nat.lt_ge_cases i n) as [Hi | Hi].
           ++ specialize (H i). unfold consistent_at in H.
              rewrite B1, B2 in H by lia. cbn in H.
              assert (In i (seq 0 n)) as I by (apply in_seq; lia). specialize (H I).
              destruct (nth_error l i) as [x|], (nth_error l' i) as [y|]; try discriminate.
              injection H as H. apply same_as_eq in H. now subst.
           ++ rewrite (proj2 (nth_error_None l i)), (proj2 (nth_error_None l' i)) by lia. reflexivity.
        -- exfalso. specialize (H (n - 1)%nat). unfold consistent_at in H. rewrite L1 in S2. rewrite S2 in H.
           destruct (element_ok (n - 1) ttup N1) as [r E]. rewrite E in H. cbn in H.
           assert (In (n - 1)%nat (seq 0 n)) as I by (apply in_seq; lia). specialize (H I). destruct r; discriminate.
      * exfalso. specialize (H (n - 1)%nat). unfold consistent_at in H. rewrite L2 in S1. rewrite S1 in H.
        cbn in H. destruct (element_ok (n - 1) ts N2) as [r E]. rewrite E in H. cbn in H.
        assert (In (n - 1)%nat (seq 0 n)) as I by (apply in_seq; lia). specialize (H I). discriminate.
    + intros (l & l' & E1 & E2 & M) i Hi. rewrite E1 in S1. rewrite E2 in S2.
      destruct S1 as (A1 & _ & B1), S2 as (A2 & _ & B2). apply in_seq in Hi.
      unfold consistent_at. rewrite B1, B2 by lia. cbn.
      subst l'. destruct (nth_error l i) as [x|] eqn:X; [|apply nth_error_None in X; lia].
      now rewrite (proj2 (same_as_eq x x) eq_refl).
Qed.

Section Concept.
  Variable simd_of : type -> Z -> option type.
  Variable tpl : list targ -> type.

  Lemma replace_types_novalue n args : (forall v, ~ In (TValue v) args) ->
    replace_types simd_of n args = replaced simd_of n args.
  Proof.
    unfold replace_types, replaced. induction args as [|[t|v] args IH]; intros H; [reflexivity| |].
    - cbn. rewrite IH; [reflexivity|]. intros v Hv. apply (H v). now right.
    - exfalso. apply (H v). now left.
  Qed.

  Lemma replace_types_value n args v : In (TValue v) args -> replace_types simd_of n args = None.
  Proof.
    unfold replace_types. induction args as [|a args IH]; intros []; cbn.
    - subst. reflexivity.
    - rewrite IH by assumption. destruct a; [|reflexivity]. now destruct (simd_of t n).
  Qed.

  Lemma values_only vs : forallb (fun a => match a with TValue _ => true | TType _ => false end) (map TValue vs) = true.
  Proof. induction vs; auto. Qed.

  Lemma values_only_inv l : forallb (fun a => match a with TValue _ => true | TType _ => false end) l = true ->
    exists vs, l = map TValue vs.
  Proof.
    induction l as [|[t|v] l IH]; cbn; intros H; [exists []; reflexivity|discriminate|].
    destruct (IH H) as [vs ->]. exists (v :: vs). reflexivity.
  Qed.

  Lemma replaced_values n vs : replaced simd_of n (map TValue vs) = Some (map TValue vs).
  Proof. unfold replaced. induction vs as [|v vs IH]; [reflexivity|]. cbn. now rewrite IH. Qed.

  Lemma arguments_shape n args ts : option_map tpl (replaced simd_of n args) = Some ts ->
    (argument_shape args /\ simdize_template_arguments simd_of tpl n args = Some ts)
    \/ (~ argument_shape args /\ simdize_template_arguments simd_of tpl n args = None).
  Proof.
    intros H. unfold simdize_template_arguments.
    destruct (Exists_dec (fun a => exists v, a = TValue v) args) as [V | V].
    { intros [t|v]; [right; intros [v Hv]; discriminate | left; eauto]. }
    - apply Exists_exists in V. destruct V as (a & Ha & v & ->).
      rewrite (replace_types_value n args v Ha).
      destruct args as [|[t|w] args].
      + destruct Ha.
      + destruct Ha as [Ha | Ha]; [discriminate|].
        destruct (forallb (fun a => match a with TValue _ => true | TType _ => false end) args) eqn:F.
        * left. destruct (values_only_inv _ F) as [vs ->]. split.
          -- right. exists t, vs. split; [reflexivity|]. intros ->. destruct Ha.
          -- destruct vs as [|w vs]; [destruct Ha|].
             unfold replaced in H. cbn in H. cbn.
             change (traverse _ (map TValue vs)) with (replaced simd_of n (map TValue vs)) in H.
             rewrite replaced_values in H. rewrite values_only.
             destruct (simd_of t n); cbn in *; congruence.
        * right. split.
          -- intros [N | (t' & vs & E & _)]; [apply (N v); now right|].
             injection E as -> ->. rewrite values_only in F. discriminate.
          -- cbn. destruct args as [|[u|w] args]; try reflexivity.
             cbn in F. cbn. rewrite F. reflexivity.
      + right. split; [|reflexivity].
        intros [N | (t' & vs & E & _)]; [apply (N w); now left | discriminate].
    - left. assert (N : forall v, ~ In (TValue v) args).
      { intros v Hv. apply V. apply Exists_exists. eauto. }
      split; [left; exact N|]. rewrite replace_types_novalue by exact N.
      destruct (replaced simd_of n args); cbn in *; congruence.
  Qed.

  Lemma traverse_forall2 {A B} (f : A -> option B) l l' :
    Forall2 (fun x y => f x = Some y) l l' -> traverse f l = Some l'.
  Proof. induction 1 as [|x y l l' H _ IH]; [reflexivity|]. cbn. now rewrite H, IH. Qed.

  Lemma concept_iff args n ts ttup : comparable simd_of tpl args n ts ttup ->
    exists b, vectorizable_struct_template simd_of tpl args (Some n) = Ok b
      /\ (b = true <-> argument_shape args
                       /\ exists l l', compared ttup = Some l /\ compared ts = Some l' /\ l = l').
  Proof.
    intros [A W (ms & ms' & us & M & M' & U & L & F) (N & Ns & Nt) (Ls & Lt)].
    unfold vectorizable_struct_template. rewrite M.
    assert (NE : ms <> []).
    { destruct (tpl args) as [|x ms0]; [discriminate|]. injection M as ->. apply nonempty_struct in N. tauto. }
    destruct ms as [|m ms]; [congruence|].
    destruct (arguments_shape n args ts A) as [ [S ->] | [S ->] ].
    - cbv beta iota. rewrite M', L, Nat.eqb_refl.
      assert (K : exists ttup', make_simd_tuple simd_of (tpl args) n = Some ttup' /\ members ttup' = Some us).
      { unfold make_simd_tuple. rewrite M. apply Z.ltb_lt in W. rewrite W.
        rewrite (traverse_forall2 (fun m => simd_of m n) (m :: ms) us F). eexists. split; reflexivity. }
      destruct K as (ttup' & -> & U').
      destruct ttup' as [|x us']; [discriminate|]. injection U' as ->.
      destruct ttup as [|y us']; [discriminate|]. injection U as ->.
      rewrite (count_leaves _ N). cbn [bindR].
      assert (Nt' : nonempty (TStruct x us)) by (apply nonempty_struct; apply nonempty_struct in Nt; exact Nt).
      rewrite leaves_struct in Lt.
      destruct (comparison (TStruct x us) ts (length (leaves (tpl args))) Nt' Ns Ls) as (b & Hb & E);
        [now rewrite leaves_struct|].
      exists b. split; [exact Hb|]. rewrite E.
      change (compared (TStruct y us)) with (compared (TStruct x us)). tauto.
    - exists false. split; [reflexivity|]. split; [discriminate|tauto].
  Qed.

  (** The concept holds only for equal layouts. *)
  Lemma concept_sound args n ts ttup : comparable simd_of tpl args n ts ttup ->
    vectorizable_struct_template simd_of tpl args (Some n) = Ok true -> same_layout ts ttup.
  Proof.
    intros C H. destruct (concept_iff args n ts ttup C) as (b & Hb & E). rewrite Hb in H. injection H as ->.
    destruct (proj1 E eq_refl) as (_ & l & l' & E1 & E2 & M). destruct C as [_ _ _ (_ & Ns & Nt) _].
    pose proof (compared_spec ttup Nt) as S1. pose proof (compared_spec ts Ns) as S2. rewrite E1 in S1. rewrite E2 in S2.
    destruct S1 as (_ & Q1 & _), S2 as (_ & Q2 & _). unfold same_layout. rewrite <- Q1, <- Q2. now subst.
  Qed.

  Lemma flat_compared t : flat t -> exists ms, compared t = Some ms /\ ms = map TLeaf (leaves t).
  Proof.
    intros (x & ms & -> & _ & F). exists ms.
    assert (K : forallb (fun m => (length (leaves m) =? 1)%nat) ms = true /\ ms = map TLeaf (leaves_of ms)).
    { unfold leaves_of. induction F as [|m ms [y ->] _ [IH1 IH2] ]; [split; reflexivity|].
      cbn. rewrite IH1. split; [reflexivity|]. now rewrite <- IH2. }
    destruct K as [K1 K2]. split; [cbn [compared]; now rewrite K1 | rewrite leaves_struct; exact K2].
  Qed.

  (** Structs without structs. *)
  Lemma concept_flat args n ts ttup : comparable simd_of tpl args n ts ttup -> flat ts -> flat ttup ->
    exists b, vectorizable_struct_template simd_of tpl args (Some n) = Ok b
      /\ (b = true <-> argument_shape args /\ same_layout ts ttup).
  Proof.
    intros C F1 F2. destruct (concept_iff args n ts ttup C) as (b & Hb & E). exists b. split; [exact Hb|]. rewrite E.
    destruct (flat_compared ts F1) as (ms & C1 & L1), (flat_compared ttup F2) as (us & C2 & L2).
    unfold same_layout. rewrite C1, C2. split.
    - intros (S & l & l' & [= <-] & [= <-] & M). split; [exact S|]. rewrite L1, L2 in M.
      apply (f_equal (map (fun t => match t with TLeaf x => x | TStruct x _ => x end))) in M.
      rewrite !map_map, !map_id in M. congruence.
    - intros (S & M). split; [exact S|]. exists us, ms. split; [reflexivity|split; [reflexivity|congruence] ].
  Qed.

  Lemma concept_found args n ts ttup : comparable simd_of tpl args n ts ttup ->
    exists b, vectorizable_struct_template simd_of tpl args (Some n) = Ok b
      /\ (b = true <-> argument_shape args /\ found_equal ts ttup).
  Proof.
    intros C. destruct (concept_iff args n ts ttup C) as (b & Hb & E). exists b. split; [exact Hb|]. rewrite E.
    unfold found_equal. split.
    - intros (S & l & l' & E1 & E2 & <-). eauto.
    - intros (S & l & E1 & E2). eauto 8.
  Qed.

  Lemma replace_types_none n args : replaced simd_of n args = None -> replace_types simd_of n args = None.
  Proof.
    unfold replaced, replace_types. induction args as [|[t|v] args IH]; cbn; [discriminate| |reflexivity].
    destruct (simd_of t n); cbn; [|reflexivity].
    destruct (traverse _ args) eqn:T; [discriminate|]. intros _. now rewrite IH.
  Qed.

  Lemma not_simdizable args n : replaced simd_of n args = None ->
    vectorizable_struct_template simd_of tpl args (Some n) = Ok false.
  Proof.
    intros H. unfold vectorizable_struct_template, simdize_template_arguments.
    rewrite (replace_types_none n args H).
    assert (K : replace_first simd_of n args = None).
    { destruct args as [|[t|v] [|[u|w] args] ]; try reflexivity. cbn.
      destruct (forallb _ args) eqn:F; [|reflexivity].
      destruct (values_only_inv _ F) as [vs ->].
      unfold replaced in H. cbn in H.
      change (traverse _ (map TValue vs)) with (replaced simd_of n (map TValue vs)) in H.
      rewrite replaced_values in H. now destruct (simd_of t n). }
    rewrite K. destruct (members (tpl args)) as [ [|m ms] |]; reflexivity.
  Qed.
End Concept.
