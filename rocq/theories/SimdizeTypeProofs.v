(** Proofs about simdize<T, N>. *)
From Verif Require Import Base BaseFacts SimdizeModel SimdizeSpec SimdizeProofs SimdizeTypeModel SimdizeTypeSpec.
From Coq Require Import ZifyBool ZifyNat.
Ltac Zify.zify_post_hook ::= idtac.

Definition sizes := fix sizes (ms : list (tree leaf_type)) : res (list Z) :=
  match ms with
  | [] => Ok []
  | x :: ms' => bindR (simdize_impl x 0) (fun r =>
    match size_of r with
    | None => Stop SIllFormed
    | Some k => bindR (sizes ms') (fun ks => Ok (k :: ks))
    end)
  end.

Definition members (n' : Z) := fix members (ms : list (tree leaf_type)) : res (list stype) :=
  match ms with
  | [] => Ok []
  | x :: ms' => bindR (simdize_impl x n') (fun r => bindR (members ms') (fun rs => Ok (r :: rs)))
  end.

Lemma simdize_struct ms n : simdize_impl (Struct ms) n =
  if recursively_vectorizable (Struct ms) then
    bindR (sizes ms) (fun ks =>
    bindR (max_list ks) (fun dflt =>
    if 0 <? dflt then
      let n' := if n =? 0 then dflt else n in
      if 0 <? n' then
        bindR (members n' ms) (fun rs =>
        Ok (if forallb (has_size n') rs then Tup n' rs else Same))
      else Ok Same
    else Stop SIllFormed))
  else Ok Same.
Proof. reflexivity. Qed.

Lemma rec_vec_spec t : recursively_vectorizable t = true <-> vectorizable_type t.
Proof.
  induction t as [l|ms IH] using tree_ind'.
  - destruct l as [k can|]; cbn; split; intros H; try discriminate; try reflexivity.
    + split; [constructor|]. cbn. intros [|[] ]; discriminate.
    + destruct H as [_ H]. exfalso. apply H. now left.
  - destruct ms as [|x ms].
    { split; [discriminate|]. intros [H _]. inversion H; subst. contradiction. }
    change (recursively_vectorizable (Struct (x :: ms))) with (forallb recursively_vectorizable (x :: ms)).
    rewrite forallb_forall. rewrite Forall_forall in IH. split.
    + intros H. split.
      * constructor; [discriminate|]. intros y Hy. apply (IH y Hy). now apply H.
      * cbn [leaves]. rewrite in_flat_map. intros (y & Hy & Hl). apply (IH y Hy) in Hl; [exact Hl|]. now apply H.
    + intros [Hp Hl] y Hy. apply (IH y Hy). inversion Hp as [|? Hne Hpop]; subst. split; [now apply Hpop|].
      intros Ho. apply Hl. cbn [leaves]. rewrite in_flat_map. eauto.
Qed.

(** All stops are errors of the translation. *)
Lemma simdize_stops t : forall n s, simdize_impl t n = Stop s -> s = SIllFormed.
Proof.
  induction t as [l|ms IH] using tree_ind'; intros n s.
  - destruct l; cbn; discriminate.
  - rewrite simdize_struct. destruct (recursively_vectorizable _); [|discriminate].
    assert (H1 : forall s, sizes ms = Stop s -> s = SIllFormed).
    { clear n s. induction IH as [|x ms Hx _ IHm]; intros s; [discriminate|]. cbn [sizes].
      destruct (simdize_impl x 0) as [r|] eqn:E; cbn [bindR].
      - destruct (size_of r); [|congruence]. destruct (sizes ms); cbn [bindR]; [discriminate|]. intros H. apply IHm. congruence.
      - intros H. apply (Hx 0). congruence. }
    destruct (sizes ms) as [ks|]; cbn [bindR]; [|intros H; apply H1; congruence].
    destruct (max_list ks) as [d|] eqn:Em; cbn [bindR].
    2:{ unfold max_list in Em. destruct ks; congruence. }
    destruct (0 <? d); [|congruence]. cbv zeta. set (n' := if n =? 0 then d else n). destruct (0 <? n'); [|discriminate].
    assert (H2 : forall s, members n' ms = Stop s -> s = SIllFormed).
    { clear - IH. induction IH as [|x ms Hx _ IHm]; intros s; [discriminate|]. cbn [members].
      destruct (simdize_impl x n') as [r|] eqn:E; cbn [bindR].
      - destruct (members n' ms); cbn [bindR]; [discriminate|]. intros H. apply IHm. congruence.
      - intros H. apply (Hx n'). congruence. }
    destruct (members n' ms); cbn [bindR]; [discriminate|]. intros H. apply H2. congruence.
Qed.

Lemma simdize_unvectorizable t n : ~ vectorizable_type t -> simdize_impl t n = Ok Same.
Proof.
  intros H. destruct t as [[k can|]|ms]; [|reflexivity|].
  - exfalso. apply H. split; [constructor|]. cbn. intros [|[] ]; discriminate.
  - rewrite simdize_struct. destruct (recursively_vectorizable (Struct ms)) eqn:E; [|reflexivity].
    apply rec_vec_spec in E. contradiction.
Qed.

(** ** The largest native size *)
Lemma widest_ex t : vectorizable_type t -> exists n, widest t n.
Proof.
  intros [Hp Ho]. pose proof (populated_leaves t Hp) as Hl. revert Hl Ho. unfold widest.
  generalize (leaves t). intros l Hl Ho. clear t Hp. induction l as [|x l IH]; [cbn in Hl; lia|].
  destruct x as [k can|]; [|exfalso; apply Ho; now left].
  destruct l as [|y l].
  - exists k. split; [exists (Scalar k can); split; [now left|now exists can]|].
    intros l' k' [<-|[] ] [can' E]. injection E as ->. lia.
  - destruct IH as (n & (l0 & Hl0 & Hn) & Hmax); [cbn; lia|intros H; apply Ho; now right|].
    exists (Z.max k n). split.
    + destruct (Z.max_spec k n) as [[_ ->]|[_ ->] ]; [exists l0; split; [now right|assumption]|].
      exists (Scalar k can). split; [now left|now exists can].
    + intros l' k' [<-|Hin] Hk; [destruct Hk as [can' E]; injection E as ->; lia|].
      specialize (Hmax l' k' Hin Hk). lia.
Qed.

Lemma widest_unique t n k : widest t n -> widest t k -> n = k.
Proof.
  intros [(l & Hl & Hn) Hm] [(l' & Hl' & Hn') Hm']. specialize (Hm l' k Hl' Hn'). specialize (Hm' l n Hl Hn). lia.
Qed.

Lemma widest_pos t n : natives_ok t -> widest t n -> 0 < n.
Proof. intros H [(l & Hl & Hn) _]. now apply (H l). Qed.

Lemma fold_max l : forall a, (fold_left Z.max l a = a \/ In (fold_left Z.max l a) l)
  /\ a <= fold_left Z.max l a /\ forall x, In x l -> x <= fold_left Z.max l a.
Proof.
  induction l as [|y l IH]; intros a; [cbn; split; [now left|]; split; [lia|intros _ []]|].
  cbn [fold_left]. destruct (IH (Z.max a y)) as (H1 & H2 & H3). split; [|split; [lia|]].
  - destruct H1 as [H1|H1]; [|right; now right]. rewrite H1. destruct (Z.max_spec a y) as [[_ ->]|[_ ->] ]; [right; now left|now left].
  - intros x [<-|Hx]; [lia|now apply H3].
Qed.

Lemma Forall2_in_r {A B} (R : A -> B -> Prop) l l' : Forall2 R l l' -> forall b, In b l' -> exists a, In a l /\ R a b.
Proof.
  induction 1 as [|x y l l' Hxy _ IH]; intros b Hb; [destruct Hb|].
  destruct Hb as [<-|Hb]; [exists x; split; [now left|assumption]|].
  destruct (IH b Hb) as (a & Ha & Hr). exists a. split; [now right|assumption].
Qed.

Lemma Forall2_in_l {A B} (R : A -> B -> Prop) l l' : Forall2 R l l' -> forall a, In a l -> exists b, In b l' /\ R a b.
Proof.
  induction 1 as [|x y l l' Hxy _ IH]; intros a Ha; [destruct Ha|].
  destruct Ha as [<-|Ha]; [exists y; split; [now left|assumption]|].
  destruct (IH a Ha) as (b & Hb & Hr). exists b. split; [now right|assumption].
Qed.

Lemma max_list_widest ms ks : ms <> [] -> Forall2 widest ms ks -> exists d, max_list ks = Ok d /\ widest (Struct ms) d.
Proof.
  intros Hne H. destruct ks as [|k ks]; [inversion H; subst; contradiction|].
  cbn [max_list]. eexists. split; [reflexivity|].
  destruct (fold_max ks k) as (H1 & H2 & H3). set (d := fold_left Z.max ks k) in *. split.
  - assert (Hin : In d (k :: ks)) by (destruct H1 as [->|H1]; [now left|now right]).
    destruct (Forall2_in_r _ _ _ H d Hin) as (y & Hy & (l & Hl & Hn) & _). exists l. split; [|assumption].
    cbn [leaves]. rewrite in_flat_map. eauto.
  - intros l n Hl Hn. cbn [leaves] in Hl. rewrite in_flat_map in Hl. destruct Hl as (y & Hy & Hl).
    destruct (Forall2_in_l _ _ _ H y Hy) as (k' & Hk' & _ & Hm). specialize (Hm l n Hl Hn).
    destruct Hk' as [<-|Hk']; [lia|]. specialize (H3 k' Hk'). lia.
Qed.

Lemma vectorizable_members ms : vectorizable_type (Struct ms) -> ms <> [] /\ Forall vectorizable_type ms.
Proof.
  intros [Hp Ho]. apply populated_struct in Hp. destruct Hp as [Hne HF]. split; [assumption|].
  rewrite Forall_forall in *. intros x Hx. split; [now apply HF|]. intros H. apply Ho. cbn [leaves].
  rewrite in_flat_map. eauto.
Qed.

Lemma all_allow_struct n ms : all_allow n (Struct ms) <-> Forall (all_allow n) ms.
Proof.
  unfold all_allow. cbn [leaves]. rewrite Forall_forall. setoid_rewrite in_flat_map. split.
  - intros H x Hx l Hl. apply H. eauto.
  - intros H l (x & Hx & Hl). now apply (H x).
Qed.

Lemma natives_struct ms : natives_ok (Struct ms) -> Forall natives_ok ms.
Proof.
  unfold natives_ok. cbn [leaves]. rewrite Forall_forall. setoid_rewrite in_flat_map. intros H x Hx l n Hl Hn.
  apply (H l); eauto.
Qed.

Lemma defaults_struct ms : defaults_ok (Struct ms) <->
  Forall (fun x => defaults_ok x /\ forall n, widest x n -> all_allow n x) ms.
Proof.
  rewrite Forall_forall. split.
  - intros H x Hx. split; [intros u n Hu; apply H; now apply (inside_deep u x)|intros n; apply H; now apply inside_here].
  - intros H u n Hu. inversion Hu as [ms' Hin|x ms' Hx Hin]; subst.
    + now apply H.
    + now apply (proj1 (H x Hx)).
Qed.

Lemma simd_like_size n t r : simd_like n t r -> size_of r = Some n.
Proof. now destruct 1. Qed.

Lemma allow_dec n t : vectorizable_type t -> all_allow n t \/ ~ all_allow n t.
Proof.
  intros [_ Ho]. unfold all_allow. revert Ho. generalize (leaves t). induction l as [|x l IH]; intros Ho; [left; intros _ []|].
  destruct IH as [IH|IH]; [intros H; apply Ho; now right| |right; intros H; apply IH; intros y Hy; apply H; now right].
  destruct x as [k can|]; [|exfalso; apply Ho; now left].
  destruct (can n) eqn:E.
  - left. intros y [<-|Hy]; [now exists k, can|now apply IH].
  - right. intros H. destruct (H (Scalar k can) ltac:(now left)) as (k' & can' & Eq & Et). injection Eq as <- <-. congruence.
Qed.

Ltac below H := solve [intros ? ?; apply H; now right | intros ? [->|?]; apply H; [now left|right; now right] ].

(** Positive widths and the default. *)
Theorem simdize_vectorizable t : vectorizable_type t -> natives_ok t -> defaults_ok t ->
  (forall n, 0 < n ->
     (all_allow n t -> exists r, simdize_impl t n = Ok r /\ simd_like n t r)
     /\ (~ all_allow n t -> simdize_impl t n = Ok Same))
  /\ (forall n, widest t n -> simdize_impl t 0 = simdize_impl t n).
Proof.
  induction t as [l|ms IH] using tree_ind'; intros Hv Hn Hd.
  - destruct Hv as [_ Ho]. cbn [leaves] in *. destruct l as [k can|]; [|exfalso; apply Ho; now left]. cbn [simdize_impl].
    assert (Hk : 0 < k) by (apply (Hn (Scalar k can)); [now left|now exists can]).
    split.
    + intros n Hpos. destruct (Z.eqb_spec n 0); [lia|]. cbv zeta. split.
      * intros H. destruct (H (Scalar k can)) as (k' & can' & E & Ec); [now left|]. injection E as <- <-. rewrite Ec.
        eexists. split; [reflexivity|constructor].
      * intros H. destruct (can n) eqn:E; [|reflexivity]. exfalso. apply H. intros l [<-|[] ]. now exists k, can.
    + intros n [(l & [<-|[] ] & can' & E) _]. injection E as <- <-. destruct (Z.eqb_spec k 0); [lia|]. reflexivity.
  - pose proof (vectorizable_members ms Hv) as [Hne Hvs]. apply natives_struct in Hn as Hns.
    apply defaults_struct in Hd. rewrite Forall_forall in IH, Hvs, Hns, Hd.
    assert (Hrv : recursively_vectorizable (Struct ms) = true) by now apply rec_vec_spec.
    assert (Hsz : exists ks, sizes ms = Ok ks /\ Forall2 widest ms ks).
    { clear Hne Hv Hn Hrv. induction ms as [|x ms IHm]; [exists []; split; [reflexivity|constructor]|].
      destruct IHm as (ks & Eks & Fks); [below IH|below Hd|below Hvs|below Hns|].
      destruct (widest_ex x) as [n Hw]; [apply Hvs; now left|].
      destruct (IH x ltac:(now left)) as [H1 H2]; [apply Hvs; now left|apply Hns; now left|apply Hd; now left|].
      destruct (H1 n) as [H3 _]; [apply (widest_pos x); [apply Hns; now left|assumption]|].
      destruct H3 as (r & Er & Hr); [apply Hd; [now left|assumption]|].
      exists (n :: ks). split; [|now constructor]. cbn [sizes]. rewrite (H2 n Hw), Er. cbn [bindR].
      rewrite (simd_like_size _ _ _ Hr), Eks. reflexivity. }
    destruct Hsz as (ks & Eks & Fks).
    destruct (max_list_widest ms ks Hne Fks) as (d & Ed & Hw).
    assert (Hdpos := widest_pos _ _ Hn Hw).
    assert (Hpos : forall n, 0 < n -> simdize_impl (Struct ms) n =
              bindR (members n ms) (fun rs => Ok (if forallb (has_size n) rs then Tup n rs else Same))).
    { intros n Hn0. rewrite simdize_struct, Hrv, Eks. cbn [bindR]. rewrite Ed. cbn [bindR]. cbv zeta.
      destruct (Z.ltb_spec 0 d); [|lia]. destruct (Z.eqb_spec n 0); [lia|]. destruct (Z.ltb_spec 0 n); [reflexivity|lia]. }
    split.
    + intros n Hn0. rewrite Hpos by assumption. split.
      * intros Ha. apply all_allow_struct in Ha. rewrite Forall_forall in Ha.
        assert (H : exists rs, members n ms = Ok rs /\ Forall2 (simd_like n) ms rs).
        { clear - IH Hvs Hns Hd Ha Hn0. induction ms as [|x ms IHm]; [exists []; split; [reflexivity|constructor]|].
          destruct IHm as (rs & Ers & Frs); [below IH|below Hd|below Hvs|below Hns|below Ha|].
          destruct (IH x ltac:(now left)) as [H1 _]; [apply Hvs; now left|apply Hns; now left|apply Hd; now left|].
          destruct (H1 n Hn0) as [H3 _]. destruct H3 as (r & Er & Hr); [apply Ha; now left|].
          exists (r :: rs). cbn [members]. rewrite Er, Ers. split; [reflexivity|now constructor]. }
        destruct H as (rs & Ers & Frs). rewrite Ers. cbn [bindR].
        assert (forallb (has_size n) rs = true) as ->.
        { apply forallb_forall. intros r Hr. destruct (Forall2_in_r _ _ _ Frs r Hr) as (x & _ & Hx).
          unfold has_size. rewrite (simd_like_size _ _ _ Hx). apply Z.eqb_refl. }
        eexists. split; [reflexivity|now constructor].
      * intros Ha. rewrite all_allow_struct in Ha.
        assert (H : exists rs, members n ms = Ok rs /\ forallb (has_size n) rs = false).
        { clear - IH Hvs Hns Hd Ha Hn0. induction ms as [|x ms IHm]; [exfalso; apply Ha; constructor|].
          destruct (IH x ltac:(now left)) as [H1 _]; [apply Hvs; now left|apply Hns; now left|apply Hd; now left|].
          destruct (H1 n Hn0) as [H3 H4]. cbn [members].
          assert (Hall : exists rs, members n ms = Ok rs).
          { clear - IH Hvs Hns Hd Hn0. induction ms as [|y ms IHm]; [exists []; reflexivity|].
            destruct IHm as [rs Ers]; try first [below IH|below Hd|below Hvs|below Hns].
            destruct (IH y ltac:(right; now left)) as [H1 _];
              [apply Hvs; right; now left|apply Hns; right; now left|apply Hd; right; now left|].
            destruct (H1 n Hn0) as [H3 H4]. cbn [members].
            destruct (allow_dec n y) as [Hy|Hy]; [apply Hvs; right; now left| |].
            - destruct (H3 Hy) as (r & -> & _). rewrite Ers. eexists. reflexivity.
            - rewrite (H4 Hy), Ers. eexists. reflexivity. }
          destruct (allow_dec n x) as [Hx|Hx]; [apply Hvs; now left| |].
          - destruct (H3 Hx) as (r & Er & Hr).
            destruct IHm as (rs & Ers & Frs); [below IH|below Hd|below Hvs|below Hns|intros H; apply Ha; now constructor|].
            rewrite Er, Ers. eexists. split; [reflexivity|]. cbn [forallb]. rewrite Frs. apply andb_false_r.
          - rewrite (H4 Hx). destruct Hall as [rs ->]. eexists. split; reflexivity. }
        destruct H as (rs & -> & E). cbn [bindR]. now rewrite E.
    + intros n Hwn. assert (n = d) by (eapply widest_unique; eassumption). subst n.
      rewrite (Hpos d Hdpos). rewrite simdize_struct, Hrv, Eks. cbn [bindR]. rewrite Ed. cbn [bindR]. cbv zeta.
      change (0 =? 0) with true. cbv iota. destruct (Z.ltb_spec 0 d); [reflexivity|lia].
Qed.

(** A result with a size can only come from members that allow it. *)
Lemma simdize_sized t : vectorizable_type t -> forall n r k, simdize_impl t n = Ok r -> size_of r = Some k ->
  all_allow k t /\ (n = 0 \/ n = k).
Proof.
  induction t as [l|ms IH] using tree_ind'; intros Hv n r k E Hk.
  - destruct l as [m can|]; [|exfalso; apply (proj2 Hv); now left]. cbn [simdize_impl] in E. cbv zeta in E.
    destruct (can (if n =? 0 then m else n)) eqn:Ec; injection E as <-; [|discriminate]. cbn in Hk. injection Hk as <-.
    split; [intros l [<-|[] ]; now exists m, can|]. destruct (Z.eqb_spec n 0); [now left|now right].
  - pose proof (vectorizable_members ms Hv) as [Hne Hvs]. rewrite Forall_forall in IH, Hvs.
    rewrite simdize_struct in E. replace (recursively_vectorizable (Struct ms)) with true in E
      by (symmetry; now apply rec_vec_spec).
    destruct (sizes ms) as [ks|]; [|discriminate]. cbn [bindR] in E.
    destruct (max_list ks) as [d|]; [|discriminate]. cbn [bindR] in E. destruct (0 <? d); [|discriminate].
    cbv zeta in E. set (n' := if n =? 0 then d else n) in *. destruct (Z.ltb_spec 0 n'); [|injection E as <-; discriminate].
    destruct (members n' ms) as [rs|] eqn:Em; [|discriminate]. cbn [bindR] in E.
    destruct (forallb (has_size n') rs) eqn:Ef; injection E as <-; [|discriminate]. cbn in Hk. injection Hk as <-.
    split; [|subst n'; destruct (Z.eqb_spec n 0); [now left|now right] ].
    apply all_allow_struct. apply Forall_forall. intros x Hx. clearbody n'.
    clear Hne Hv. revert rs Em Ef. induction ms as [|y ms IHm]; [destruct Hx|]. intros rs Em Ef. cbn [members] in Em.
    destruct (simdize_impl y n') as [ry|] eqn:Ey; [|discriminate]. cbn [bindR] in Em.
    destruct (members n' ms) as [rs'|] eqn:Em'; [|discriminate]. cbn [bindR] in Em. injection Em as <-.
    cbn [forallb] in Ef. apply andb_prop in Ef. destruct Ef as [Ef1 Ef2].
    destruct Hx as [<-|Hx].
    + unfold has_size in Ef1. destruct (size_of ry) as [k|] eqn:Es; [|discriminate]. apply Z.eqb_eq in Ef1. subst k.
      eapply IH; [now left|apply Hvs; now left|exact Ey|exact Es].
    + apply IHm with (rs := rs'); [below IH|below Hvs|assumption|reflexivity|assumption].
Qed.

(** No error exactly if every member has a default. *)
Theorem simdize_wellformed_iff t n : vectorizable_type t -> natives_ok t ->
  ((exists r, simdize_impl t n = Ok r) <-> defaults_ok t)
  /\ ((exists r, simdize_impl t n = Ok r) \/ simdize_impl t n = Stop SIllFormed).
Proof.
  intros Hv Hn. split; [|destruct (simdize_impl t n) as [r|s] eqn:E; [left; now exists r|right; f_equal; now apply (simdize_stops t n)] ].
  revert n. induction t as [l|ms IH] using tree_ind'; intros n.
  - split; [intros _ u k Hu; inversion Hu|]. intros _. destruct l; cbn; eexists; reflexivity.
  - split.
    + intros [r E]. pose proof (vectorizable_members ms Hv) as [Hne Hvs]. apply natives_struct in Hn.
      rewrite Forall_forall in IH, Hvs, Hn.
      rewrite simdize_struct in E. replace (recursively_vectorizable (Struct ms)) with true in E
        by (symmetry; now apply rec_vec_spec).
      destruct (sizes ms) as [ks|] eqn:Es; [|discriminate]. apply defaults_struct, Forall_forall. intros x Hx.
      clear - IH Hvs Hn Es Hx. revert ks Es. induction ms as [|y ms IHm]; [destruct Hx|]. intros ks Es. cbn [sizes] in Es.
      destruct (simdize_impl y 0) as [ry|] eqn:Ey; [|discriminate]. cbn [bindR] in Es.
      destruct (size_of ry) as [k|] eqn:Ek; [|discriminate].
      destruct (sizes ms) as [ks'|] eqn:Es'; [|discriminate].
      destruct Hx as [<-|Hx].
      * assert (Hdy : defaults_ok y) by (apply (IH y ltac:(now left) (Hvs y ltac:(now left)) (Hn y ltac:(now left)) 0); now exists ry).
        split; [assumption|]. intros m Hm.
        destruct (simdize_vectorizable y (Hvs y ltac:(now left)) (Hn y ltac:(now left)) Hdy) as [_ H2].
        rewrite (H2 m Hm) in Ey. assert (0 < m) by (apply (widest_pos y); [apply Hn; now left|assumption]).
        destruct (simdize_sized y (Hvs y ltac:(now left)) m ry k Ey Ek) as [Ha [|<-] ]; [lia|exact Ha].
      * apply IHm with (ks := ks'); try first [below IH|below Hvs|below Hn]; [assumption|reflexivity].
    + intros Hd. destruct (simdize_vectorizable (Struct ms) Hv Hn Hd) as [H1 H2].
      assert (Hpos : forall k, 0 < k -> exists r, simdize_impl (Struct ms) k = Ok r).
      { intros k Hk. destruct (H1 k Hk) as [Ha Hb]. destruct (allow_dec k (Struct ms) Hv) as [Hx|Hx].
        - destruct (Ha Hx) as (r & Er & _). now exists r.
        - exists Same. now apply Hb. }
      destruct (Z.lt_trichotomy n 0) as [Hlt|[->|Hgt] ]; [|destruct (widest_ex _ Hv) as [w Hw];
        rewrite (H2 w Hw); apply Hpos; now apply (widest_pos (Struct ms))|now apply Hpos].
      destruct (widest_ex _ Hv) as [w Hw]. assert (Hw0 := widest_pos _ _ Hn Hw).
      destruct (Hpos w Hw0) as [r Er]. rewrite simdize_struct in Er |- *.
      replace (recursively_vectorizable (Struct ms)) with true in * by (symmetry; now apply rec_vec_spec).
      destruct (sizes ms) as [ks|]; [|discriminate]. cbn [bindR] in *. destruct (max_list ks) as [d|]; [|discriminate].
      cbn [bindR] in *. destruct (0 <? d); [|discriminate]. cbv zeta in *.
      destruct (Z.eqb_spec n 0); [lia|]. destruct (Z.ltb_spec 0 n); [lia|]. eexists. reflexivity.
Qed.

(** What simdize_size finds. *)
Lemma simd_like_leaves n t r : simd_like n t r -> populated (lanes_tree r) /\ forall c, In c (leaves (lanes_tree r)) -> c = n.
Proof.
  revert r. induction t as [l|ms IH] using tree_ind'; intros r H; inversion H as [|? rs Hne HF]; subst.
  - split; [constructor|]. intros c [<-|[] ]. reflexivity.
  - rewrite Forall_forall in IH. cbn [lanes_tree leaves]. split.
    + constructor; [destruct HF; [contradiction|discriminate]|]. intros x Hx. rewrite in_map_iff in Hx.
      destruct Hx as (r & <- & Hr). destruct (Forall2_in_r _ _ _ HF r Hr) as (y & Hy & Hl). now apply (IH y Hy).
    + intros c Hc. rewrite in_flat_map in Hc. destruct Hc as (x & Hx & Hc). rewrite in_map_iff in Hx.
      destruct Hx as (r & <- & Hr). destruct (Forall2_in_r _ _ _ HF r Hr) as (y & Hy & Hl). now apply (IH y Hy r).
Qed.

Theorem simdize_then_size t n r : 0 < n -> simd_like n t r -> simdize_size (lanes_tree r) = Ok n.
Proof.
  intros Hn H. destruct (simd_like_leaves n t r H) as [Hp Hl].
  destruct (simdize_size_ok (lanes_tree r) Hp) as (k & Ek & _ & Hk & _); [intros c Hc; rewrite (Hl c Hc); lia|].
  rewrite Ek. f_equal. now apply Hk.
Qed.
