(** For which aggregates flat_element and flat_get work. *)
From Verif Require Import Base BaseFacts SimdizeModel SimdizeSpec SimdizeProofs FlatSpec.
Ltac Zify.zify_post_hook ::= idtac.
Local Open Scope nat_scope.

Section Exact.
  Context {A : Type}.
  Implicit Types (t x y z : tree A) (ms : list (tree A)).

  Notation count t := (length (leaves t)).

  Lemma one_leaf ms : Forall populated ms -> count (Struct ms) = length ms -> forall x, In x ms -> count x = 1.
  Proof.
    intros F E x Hx. apply In_nth_error in Hx. destruct Hx as [i Hi].
    destruct (one_each ms F E i x Hi) as (a & -> & _). reflexivity.
  Qed.

  Lemma one_leaf_count ms : (forall x, In x ms -> count x = 1) -> count (Struct ms) = length ms.
  Proof.
    cbn [leaves]. induction ms as [|x ms IH]; intros H; [reflexivity|]. cbn [flat_map length].
    rewrite app_length, IH; [rewrite (H x (or_introl eq_refl)); lia|]. intros y Hy. apply H. now right.
  Qed.

  (** One step of each template *)
  Lemma element_step i y ms : populated (Struct (y :: ms)) ->
    flat_element i (Struct (y :: ms)) =
      if count (Struct (y :: ms)) =? length (y :: ms) then
        if i <? length (y :: ms) then member (y :: ms) i else Stop SIllFormed
      else if i <? count y then flat_element i y else Stop SIllFormed.
  Proof.
    intros P. pose proof (flat_member_count_ok _ P) as C. destruct (populated_struct _ P) as [_ F].
    pose proof (leaves_ge _ F) as G. inversion F as [|? ? Fy _]; subst.
    change (flat_element i (Struct (y :: ms))) with
        (bindR (flat_member_count (Struct (y :: ms))) (fun cnt =>
           if (cnt =? length (y :: ms)) && (i <? length (y :: ms)) then member (y :: ms) i
           else bindR (flat_member_count y) (fun c0 =>
             if (length (y :: ms) <? cnt) && (i <? c0) then flat_element i y else Stop SIllFormed))).
    rewrite C. cbn [bindR]. rewrite (flat_member_count_ok y Fy). cbn [bindR].
    cbn [leaves] in G |- *.
    destruct (Nat.eqb_spec (length (flat_map leaves (y :: ms))) (length (y :: ms))) as [E|E]; cbn [andb].
    - destruct (i <? length (y :: ms)); [reflexivity|].
      destruct (Nat.ltb_spec (length (y :: ms)) (length (flat_map leaves (y :: ms)))); [lia|reflexivity].
    - destruct (Nat.ltb_spec (length (y :: ms)) (length (flat_map leaves (y :: ms)))); [reflexivity|lia].
  Qed.

  Lemma get_step fuel i ofs ms : populated (Struct ms) ->
    flat_get (S fuel) i ofs (Struct ms) =
      if count (Struct ms) =? length ms then
        if (i <? length ms) && (ofs =? 0) then member ms i else Stop SIllFormed
      else match nth_error ms ofs with
           | None => Stop SIllFormed
           | Some x => if i <? count x then flat_get fuel i 0 x else flat_get fuel (i - count x) (count x) (Struct ms)
           end.
  Proof.
    intros P. cbn [flat_get]. rewrite (flat_member_count_ok _ P). cbn [bindR].
    destruct (populated_struct _ P) as [_ F]. pose proof (leaves_ge _ F) as G. cbn [leaves] in G |- *.
    destruct (Nat.eqb_spec (length (flat_map leaves ms)) (length ms)) as [E|E]; [reflexivity|].
    destruct (Nat.ltb_spec (length ms) (length (flat_map leaves ms))); [|lia].
    unfold member. destruct (nth_error ms ofs) as [x|] eqn:Ex; [|reflexivity]. cbn [bindR].
    apply nth_error_In in Ex. rewrite Forall_forall in F. now rewrite (flat_member_count_ok x (F x Ex)).
  Qed.

  Lemma get_mono g : forall fuel i ofs t x, flat_get fuel i ofs t = Ok x -> flat_get (fuel + g) i ofs t = Ok x.
  Proof.
    induction fuel as [|fuel IH]; intros i ofs t x H; [discriminate|]. cbn [Nat.add flat_get] in H |- *.
    destruct t as [a|ms]; [discriminate|].
    destruct (flat_member_count (Struct ms)) as [c|]; cbn [bindR] in H |- *; [|discriminate].
    destruct (c =? length ms); [exact H|]. destruct (length ms <? c); [|discriminate].
    destruct (member ms ofs) as [y|]; cbn [bindR] in H |- *; [|discriminate].
    destruct (flat_member_count y) as [s|]; cbn [bindR] in H |- *; [|discriminate].
    destruct (i <? s); now apply IH.
  Qed.

  (** flat_element *)
  Theorem element_iff t : populated t -> ((forall i, i < count t -> exists x, flat_element i t = Ok x) <-> accessible t).
  Proof.
    intros P. split.
    - revert P. induction t as [a|ms IH] using tree_ind'; intros P H; [constructor|].
      destruct (populated_struct _ P) as [N F]. destruct ms as [|y ms]; [congruence|].
      inversion IH as [|? ? Hy _]; subst. inversion F as [|? ? Fy Fms]; subst.
      destruct (Nat.eqb_spec (count (Struct (y :: ms))) (length (y :: ms))) as [E|E].
      + apply acc_flat. now apply one_leaf.
      + destruct ms as [|z ms].
        * apply acc_wrap. apply Hy; [exact Fy|]. intros i Hi. destruct (H i) as [x Hx].
          { cbn [leaves flat_map]. now rewrite app_nil_r. }
          rewrite element_step in Hx by exact P. destruct (Nat.eqb_spec (count (Struct [y])) (length [y])); [contradiction|].
          destruct (i <? count y); [|discriminate]. now exists x.
        * exfalso. destruct (H (count y)) as [x Hx].
          { inversion Fms as [|? ? Fz _]; subst. pose proof (populated_leaves z Fz). cbn [leaves flat_map].
            rewrite !app_length. lia. }
          rewrite element_step in Hx by exact P.
          destruct (Nat.eqb_spec (count (Struct (y :: z :: ms))) (length (y :: z :: ms))); [contradiction|].
          rewrite Nat.ltb_irrefl in Hx. discriminate.
    - intros Ha. revert P. induction Ha as [a|ms H|x Ha IH]; intros P i Hi.
      + cbn in Hi. replace i with 0 by lia. exists (Leaf a). reflexivity.
      + destruct (flat_get_flat ms 0 i P) as (x & a & _ & E & _); [now apply one_leaf_count| |now exists x].
        rewrite (one_leaf_count ms H) in Hi. exact Hi.
      + rewrite element_step by exact P. destruct (populated_struct _ P) as [_ F]. inversion F as [|? ? Fx _]; subst.
        assert (E1 : count (Struct [x]) = count x) by (cbn [leaves flat_map]; now rewrite app_nil_r).
        rewrite E1 in Hi |- *. cbn [length]. destruct (Nat.eqb_spec (count x) 1) as [E|E].
        * destruct (Nat.ltb_spec i 1); [|lia]. replace i with 0 by lia. exists x. reflexivity.
        * destruct (Nat.ltb_spec i (count x)); [|lia]. now apply IH.
  Qed.

  (** Where the types exist flat_get returns the members of these types. *)
  Theorem accessible_get ms : populated (Struct ms) -> accessible (Struct ms) -> forall i, i < count (Struct ms) ->
    exists fuel x a, flat_get fuel i 0 (Struct ms) = Ok x /\ flat_element i (Struct ms) = Ok x
      /\ leaves x = [a] /\ nth_error (leaves (Struct ms)) i = Some a.
  Proof.
    intros P Ha. remember (Struct ms) as t eqn:Et. revert ms Et P. induction Ha as [a|ms H|x Ha IH]; intros ms' Et P i Hi.
    - discriminate.
    - exists 1. apply flat_get_flat; [exact P|now apply one_leaf_count|]. rewrite (one_leaf_count ms H) in Hi. exact Hi.
    - clear ms' Et. destruct (populated_struct _ P) as [_ F]. inversion F as [|? ? Fx _]; subst.
      assert (E1 : count (Struct [x]) = count x) by (cbn [leaves flat_map]; now rewrite app_nil_r).
      destruct (Nat.eq_dec (count x) 1) as [E|E].
      + exists 1. apply flat_get_flat; [exact P|now rewrite E1|cbn [length]; lia].
      + destruct x as [b|ms]; [now cbn in E|]. rewrite E1 in Hi.
        destruct (IH ms eq_refl Fx i Hi) as (fuel & x & a & G & El & La & Na). exists (S fuel), x, a.
        rewrite get_step, element_step, E1 by exact P. cbn [length nth_error].
        destruct (Nat.eqb_spec (count (Struct ms)) 1); [contradiction|].
        destruct (Nat.ltb_spec i (count (Struct ms))); [|lia]. split; [exact G|]. split; [exact El|]. split; [exact La|].
        cbn [leaves flat_map] in Na |- *. now rewrite app_nil_r.
  Qed.

  (** Number of scalars before member [j]. *)
  Definition before ms j := length (flat_map leaves (firstn j ms)).

  Lemma before_S ms j y : nth_error ms j = Some y -> before ms (S j) = before ms j + count y.
  Proof.
    unfold before. revert j. induction ms as [|x ms IH]; intros [|j] E; try discriminate.
    - injection E as ->. cbn. rewrite app_nil_r. lia.
    - cbn [nth_error] in E. rewrite !firstn_cons. cbn [flat_map]. rewrite !app_length, (IH j E). lia.
  Qed.

  Lemma before_le ms j : before ms j <= length (flat_map leaves ms).
  Proof.
    unfold before. rewrite <- (firstn_skipn j ms) at 2. rewrite flat_map_app, app_length. lia.
  Qed.

  Lemma before_nth ms j y i : nth_error ms j = Some y -> i < count y ->
    nth_error (flat_map leaves ms) (before ms j + i) = nth_error (leaves y) i.
  Proof.
    unfold before. revert j. induction ms as [|x ms IH]; intros [|j] E Hi; try discriminate.
    - injection E as ->. cbn [firstn flat_map length Nat.add]. now rewrite nth_error_app1.
    - cbn [nth_error] in E. rewrite firstn_cons. cbn [flat_map]. rewrite app_length, nth_error_app2 by lia.
      replace (_ + _ + i - _) with (length (flat_map leaves (firstn j ms)) + i) by lia. now apply IH.
  Qed.

  Lemma before_mono ms : Forall populated ms -> forall j k, j < k -> k <= length ms -> before ms j < before ms k.
  Proof.
    intros F j k H. induction H as [|k H IH]; intros Hk.
    - destruct (nth_error ms j) as [y|] eqn:Ey; [|apply nth_error_None in Ey; lia]. rewrite (before_S ms j y Ey).
      rewrite Forall_forall in F. pose proof (populated_leaves y (F y (nth_error_In _ _ Ey))). lia.
    - destruct (nth_error ms k) as [y|] eqn:Ey; [|apply nth_error_None in Ey; lia]. rewrite (before_S ms k y Ey).
      specialize (IH ltac:(lia)). lia.
  Qed.

  Lemma before_all ms : before ms (length ms) = length (flat_map leaves ms).
  Proof. unfold before. now rewrite firstn_all. Qed.

  Theorem reachable_gets t : populated t -> reachable t -> forall i, i < count t -> gets t i.
  Proof.
    intros P Hr. revert P. induction Hr as [ms H|ms Hm IH Hs]; intros P i Hi.
    - destruct (flat_get_flat ms 0 i P) as (x & a & G & _ & L & N); [now apply one_leaf_count| |].
      + rewrite (one_leaf_count ms H) in Hi. exact Hi.
      + exists 1, x, a. auto.
    - destruct (Nat.eqb_spec (count (Struct ms)) (length ms)) as [E|E].
      { destruct (flat_get_flat ms 0 i P E) as (x & a & G & _ & L & N); [now rewrite <- E|]. exists 1, x, a. auto. }
      destruct (populated_struct _ P) as [N F]. rewrite Forall_forall in F.
      assert (K : forall d j i', j + d = length ms -> before ms j + i' < count (Struct ms) ->
        exists fuel x a, flat_get fuel i' j (Struct ms) = Ok x /\ leaves x = [a]
          /\ nth_error (leaves (Struct ms)) (before ms j + i') = Some a).
      { induction d as [|d IHd]; intros j i' Hj Hb.
        - exfalso. replace j with (length ms) in Hb by lia. rewrite before_all in Hb. cbn [leaves] in Hb. lia.
        - destruct (nth_error ms j) as [y|] eqn:Ey; [|apply nth_error_None in Ey; lia].
          pose proof (nth_error_In _ _ Ey) as Hy.
          destruct (Nat.ltb_spec i' (count y)) as [Hi'|Hi'].
          + destruct (IH y Hy (F y Hy) i' Hi') as (fuel & x & a & G & L & Na). exists (S fuel), x, a.
            rewrite get_step by exact P. destruct (Nat.eqb_spec (count (Struct ms)) (length ms)); [contradiction|].
            rewrite Ey. destruct (Nat.ltb_spec i' (count y)); [|lia]. split; [exact G|]. split; [exact L|].
            cbn [leaves]. now rewrite (before_nth ms j y i' Ey Hi').
          + assert (Hl : S j < length ms).
            { destruct (Nat.eq_dec (S j) (length ms)) as [El|]; [|lia]. exfalso.
              pose proof (before_all ms) as Ba. rewrite <- El, (before_S ms j y Ey) in Ba. cbn [leaves] in Hb. lia. }
            pose proof (Hs j y Ey Hl) as Ec.
            destruct (IHd (S j) (i' - count y)) as (fuel & x & a & G & L & Na); [lia|rewrite (before_S ms j y Ey); lia|].
            exists (S fuel), x, a.
            rewrite get_step by exact P. destruct (Nat.eqb_spec (count (Struct ms)) (length ms)); [contradiction|].
            rewrite Ey. destruct (Nat.ltb_spec i' (count y)); [lia|]. rewrite Ec in G |- *. split; [exact G|]. split; [exact L|].
            rewrite (before_S ms j y Ey), Ec in Na. rewrite <- Na. f_equal. lia. }
      destruct (K (length ms) 0 i) as (fuel & x & a & G & L & Na); [lia|exact Hi|]. exists fuel, x, a. auto.
  Qed.

  Lemma first_leaf fuel : forall t x a, populated t -> flat_get fuel 0 0 t = Ok x -> leaves x = [a] -> nth_error (leaves t) 0 = Some a.
  Proof.
    induction fuel as [|fuel IH]; intros t x a P G L; [discriminate|]. destruct t as [b|ms]; [discriminate|].
    rewrite get_step in G by exact P. destruct (populated_struct _ P) as [N F]. destruct ms as [|y ms]; [congruence|].
    inversion F as [|? ? Fy _]; subst. cbn [nth_error member] in G. pose proof (populated_leaves y Fy) as Py.
    cbn [leaves flat_map]. rewrite nth_error_app1 by lia.
    destruct (_ =? _).
    - cbn in G. injection G as <-. now rewrite L.
    - destruct (Nat.ltb_spec 0 (count y)); [|lia]. eapply IH; eauto.
  Qed.

  Lemma NoDup_flat_map ms x : NoDup (flat_map leaves ms) -> In x ms -> NoDup (leaves x).
  Proof.
    induction ms as [|y ms IH]; intros H [].
    - subst y. cbn [flat_map] in H. clear IH. induction (leaves x) as [|b l IHl]; [constructor|].
      cbn [app] in H. inversion H as [|? ? H1 H2]; subst. constructor; [|now apply IHl].
      intros Hb. apply H1. apply in_app_iff. now left.
    - apply IH; [|assumption]. cbn [flat_map] in H. clear IH. induction (leaves y) as [|b l IHl]; [exact H|].
      cbn [app] in H. inversion H; subst. now apply IHl.
  Qed.

  Theorem gets_reachable t : populated t -> NoDup (leaves t) -> (forall i, i < count t -> gets t i) -> reachable t.
  Proof.
    induction t as [b|ms IH] using tree_ind'; intros P D H.
    { exfalso. destruct (H 0) as ([|fuel] & x & a & G & _); [cbn; lia|discriminate|discriminate]. }
    destruct (populated_struct _ P) as [N F].
    destruct (Nat.eqb_spec (count (Struct ms)) (length ms)) as [E|E]; [apply reach_flat; now apply one_leaf|].
    assert (step : forall fuel i j y x, nth_error ms j = Some y -> flat_get fuel i j (Struct ms) = Ok x ->
      exists fuel', (if i <? count y then flat_get fuel' i 0 y else flat_get fuel' (i - count y) (count y) (Struct ms)) = Ok x).
    { intros [|fuel] i j y x Ey G; [discriminate|]. rewrite get_step in G by exact P.
      destruct (Nat.eqb_spec (count (Struct ms)) (length ms)); [contradiction|]. rewrite Ey in G. now exists fuel. }
    assert (run : forall j, j < length ms ->
      (forall fuel i x, flat_get fuel (before ms j + i) 0 (Struct ms) = Ok x -> exists fuel', flat_get fuel' i j (Struct ms) = Ok x)
      /\ (forall y, nth_error ms j = Some y -> S j < length ms -> count y = S j)).
    { assert (size : forall j, j < length ms ->
        (forall fuel i x, flat_get fuel (before ms j + i) 0 (Struct ms) = Ok x -> exists fuel', flat_get fuel' i j (Struct ms) = Ok x) ->
        forall y, nth_error ms j = Some y -> S j < length ms -> count y = S j).
      { intros j Hj R y Ey Hl. destruct (H (before ms (S j))) as (fuel & x & a & G & L & Na).
        { pose proof (before_mono ms F (S j) (length ms) Hl (le_n _)) as B. rewrite before_all in B. exact B. }
        rewrite (before_S ms j y Ey) in G. destruct (R _ _ _ G) as [f1 G1]. destruct (step _ _ _ _ _ Ey G1) as [f2 G2].
        rewrite Nat.ltb_irrefl, Nat.sub_diag in G2.
        destruct (nth_error ms (count y)) as [z|] eqn:Ez.
        - destruct (step _ _ _ _ _ Ez G2) as [f3 G3]. rewrite Forall_forall in F.
          pose proof (F z (nth_error_In _ _ Ez)) as Pz. pose proof (populated_leaves z Pz) as Lz.
          destruct (Nat.ltb_spec 0 (count z)); [|lia]. pose proof (first_leaf _ _ _ _ Pz G3 L) as Fz.
          rewrite <- (before_nth ms (count y) z 0 Ez Lz), Nat.add_0_r in Fz. cbn [leaves] in Na.
          assert (B : before ms (count y) = before ms (S j)).
          { apply (proj1 (NoDup_nth_error (flat_map leaves ms)) D); [apply nth_error_Some; congruence|congruence]. }
          destruct (Nat.lt_trichotomy (count y) (S j)) as [C|[C|C]]; [|exact C|].
          + pose proof (before_mono ms (proj2 (Forall_forall _ _) F) _ _ C ltac:(lia)). lia.
          + assert (count y < length ms) by (apply nth_error_Some; congruence).
            pose proof (before_mono ms (proj2 (Forall_forall _ _) F) _ _ C ltac:(lia)). lia.
        - exfalso. destruct f2 as [|f2]; [discriminate|]. rewrite get_step in G2 by exact P.
          destruct (Nat.eqb_spec (count (Struct ms)) (length ms)); [contradiction|]. now rewrite Ez in G2. }
      induction j as [|j IHj]; intros Hj.
      - assert (R : forall fuel i x, flat_get fuel (before ms 0 + i) 0 (Struct ms) = Ok x ->
          exists fuel', flat_get fuel' i 0 (Struct ms) = Ok x) by (intros fuel i x G; now exists fuel).
        split; [exact R|]. now apply size.
      - destruct (IHj ltac:(lia)) as [R S1]. destruct (nth_error ms j) as [y|] eqn:Ey; [|apply nth_error_None in Ey; lia].
        assert (R' : forall fuel i x, flat_get fuel (before ms (S j) + i) 0 (Struct ms) = Ok x ->
          exists fuel', flat_get fuel' i (S j) (Struct ms) = Ok x).
        { intros fuel i x G. rewrite (before_S ms j y Ey) in G.
          replace (before ms j + count y + i) with (before ms j + (count y + i)) in G by lia.
          destruct (R _ _ _ G) as [f1 G1]. destruct (step _ _ _ _ _ Ey G1) as [f2 G2].
          destruct (Nat.ltb_spec (count y + i) (count y)); [lia|]. replace (count y + i - count y) with i in G2 by lia.
          rewrite (S1 y eq_refl Hj) in G2. now exists f2. }
        split; [exact R'|]. now apply size. }
    apply reach_steps.
    - intros y Hy. rewrite Forall_forall in IH, F. apply IH; [exact Hy|now apply F|now apply (NoDup_flat_map ms)|].
      intros i Hi. apply In_nth_error in Hy. destruct Hy as [j Ey].
      assert (Hj : j < length ms) by (apply nth_error_Some; congruence).
      assert (Hb : before ms j + i < count (Struct ms)).
      { pose proof (before_le ms (S j)) as B. rewrite (before_S ms j y Ey) in B. cbn [leaves]. lia. }
      destruct (H _ Hb) as (fuel & x & a & G & L & Na). destruct (run j Hj) as [R _].
      destruct (R _ _ _ G) as [f1 G1]. destruct (step _ _ _ _ _ Ey G1) as [f2 G2].
      destruct (Nat.ltb_spec i (count y)); [|lia]. exists f2, x, a. split; [exact G2|]. split; [exact L|].
      cbn [leaves] in Na. now rewrite (before_nth ms j y i Ey Hi) in Na.
    - intros j x Ex Hl. apply (run j ltac:(lia)); assumption.
  Qed.

  Theorem gets_iff t : populated t -> NoDup (leaves t) -> ((forall i, i < count t -> gets t i) <-> reachable t).
  Proof. intros P D. split; [now apply gets_reachable|now apply reachable_gets]. Qed.
End Exact.
